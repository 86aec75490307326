(** Extended reals with NaN: the values of C++ floating-point cells in exact arithmetic
    (no rounding; infinities and NaN propagate as in IEEE 754, signed zeros are not
    distinguished). *)

From Coq Require Import ZArith Reals Bool Lra.
Local Open Scope R_scope.

Inductive xr := Fin (x : R) | PInf | NInf | NaN.

(** Comparison x < y of C++: false as soon as an operand is NaN. *)
Definition xltb (x y : xr) : bool :=
  match x, y with
  | Fin a, Fin b => if Rlt_dec a b then true else false
  | Fin _, PInf | NInf, Fin _ | NInf, PInf => true
  | _, _ => false
  end.

Definition xopp (x : xr) : xr :=
  match x with Fin a => Fin (- a) | PInf => NInf | NInf => PInf | NaN => NaN end.

Definition xadd (x y : xr) : xr :=
  match x, y with
  | Fin a, Fin b => Fin (a + b)
  | NaN, _ | _, NaN | PInf, NInf | NInf, PInf => NaN
  | PInf, _ | _, PInf => PInf
  | NInf, _ | _, NInf => NInf
  end.

Definition xsub (x y : xr) : xr := xadd x (xopp y).

(** Sign of a nonzero value times an infinity. *)
Definition xscale (a : R) (x : xr) : xr :=
  if Rlt_dec a 0 then xopp x else if Rlt_dec 0 a then x else NaN.

Definition xmul (x y : xr) : xr :=
  match x, y with
  | Fin a, Fin b => Fin (a * b)
  | NaN, _ | _, NaN => NaN
  | Fin a, v | v, Fin a => xscale a v
  | PInf, PInf | NInf, NInf => PInf
  | PInf, NInf | NInf, PInf => NInf
  end.

Definition xexp (x : xr) : xr :=
  match x with Fin a => Fin (exp a) | PInf => PInf | NInf => Fin 0 | NaN => NaN end.

(** Conversion to a C++ signed long (the value of the cells is always an integer where this
    is used; other values are undefined behaviour, sent to 0). *)
Definition to_long (x : xr) : Z :=
  match x with
  | Fin a => if Rlt_dec a 0 then (- Int_part (- a))%Z else Int_part a
  | _ => 0%Z
  end.
Definition of_long (z : Z) : xr := Fin (IZR z).
