(** Post-processing of one row of output: pykeops/pykeops/common/operations.py lines 37-86. *)

From Coq Require Import Reals.
From Verif Require Import XReal Reductions.
Local Open Scope R_scope.

(** numpy / torch logarithm: log 0 = -inf, NaN below 0. *)
Definition xlog (x : xr) : xr :=
  match x with
  | Fin a => if Rlt_dec 0 a then Fin (ln a) else if Rlt_dec a 0 then NaN else NInf
  | PInf => PInf
  | NInf | NaN => NaN
  end.

(** Division (the sign of zero is not represented: a nonzero value over zero is taken to be an
    infinity of the sign of the numerator, as for a positive zero). *)
Definition xdiv (x y : xr) : xr :=
  match x, y with
  | Fin a, Fin b =>
      if Req_EM_T b 0 then (if Rlt_dec 0 a then PInf else if Rlt_dec a 0 then NInf else NaN)
      else Fin (a / b)
  | NaN, _ | _, NaN => NaN
  | Fin _, _ => Fin 0
  | _, Fin b => if Rlt_dec b 0 then xopp x else x
  | _, _ => NaN
  end.

(** "LogSumExp", lines 81-86: m + log(s), for each component of s. *)
Definition lse_post (out : cells) : cells := fun k => xadd (out O) (xlog (out (S k))).

(** "SumSoftMaxWeight" / "SoftMax", lines 40-42: out[..., 2:] / out[..., 1]. *)
Definition softmax_post (out : cells) : cells := fun k => xdiv (out (S (S k))) (out 1%nat).
