(** * Indices stored as floating-point numbers.

    Models the guard of pykeops/pykeops/numpy/generic/generic_red.py lines 340-357 and
    pykeops/pykeops/torch/generic/generic_red.py lines 668-680, the storage of an index in a
    floating-point accumulator (keopscore/keopscore/formulas/reductions/Min_ArgMin_Reduction_Base.py lines 27-48,
    Max_ArgMax_Reduction_Base.py, KMin_ArgKMin_Reduction.py lines 51-110) and the final
    conversion by [tools.long] (pykeops/pykeops/common/operations.py lines 38-86).

    Simplifications: a floating-point type is a precision and a minimal exponent, without overflow (the
    largest index is far below); conversions from integers round to nearest, ties to even.  In
    [KMin_ArgKMin_Reduction] the indices are also copied through an integer variable: this truncates. *)

From Coq Require Import ZArith Reals List Bool String.
From Flocq Require Import Core.
From Verif Require Import Keys KeySpec Aliases.
Import ListNotations.
Local Open Scope Z_scope.

Inductive ftype := Float16 | Float32 | Float64.

Definition precision (t : ftype) : Z := match t with Float16 => 11 | Float32 => 24 | Float64 => 53 end.
Definition min_exp (t : ftype) : Z := match t with Float16 => -24 | Float32 => -149 | Float64 => -1074 end.

(** The names that the guard compares. *)
Definition type_name (t : ftype) : string :=
  match t with Float16 => "float16" | Float32 => "float32" | Float64 => "float64" end%string.

(** The guard: [true] when the call goes on. *)
Definition accepted (reduction_op dtype : string) (nred : Z) : bool :=
  if contains "Arg" reduction_op then
    if (16000000 <? nred) && (String.eqb dtype "float32" || String.eqb dtype "float") then false
    else if (2048 <? nred) && (String.eqb dtype "float16" || String.eqb dtype "half") then false
    else true
  else true.

(** A number stored in a variable of the given type. *)
Definition stored (t : ftype) (x : R) : R :=
  round radix2 (FLT_exp (min_exp t) (precision t)) ZnearestE x.

(** A copy of an index: to a floating-point variable, or to an integer one. *)
Inductive copy := ToFloat (t : ftype) | ToInt.
Definition copied (c : copy) (x : R) : R :=
  match c with ToFloat t => stored t x | ToInt => IZR (Ztrunc x) end.

(** The index that is returned, after some copies and in an output of type [t]. *)
Definition returned (t : ftype) (path : list copy) (ind : Z) : Z :=
  Ztrunc (stored t (fold_left (fun x c => copied c x) path (IZR ind))).
