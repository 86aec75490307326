(** * The reductions of the R interface, as functions of symbolic tensors.

    Models rkeops/R/lazytensor_operations.R lines 3905-4811: [sum], [min], [argmin], [min_argmin], [max], [argmax],
    [max_argmax], [Kmin], [argKmin], [Kmin_argKmin], [logsumexp], [sumsoftmaxweight] and their variants [..._reduction].

    Simplifications: real tensors; an index is "i", "j" or NA, other values are refused as NA is where it has no meaning;
    the number of [Kmin] is an integer. *)

From Coq Require Import ZArith Reals List String.
From Verif Require Import Result Keys RKeops RLazy.
Import ListNotations.
Open Scope string_scope.

(** A symbolic tensor, or an operator and the arrays that it receives. *)
Inductive answer := Tensor (z : lazy_tensor) | Reduced (o : operator) (l : list matrix).

Definition over (x : lazy_tensor) (op : string) (index : rindex) (opt : reduction_arg) (otherwise : res answer) : res answer :=
  match index with
  | RNA => otherwise
  | _ => do r <- reduction x op index opt ; Ok (Reduced (fst r) (snd r))
  end.

(** Lines 3905-4463. *)
Definition sum (x : lazy_tensor) (index : rindex) : res answer :=
  over x "Sum" index NoArg (Ok (Tensor (unaryop x "Sum" [] (Some 1%Z)))).
Definition sum_reduction (x : lazy_tensor) (index : rindex) : res answer := over x "Sum" index NoArg KErr.
Definition min (x : lazy_tensor) (index : rindex) : res answer :=
  over x "Min" index NoArg (Ok (Tensor (unaryop x "Min" [] None))).
Definition min_reduction (x : lazy_tensor) (index : rindex) : res answer := over x "Min" index NoArg KErr.
Definition argmin (x : lazy_tensor) (index : rindex) : res answer :=
  over x "ArgMin" index NoArg (Ok (Tensor (unaryop x "ArgMin" [] None))).
Definition argmin_reduction (x : lazy_tensor) (index : rindex) : res answer := over x "ArgMin" index NoArg KErr.
Definition min_argmin (x : lazy_tensor) (index : rindex) : res answer := over x "Min_ArgMin" index NoArg KErr.
Definition min_argmin_reduction := min_argmin.
Definition max (x : lazy_tensor) (index : rindex) : res answer :=
  over x "Max" index NoArg (Ok (Tensor (unaryop x "Max" [] None))).
Definition max_reduction (x : lazy_tensor) (index : rindex) : res answer := over x "Max" index NoArg KErr.
Definition argmax (x : lazy_tensor) (index : rindex) : res answer :=
  over x "ArgMax" index NoArg (Ok (Tensor (unaryop x "ArgMax" [] None))).
Definition argmax_reduction (x : lazy_tensor) (index : rindex) : res answer := over x "ArgMax" index NoArg KErr.
Definition max_argmax (x : lazy_tensor) (index : rindex) : res answer := over x "Max_ArgMax" index NoArg KErr.
Definition max_argmax_reduction := max_argmax.

(** Lines 4497-4653. *)
Definition Kmin (x : lazy_tensor) (K : Z) (index : rindex) : res answer := over x "KMin" index (IntArg K) KErr.
Definition Kmin_reduction := Kmin.
Definition argKmin (x : lazy_tensor) (K : Z) (index : rindex) : res answer := over x "ArgKMin" index (IntArg K) KErr.
Definition argKmin_reduction := argKmin.
Definition Kmin_argKmin (x : lazy_tensor) (K : Z) (index : rindex) : res answer := over x "KMin_ArgKMin" index (IntArg K) KErr.
Definition Kmin_argKmin_reduction := Kmin_argKmin.

(** Lines 4696-4811; weights of logsumexp are refused. *)
Definition logsumexp (x : lazy_tensor) (index : rindex) (weight : option lazy_tensor) : res answer :=
  match weight with None => over x "LogSumExp" index NoArg KErr | Some _ => KErr end.
Definition logsumexp_reduction := logsumexp.
Definition sumsoftmaxweight (x : lazy_tensor) (index : rindex) (weight : lazy_tensor) : res answer :=
  over x "SumSoftMaxWeight" index (TensorArg weight) KErr.
Definition sumsoftmaxweight_reduction := sumsoftmaxweight.
