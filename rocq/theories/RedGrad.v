(** Gradients and tangents of log-sum-exp and softmax reductions. *)

From Coq Require Import ZArith Reals.
From Verif Require Import Result Formula Simplify Diff LinOps KernelSum.
Local Open Scope nat_scope.

(** ** keopscore/keopscore/formulas/reductions/Max_SumShiftExpWeight_Reduction.py

    __init__ (lines 24-33): the first formula must be scalar.  The output is (m, s), with m
    the maximum of F and s the sum of exp(F - m) G (C09). *)
Definition lse_reduction (F G : fm) : res unit := if dim F =? 1 then Ok tt else KErr.

(** Exp(F - M) * G, with M = Extract(MS, 0, F.dim) (lines 101, 103, 116 and 119). *)
Definition lse_summand (F G MS : fm) : res fm :=
  do M <- mk (Lin (LExtract 0 (dim F)) MS) ;
  do s <- Subtract F M ;
  Mult (Un UExp s) G.

(** DiffT (lines 89-103); MS is the output saved by the forward pass. *)
Definition lse_DiffT (F G : fm) (tagI : nat) (v g MS : fm) : res sum_reduction :=
  do _ <- lse_reduction F G ;
  do f <- lse_summand F G MS ;
  do gS <- mk (Lin (LExtract (dim F) (dim G)) g) ;
  Sum_DiffT {| sformula := f; stagI := tagI |} v gS.

(** Sum_Reduction.Diff (Sum_Reduction.py lines 46-49). *)
Definition Sum_Diff (r : sum_reduction) (v u : fm) : res sum_reduction :=
  do h <- Diff (sformula r) v u ;
  Ok {| sformula := h; stagI := stagI r |}.

(** Diff (lines 105-120). *)
Definition lse_Diff (F G : fm) (tagI : nat) (v u MS : fm) : res sum_reduction :=
  do _ <- lse_reduction F G ;
  do f <- lse_summand F G MS ;
  do cf <- mk (Cat (Zero (dim F)) f) ;
  Sum_Diff {| sformula := cf; stagI := tagI |} v u.

(** ** pykeops/pykeops/torch/generic/generic_red.py

    GenredAutograd_base._backward (lines 152-259) for one argument: eta = Var(nargs, dimout,
    tagIJ), resvar = Var(nargs + 1, dimout, tagIJ), and Grad_WithSavedForward calls DiffT
    (autodiff/Grad_WithSavedForward.py).  No batch dimensions.  The sums are exact. *)
Definition lse_backward (decl : declaration) (A : arguments) (M N : nat) (F G : fm) (tagI : nat)
    (nargs pos : Z) : res (nat -> nat -> R) :=
  let (d, c) := decl pos in
  let dimout := 1 + dim G in
  do rg <- lse_DiffT F G tagI (Var pos d c) (Var nargs dimout tagI) (Var (nargs + 1) dimout tagI) ;
  let grad := reduce_sum decl A M N rg in
  Ok (if c =? 2 then fun _ k => rsum M (fun i => grad i k) else grad).

(** GenredAutograd.jvp (lines 319-380) for one argument: eta = Var(nargs, dim, cat) is the
    tangent of the argument. *)
Definition lse_jvp (decl : declaration) (A : arguments) (M N : nat) (F G : fm) (tagI : nat)
    (nargs pos : Z) : res (nat -> nat -> R) :=
  let (d, c) := decl pos in
  let dimout := 1 + dim G in
  do rd <- lse_Diff F G tagI (Var pos d c) (Var nargs d c) (Var (nargs + 1) dimout tagI) ;
  Ok (reduce_sum decl A M N rd).

(** ** pykeops/pykeops/common/operations.py, postprocess, differentiated by PyTorch

    PyTorch applies its own rules for +, /, log and slices to lines 41-43 and 81-86; the two
    directions are written out here for one row.  [out] is the row (m, s) given by the
    reduction, [E] the incoming gradient of the row given to the user, [T] the tangent of out. *)
Local Open Scope R_scope.

(** LogSumExp: out[0] + log(out[1:]). *)
Definition lse_post_grad (d : nat) (out E : nat -> R) : nat -> R :=
  fun p => match p with O => rsum d E | S k => E k / out (S k) end.
Definition lse_post_tangent (out T : nat -> R) : nat -> R := fun k => T O + T (S k) / out (S k).

(** SumSoftMaxWeight: out[2:] / out[1]. *)
Definition softmax_post_grad (d : nat) (out E : nat -> R) : nat -> R :=
  fun p => match p with
           | O => 0
           | S O => rsum d (fun k => - E k * out (S (S k)) / (out 1%nat * out 1%nat))
           | S (S k) => E k / out 1%nat
           end.
Definition softmax_post_tangent (out T : nat -> R) : nat -> R :=
  fun k => T (S (S k)) / out 1%nat - out (S (S k)) * T 1%nat / (out 1%nat * out 1%nat).

(** preprocess (line 16): the weights of a softmax reduction are Concat(IntCst(1), g). *)
Definition softmax_weights (g : fm) : res fm := mk (Cat (IntCst 1) g).
