(** C21 -- sum_j k(x_i,y_j) * b_j with b processed by chunks of 64 components. *)

From Coq Require Import ZArith Reals Lia List Permutation.
From Verif Require Import Result Formula XReal Reductions KernelSum KernelSumSpec CpuReduc Loader
  CpuConvSpec GpuConv FinalChunks C21Proofs.
Import ListNotations.

(** For every dimension of b, block size, order of the threads and content of uninitialised
    memory: the sum of the formula.  Partial: b occurs in k, or every reduced variable of k has a
    smaller position than b. *)
Theorem C21_sum_partial : forall decl f g b d tagI A M N bd o m out,
  f = Bin BMult g (Var b d (1 - tagI)) \/ f = Bin BMult (Var b d (1 - tagI)) g ->
  declared decl f -> wf f -> categories decl -> (tagI <= 1)%nat -> dim g = 1%nat -> (2 <= d)%nat ->
  In (b, d, 1 - tagI)%nat (vars g) \/ (forall i e, In (i, e, 1 - tagI)%nat (vars g) -> (i < b)%Z) ->
  orders_ok o -> (1 <= bd)%nat -> (0 < out_rows tagI M N)%nat ->
  exists out', launch_final o m block_sum f tagI A M N bd out = Ok out' /\
    (forall n k, (n < out_rows tagI M N)%nat -> (k < dim f)%nat ->
       out' (n * dim f + k)%nat =
       Fin (reduce_sum decl (contiguous decl A) M N {| sformula := f; stagI := tagI |} n k)) /\
    (forall q, (out_rows tagI M N * dim f <= q)%nat -> out' q = out q).
Proof. exact final_sum. Qed.
Print Assumptions C21_sum_partial.

(** A variable of k after b: y * b with positions 2 and 1.  The value used for y is that of a cell
    of shared memory that was never written. *)
Theorem C21_position_refuted : forall A m out,
  exists out', launch_final {| load_order := fun _ _ l => l; store_order := fun l => l |} m block_sum
    order_formula 0 A 1 1 192 out = Ok out' /\
  out' 0%nat = Fin (A 1%Z 0%nat * jshared m 0%nat 147%nat) /\
  reduce_sum order_decl (contiguous order_decl A) 1 1 {| sformula := order_formula; stagI := 0 |} 0 0 =
  (A 1%Z 0%nat * A 2%Z 0%nat)%R.
Proof. exact wrong_offsets. Qed.
Print Assumptions C21_position_refuted.

(** With the option mult_var_highdim, which pykeops.torch sets for every reduction, the mode does
    not depend on the formula: x + b is computed as x * b. *)
Theorem C21_operation_refuted : forall A m out,
  exists out', launch_final {| load_order := fun _ _ l => l; store_order := fun l => l |} m block_sum
    add_formula 0 A 1 1 192 out = Ok out' /\
  out' 0%nat = Fin (A 0%Z 0%nat * A 1%Z 0%nat) /\
  reduce_sum add_decl (contiguous add_decl A) 1 1 {| sformula := add_formula; stagI := 0 |} 0 0 =
  (A 0%Z 0%nat + A 1%Z 0%nat)%R.
Proof. exact wrong_operation. Qed.
Print Assumptions C21_operation_refuted.

(** Nor on the reduction: for log-sum-exp with weights of dimension 146 the first output is a
    product and the last one is not written. *)
Theorem C21_reduction_refuted : forall A m out,
  exists out', launch_final {| load_order := fun _ _ l => l; store_order := fun l => l |} m block_sum
    lse_formula 0 A 1 1 192 out = Ok out' /\
  out' 0%nat = Fin (A 0%Z 0%nat * A 1%Z 0%nat) /\ out' 146%nat = out 146%nat.
Proof. exact wrong_reduction. Qed.
Print Assumptions C21_reduction_refuted.

(** The product of two variables of the same dimension is refused. *)
Theorem C21_dimensions_refuted : forall d i j c c' s o m tagI A M N bd out, (2 <= d)%nat ->
  launch_final o m s (Bin BMult (Var i d c) (Var j d c')) tagI A M N bd out = KErr.
Proof. exact wrong_dimensions. Qed.
Print Assumptions C21_dimensions_refuted.

(** Exp(-|x-y|^2) * b with b of dimension 150; the mode is selected for all the formulas above. *)
Example C21_case :
  let g := Un UExp (Un UMinus (Lin LSum (Un USquare (Bin BSub (Var 0 3 0) (Var 1 3 1))))) in
  let f := Bin BMult g (Var 2 150 1) in
  let decl := fun a : Z => if Z.eqb a 2 then (150, 1)%nat else if Z.eqb a 1 then (3, 1)%nat else (3, 0)%nat in
  declared decl f /\ wf f /\ categories decl /\ dim g = 1%nat /\
  (forall i e, In (i, e, 1 - 0)%nat (vars g) -> (i < 2)%Z) /\
  use_final true true (Sum_Red (dim f)) = true /\ use_final true true (Sum_Red 147) = true /\
  use_final true true (LSE_Red 146) = true /\
  forall o m A out, exists out', launch_final o m block_sum f 0 A 5 7 4 out = Ok out'.
Proof.
  cbv zeta. split; [repeat split|]. split; [repeat split|]. split.
  { intros a. destruct (Z.eqb a 2); [cbn; lia|]. destruct (Z.eqb a 1); cbn; lia. }
  split; [reflexivity|]. split.
  { intros i e H. cbn in H. destruct H as [H|[H|[]]]; inversion H; subst; lia. }
  repeat split. intros. eexists. reflexivity.
Qed.
