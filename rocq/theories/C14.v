(** C14 -- the two-dimensional GPU routine (blocks of columns reduced separately, then merged)
    gives the reduction over all columns, for sums and log-sum-exp; for the other reductions its
    code cannot be generated.

    [o], [m] and bd as in C13; junkB is the initial content of the buffer of partial results. *)

From Coq Require Import ZArith Reals Lia List Permutation.
From Verif Require Import Result Formula XReal Reductions ReductionSpec KernelSum KernelSumSpec LseSpec
  Postprocess CpuReduc Loader CpuConvSpec GpuConv C14Proofs.
Import ListNotations.

Theorem C14_sum : forall decl f tagI A M N bd o m junkB out,
  declared decl f -> wf f -> categories decl -> (tagI <= 1)%nat ->
  orders_ok o -> (1 <= bd)%nat -> (0 < out_rows tagI M N)%nat -> (0 < red_terms tagI M N)%nat ->
  exists out', launch_2d o m junkB (Sum_Red (dim f)) block_sum f tagI A M N bd out = Ok out' /\
    (forall n k, (n < out_rows tagI M N)%nat -> (k < dim f)%nat ->
       out' (n * dim f + k)%nat =
       Fin (reduce_sum decl (contiguous decl A) M N {| sformula := f; stagI := tagI |} n k)) /\
    (forall q, (out_rows tagI M N * dim f <= q)%nat -> out' q = out q).
Proof. exact gpu2d_sum. Qed.
Print Assumptions C14_sum.

Theorem C14_logsumexp : forall decl f w tagI A M N bd o m junkB out,
  declared decl f -> wf f -> categories decl -> (tagI <= 1)%nat -> orders_ok o -> (1 <= bd)%nat ->
  (0 < out_rows tagI M N)%nat -> (0 < red_terms tagI M N)%nat -> dim f = S w ->
  exists out', launch_2d o m junkB (LSE_Red w) block_sum f tagI A M N bd out = Ok out' /\
    (forall n k, (n < out_rows tagI M N)%nat -> (k < w)%nat ->
       let es := taken (red_terms tagI M N) (entry_of decl A f tagI n) in
       (0 < exp_sum k es)%R ->
       lse_post (fun q => out' (n * S w + q)%nat) k = Fin (ln (exp_sum k es))) /\
    (forall q, (out_rows tagI M N * S w <= q)%nat -> out' q = out q).
Proof. exact gpu2d_lse. Qed.
Print Assumptions C14_logsumexp.

(** Reductions that are not of sum type (min, max, argmin, argmax, K-min): whatever scheme the
    user may request, the routine never produces a result (get_scheme allows only direct_sum, and
    the generated code refers to an attribute that direct_sum does not have). *)
Theorem C14_other_reductions_refuted : forall opt s o m junkB r f tagI A M N bd out out',
  get_scheme false opt = Ok s ->
  launch_2d o m junkB r s f tagI A M N bd out <> Ok out'.
Proof. exact other_2d. Qed.
Print Assumptions C14_other_reductions_refuted.

(** Sums with the schemes other than block_sum. *)
Theorem C14_other_schemes_refuted : forall o m junkB r f tagI A M N bd out out',
  launch_2d o m junkB r direct_sum f tagI A M N bd out <> Ok out' /\
  launch_2d o m junkB r kahan_scheme f tagI A M N bd out <> Ok out'.
Proof. exact schemes_2d. Qed.
Print Assumptions C14_other_schemes_refuted.

(** Argmin is accepted with the default scheme; 10 rows, 7 columns, blocks of 4. *)
Example C14_case :
  let x := Var 0 3 0 in let y := Var 1 3 1 in let p := Var 2 1 2 in
  let f := Bin BMult p (Bin BSub x y) in
  let decl := fun a : Z => if Z.eqb a 2 then (1, 2)%nat else if Z.eqb a 1 then (3, 1)%nat else (3, 0)%nat in
  declared decl f /\ wf f /\ categories decl /\ dim f = 3%nat /\
  orders_ok {| load_order := fun _ _ l => rev l; store_order := fun l => rev l |} /\
  get_scheme true None = Ok block_sum /\ get_scheme false None = Ok direct_sum /\
  blocks 7 4 = 2%nat /\ blocks 10 4 = 3%nat.
Proof.
  cbv zeta. split; [repeat split|]. split; [repeat split|]. split.
  - intros a. destruct (Z.eqb a 2); [cbn; lia|]. destruct (Z.eqb a 1); cbn; lia.
  - split; [reflexivity|]. split; [split; intros; apply Permutation_sym, Permutation_rev|].
    repeat split.
Qed.
