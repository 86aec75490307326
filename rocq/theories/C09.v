(** C09 -- the running log-sum-exp is exact and never exponentiates a positive number. *)

From Coq Require Import ZArith Reals Lra Lia List.
From Verif Require Import Result XReal Reductions ReductionSpec LseSpec CpuReduc Postprocess C09Proofs.
Import ListNotations.
Local Open Scope R_scope.

(** Any interleaving of updates and merges that has seen at least one value holds (m, s) with m
    the maximum of the values and s = sum w exp(f - m); hence m + log s = log sum w exp f.
    Merges of two accumulators that have both seen nothing are excluded, see
    [C09_merge_of_nothing_refuted]. *)
Theorem C09_max_and_scaled_sum : forall d h, finite_history h -> entries h <> [] ->
  exists m, is_max m (entries h) /\ state d h O = Fin m /\
    forall k, (k < d)%nat ->
      state d h (S k) = Fin (shifted_sum m k (entries h)) /\
      (0 < exp_sum k (entries h) ->
       m + ln (shifted_sum m k (entries h)) = ln (exp_sum k (entries h))).
Proof. exact online_lse. Qed.
Print Assumptions C09_max_and_scaled_sum.

(** Whatever the two accumulators, the argument of the exponential is not positive. *)
Theorem C09_exponent_not_positive : forall acc xi, ~ xlt (Fin 0) (lse_exponent acc xi).
Proof. exact exponent_safe. Qed.
Print Assumptions C09_exponent_not_positive.

(** Result given to the user by a logsumexp reduction on the CPU, for the two schemes that
    exist for it (block_sum is the default). *)
Theorem C09_user_logsumexp : forall s d n e, (0 < n)%nat ->
  (forall j, (j < n)%nat -> fst (e j) <> None) -> s <> kahan_scheme ->
  exists out, cpu_row (LSE_Red d) s n (lse_terms e) = Ok out /\
    forall k, (k < d)%nat -> 0 < exp_sum k (taken n e) ->
      lse_post out k = Fin (ln (exp_sum k (taken n e))).
Proof. exact user_logsumexp. Qed.
Print Assumptions C09_user_logsumexp.

(** Same for the softmax-weighted sum: the weights are Concat(IntCst(1), g). *)
Theorem C09_user_softmax : forall s d n e, (0 < n)%nat ->
  (forall j, (j < n)%nat -> fst (e j) <> None /\ snd (e j) O = 1) -> s <> kahan_scheme ->
  exists out, cpu_row (LSE_Red (S d)) s n (lse_terms e) = Ok out /\
    forall k, (k < d)%nat ->
      softmax_post out k = Fin (exp_sum (S k) (taken n e) / exp_sum 0 (taken n e)).
Proof. exact user_softmax. Qed.
Print Assumptions C09_user_softmax.

(** "Any grouping" fails for one grouping: merging two accumulators that have seen nothing
    computes exp(-inf - -inf) and leaves NaN in every sum. *)
Theorem C09_merge_of_nothing_refuted : forall d k, (k < d)%nat ->
  state d (Merge Start Start) (S k) = NaN.
Proof. exact merge_empty. Qed.
Print Assumptions C09_merge_of_nothing_refuted.

(** It is reached by the default scheme when there is nothing to reduce. *)
Theorem C09_empty_reduction_refuted : forall d e k, (k < d)%nat ->
  (exists out, cpu_row (LSE_Red d) direct_sum 0 (lse_terms e) = Ok out /\
     out O = NInf /\ out (S k) = Fin 0) /\
  (exists out, cpu_row (LSE_Red d) block_sum 0 (lse_terms e) = Ok out /\ out (S k) = NaN).
Proof. exact empty_reduction. Qed.
Print Assumptions C09_empty_reduction_refuted.

(** A history with a merge of a nonempty and an empty accumulator and negative weights. *)
Example C09_case :
  let v f w := (Some f, fun _ : nat => w) : entry in
  let h := Merge (Update (Update Start (v 1 2)) (v 3 (-1))) (Merge Start (Update Start (v 3 5))) in
  finite_history h /\ entries h = [v 1 2; v 3 (-1); v 3 5] /\ 0 < exp_sum 0 (entries h).
Proof.
  cbn. repeat split; try discriminate.
  pose proof (exp_pos 1). pose proof (exp_pos 3). lra.
Qed.
