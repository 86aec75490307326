(** Proofs about -inf entries. *)

From Coq Require Import ZArith Reals Arith Lia Lra List Bool.
From Verif Require Import Result XReal Reductions LseSpec CpuReduc Postprocess C09Proofs.
Import ListNotations.
Local Open Scope R_scope.

Lemma post_nan : forall out k, out (S k) = NaN -> lse_post out k = NaN.
Proof. intros out k H. unfold lse_post. rewrite H. cbn. destruct (out O); reflexivity. Qed.

Lemma masked_first : forall d n e k, (k < d)%nat -> (0 < n)%nat -> fst (e O) = None ->
  exists out, cpu_row (LSE_Red d) direct_sum n (lse_terms e) = Ok out /\ lse_post out k = NaN.
Proof.
  intros d n e k Hk Hn H. destruct (direct_masked_first d n e k Hk Hn H) as [out [E N]].
  exists out. split; [exact E|apply post_nan, N].
Qed.

Lemma masked_block_start : forall d n e k j0, (k < d)%nat -> (j0 < n)%nat ->
  (j0 mod period_accumulate n = 0)%nat -> fst (e j0) = None ->
  exists out, cpu_row (LSE_Red d) block_sum n (lse_terms e) = Ok out /\ lse_post out k = NaN.
Proof.
  intros d n e k j0 Hk Hj Hm H. destruct (block_masked_start d n e k j0 Hk Hj Hm H) as [out [E N]].
  exists out. split; [exact E|apply post_nan, N].
Qed.

Lemma masked_later : forall s d n e, (0 < n)%nat -> s <> kahan_scheme ->
  (forall j, (j < n)%nat ->
     match s with block_sum => j mod period_accumulate n = 0 | _ => j = 0 end%nat ->
     fst (e j) <> None) ->
  exists out, cpu_row (LSE_Red d) s n (lse_terms e) = Ok out /\
    forall k, (k < d)%nat -> 0 < exp_sum k (taken n e) ->
      lse_post out k = Fin (ln (exp_sum k (taken n e))).
Proof.
  intros s d n e Hn Hs H.
  assert (G : exists out, cpu_row (LSE_Red d) s n (lse_terms e) = Ok out /\ lrep d out (taken n e)).
  { destruct s; [apply direct_lse; auto|apply block_lse; auto|congruence]. }
  destruct G as [out [E R]]. exists out. split; [assumption|]. intros. eapply rep_log; eassumption.
Qed.

Lemma order_matters : forall s, s <> kahan_scheme ->
  let a := (Some 0, fun _ => 1) : entry in
  let b := (None, fun _ => 1) : entry in
  (exists out, cpu_row (LSE_Red 1) s 2 (lse_terms (fun j => nth j [a; b] a)) = Ok out /\
     lse_post out O = Fin 0) /\
  (exists out, cpu_row (LSE_Red 1) s 2 (lse_terms (fun j => nth j [b; a] a)) = Ok out /\
     lse_post out O = NaN).
Proof.
  intros s Hs a b. split.
  - destruct (masked_later s 1 2 (fun j => nth j [a; b] a)) as [out [E P]]; [lia|assumption| |].
    + intros j Hj Hz. destruct j as [|[|j]]; [discriminate| |lia].
      destruct s; [discriminate| |congruence]. exfalso. cbn in Hz. discriminate.
    + exists out. split; [exact E|]. rewrite P; [|lia|]; cbn; rewrite exp_0; [|lra].
      f_equal. replace (1 * 1 + 0) with 1 by ring. apply ln_1.
  - destruct s; [apply masked_first; (lia || reflexivity)| |congruence].
    apply (masked_block_start 1 2 _ 0 0); (lia || reflexivity).
Qed.
