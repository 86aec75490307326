(** Proofs about the running log-sum-exp accumulator. *)

From Coq Require Import ZArith Reals Arith Lia Lra List Bool.
From Verif Require Import Result XReal Reductions ReductionSpec LseSpec RedLoops C06Proofs CpuReduc Postprocess.
Import ListNotations.
Local Open Scope R_scope.

Lemma shifted_app : forall m k l1 l2,
  shifted_sum m k (l1 ++ l2) = shifted_sum m k l1 + shifted_sum m k l2.
Proof.
  induction l1 as [|[[f|] w] l1 IH]; intros l2; cbn; [ring| |apply IH]. rewrite IH. ring.
Qed.
Lemma shifted_shift : forall m m' k l, shifted_sum m' k l = exp (m - m') * shifted_sum m k l.
Proof.
  intros m m' k. induction l as [|[[f|] w] l IH]; cbn; [ring| |exact IH]. rewrite IH.
  replace (f - m') with ((m - m') + (f - m)) by ring. rewrite exp_plus. ring.
Qed.
Lemma shifted_exp : forall m k l, exp m * shifted_sum m k l = exp_sum k l.
Proof.
  intros m k. induction l as [|[[f|] w] l IH]; cbn; [ring| |exact IH].
  rewrite Rmult_plus_distr_l, IH. replace f with (m + (f - m)) at 2 by ring. rewrite exp_plus. ring.
Qed.

(** Cells of lse_pair. *)
Lemma lse_pair_0 : forall d acc xi,
  lse_pair d acc xi 0%nat = if xltb (xi O) (acc O) then acc O else xi O.
Proof.
  intros. unfold lse_pair. destruct (xltb (xi O) (acc O)).
  - destruct (for_up_cell d S (fun k a => xadd (a (S k)) (xmul (xi (S k)) (xexp (lse_exponent acc xi)))) acc) as [_ H].
    + intros; lia.
    + intros k b Hk Hb. f_equal. apply Hb. intros; lia.
    + apply H. intros; lia.
  - apply upd_same.
Qed.
Lemma lse_pair_S : forall d acc xi k, (k < d)%nat ->
  lse_pair d acc xi (S k) =
  if xltb (xi O) (acc O) then xadd (acc (S k)) (xmul (xi (S k)) (xexp (lse_exponent acc xi)))
  else xadd (xi (S k)) (xmul (xexp (lse_exponent acc xi)) (acc (S k))).
Proof.
  intros d acc xi k Hk. unfold lse_pair. destruct (xltb (xi O) (acc O)).
  - destruct (for_up_cell d S (fun k a => xadd (a (S k)) (xmul (xi (S k)) (xexp (lse_exponent acc xi)))) acc) as [H _].
    + intros; lia.
    + intros k' b Hk' Hb. f_equal. apply Hb. intros; lia.
    + apply H. assumption.
  - rewrite upd_other by lia.
    destruct (for_up_cell d S (fun k a => xadd (xi (S k)) (xmul (xexp (lse_exponent acc xi)) (a (S k)))) acc) as [H _].
    + intros; lia.
    + intros k' b Hk' Hb. do 2 f_equal. apply Hb. intros; lia.
    + apply H. assumption.
Qed.

(** acc represents the nonempty list l. *)
Definition lrep (d : nat) (acc : cells) (l : list entry) : Prop :=
  exists m, is_max m l /\ acc O = Fin m /\
            forall k, (k < d)%nat -> acc (S k) = Fin (shifted_sum m k l).
(** acc is the initial accumulator. *)
Definition lempty (d : nat) (acc : cells) : Prop :=
  acc O = NInf /\ forall k, (k < d)%nat -> acc (S k) = Fin 0.

Lemma is_max_app_l : forall m m' l1 l2, is_max m l1 -> is_max m' l2 -> m' <= m -> is_max m (l1 ++ l2).
Proof.
  intros m m' l1 l2 [[w Hw] A] [_ B] H. split; [exists w; apply in_or_app; auto|].
  intros f w' Hf. apply in_app_or in Hf. destruct Hf as [Hf|Hf]; [eapply A; eassumption|].
  specialize (B _ _ Hf). lra.
Qed.
Lemma is_max_app_r : forall m m' l1 l2, is_max m l1 -> is_max m' l2 -> m <= m' -> is_max m' (l1 ++ l2).
Proof.
  intros m m' l1 l2 [_ A] [[w Hw] B] H. split; [exists w; apply in_or_app; auto|].
  intros f w' Hf. apply in_app_or in Hf. destruct Hf as [Hf|Hf]; [|eapply B; eassumption].
  specialize (A _ _ Hf). lra.
Qed.

Lemma lse_merge : forall d a b la lb, lrep d a la -> lrep d b lb -> lrep d (lse_pair d a b) (la ++ lb).
Proof.
  intros d a b la lb [m [Hm [A0 AS]]] [m' [Hm' [B0 BS]]].
  pose proof (lse_pair_0 d a b) as P0. pose proof (lse_pair_S d a b) as PS.
  unfold lse_exponent in PS. rewrite A0, B0 in *. cbn [xltb] in *.
  destruct (Rlt_dec m' m) as [L|L].
  - exists m. split; [eapply is_max_app_l; [exact Hm|exact Hm'|lra]|]. split; [exact P0|].
    intros k Hk. rewrite (PS k Hk), (AS k Hk), (BS k Hk). cbn. f_equal. rewrite shifted_app.
    rewrite (shifted_shift m' m k lb). unfold Rminus. ring.
  - exists m'. split; [eapply is_max_app_r; [exact Hm|exact Hm'|lra]|]. split; [exact P0|].
    intros k Hk. rewrite (PS k Hk), (AS k Hk), (BS k Hk). cbn. f_equal. rewrite shifted_app.
    rewrite (shifted_shift m m' k la). unfold Rminus. ring.
Qed.

Lemma lse_merge_init_l : forall d a b lb, lempty d a -> lrep d b lb -> lrep d (lse_pair d a b) lb.
Proof.
  intros d a b lb [A0 AS] [m' [Hm' [B0 BS]]].
  pose proof (lse_pair_0 d a b) as P0. pose proof (lse_pair_S d a b) as PS.
  unfold lse_exponent in PS. rewrite A0, B0 in *. cbn [xltb] in *.
  exists m'. split; [assumption|]. split; [assumption|]. intros k Hk.
  rewrite (PS k Hk), (AS k Hk), (BS k Hk). cbn. f_equal. ring.
Qed.
Lemma lse_merge_init_r : forall d a b la, lrep d a la -> lempty d b -> lrep d (lse_pair d a b) la.
Proof.
  intros d a b la [m [Hm [A0 AS]]] [B0 BS].
  pose proof (lse_pair_0 d a b) as P0. pose proof (lse_pair_S d a b) as PS.
  unfold lse_exponent in PS. rewrite A0, B0 in *. cbn [xltb] in *.
  exists m. split; [assumption|]. split; [assumption|]. intros k Hk.
  rewrite (PS k Hk), (AS k Hk), (BS k Hk). cbn. f_equal. ring.
Qed.

Lemma lrep_entry : forall d f w, lrep d (entry_cells (Some f, w)) [(Some f, w)].
Proof.
  intros. exists f. split; [split; [exists w; left; reflexivity|]|].
  - intros f' w' [H|[]]. inversion H. lra.
  - split; [reflexivity|]. intros k Hk. cbn. f_equal.
    replace (f - f) with 0 by ring. rewrite exp_0. ring.
Qed.

Lemma lrep_masked : forall d acc l w, lrep d acc l ->
  lrep d (lse_pair d acc (entry_cells (None, w))) (l ++ [(None, w)]).
Proof.
  intros d acc l w [m [[[w0 Hw] Hm] [A0 AS]]].
  pose proof (lse_pair_0 d acc (entry_cells (None, w))) as P0.
  pose proof (lse_pair_S d acc (entry_cells (None, w))) as PS.
  unfold lse_exponent in PS. rewrite A0 in *. cbn in P0, PS.
  exists m. split; [split; [exists w0; apply in_or_app; auto|]|].
  - intros f w' Hf. apply in_app_or in Hf. destruct Hf as [Hf|[Hf|[]]]; [eapply Hm; eassumption|discriminate].
  - split; [exact P0|]. intros k Hk. rewrite (PS k Hk), (AS k Hk), shifted_app. cbn. f_equal. ring.
Qed.

Lemma lempty_init : forall d, lempty d lse_init.
Proof. split; reflexivity. Qed.

Lemma state_rep : forall d h, finite_history h ->
  (entries h = [] /\ lempty d (state d h)) \/ lrep d (state d h) (entries h).
Proof.
  intros d h. induction h as [|h IH [[f|] w]|h1 IH1 h2 IH2]; cbn [finite_history entries state]; intros H.
  - left. split; [reflexivity|apply lempty_init].
  - right. destruct (IH (proj1 H)) as [[E A]|A]; cbn [rshort LSE_Red].
    + rewrite E. cbn. apply lse_merge_init_l; [assumption|apply lrep_entry].
    + apply lse_merge; [assumption|apply lrep_entry].
  - destruct H as [_ H]. cbn in H. congruence.
  - destruct H as [H1 [H2 H3]]. right.
    destruct (IH1 H1) as [[E1 A1]|A1], (IH2 H2) as [[E2 A2]|A2].
    + rewrite E1, E2 in H3. cbn in H3. congruence.
    + rewrite E1. cbn. apply lse_merge_init_l; assumption.
    + rewrite E2, app_nil_r. apply lse_merge_init_r; assumption.
    + apply lse_merge; assumption.
Qed.

Lemma online_lse : forall d h, finite_history h -> entries h <> [] ->
  exists m, is_max m (entries h) /\ state d h O = Fin m /\
    forall k, (k < d)%nat ->
      state d h (S k) = Fin (shifted_sum m k (entries h)) /\
      (0 < exp_sum k (entries h) -> m + ln (shifted_sum m k (entries h)) = ln (exp_sum k (entries h))).
Proof.
  intros d h H N. destruct (state_rep d h H) as [[E _]|[m [A [B C]]]]; [congruence|].
  exists m. split; [assumption|]. split; [assumption|]. intros k Hk. split; [apply C; assumption|].
  intros Hp. rewrite <- (shifted_exp m). rewrite <- (shifted_exp m) in Hp.
  assert (0 < shifted_sum m k (entries h)).
  { apply (Rmult_lt_reg_l (exp m)); [apply exp_pos|]. rewrite Rmult_0_r. assumption. }
  rewrite ln_mult; [|apply exp_pos|assumption]. rewrite ln_exp. reflexivity.
Qed.

(** The exponent is never positive. *)
Lemma exponent_safe : forall acc xi, ~ xlt (Fin 0) (lse_exponent acc xi).
Proof.
  intros acc xi. unfold lse_exponent. destruct (acc O) as [a| | |], (xi O) as [b| | |]; cbn; try tauto.
  - destruct (Rlt_dec b a); cbn; lra.
Qed.

(** Merging two empty accumulators: the sum cells become NaN. *)
Lemma merge_empty : forall d k, (k < d)%nat ->
  state d (Merge Start Start) (S k) = NaN.
Proof. intros d k Hk. cbn [state]. rewrite lse_pair_S by assumption. reflexivity. Qed.

(** ** The CPU loop *)
Lemma nan_stays : forall d acc xi k, (k < d)%nat -> acc (S k) = NaN \/ xi (S k) = NaN ->
  lse_pair d acc xi (S k) = NaN.
Proof.
  intros d acc xi k Hk H. rewrite lse_pair_S by assumption.
  destruct H as [H|H]; rewrite H; destruct (xltb (xi O) (acc O)); cbn.
  - reflexivity.
  - destruct (xexp _), (xi (S k)); reflexivity.
  - destruct (acc (S k)); reflexivity.
  - reflexivity.
Qed.

Lemma first_masked : forall d w k, (k < d)%nat ->
  lse_pair d lse_init (entry_cells (None, w)) (S k) = NaN.
Proof. intros. rewrite lse_pair_S by assumption. reflexivity. Qed.

(** direct_sum: a masked first entry makes every sum NaN. *)
Lemma direct_masked_first : forall d n e k, (k < d)%nat -> (0 < n)%nat -> fst (e O) = None ->
  exists out, cpu_row (LSE_Red d) direct_sum n (lse_terms e) = Ok out /\ out (S k) = NaN.
Proof.
  intros d n e k Hk Hn H0. eexists. split; [reflexivity|]. cbn [rfinal LSE_Red rshort rinit].
  destruct n as [|n]; [lia|]. clear Hn.
  induction n as [|n IH]; cbn [for_up].
  - unfold lse_terms. destruct (e O) as [f w]. cbn in H0. subst f. apply first_masked; assumption.
  - apply nan_stays; [assumption|]. left. exact IH.
Qed.

(** block_sum (the default): same when a block starts with a masked entry. *)
Lemma period_pos : forall n, (1 <= period_accumulate n)%nat.
Proof.
  intros n. unfold period_accumulate. destruct (Nat.ltb_spec n 10); [lia|].
  apply (Nat.sqrt_le_mono 1 n). lia.
Qed.

Lemma block_masked_start : forall d n e k j0, (k < d)%nat -> (j0 < n)%nat ->
  (j0 mod period_accumulate n = 0)%nat -> fst (e j0) = None ->
  exists out, cpu_row (LSE_Red d) block_sum n (lse_terms e) = Ok out /\ out (S k) = NaN.
Proof.
  intros d n e k j0 Hk Hj Hmod H0. unfold cpu_row. cbn [rpair LSE_Red].
  set (per := period_accumulate n) in *.
  assert (Hper : (1 <= per)%nat) by apply period_pos.
  assert (G : forall m, let st := for_up m (block_body (LSE_Red d) (lse_pair d) per (lse_terms e))
                 (rinit (LSE_Red d), rinit (LSE_Red d)) in
     (m mod per = 0 -> snd st = lse_init)%nat /\
     ((j0 < m)%nat -> fst st (S k) = NaN \/ snd st (S k) = NaN)).
  { induction m; cbv zeta; cbn [for_up]; [split; [reflexivity|lia]|].
    destruct IHm as [A B]. destruct (for_up m _ _) as [acc tmp]. cbn [fst snd] in *.
    unfold block_body. cbn [rshort LSE_Red rinit].
    assert (T : (m = j0 \/ (j0 < m)%nat) -> acc (S k) = NaN \/ lse_pair d tmp (lse_terms e m) (S k) = NaN).
    { intros [->|L].
      - right. rewrite (A Hmod). unfold lse_terms. destruct (e j0) as [f w]. cbn in H0. subst f.
        apply first_masked; assumption.
      - destruct (B L) as [C|C]; [left; assumption|right]. apply nan_stays; [assumption|left; assumption]. }
    destruct (Nat.eqb_spec ((m + 1) mod per) 0) as [E|E]; cbn [fst snd].
    - split; [reflexivity|]. intros L. left. apply nan_stays; [assumption|]. apply T. lia.
    - split; [intros E'; exfalso; apply E; rewrite Nat.add_1_r; exact E'|]. intros L. apply T. lia. }
  destruct (G n) as [_ B]. destruct (for_up n _ _) as [acc tmp]. cbn [fst snd] in B.
  eexists. split; [reflexivity|]. cbn [rfinal LSE_Red]. apply nan_stays; [assumption|]. apply B. assumption.
Qed.

(** An empty reduction: direct_sum gives (-inf, 0), block_sum gives (-inf, NaN). *)
Lemma empty_reduction : forall d e k, (k < d)%nat ->
  (exists out, cpu_row (LSE_Red d) direct_sum 0 (lse_terms e) = Ok out /\ out O = NInf /\ out (S k) = Fin 0) /\
  (exists out, cpu_row (LSE_Red d) block_sum 0 (lse_terms e) = Ok out /\ out (S k) = NaN).
Proof.
  intros d e k Hk. split.
  - eexists. split; [reflexivity|]. split; reflexivity.
  - eexists. split; [reflexivity|]. cbn [rfinal LSE_Red for_up fst snd]. rewrite lse_pair_S by assumption. reflexivity.
Qed.

(** Positive part: unmasked first entry (direct_sum), unmasked block starts (block_sum). *)
Lemma taken_S : forall n e, taken (S n) e = taken n e ++ [e n].
Proof. intros. unfold taken. rewrite seq_S, map_app. reflexivity. Qed.

Lemma lrep_update : forall d acc l e, lrep d acc l -> lrep d (lse_pair d acc (entry_cells e)) (l ++ [e]).
Proof.
  intros d acc l [[f|] w] H; [apply lse_merge; [assumption|apply lrep_entry]|apply lrep_masked; assumption].
Qed.
Lemma lrep_start : forall d acc e, lempty d acc -> fst e <> None -> lrep d (lse_pair d acc (entry_cells e)) [e].
Proof.
  intros d acc [[f|] w] H Hf; [|cbn in Hf; congruence]. apply lse_merge_init_l; [assumption|apply lrep_entry].
Qed.

Lemma direct_lse : forall d n e, (0 < n)%nat -> fst (e O) <> None ->
  exists out, cpu_row (LSE_Red d) direct_sum n (lse_terms e) = Ok out /\ lrep d out (taken n e).
Proof.
  intros d n e Hn H0. eexists. split; [reflexivity|]. cbn [rfinal LSE_Red rshort rinit].
  destruct n as [|n]; [lia|]. clear Hn. induction n as [|n IH]; cbn [for_up].
  - apply lrep_start; [apply lempty_init|assumption].
  - rewrite taken_S. apply lrep_update. exact IH.
Qed.

Lemma block_lse : forall d n e, (0 < n)%nat ->
  (forall j, (j < n)%nat -> (j mod period_accumulate n = 0)%nat -> fst (e j) <> None) ->
  exists out, cpu_row (LSE_Red d) block_sum n (lse_terms e) = Ok out /\ lrep d out (taken n e).
Proof.
  intros d n e Hn H0. unfold cpu_row. cbn [rpair LSE_Red].
  set (per := period_accumulate n) in *.
  assert (Hper : (1 <= per)%nat) by apply period_pos.
  assert (G : forall m, (m <= n)%nat -> let st := for_up m (block_body (LSE_Red d) (lse_pair d) per (lse_terms e))
                 (rinit (LSE_Red d), rinit (LSE_Red d)) in
     exists l1 l2, taken m e = l1 ++ l2 /\
     ((l1 = [] /\ lempty d (fst st)) \/ lrep d (fst st) l1) /\
     ((l2 = [] /\ lempty d (snd st) /\ (m mod per = 0)%nat) \/ lrep d (snd st) l2)).
  { induction m; intros Hm; cbv zeta; cbn [for_up].
    - exists [], []. split; [reflexivity|]. split; left; (split; [reflexivity|]); [apply lempty_init|].
      split; [apply lempty_init|]. apply Nat.mod_0_l. lia.
    - destruct IHm as [l1 [l2 [E [A B]]]]; [lia|]. destruct (for_up m _ _) as [acc tmp]. cbn [fst snd] in *.
      unfold block_body. cbn [rshort LSE_Red rinit].
      assert (T : lrep d (lse_pair d tmp (lse_terms e m)) (l2 ++ [e m])).
      { destruct B as [[-> [B C]]|B].
        - apply lrep_start; [assumption|]. apply H0; [lia|assumption].
        - apply lrep_update; assumption. }
      destruct (Nat.eqb_spec ((m + 1) mod per) 0) as [Q|Q]; cbn [fst snd].
      + exists (taken (S m) e), []. rewrite app_nil_r. split; [reflexivity|]. split.
        * right. rewrite taken_S, E, <- app_assoc.
          destruct A as [[-> A]|A]; [cbn; apply lse_merge_init_l; assumption|apply lse_merge; assumption].
        * left. split; [reflexivity|]. split; [apply lempty_init|]. rewrite <- Nat.add_1_r. assumption.
      + exists l1, (l2 ++ [e m]). split; [rewrite taken_S, E, app_assoc; reflexivity|]. split; [assumption|].
        right. assumption. }
  destruct (G n (le_n n)) as [l1 [l2 [E [A B]]]]. destruct (for_up n _ _) as [acc tmp]. cbn [fst snd] in *.
  eexists. split; [reflexivity|]. cbn [rfinal LSE_Red]. rewrite E.
  assert (N : l1 ++ l2 <> []).
  { rewrite <- E. destruct n as [|n]; [lia|]. rewrite taken_S. destruct (taken n e); discriminate. }
  destruct A as [[-> A]|A], B as [[-> [B _]]|B].
  - cbn in N. congruence.
  - cbn. apply lse_merge_init_l; assumption.
  - rewrite app_nil_r. apply lse_merge_init_r; assumption.
  - apply lse_merge; assumption.
Qed.

(** ** Results returned to the user *)
Lemma rep_log : forall d out l k, lrep d out l -> (k < d)%nat -> 0 < exp_sum k l ->
  lse_post out k = Fin (ln (exp_sum k l)).
Proof.
  intros d out l k [m [A [B C]]] Hk Hp. unfold lse_post. rewrite B, (C k Hk).
  rewrite <- (shifted_exp m) in Hp |- *.
  assert (P : 0 < shifted_sum m k l).
  { apply (Rmult_lt_reg_l (exp m)); [apply exp_pos|]. rewrite Rmult_0_r. assumption. }
  unfold xlog. destruct (Rlt_dec 0 (shifted_sum m k l)); [|contradiction].
  rewrite ln_mult by (assumption || apply exp_pos). rewrite ln_exp. reflexivity.
Qed.

Lemma rep_softmax : forall d out l k, lrep (S d) out l -> (k < d)%nat -> exp_sum 0 l <> 0 ->
  softmax_post out k = Fin (exp_sum (S k) l / exp_sum 0 l).
Proof.
  intros d out l k [m [A [B C]]] Hk Hp. unfold softmax_post.
  rewrite (C (S k)), (C O) by lia. rewrite <- !(shifted_exp m) in *.
  assert (P : shifted_sum m 0 l <> 0) by (intros E; apply Hp; rewrite E; ring).
  unfold xdiv. destruct (Req_EM_T (shifted_sum m 0 l) 0) as [E|_]; [contradiction|].
  f_equal. field. split; [assumption|]. apply Rgt_not_eq, exp_pos.
Qed.

Lemma exp_sum_pos : forall k l, l <> [] -> (forall e, In e l -> fst e <> None /\ 0 < snd e k) -> 0 < exp_sum k l.
Proof.
  intros k l N H. destruct l as [|[o w] l]; [congruence|]. clear N.
  assert (G : forall l', (forall e, In e l' -> fst e <> None /\ 0 < snd e k) -> 0 <= exp_sum k l').
  { induction l' as [|[[f|] w'] l' IH]; intros H'; cbn; [lra| |].
    - destruct (H' (Some f, w')) as [_ P]; [left; reflexivity|]. cbn in P.
      assert (0 <= exp_sum k l') by (apply IH; intros; apply H'; right; assumption).
      assert (0 < w' k * exp f) by (apply Rmult_lt_0_compat; [assumption|apply exp_pos]). lra.
    - apply IH; intros; apply H'; right; assumption. }
  destruct (H (o, w)) as [P Q]; [left; reflexivity|]. cbn in P, Q. destruct o as [f|]; [|congruence]. cbn.
  assert (0 <= exp_sum k l) by (apply G; intros; apply H; right; assumption).
  assert (0 < w k * exp f) by (apply Rmult_lt_0_compat; [assumption|apply exp_pos]). lra.
Qed.

Lemma scheme_lse : forall s d n e, (0 < n)%nat -> (forall j, (j < n)%nat -> fst (e j) <> None) ->
  s <> kahan_scheme ->
  exists out, cpu_row (LSE_Red d) s n (lse_terms e) = Ok out /\ lrep d out (taken n e).
Proof.
  intros s d n e Hn H Hs. destruct s; [|  |congruence].
  - apply direct_lse; auto.
  - apply block_lse; auto.
Qed.

Lemma user_logsumexp : forall s d n e, (0 < n)%nat -> (forall j, (j < n)%nat -> fst (e j) <> None) ->
  s <> kahan_scheme ->
  exists out, cpu_row (LSE_Red d) s n (lse_terms e) = Ok out /\
    forall k, (k < d)%nat -> 0 < exp_sum k (taken n e) -> lse_post out k = Fin (ln (exp_sum k (taken n e))).
Proof.
  intros s d n e Hn H Hs. destruct (scheme_lse s d n e Hn H Hs) as [out [E R]]. exists out.
  split; [assumption|]. intros. eapply rep_log; eassumption.
Qed.

Lemma user_softmax : forall s d n e, (0 < n)%nat ->
  (forall j, (j < n)%nat -> fst (e j) <> None /\ snd (e j) O = 1) ->
  s <> kahan_scheme ->
  exists out, cpu_row (LSE_Red (S d)) s n (lse_terms e) = Ok out /\
    forall k, (k < d)%nat -> softmax_post out k = Fin (exp_sum (S k) (taken n e) / exp_sum 0 (taken n e)).
Proof.
  intros s d n e Hn H Hs. destruct (scheme_lse s (S d) n e Hn (fun j Hj => proj1 (H j Hj)) Hs) as [out [E R]].
  exists out. split; [assumption|]. intros. eapply rep_softmax; [eassumption|assumption|].
  apply Rgt_not_eq, exp_sum_pos.
  - destruct n as [|n]; [lia|]. rewrite taken_S. destruct (taken n e); discriminate.
  - intros e' He. unfold taken in He. apply in_map_iff in He. destruct He as [j [<- Hj]].
    apply in_seq in Hj. destruct (H j) as [P Q]; [lia|]. split; [assumption|]. rewrite Q. lra.
Qed.
