(** Traces: proofs. *)

From Coq Require Import ZArith Reals Lia Lra List Bool FunctionalExtensionality.
From Verif Require Import Result Formula Simplify SimplifyProofs BuildProofs Diff GradSpec Calculus Tangent
  DiffRules Adjoint DiffProofs Termination DiffTermination LinOps LinOpsSpec Degree DegreeDiff C40Proofs.
Import ListNotations.
Local Open Scope nat_scope.

Section Trace.
Variables (i : Z) (d c : nat).
Notation v := (Var i d c).
Notation ej := (ej i).

Definition TR (f W : fm) (e : env) : R := rsum d (fun k => val W e k * val f (ej e k) k)%R.

Definition tr_ok (w : wgt) (f h : fm) : Prop :=
  wf h /\ dim h = 1 /\ (wdim w = 1 \/ wdim w = d) /\ (dim f = 1 \/ dim f = d) /\
  forall e, safe e f -> safe e (wfm w) -> safe e h /\ eval h e 0 = TR f (wfm w) e.

Definition tr_spec (self : fm -> wgt -> res fm) : Prop :=
  forall f w h, self f w = Ok h -> wf f -> wf (wfm w) -> degree i f <= 1 -> sum_depth i f <= 1 -> tr_ok w f h.

Lemma bcast_val : forall a m a', Broadcast a m = Ok a' -> wf a -> 1 <= m ->
  forall e, safe e a -> forall k, val a' e k = val a e k.
Proof.
  intros a m a' E Wa Pm e S. destruct (Broadcast_ok safe_doms _ _ _ E Wa Pm) as (_ & _ & _ & V). apply V. auto.
Qed.

Lemma val_bin' : forall b x y e k, wf (Bin b x y) -> val (Bin b x y) e k = binR b (val x e k) (val y e k).
Proof. intros b x y e k W. apply wf_bin in W as (? & ? & ? & ? & ?). apply val_bin; auto. Qed.

Lemma tr_add : forall self b a1 a2 x1 y1 x2 y2 w h, b = BAdd \/ b = BSub -> tr_spec self ->
  Broadcast a1 (dim (Bin b a1 a2)) = Ok x1 -> self x1 w = Ok y1 ->
  Broadcast a2 (dim (Bin b a1 a2)) = Ok x2 -> self x2 w = Ok y2 ->
  mk (Bin b y1 y2) = Ok h ->
  wf (Bin b a1 a2) -> wf (wfm w) -> degree i (Bin b a1 a2) <= 1 -> sum_depth i (Bin b a1 a2) <= 1 ->
  tr_ok w (Bin b a1 a2) h.
Proof.
  intros self b a1 a2 x1 y1 x2 y2 w h Hb IH E1 E2 E3 E4 E5 W Ww G1 G2.
  destruct (bin_le _ _ _ W) as (W1 & W2 & L1 & L2 & P & D1 & D2).
  destruct (i_bcast i _ _ _ E1 W1 P L1) as (B1 & B2 & B3 & B5 & B4).
  destruct (i_bcast i _ _ _ E3 W2 P L2) as (C1 & C2 & C3 & C5 & C4).
  assert (Hmax : degree i (Bin b a1 a2) = max (degree i a1) (degree i a2)) by (destruct Hb; subst b; auto).
  assert (Hsd : sum_depth i (Bin b a1 a2) = max (sum_depth i a1) (sum_depth i a2)) by (destruct Hb; subst b; auto).
  destruct (IH _ _ _ E2 B1 Ww) as (X1 & X2 & X3 & X3' & X4); [lia|lia|].
  destruct (IH _ _ _ E4 C1 Ww) as (Y1 & Y2 & Y3 & Y3' & Y4); [lia|lia|].
  mkwf E5.
  split; [split; auto|]. split; [cbn [dim]; lia|]. split; [auto|]. split; [lia|].
  intros e Sf Sw. assert (Sf' := fun j => safe_ej i _ _ j G1 Sf). destruct Sf as (S1 & S2 & _).
  destruct (B4 e S1) as [S1' _]. destruct (C4 e S2) as [S2' _].
  destruct (X4 e S1' Sw) as [T1 U1]. destruct (Y4 e S2' Sw) as [T2 U2].
  split; [split; [auto|]; split; [auto|]; destruct Hb; subst b; intros; exact I|].
  assert (F : forall j k,
            (val (Bin b a1 a2) (ej e j) k = binR b (val x1 (ej e j) k) (val x2 (ej e j) k))).
  { intros j k. destruct (Sf' j) as (Q1 & Q2 & _).
    rewrite (val_bin' _ _ _ _ _ W).
    rewrite (bcast_val _ _ _ E1 W1 P _ Q1), (bcast_val _ _ _ E3 W2 P _ Q2). auto. }
  rewrite bin_eval, !val_1, U1, U2 by auto. unfold TR.
  destruct Hb; subst b; cbn [binR] in *.
  - rewrite <- rsum_plus. apply rsum_ext. intros k K. rewrite F. ring.
  - unfold Rminus. rewrite <- rsum_opp, <- rsum_plus. apply rsum_ext. intros k K. rewrite F. ring.
Qed.

Lemma side_val' : forall b x y a r e k j, (a = x /\ r = y \/ b = BMult /\ a = y /\ r = x) ->
  b = BMult \/ b = BDiv -> is_linear v a = true -> degree i (Bin b x y) <= 1 -> wf (Bin b x y) ->
  val (Bin b x y) (ej e j) k
  = if match b with BMult => true | _ => false end then (val a (ej e j) k * val r e k)%R
    else (val a (ej e j) k / val r e k)%R.
Proof.
  intros b x y a r e k j Hs Hb La G W.
  rewrite (val_bin' _ _ _ _ _ W). rewrite <- (side_val i d c b x y a r e k j) by auto. reflexivity.
Qed.

Lemma tr_side : forall self b x y a r p w h, tr_spec self ->
  (a = x /\ r = y \/ b = BMult /\ a = y /\ r = x) -> b = BMult \/ b = BDiv -> is_linear v a = true ->
  (wdim w = 1 \/ wdim w = d) -> (dim (Bin b x y) = 1 \/ dim (Bin b x y) = d) ->
  side_weight b r w p -> self a (Wt p) = Ok h ->
  wf (Bin b x y) -> wf (wfm w) -> degree i (Bin b x y) <= 1 -> sum_depth i (Bin b x y) <= 1 ->
  tr_ok w (Bin b x y) h.
Proof.
  intros self b x y a r p w h IH Hs Hb La Dw Df E2 E3 W Ww G1 G2.
  destruct (bin_le _ _ _ W) as (W1 & W2 & L1 & L2 & P & D1 & D2).
  assert (Wa : wf a) by (intuition subst; auto). assert (Wr' : wf r) by (intuition subst; auto).
  assert (Dr : dim r = dim (Bin b x y) \/ dim r = 1) by (intuition subst; auto).
  destruct (side_weight_ok _ _ _ _ _ _ _ Hs Hb E2 W Ww) as (Q1 & Q2 & Q3).
  assert (Ga : degree i a <= degree i (Bin b x y)) by (destruct Hb; subst b; cbn [degree]; intuition subst; lia).
  assert (Sa : sum_depth i a <= sum_depth i (Bin b x y)) by (destruct Hb; subst b; cbn [sum_depth]; intuition subst; lia).
  destruct (IH _ (Wt p) _ E3 Wa Q1) as (X1 & X2 & X3 & X3' & X4); [lia|lia|].
  cbn [wdim] in X3.
  split; [auto|]. split; [auto|]. split; [auto|]. split; [auto|].
  intros e Sf Sw.
  destruct (Q3 e) as [Sp Vp]; auto; [lia|].
  assert (Sae : safe e a) by (destruct Sf as (? & ? & _); intuition subst; auto).
  destruct (X4 e Sae Sp) as [Sh Vh]. split; [auto|]. rewrite Vh. unfold TR. cbn [wfm].
  apply rsum_ext. intros k K.
  rewrite (side_val' b x y a r e k k) by auto. rewrite Vp by lia.
  destruct Hb; subst b; unfold Rdiv; ring.
Qed.

Lemma trace_ok : forall n, tr_spec (TraceN n v).
Proof.
  induction n as [|n IH]; intros f w h E Wf Ww G1 G2; [discriminate|].
  cbn [TraceN] in E. unfold operator in E. destruct (is_linear v f) eqn:L; [|discriminate].
  set (sl := fun a ws => SumLinN (bound a) v a ws) in *.
  assert (K : forall r, match trace_call sl (TraceN n v) v f w with Some r => r | None => KErr end = Ok r ->
    (wdim w = 1 \/ wdim w = d) /\ (dim f = 1 \/ dim f = d)).
  { intros r. unfold trace_call. cbn [dim].
    destruct ((wdim w =? 1) || (wdim w =? d)) eqn:K1; [|discriminate]. cbn [negb].
    destruct ((dim f =? 1) || (dim f =? d)) eqn:K2; [|discriminate]. intros _.
    apply orb_true_iff in K1, K2. rewrite !Nat.eqb_eq in K1, K2. auto. }
  assert (K' : forall r, match trace_call sl (TraceN n v) v f w with Some r => r | None => KErr end = Ok r ->
    negb ((wdim w =? 1) || (wdim w =? dim v)) = false /\ negb ((dim f =? 1) || (dim f =? dim v)) = false).
  { intros r. unfold trace_call. destruct (negb _); [discriminate|]. destruct (negb _); [discriminate|]. auto. }
  Ltac open K K' E :=
    let K1 := fresh "K1" in let K2 := fresh "K2" in
    destruct (K _ E) as [K1 K2]; destruct (K' _ E) as [? ?]; clear K';
    unfold trace_call in E;
    repeat match goal with Q : negb _ = false |- _ => rewrite Q in E; clear Q end; clear K.
  destruct f as [j dj cj|z|z|p q|op a|op a b|op a b r|op a|op a b|a b|op a].
  - (* Var *) open K K' E.
    cbn in L. apply feqb_eq in L. injection L as -> -> ->.
    assert (V : forall e k, k < d -> val v (ej e k) k = 1%R).
    { intros e k Kk. rewrite val_lt by (cbn; auto). cbn [eval]. unfold C40Proofs.ej, upd, basis.
      rewrite Z.eqb_refl, Nat.eqb_refl. auto. }
    rewrite wdim_dim in *. destruct (dim (wfm w) =? 1) eqn:B.
    + apply Nat.eqb_eq in B.
      destruct (mult1 _ _ _ E (wf_int _) Ww eq_refl B) as (A1 & A2 & A3).
      split; [auto|]. split; [auto|]. rewrite wdim_dim. split; [auto|]. split; [auto|]. intros e _ Sw.
      destruct (A3 e I Sw) as [S1 V1]. split; [auto|].
      rewrite V1. cbn [eval]. rewrite <- INR_IZR_INZ. unfold TR. cbn [dim].
      rewrite (rsum_ext d _ (fun _ => eval (wfm w) e 0)%R), rsum_const; [ring|].
      intros k Kk. rewrite V, val_1 by auto. ring.
    + apply Nat.eqb_neq in B. destruct (i_sum _ _ E Ww) as (C1 & C2 & C3).
      split; [auto|]. split; [auto|]. rewrite !wdim_dim. split; [auto|]. split; [auto|]. intros e _ Sw.
      destruct (C3 e Sw) as [S2 V2]. split; [auto|].
      rewrite V2 by lia. unfold TR. replace (dim (wfm w)) with d by lia. apply rsum_ext. intros k Kk.
      rewrite V, val_lt by (auto; lia). ring.
  - open K K' E. discriminate.
  - discriminate.
  - discriminate.
  - (* Minus *) destruct op; try discriminate. bind_inv. destruct Wf as [_ Wa]. cbn [dim degree sum_depth] in *.
    destruct (i_bcast i _ _ _ H Wa (dim_pos _ Wa) (Nat.le_refl _)) as (B1 & B2 & B3 & B5 & B4).
    destruct (IH _ _ _ H0 B1 Ww) as (X1 & X2 & X3 & X3' & X4); [lia|lia|].
    mkwf E. split; [split; auto|]. split; [auto|]. split; [auto|]. split; [cbn [dim]; lia|].
    intros e [Sa _] Sw. destruct (B4 e Sa) as [S1 _]. destruct (X4 e S1 Sw) as [S2 V2].
    split; [split; [auto|intros; exact I]|]. unfold TR in *. cbn [eval unR].
    rewrite V2, <- rsum_opp. apply rsum_ext. intros k Kk.
    rewrite val_un. cbn [unR].
    rewrite (bcast_val _ _ _ H Wa (dim_pos _ Wa) _ (safe_ej i a e k G1 Sa)). ring.
  - destruct op; try (open K K' E; discriminate).
    + bind_inv. eapply (tr_add (TraceN n v) BAdd); eauto.
    + bind_inv. eapply (tr_add (TraceN n v) BSub); eauto.
    + open K K' E. destruct (is_linear v a) eqn:La.
      * destruct (dim b =? 1) eqn:Db.
        -- apply Nat.eqb_eq in Db. bind_inv.
           destruct (bin_le _ _ _ Wf) as (W1 & W2 & L1 & L2 & P & D1 & D2).
           cbn [degree sum_depth] in *.
           destruct (IH _ _ _ H W1 Ww) as (X1 & X2 & X3 & X3' & X4); [lia|lia|].
           destruct (mult1 _ _ _ E X1 W2 X2 Db) as (A1 & A2 & A3).
           split; [auto|]. split; [auto|]. split; [auto|]. split; [auto|].
           intros e (S1 & S2 & _) Sw. destruct (X4 e S1 Sw) as [S3 V3]. destruct (A3 e S3 S2) as [S4 V4].
           split; [auto|]. rewrite V4, V3. unfold TR. rewrite <- rsum_scal_r. apply rsum_ext. intros k Kk.
           rewrite (side_val' BMult a b a b e k k) by auto. rewrite (val_1 b) by auto. ring.
        -- bind_inv. eapply (tr_side (TraceN n v) BMult a b a b); eauto.
      * destruct (is_linear v b) eqn:Lb; [|discriminate].
        bind_inv. eapply (tr_side (TraceN n v) BMult a b b a); eauto.
    + open K K' E. cbn [is_linear] in L. bind_inv. eapply (tr_side (TraceN n v) BDiv a b a b); eauto.
  - discriminate.
  - open K K' E. destruct op; try discriminate; cbn [is_linear degree] in *.
    + (* Sum *) destruct Wf as [_ Wa]. unfold sl in E.
      assert (Z : sum_depth i a = 0).
      { cbn [sum_depth] in G2. destruct (occurs i a) eqn:O; [lia|]. apply occurs_sd. auto. }
      destruct (sumlin_ok i d c _ _ One w h E Wa wf_one Ww) as (X1 & X2 & _ & X3 & X4); [split; auto|].
      split; [auto|]. split; [auto|]. split; [auto|]. split; [auto|]. intros e Sf Sw.
      destruct (X4 e Sf (safe_one e) Sw) as [S V]. split; [auto|]. rewrite V. unfold WS, TR.
      rewrite rsum_swap. apply rsum_ext. intros j J. rewrite (val_1 (Lin LSum a)) by auto. cbn [eval linR].
      rewrite <- rsum_scal. apply rsum_ext. intros k Kk. rewrite val_one. ring.
    + (* SumT *) apply wf_sumT in Wf as (Wa & Da & Pd0).
      destruct (IH _ _ _ E Wa Ww) as (X1 & X2 & _ & _ & X4); [lia|cbn in G2; lia|].
      split; [auto|]. split; [auto|]. split; [auto|]. split; [auto|]. intros e Sf Sw.
      destruct (X4 e Sf Sw) as [S V]. split; [auto|]. rewrite V. unfold TR. apply rsum_ext. intros k Kk.
      rewrite val_sumT by auto. auto.
  - destruct op; try (open K K' E; discriminate). bind_inv.
    destruct (bil_sum i _ _ _ H Wf) as (P1 & P2 & P2' & P3).
    destruct (IH _ _ _ E P1 Ww) as (X1 & X2 & X3 & X3' & X4); [lia|lia|].
    split; [auto|]. split; [auto|]. split; [auto|]. split; [auto|].
    intros e Sf Sw. destruct (P3 e Sf) as [S1 _]. destruct (X4 e S1 Sw) as [S2 V2]. split; [auto|].
    rewrite V2. apply rsum_ext. intros k Kk.
    destruct (P3 _ (safe_ej i _ e k G1 Sf)) as [_ V]. rewrite (val_1 (Lin LSum x)), (val_1 (Bil KScal a b)) by auto. rewrite V. auto.
  - open K K' E. discriminate.
  - discriminate.
Qed.
End Trace.
