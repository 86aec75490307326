(** Directional derivatives of formulas exist at smooth points. *)

From Coq Require Import ZArith Reals Lia Lra List Bool FunctionalExtensionality.
From Verif Require Import Result Formula Simplify SimplifyProofs BuildProofs GradSpec Calculus ScalarDeriv.
Local Open Scope nat_scope.

Lemma smooth_arith_ok : arith_ok smooth_doms.
Proof. repeat split; simpl; auto. Qed.

Lemma inside_imp : forall A B : doms,
  (forall u x, dun A u x -> dun B u x) ->
  (forall b x y, dbin A b x y -> dbin B b x y) ->
  (forall t x y z, dter A t x y z -> dter B t x y z) ->
  (forall s d v, dsel A s d v -> dsel B s d v) ->
  forall f e, inside A e f -> inside B e f.
Proof. intros A B Hu Hb Ht Hs. induction f; intros e; cbn; intuition auto. Qed.

Lemma smooth_safe : forall f e, smooth e f -> safe e f.
Proof.
  apply inside_imp.
  - intros u x. destruct u; cbn; auto; lra.
  - intros b x y. destruct b; cbn; auto.
  - intros t x y z. destruct t; cbn; auto; tauto.
  - intros s d v. destruct s; cbn; auto; tauto.
Qed.

Lemma moved_0 : forall i H e, moved i H e 0 = e.
Proof.
  intros i H e. apply functional_extensionality; intros j.
  apply functional_extensionality; intros k. unfold moved.
  destruct (j =? i)%Z; auto. ring.
Qed.

Lemma fin_choice : forall n (P : nat -> R -> Prop), (forall k, k < n -> exists l, P k l) ->
  exists T, forall k, k < n -> P k (T k).
Proof.
  induction n as [|n IH]; intros P H.
  - exists (fun _ => 0%R). intros k K. lia.
  - destruct (IH P) as [T HT]; auto. destruct (H n) as [l Hl]; auto.
    exists (fun k => if k =? n then l else T k). intros k K.
    destruct (Nat.eqb_spec k n) as [->|N]; auto. apply HT. lia.
Qed.

(** Position read in an operand of dimension d by the broadcasting rule. *)
Definition pos (d k : nat) : nat := if d =? 1 then 0 else k.

Lemma pos_lt : forall d n k, 1 <= d -> d = n \/ d = 1 -> k < n -> pos d k < d.
Proof. intros d n k P C K. unfold pos. destruct (Nat.eqb_spec d 1); lia. Qed.

Lemma rsum_d0 : forall n (p : nat -> R -> R) l, (forall k, k < n -> d0 (p k) (l k)) ->
  d0 (fun t => rsum n (fun k => p k t)) (rsum n l).
Proof.
  induction n as [|n IH]; intros p l H; cbn [rsum].
  - apply d0_const.
  - apply d0_plus; auto.
Qed.

Lemma argsel_best : forall lt d v m, m < d ->
  (forall x, lt x x = false) ->
  (forall k, k < d -> k <> m -> lt (v k) (v m) = true /\ lt (v m) (v k) = false) ->
  argsel lt v d = m.
Proof.
  intros lt d v m M I B. destruct d as [|d]; [lia|].
  assert (G : forall n, n <= d -> (m <= n -> argsel lt v (S n) = m)).
  { induction n as [|n IH]; intros N L.
    - assert (m = 0) by lia. subst. reflexivity.
    - rewrite argsel_S. destruct (Nat.eq_dec m (S n)) as [->|Ne].
      + assert (X := argsel_lt lt (S n) v). destruct (B (argsel lt v (S n))) as [B1 _]; try lia.
        rewrite B1. reflexivity.
      + rewrite IH by lia. destruct (B (S n)) as [_ B2]; try lia. rewrite B2. reflexivity. }
  apply G; lia.
Qed.

Lemma argmax_best : forall d v m, m < d -> (forall k, k < d -> k <> m -> (v k < v m)%R) ->
  argsel Rltb v d = m.
Proof.
  intros d v m M B. apply argsel_best; auto.
  - intros x. unfold Rltb. destruct (Rlt_dec x x); auto; lra.
  - intros k K N. specialize (B k K N). unfold Rltb.
    destruct (Rlt_dec (v k) (v m)), (Rlt_dec (v m) (v k)); auto; lra.
Qed.
Lemma argmin_best : forall d v m, m < d -> (forall k, k < d -> k <> m -> (v k > v m)%R) ->
  argsel Rgtb v d = m.
Proof.
  intros d v m M B. apply argsel_best; auto.
  - intros x. unfold Rgtb, Rltb. destruct (Rlt_dec x x); auto; lra.
  - intros k K N. specialize (B k K N). unfold Rgtb, Rltb.
    destruct (Rlt_dec (v k) (v m)), (Rlt_dec (v m) (v k)); auto; lra.
Qed.

Lemma Rtrunc_ev : forall p a, d0 p a -> ~ integer (p 0%R) ->
  ev (fun t => Rtrunc (p t) = Rtrunc (p 0%R)).
Proof.
  intros p a D N. unfold Rtrunc. assert (p 0%R <> 0%R) by (intro E; apply N; exists 0%Z; auto).
  destruct (Rtotal_order (p 0%R) 0) as [L|[L|L]]; [|lra|].
  - assert (N' : ~ integer (- p 0%R)).
    { intros [z E]. apply N. exists (- z)%Z. rewrite opp_IZR. lra. }
    assert (E := Int_part_ev _ _ (d0_opp _ _ D) N').
    generalize (ev_and _ _ E (d0_lt_c _ _ _ D L)). apply ev_imp. intros t [A B].
    cases. rewrite A. reflexivity.
  - generalize (ev_and _ _ (Int_part_ev _ _ D N) (d0_gt_c _ _ _ D L)). apply ev_imp.
    intros t [A B]. cases. exact A.
Qed.

Section Line.
Variables (i : Z) (H : nat -> R) (e : env).
Notation sh := (moved i H e).

Definition along (f : fm) (k : nat) : R -> R := fun t => eval f (sh t) k.

Lemma along_0 : forall f k, along f k 0 = eval f e k.
Proof. intros f k. unfold along. rewrite moved_0. reflexivity. Qed.

Definition differentiable (f : fm) : Prop := forall k, k < dim f -> exists l, d0 (along f k) l.

Lemma best_ev : forall f, differentiable f -> forall (lt : R -> R -> Prop),
  (forall p q a b, d0 p a -> d0 q b -> lt (p 0%R) (q 0%R) -> ev (fun t => lt (p t) (q t))) ->
  forall m, m < dim f ->
  (forall k, k < dim f -> k <> m -> lt (eval f e k) (eval f e m)) ->
  ev (fun t => forall k, k < dim f -> k <> m -> lt (eval f (sh t) k) (eval f (sh t) m)).
Proof.
  intros f Df lt Hl m M B. destruct (Df m M) as [lm Dm].
  apply (ev_fin (dim f) (fun k t => k <> m -> lt (eval f (sh t) k) (eval f (sh t) m))).
  intros k K. destruct (Nat.eq_dec k m) as [->|N].
  - apply ev_true. congruence.
  - destruct (Df k K) as [lk Dk].
    assert (E : ev (fun t => lt (along f k t) (along f m t))).
    { eapply Hl; eauto. rewrite !along_0. auto. }
    revert E. apply ev_imp. auto.
Qed.

Lemma max_ev : forall f m, differentiable f -> m < dim f ->
  (forall k, k < dim f -> k <> m -> (eval f e k < eval f e m)%R) ->
  ev (fun t => argsel Rltb (eval f (sh t)) (dim f) = m).
Proof.
  intros f m D M B. assert (E := best_ev f D Rlt d0_lt m M B). revert E.
  apply ev_imp. intros t E. apply argmax_best; auto.
Qed.
Lemma min_ev : forall f m, differentiable f -> m < dim f ->
  (forall k, k < dim f -> k <> m -> (eval f e k > eval f e m)%R) ->
  ev (fun t => argsel Rgtb (eval f (sh t)) (dim f) = m).
Proof.
  intros f m D M B.
  assert (E := best_ev f D Rgt (fun p q a b Dp Dq L => d0_lt q p b a Dq Dp L) m M B).
  revert E. apply ev_imp. intros t E. apply argmin_best; auto.
Qed.

Lemma onehot_ev : forall f, differentiable f -> 1 <= dim f ->
  ~ is_integer (eval f e 0 + / 2)%R ->
  ev (fun t => Rtrunc (eval f (sh t) 0 + / 2) = Rtrunc (eval f e 0 + / 2)).
Proof.
  intros f D P N. destruct (D 0) as [l Dl]; [lia|].
  assert (E := d0_plus _ _ _ _ Dl (d0_const (/ 2)%R)).
  assert (N' : ~ integer (along f 0 0 + / 2)%R) by (rewrite along_0; exact N).
  generalize (Rtrunc_ev _ _ E N'). apply ev_imp. intros t T. cbn beta in T.
  rewrite along_0 in T. exact T.
Qed.

Lemma inside_un : forall D u f, inside D e (Un u f) -> forall k, k < dim f -> dun D u (eval f e k).
Proof. intros D u f [_ S]. exact S. Qed.

Lemma divmod_lt : forall k a b, k < a * b -> k / b < a /\ k mod b < b.
Proof.
  intros k a b K. assert (1 <= b) by nia.
  split; [apply Nat.div_lt_upper_bound; lia|apply Nat.mod_upper_bound; lia].
Qed.

Theorem smooth_differentiable : forall f, wf f -> smooth e f -> differentiable f.
Proof.
  induction f; intros W S k K.
  - unfold along. cbn [eval]. unfold moved. destruct (i0 =? i)%Z.
    + exists (0 + (1 * H k + 0 * 0))%R. apply d0_plus; [apply d0_const|].
      apply d0_mult; [|apply d0_const]. apply derivable_pt_lim_id.
    + exists 0%R. apply d0_const.
  - exists 0%R. apply (d0_const 0).
  - exists 0%R. apply (d0_const (IZR z)).
  - exists 0%R. apply (d0_const (IZR p / IZR q)).
  - destruct W as [_ W]. destruct S as [S1 S2]. destruct (IHf W S1 k K) as [l Dl].
    eexists. apply (un_d0 u (along f k)); eauto. rewrite along_0. apply S2; auto.
  - assert (W' := W). apply wf_bin in W. destruct W as (W1 & W2 & P1 & P2 & C).
    destruct S as (S1 & S2 & S3). cbn [dim] in K.
    destruct (IHf1 W1 S1 (pos (dim f1) k)) as [l Dl].
    { apply (pos_lt _ (max (dim f1) (dim f2))); [auto|unfold compat in C; lia|auto]. }
    destruct (IHf2 W2 S2 (pos (dim f2) k)) as [m Dm].
    { apply (pos_lt _ (max (dim f1) (dim f2))); [auto|unfold compat in C; lia|auto]. }
    eexists. apply (bin_d0 b (along f1 (pos (dim f1) k)) (along f2 (pos (dim f2) k))); eauto.
    rewrite !along_0. apply S3; auto.
  - destruct W as (N & W1 & W2 & W3). destruct S as (S1 & S2 & S3 & S4). cbn [dim] in K.
    cbn [node_ok] in N. apply vcompat3_spec in N. cbv zeta in N. destruct N as (N1 & N2 & N3).
    destruct (IHf1 W1 S1 (pos (dim f1) k)) as [l1 D1].
    { apply (pos_lt _ (max (max (dim f1) (dim f2)) (dim f3))); auto using dim_pos. }
    destruct (IHf2 W2 S2 (pos (dim f2) k)) as [l2 D2].
    { apply (pos_lt _ (max (max (dim f1) (dim f2)) (dim f3))); auto using dim_pos. }
    destruct (IHf3 W3 S3 (pos (dim f3) k)) as [l3 D3].
    { apply (pos_lt _ (max (max (dim f1) (dim f2)) (dim f3))); auto using dim_pos. }
    apply (ter_d0 t _ _ _ _ _ _ D1 D2 D3). rewrite !along_0. apply S4; auto.
  - destruct W as [N W]. cbn in S. assert (P := dim_pos _ W). specialize (IHf W S).
    unfold along.
    destruct l; cbn [eval linR dim node_ok] in *;
      rewrite ?andb_true_iff, ?Nat.leb_le, ?Nat.ltb_lt, ?Nat.eqb_eq in N.
    + destruct (fin_choice _ _ IHf) as [T HT]. eexists.
      apply (rsum_d0 (dim f) (along f)). exact HT.
    + apply IHf; lia.
    + apply IHf; lia.
    + destruct (Nat.eqb_spec k m); [apply IHf; lia|exists 0%R; apply d0_const].
    + apply IHf; lia.
    + destruct (Nat.leb_spec s k), (Nat.ltb_spec k (s + dim f)); cbn [andb];
        try (exists 0%R; apply d0_const). apply IHf; lia.
  - destruct W as (N & W1 & W2). destruct S as [S1 S2].
    assert (P1 := dim_pos _ W1). assert (P2 := dim_pos _ W2).
    specialize (IHf1 W1 S1). specialize (IHf2 W2 S2).
    destruct (fin_choice _ _ IHf1) as [T1 H1]. destruct (fin_choice _ _ IHf2) as [T2 H2].
    unfold along.
    destruct b; cbn [eval bilR dim node_ok] in *; rewrite ?Nat.eqb_eq in N.
    + eexists. apply (rsum_d0 (dim f1) (fun j t => along f1 j t * along f2 j t)%R).
      intros j J. apply d0_mult; [apply H1; auto|apply H2; lia].
    + apply div_exact in N; auto.
      eexists. apply (rsum_d0 (dim f2) (fun j t => along f1 (k * dim f2 + j) t * along f2 j t)%R).
      intros j J. apply d0_mult; [apply H1; nia|apply H2; auto].
    + apply div_exact in N; auto.
      eexists. apply (rsum_d0 (dim f1)
        (fun j t => along f2 (j * (dim f2 / dim f1) + k) t * along f1 j t)%R).
      intros j J. apply d0_mult; [apply H2; nia|apply H1; auto].
    + destruct (divmod_lt _ _ _ K). eexists.
      apply d0_mult; [apply H1; auto|apply H2; auto].
  - destruct W as (N & W1 & W2). destruct S as [S1 S2]. unfold along. cbn [eval dim] in *.
    destruct (Nat.ltb_spec k (dim f1)); [apply IHf1; auto|apply IHf2; auto; lia].
  - destruct W as (N & W). destruct S as [S1 S2]. assert (P := dim_pos _ W).
    specialize (IHf W S1). unfold along.
    destruct s; cbn [eval selR dim node_ok dsel smooth_doms sel_smooth] in *.
    + destruct S2 as (m & M & B). destruct (IHf m M) as [l Dl]. exists l.
      eapply d0_loc; [exact Dl| |reflexivity].
      generalize (max_ev f m IHf M B). apply ev_imp. intros t E. rewrite E. reflexivity.
    + destruct S2 as (m & M & B). destruct (IHf m M) as [l Dl]. exists l.
      eapply d0_loc; [exact Dl| |reflexivity].
      generalize (min_ev f m IHf M B). apply ev_imp. intros t E. rewrite E. reflexivity.
    + destruct S2 as (m & M & B). exists 0%R. apply (d0_locconst _ (INR m)).
      generalize (max_ev f m IHf M B). apply ev_imp. intros t E. rewrite E. reflexivity.
    + destruct S2 as (m & M & B). exists 0%R. apply (d0_locconst _ (INR m)).
      generalize (min_ev f m IHf M B). apply ev_imp. intros t E. rewrite E. reflexivity.
    + destruct S2 as [_ S2]. exists 0%R.
      apply (d0_locconst _ (if (Z.of_nat k =? Rtrunc (eval f e 0 + / 2))%Z then 1 else 0)%R).
      generalize (onehot_ev f IHf P S2). apply ev_imp. intros t E. rewrite E. reflexivity.
Qed.

Lemma smooth_tangent : forall f, wf f -> smooth e f ->
  exists T, forall k, k < dim f -> d0 (along f k) (T k).
Proof.
  intros f W S. apply (fin_choice (dim f) (fun k l => d0 (along f k) l)).
  apply smooth_differentiable; auto.
Qed.

(** Near a smooth point the formula stays defined. *)
Theorem smooth_safe_ev : forall f, wf f -> smooth e f -> ev (fun t => safe (sh t) f).
Proof.
  induction f; intros W S; try (apply ev_true; intros; exact I).
  - destruct W as [N W]. assert (D := smooth_differentiable _ W (proj1 S)).
    apply ev_and; [apply IHf; auto; apply S|]. destruct S as [_ S].
    apply (ev_fin (dim f) (fun k t => unDom u (eval f (sh t) k))). intros k K.
    specialize (S k K). rewrite <- along_0 in S. destruct (D k K) as [l Dl].
    destruct u; cbn [dun smooth_doms un_smooth unDom] in *; try (apply ev_true; auto; fail).
    + exact (d0_gt_c _ _ _ Dl S).
    + exact (d0_ne_c _ _ _ Dl S).
    + generalize (d0_gt_c _ _ _ Dl S); apply ev_imp; unfold along; intros; lra.
    + generalize (d0_gt_c _ _ _ Dl S); apply ev_imp; unfold along; intros; lra.
    + generalize (d0_gt_c _ _ _ Dl S); apply ev_imp; unfold along; intros; lra.
    + generalize (ev_and _ _ (d0_gt_c _ _ _ Dl (proj1 S)) (d0_lt_c _ _ _ Dl (proj2 S)));
        apply ev_imp; unfold along; intros; lra.
    + generalize (ev_and _ _ (d0_gt_c _ _ _ Dl (proj1 S)) (d0_lt_c _ _ _ Dl (proj2 S)));
        apply ev_imp; unfold along; intros; lra.
    + destruct S as [S|S]; [apply ev_true; auto|].
      generalize (d0_ne_c _ _ _ Dl S); apply ev_imp; auto.
  - apply wf_bin in W. destruct W as (W1 & W2 & P1 & P2 & C). destruct S as (S1 & S2 & S3).
    assert (D1 := smooth_differentiable _ W1 S1). assert (D2 := smooth_differentiable _ W2 S2).
    apply ev_and; [auto|]. apply ev_and; [auto|].
    apply (ev_fin (max (dim f1) (dim f2)) (fun k t =>
      binDom b (along f1 (pos (dim f1) k) t) (along f2 (pos (dim f2) k) t))).
    intros k K. destruct (D1 (pos (dim f1) k)) as [l1 L1].
    { apply (pos_lt _ (max (dim f1) (dim f2))); [auto|unfold compat in C; lia|auto]. }
    destruct (D2 (pos (dim f2) k)) as [l2 L2].
    { apply (pos_lt _ (max (dim f1) (dim f2))); [auto|unfold compat in C; lia|auto]. }
    assert (Sk : bin_smooth b (along f1 (pos (dim f1) k) 0) (along f2 (pos (dim f2) k) 0)).
    { rewrite !along_0. apply S3; auto. }
    destruct b; cbn [bin_smooth binDom] in *; try (apply ev_true; auto; fail).
    + exact (d0_ne_c _ _ _ L2 Sk).
    + exact (d0_gt_c _ _ _ L1 Sk).
  - destruct W as (N & W1 & W2 & W3). destruct S as (S1 & S2 & S3 & S4).
    cbn [node_ok] in N. apply vcompat3_spec in N. cbv zeta in N. destruct N as (N1 & N2 & N3).
    assert (D2 := smooth_differentiable _ W2 S2).
    apply ev_and; [auto|]. apply ev_and; [auto|]. apply ev_and; [auto|].
    apply (ev_fin (max (max (dim f1) (dim f2)) (dim f3)) (fun k t0 =>
      terDom t (along f1 (pos (dim f1) k) t0) (along f2 (pos (dim f2) k) t0)
               (along f3 (pos (dim f3) k) t0))).
    intros k K. destruct t; cbn [terDom]; try (apply ev_true; auto; fail).
    destruct (D2 (pos (dim f2) k)) as [l2 L2].
    { apply (pos_lt _ (max (max (dim f1) (dim f2)) (dim f3))); auto using dim_pos. }
    apply (d0_ne_c _ _ _ L2). rewrite along_0. apply (S4 k); auto.
  - apply IHf; auto. apply W.
  - destruct W as (_ & W1 & W2). destruct S. apply ev_and; auto.
  - destruct W as (_ & W1 & W2). destruct S. apply ev_and; auto.
  - destruct W as (N & W). destruct S as [S1 S2]. apply ev_and; [auto|].
    destruct s; cbn [dsel safe_doms selDom]; try (apply ev_true; auto; fail).
    destruct S2 as [S2 S3].
    generalize (onehot_ev f (smooth_differentiable _ W S1) (dim_pos _ W) S3).
    apply ev_imp. intros t E. rewrite E. exact S2.
Qed.

End Line.
