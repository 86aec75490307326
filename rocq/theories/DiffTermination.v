(** Weights (recursion depth of DiffT) of the formulas returned by the simplifying
    constructors, and termination of DiffT. *)

From Coq Require Import ZArith List Bool Lia.
From Verif Require Import Result Formula Simplify SimplifyProofs Diff Termination.
Import ListNotations.
Local Open Scope nat_scope.

(** ** Weights of results *)

Lemma weight_pos : forall f, 1 <= weight f.
Proof. destruct f; try destruct t; simpl; lia. Qed.

Lemma IntCst_weight : forall z, weight (IntCst z) = 1.
Proof. intros; unfold IntCst; destruct (z =? 0)%Z; auto. Qed.
Lemma RatCst_weight : forall a b h, RatCst a b = Ok h -> weight h = 1.
Proof.
  intros a b h. unfold RatCst.
  repeat match goal with |- context [if ?c then _ else _] => destruct c end;
  intros H; inversion H; auto using IntCst_weight.
Qed.
Lemma SumT_weight : forall f d h, SumT f d = Ok h -> weight h <= weight f + 1.
Proof.
  intros f d h. unfold SumT. destruct (negb _); [discriminate|].
  destruct (as_zero f) eqn:E; simpl; intros H; apply mk_ok in H as [-> _]; simpl; lia.
Qed.
Lemma Broadcast_weight : forall f d h, Broadcast f d = Ok h -> weight h <= weight f + 1.
Proof.
  intros f d h. unfold Broadcast.
  destruct (_ || _)%bool; [intros H; inversion H; lia|].
  destruct (_ =? _); [apply SumT_weight|discriminate].
Qed.
Lemma Broadcast_zero_weight : forall d d' h, Broadcast (Zero d) d' = Ok h -> weight h = 1.
Proof.
  intros d d' h. unfold Broadcast, SumT. simpl.
  destruct (_ || _)%bool; [intros H; inversion H; auto|].
  destruct (d =? 1); simpl; [|discriminate]. intros H; apply mk_ok in H as [-> _]; auto.
Qed.
Lemma Square_weight : forall f h, Square f = Ok h -> weight h <= weight f + 1.
Proof.
  intros f h. unfold Square. destruct (as_zero f); simpl; intros H;
  [inversion H; lia|apply mk_ok in H as [-> _]; simpl; lia].
Qed.

Record weightR (rc : recs) : Prop := {
  wr_minus : forall f h, rminus rc f = Ok h -> weight h <= weight f + 1;
  wr_minus_cst : forall f h, rminus rc f = Ok h -> is_cst f = true -> weight h = 1;
  wr_add : forall f g h, radd rc f g = Ok h -> weight h <= weight f + weight g + 1;
  wr_sub : forall f g h, rsub rc f g = Ok h -> weight h <= weight f + weight g + 1;
  wr_mult : forall f g h, rmult rc f g = Ok h -> weight h <= weight f + weight g + 1;
  wr_add_cst : forall f g h, radd rc f g = Ok h -> is_cst f = true -> is_cst g = true -> weight h = 1;
  wr_sub_cst : forall f g h, rsub rc f g = Ok h -> is_cst f = true -> is_cst g = true -> weight h = 1;
  wr_mult_cst : forall f g h, rmult rc f g = Ok h -> is_cst f = true -> is_cst g = true -> weight h = 1
}.

Ltac weights :=
  repeat match goal with
  | H : RatCst _ _ = Ok _ |- _ => apply RatCst_weight in H
  | H : SumT _ _ = Ok _ |- _ => apply SumT_weight in H
  | H : Broadcast (Zero _) _ = Ok _ |- _ => apply Broadcast_zero_weight in H
  | H : Broadcast _ _ = Ok _ |- _ => apply Broadcast_weight in H
  | H : Square _ = Ok _ |- _ => apply Square_weight in H
  | H : Exp _ = Ok _ |- _ => apply Exp_ok in H; subst
  end.

Ltac weight_rec R :=
  repeat match goal with
  | H : rminus _ ?f = Ok _, C : is_cst ?f = true |- _ => apply (wr_minus_cst _ R _ _ H) in C
  | H : radd _ ?f ?g = Ok _, C : is_cst ?f = true, C' : is_cst ?g = true |- _ =>
      apply (wr_add_cst _ R _ _ _ H) in C; [|assumption]
  | H : rsub _ ?f ?g = Ok _, C : is_cst ?f = true, C' : is_cst ?g = true |- _ =>
      apply (wr_sub_cst _ R _ _ _ H) in C; [|assumption]
  | H : rmult _ ?f ?g = Ok _, C : is_cst ?f = true, C' : is_cst ?g = true |- _ =>
      apply (wr_mult_cst _ R _ _ _ H) in C; [|assumption]
  end;
  repeat match goal with
  | H : rminus _ _ = Ok _ |- _ => apply (wr_minus _ R) in H
  | H : radd _ _ _ = Ok _ |- _ => apply (wr_add _ R) in H
  | H : rsub _ _ _ = Ok _ |- _ => apply (wr_sub _ R) in H
  | H : rmult _ _ _ = Ok _ |- _ => apply (wr_mult _ R) in H
  end.

Lemma cst_weight : forall f, is_cst f = true -> weight f = 1.
Proof. destruct f; simpl; try discriminate; auto. Qed.

Ltac pos_weights :=
  repeat match goal with
  | f : fm |- _ => lazymatch goal with _ : 1 <= weight f |- _ => fail
                   | _ => pose proof (weight_pos f) end
  end.

Ltac split_bool :=
  repeat match goal with
  | H : (_ && _)%bool = true |- _ => apply andb_true_iff in H; destruct H
  end.

Ltac weight_fin :=
  pos_weights;
  repeat match goal with C : is_cst ?f = true |- _ => apply cst_weight in C end;
  cbn [weight] in *; rewrite ?IntCst_weight in *; lia.

Ltac wbody R H :=
  steps H; try discriminate; bind_inv; inv_as; ok_inv; split_bool; weight_rec R; weights; weight_fin.


Lemma minus_weight : forall rc, weightR rc -> forall f h, minus_body rc f = Ok h ->
  weight h <= weight f + 1 /\ (is_cst f = true -> weight h = 1).
Proof.
  intros rc R f h H. unfold minus_body in H. split.
  - wbody R H.
  - intros C. destruct f; try discriminate C; cbn in H; [inversion H; apply IntCst_weight|].
    eapply RatCst_weight; eauto.
Qed.

Lemma add_weight : forall rc, weightR rc -> forall f g h, add_body rc f g = Ok h ->
  weight h <= weight f + weight g + 1 /\ (is_cst f = true -> is_cst g = true -> weight h = 1).
Proof.
  intros rc R f g h H. unfold add_body in H. split.
  - wbody R H.
  - intros C C'. destruct f; try discriminate C; destruct g; try discriminate C'; cbn in H;
    try discriminate H.
    all: try (destruct (feqb _ _); cbn in H; [apply (wr_mult_cst _ R) in H; auto|]);
      inversion H; weights; auto using IntCst_weight.
    all: try (eapply RatCst_weight; eauto).
Qed.

Lemma sub_weight : forall rc, weightR rc -> forall f g h, sub_body rc f g = Ok h ->
  weight h <= weight f + weight g + 1 /\ (is_cst f = true -> is_cst g = true -> weight h = 1).
Proof.
  intros rc R f g h H. unfold sub_body in H. split.
  - wbody R H.
  - intros C C'. destruct f; try discriminate C; destruct g; try discriminate C'; cbn in H;
    try discriminate H.
    all: try (destruct (feqb _ _); cbn in H; [inversion H; auto|]);
      inversion H; weights; auto using IntCst_weight.
    all: try (eapply RatCst_weight; eauto).
Qed.

Lemma mult_weight : forall rc, weightR rc -> forall f g h, mult_body rc f g = Ok h ->
  weight h <= weight f + weight g + 1 /\ (is_cst f = true -> is_cst g = true -> weight h = 1).
Proof.
  intros rc R f g h H. unfold mult_body in H. split.
  - wbody R H.
  - intros C C'. destruct f; try discriminate C; destruct g; try discriminate C'; cbn in H;
    try (destruct (_ =? 1)%Z; cbn in H; [inversion H; auto|]);
    try (destruct (_ =? -1)%Z; cbn in H; [apply (wr_minus_cst _ R) in H; auto|]).
    all: try solve [eapply RatCst_weight; eauto].
    all: try solve [apply mk_ok in H as [-> _]; auto].
    all: try (apply (wr_mult_cst _ R) in H; auto).
    all: try (inversion H; auto).
Qed.

Lemma calls_weight : forall n, weightR (calls n).
Proof.
  induction n as [|n IH].
  - split; simpl; discriminate.
  - split; simpl; intros.
    + eapply minus_weight; eauto.
    + eapply minus_weight; eauto.
    + eapply add_weight; eauto.
    + eapply sub_weight; eauto.
    + eapply mult_weight; eauto.
    + eapply add_weight; eauto.
    + eapply sub_weight; eauto.
    + eapply mult_weight; eauto.
Qed.

Lemma Subtract_weight : forall f g h, Subtract f g = Ok h -> weight h <= weight f + weight g + 1.
Proof. intros f g h. apply (wr_sub _ (calls_weight _)). Qed.
Lemma Add_weight : forall f g h, Add f g = Ok h -> weight h <= weight f + weight g + 1.
Proof. intros f g h. apply (wr_add _ (calls_weight _)). Qed.
Lemma Mult_weight : forall f g h, Mult f g = Ok h -> weight h <= weight f + weight g + 1.
Proof. intros f g h. apply (wr_mult _ (calls_weight _)). Qed.
Lemma Divide_weight : forall f g h, Divide f g = Ok h -> weight h <= weight f + weight g + 1.
Proof.
  intros f g h H. unfold Divide in H. steps H; try discriminate; bind_inv; inv_as.
  - apply Broadcast_weight in H. pose proof (weight_pos g). lia.
  - apply RatCst_weight in H0. apply Mult_weight in H. cbn [weight]. lia.
  - apply RatCst_weight in H0. apply Mult_weight in H. cbn [weight]. lia.
  - apply mk_ok in H as [-> _]. cbn [weight]. lia.
Qed.

Lemma Pow_noof : forall f m, Pow f m <> OutOfFuel.
Proof. intros f m. unfold Pow. destruct (_ =? _)%Z; [discriminate|apply mk_noof]. Qed.

Ltac done_leaf H :=
  first
  [ oof_leaf H
  | solve [revert H; apply Pow_noof]
  | solve [revert H; apply Minus_terminates]
  | solve [revert H; apply Add_terminates]
  | solve [revert H; apply Subtract_terminates]
  | solve [revert H; apply Mult_terminates]
  | solve [revert H; apply Divide_terminates]
  | solve [revert H; apply Sum_terminates]
  | solve [revert H; apply Scalprod_terminates] ].

Lemma unDer_noof : forall u f r, unDer u f = Some r -> r <> OutOfFuel.
Proof.
  intros u f r E H. destruct u; cbn [unDer] in E; try discriminate E;
    injection E as E; rewrite <- E in H; clear E; oof_inv H; exfalso; done_leaf H.
Qed.

Lemma vecterm_noof : forall D f df g, (forall g, D f g <> OutOfFuel) ->
  vecterm D f df g <> OutOfFuel.
Proof.
  intros D f df g HD H. unfold vecterm in H. destruct (_ =? _); oof_inv H;
    first [done_leaf H|revert H; apply HD].
Qed.

Lemma diff_body_noof : forall n D v f g, weight f <= S n ->
  (forall f g, weight f <= n -> D f g <> OutOfFuel) ->
  diff_body D v f g <> OutOfFuel.
Proof.
  intros n D v f g L HD H. destruct f; cbn [diff_body] in H.
  - destruct (feqb _ _); [discriminate|oof_leaf H].
  - oof_leaf H.
  - oof_leaf H.
  - oof_leaf H.
  - cbn [weight] in L.
    destruct (unDer u f) as [r|] eqn:U.
    + assert (E' : (do df <- r; do x <- vecterm D f df g; Add (IntCst 0) x) = OutOfFuel).
      { destruct u; try discriminate U; exact H. }
      clear H. rename E' into H. oof_inv H.
      * revert H. eapply unDer_noof; eauto.
      * revert H. apply vecterm_noof. intros; apply HD; lia.
      * done_leaf H.
    + destruct u; try discriminate U; try (exfalso; oof_leaf H).
      oof_inv H; [revert H; apply HD; lia|done_leaf H].
  - cbn [weight] in L.
    assert (H1 : forall g, D f1 g <> OutOfFuel) by (intros; apply HD; lia).
    assert (H2 : forall g, D f2 g <> OutOfFuel) by (intros; apply HD; lia).
    destruct b; try (exfalso; oof_leaf H).
    + destruct (_ && _); [|destruct (_ && _)]; oof_inv H;
        first [done_leaf H|revert H; apply H1|revert H; apply H2].
    + destruct (_ && _); [|destruct (_ && _)]; oof_inv H;
        first [done_leaf H|revert H; apply H1|revert H; apply H2].
    + destruct (as_exp f2) as [u|] eqn:X.
      * apply as_exp_S in X. subst f2. cbn [weight] in L.
        assert (H3 : forall g, D u g <> OutOfFuel) by (intros; apply HD; lia).
        destruct (_ =? 1); [|destruct (_ && _)]; oof_inv H;
          first [done_leaf H|revert H; apply H1|revert H; apply H2|revert H; apply H3].
      * destruct (_ && _); [|destruct (_ && _)]; oof_inv H;
          first [done_leaf H|revert H; apply H1|revert H; apply H2].
    + destruct (_ && _); [|destruct (_ && _)]; oof_inv H;
        first [done_leaf H|revert H; apply H1|revert H; apply H2].
    + oof_inv H; first [done_leaf H|revert H; apply vecterm_noof; first [apply H1|apply H2]].
    + oof_inv H; first [done_leaf H|revert H; apply vecterm_noof; first [apply H1|apply H2]].
  - destruct t; cbn [weight] in L.
    + oof_inv H; first [done_leaf H|revert H; apply HD; lia].
    + oof_inv H; try (exfalso; done_leaf H).
      apply Subtract_weight in H0, H1. apply Divide_weight in H2.
      apply mk_ok in H3 as [-> _]. apply Mult_weight in H4. apply Add_weight in H5.
      cbn [weight] in *. revert H. apply HD. lia.
    + oof_inv H; try (exfalso; done_leaf H).
      apply Subtract_weight in H0. apply Divide_weight in H1.
      apply mk_ok in H2 as [-> _]. apply Mult_weight in H3. apply Subtract_weight in H4.
      cbn [weight] in *. revert H. apply HD. lia.
  - cbn [weight] in L. destruct l; oof_inv H; first [done_leaf H|revert H; apply HD; lia].
  - cbn [weight] in L. destruct b; oof_inv H; first [done_leaf H|revert H; apply HD; lia].
  - cbn [weight] in L. oof_inv H; first [done_leaf H|revert H; apply HD; lia].
  - cbn [weight] in L. destruct s; oof_inv H; first [done_leaf H|revert H; apply HD; lia].
Qed.

Theorem DiffTn_noof : forall n v f g, weight f <= n -> DiffTn n v f g <> OutOfFuel.
Proof.
  induction n as [|n IH]; intros v f g L.
  - pose proof (weight_pos f). lia.
  - cbn [DiffTn]. apply (diff_body_noof n); auto.
Qed.

Theorem DiffT_terminates : forall f v g, DiffT f v g <> OutOfFuel.
Proof. intros. apply DiffTn_noof. lia. Qed.
