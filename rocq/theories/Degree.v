(** Degrees, nesting of sums and sizes of the formulas returned by the simplifying constructors and by DiffT. *)

From Coq Require Import ZArith List Bool Lia.
From Verif Require Import Result Formula Simplify SimplifyProofs Diff Termination LinOps LinOpsSpec.
Import ListNotations.
Local Open Scope nat_scope.

Section Measures.
Variable i : Z.
Notation deg := (degree i).
Notation sd := (sum_depth i).

Lemma IntCst_deg : forall z, deg (IntCst z) = 0.
Proof. intros; unfold IntCst; destruct (z =? 0)%Z; auto. Qed.
Lemma IntCst_sd : forall z, sd (IntCst z) = 0.
Proof. intros; unfold IntCst; destruct (z =? 0)%Z; auto. Qed.
Lemma IntCst_bound : forall z, bound (IntCst z) = 1.
Proof. intros; unfold IntCst; destruct (z =? 0)%Z; auto. Qed.
Lemma RatCst_deg : forall a b h, RatCst a b = Ok h -> deg h = 0.
Proof.
  intros a b h. unfold RatCst.
  repeat match goal with |- context [if ?c then _ else _] => destruct c end;
  intros H; inversion H; auto using IntCst_deg.
Qed.
Lemma RatCst_sd : forall a b h, RatCst a b = Ok h -> sd h = 0.
Proof.
  intros a b h. unfold RatCst.
  repeat match goal with |- context [if ?c then _ else _] => destruct c end;
  intros H; inversion H; auto using IntCst_sd.
Qed.
Lemma RatCst_bound : forall a b h, RatCst a b = Ok h -> bound h = 1.
Proof.
  intros a b h. unfold RatCst.
  repeat match goal with |- context [if ?c then _ else _] => destruct c end;
  intros H; inversion H; auto using IntCst_bound.
Qed.
Lemma SumT_m : forall f d h, SumT f d = Ok h -> deg h = deg f /\ sd h = sd f /\ bound h <= bound f + 1.
Proof.
  intros f d h. unfold SumT. destruct (negb _); [discriminate|].
  destruct (as_zero f) eqn:E; simpl; intros H; apply mk_ok in H as [-> _]; simpl.
  - apply as_zero_S in E as ->. simpl; lia.
  - lia.
Qed.
Lemma Broadcast_m : forall f d h, Broadcast f d = Ok h -> deg h = deg f /\ sd h = sd f /\ bound h <= bound f + 1.
Proof.
  intros f d h. unfold Broadcast.
  destruct (_ || _)%bool; [intros H; inversion H; lia|].
  destruct (_ =? _); [apply SumT_m|discriminate].
Qed.
Lemma Broadcast_zero_bound : forall d d' h, Broadcast (Zero d) d' = Ok h -> bound h = 1.
Proof.
  intros d d' h. unfold Broadcast, SumT. simpl.
  destruct (_ || _)%bool; [intros H; inversion H; auto|].
  destruct (d =? 1); simpl; [|discriminate]. intros H; apply mk_ok in H as [-> _]; auto.
Qed.
Lemma Square_m : forall f h, Square f = Ok h -> deg h <= 2 * deg f /\ sd h = sd f /\ bound h <= bound f + 1.
Proof.
  intros f h. unfold Square. destruct (as_zero f) eqn:E; simpl; intros H.
  - inversion H; subst; lia.
  - apply mk_ok in H as [-> _]; simpl; lia.
Qed.
Lemma bound_pos : forall f, 1 <= bound f.
Proof. destruct f; simpl; lia. Qed.

Record measR (rc : recs) : Prop := {
  mr_minus : forall f h, rminus rc f = Ok h -> deg h <= deg f /\ sd h <= sd f /\ bound h <= bound f + 1;
  mr_add : forall f g h, radd rc f g = Ok h ->
    deg h <= max (deg f) (deg g) /\ sd h <= max (sd f) (sd g) /\ bound h <= bound f + bound g + 1;
  mr_sub : forall f g h, rsub rc f g = Ok h ->
    deg h <= max (deg f) (deg g) /\ sd h <= max (sd f) (sd g) /\ bound h <= bound f + bound g + 1;
  mr_mult : forall f g h, rmult rc f g = Ok h ->
    deg h <= deg f + deg g /\ sd h <= max (sd f) (sd g) /\ bound h <= bound f + bound g + 1;
  mr_minus_cst : forall f h, rminus rc f = Ok h -> is_cst f = true -> bound h = 1;
  mr_add_cst : forall f g h, radd rc f g = Ok h -> is_cst f = true -> is_cst g = true -> bound h = 1;
  mr_sub_cst : forall f g h, rsub rc f g = Ok h -> is_cst f = true -> is_cst g = true -> bound h = 1;
  mr_mult_cst : forall f g h, rmult rc f g = Ok h -> is_cst f = true -> is_cst g = true -> bound h = 1
}.

Ltac meas_rec R :=
  repeat match goal with
  | H : rminus _ ?f = Ok _, C : is_cst ?f = true |- _ =>
      lazymatch goal with _ : Simplify.rminus _ f = Ok ?h, _ : bound ?h = 1 |- _ => fail | _ =>
        pose proof (mr_minus_cst _ R _ _ H C) end
  end;
  repeat match goal with
  | H : rminus _ ?f = Ok ?h |- _ =>
      try (let C := fresh in assert (C : is_cst f = true) by assumption;
           pose proof (mr_minus_cst _ R _ _ H C); clear C);
      apply (mr_minus _ R) in H; destruct H as (? & ? & ?)
  | H : radd _ ?f ?g = Ok ?h |- _ =>
      try (let C := fresh in let C' := fresh in assert (C : is_cst f = true) by assumption;
           assert (C' : is_cst g = true) by assumption;
           pose proof (mr_add_cst _ R _ _ _ H C C'); clear C C');
      apply (mr_add _ R) in H; destruct H as (? & ? & ?)
  | H : rsub _ ?f ?g = Ok ?h |- _ =>
      try (let C := fresh in let C' := fresh in assert (C : is_cst f = true) by assumption;
           assert (C' : is_cst g = true) by assumption;
           pose proof (mr_sub_cst _ R _ _ _ H C C'); clear C C');
      apply (mr_sub _ R) in H; destruct H as (? & ? & ?)
  | H : rmult _ ?f ?g = Ok ?h |- _ =>
      try (let C := fresh in let C' := fresh in assert (C : is_cst f = true) by assumption;
           assert (C' : is_cst g = true) by assumption;
           pose proof (mr_mult_cst _ R _ _ _ H C C'); clear C C');
      apply (mr_mult _ R) in H; destruct H as (? & ? & ?)
  end.

Ltac meas :=
  repeat match goal with
  | H : RatCst _ _ = Ok _ |- _ =>
      pose proof (RatCst_deg _ _ _ H); pose proof (RatCst_sd _ _ _ H); apply RatCst_bound in H
  | H : SumT _ _ = Ok _ |- _ => apply SumT_m in H; destruct H as (? & ? & ?)
  | H : Broadcast ?f _ = Ok _ |- _ =>
      try (pose proof (Broadcast_zero_bound _ _ _ H));
      apply Broadcast_m in H; destruct H as (? & ? & ?)
  | H : Square _ = Ok _ |- _ => apply Square_m in H; destruct H as (? & ? & ?)
  | H : Exp _ = Ok _ |- _ => apply Exp_ok in H; subst
  end.

Lemma cst_m : forall f, is_cst f = true -> deg f = 0 /\ sd f = 0 /\ bound f = 1.
Proof. destruct f; simpl; try discriminate; auto. Qed.

Ltac pos_bounds :=
  repeat match goal with
  | f : fm |- _ => lazymatch goal with _ : 1 <= bound f |- _ => fail
                   | _ => pose proof (bound_pos f) end
  end.

Ltac split_bool :=
  repeat match goal with
  | H : (_ && _)%bool = true |- _ => apply andb_true_iff in H; destruct H
  end.

Ltac is_rats := repeat match goal with
  | H : is_rat ?f = true |- _ => lazymatch goal with _ : is_cst f = true |- _ => fail | _ =>
      pose proof (is_rat_cst _ H) end end.

Ltac meas_fin :=
  repeat match goal with C : is_cst ?f = true |- _ => apply cst_m in C; destruct C as (? & ? & ?) end;
  cbn [degree sum_depth bound] in *; rewrite ?IntCst_deg, ?IntCst_sd, ?IntCst_bound in *;
  pos_bounds; lia.

Ltac mbody R H :=
  steps H; try discriminate; bind_inv; inv_as; ok_inv; split_bool; is_rats; meas_rec R; meas;
  try match goal with E : Bin _ _ _ = Bin _ _ _ |- _ => injection E as ? ?; subst end;
  repeat split; meas_fin.

Lemma minus_meas : forall rc, measR rc -> forall f h, minus_body rc f = Ok h ->
  deg h <= deg f /\ sd h <= sd f /\ bound h <= bound f + 1.
Proof. intros rc R f h H. unfold minus_body in H. mbody R H. Qed.
Lemma add_meas : forall rc, measR rc -> forall f g h, add_body rc f g = Ok h ->
  deg h <= max (deg f) (deg g) /\ sd h <= max (sd f) (sd g) /\ bound h <= bound f + bound g + 1.
Proof. intros rc R f g h H. unfold add_body in H. mbody R H. Qed.
Lemma sub_meas : forall rc, measR rc -> forall f g h, sub_body rc f g = Ok h ->
  deg h <= max (deg f) (deg g) /\ sd h <= max (sd f) (sd g) /\ bound h <= bound f + bound g + 1.
Proof. intros rc R f g h H. unfold sub_body in H. mbody R H. Qed.
Lemma mult_meas : forall rc, measR rc -> forall f g h, mult_body rc f g = Ok h ->
  deg h <= deg f + deg g /\ sd h <= max (sd f) (sd g) /\ bound h <= bound f + bound g + 1.
Proof. intros rc R f g h H. unfold mult_body in H. mbody R H. Qed.

Lemma calls_meas : forall n, measR (calls n).
Proof.
  induction n as [|n R].
  - split; simpl; discriminate.
  - split; simpl.
    + apply minus_meas; auto.
    + apply add_meas; auto.
    + apply sub_meas; auto.
    + apply mult_meas; auto.
    + intros f h H C. destruct f; try discriminate C; cbn in H; [inversion H; apply IntCst_bound|].
      eapply RatCst_bound; eauto.
    + intros f g h H C C'.
      destruct f; try discriminate C; destruct g; try discriminate C'; unfold add_body in H; cbn in H;
      try discriminate H.
      all: try (destruct (feqb _ _); cbn in H; [apply (mr_mult_cst _ R) in H; auto|]);
        inversion H; auto using IntCst_bound.
      all: try (apply IntCst_bound).
      all: try (eapply RatCst_bound; eauto).
    + intros f g h H C C'.
      destruct f; try discriminate C; destruct g; try discriminate C'; unfold sub_body in H; cbn in H;
      try discriminate H.
      all: try (destruct (feqb _ _); cbn in H; [inversion H; auto|]);
        inversion H; auto using IntCst_bound.
      all: try (eapply RatCst_bound; eauto).
    + intros f g h H C C'.
      destruct f; try discriminate C; destruct g; try discriminate C'; unfold mult_body in H; cbn in H;
      try (destruct (_ =? 1)%Z; cbn in H; [inversion H; auto|]);
      try (destruct (_ =? -1)%Z; cbn in H; [apply (mr_minus_cst _ R) in H; auto|]).
      all: try solve [eapply RatCst_bound; eauto].
      all: try solve [apply mk_ok in H as [-> _]; auto].
      all: try (apply (mr_mult_cst _ R) in H; auto).
      all: try (inversion H; auto).
Qed.

Lemma Minus_m : forall f h, Minus f = Ok h -> deg h <= deg f /\ sd h <= sd f /\ bound h <= bound f + 1.
Proof. intros f h. apply (mr_minus _ (calls_meas _)). Qed.
Lemma Add_m : forall f g h, Add f g = Ok h ->
  deg h <= max (deg f) (deg g) /\ sd h <= max (sd f) (sd g) /\ bound h <= bound f + bound g + 1.
Proof. intros f g h. apply (mr_add _ (calls_meas _)). Qed.
Lemma Subtract_m : forall f g h, Subtract f g = Ok h ->
  deg h <= max (deg f) (deg g) /\ sd h <= max (sd f) (sd g) /\ bound h <= bound f + bound g + 1.
Proof. intros f g h. apply (mr_sub _ (calls_meas _)). Qed.
Lemma Mult_m : forall f g h, Mult f g = Ok h ->
  deg h <= deg f + deg g /\ sd h <= max (sd f) (sd g) /\ bound h <= bound f + bound g + 1.
Proof. intros f g h. apply (mr_mult _ (calls_meas _)). Qed.
Lemma Divide_deg : forall f g h, Divide f g = Ok h -> deg h <= deg f + 2 * deg g.
Proof.
  intros f g h H. unfold Divide in H. steps H; try discriminate; bind_inv; inv_as.
  - apply Broadcast_m in H as (H & _ & _). simpl in H. lia.
  - apply RatCst_deg in H0. apply Mult_m in H as (H & _ & _). simpl in *. lia.
  - apply RatCst_deg in H0. apply Mult_m in H as (H & _ & _). simpl in *. lia.
  - apply mk_ok in H as [-> _]. simpl. lia.
Qed.

Lemma sum_calls_deg : forall n,
  (forall f h, fst (sum_calls n) f = Ok h -> deg h <= deg f) /\
  (forall f g h, snd (sum_calls n) f g = Ok h -> deg h <= deg f + deg g).
Proof.
  induction n as [|n IH]; [split; simpl; discriminate|].
  cbn [sum_calls]. destruct (sum_calls n) as [rs rp]. destruct IH as [IS IP].
  cbn [fst snd] in *.
  split; [intros f h H; unfold Sum_body in H|intros f g h H; unfold Scalprod_body in H];
  steps H; try discriminate; bind_inv; inv_as; ok_inv;
  repeat match goal with
       | H : rs _ = Ok _ |- _ => apply IS in H
       | H : rp _ _ = Ok _ |- _ => apply IP in H
       | H : Mult _ _ = Ok _ |- _ => apply Mult_m in H; destruct H as (? & _ & _)
       | H : Square _ = Ok _ |- _ => apply Square_m in H; destruct H as (? & _ & _)
       end; cbn [degree] in *; lia.
Qed.
Lemma Sum_deg : forall f h, Sum f = Ok h -> deg h <= deg f.
Proof. intros f h. apply (proj1 (sum_calls_deg _)). Qed.
Lemma Scalprod_deg : forall f g h, Scalprod f g = Ok h -> deg h <= deg f + deg g.
Proof. intros f g h. apply (proj2 (sum_calls_deg _)). Qed.

End Measures.
