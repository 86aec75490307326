(** Degree of derivatives; occurrences of variables. *)

From Coq Require Import ZArith List Bool Lia.
From Verif Require Import Result Formula Simplify SimplifyProofs Diff Termination LinOps LinOpsSpec Degree.
Local Open Scope nat_scope.

Section M.
Variable i : Z.
Notation deg := (degree i).
Notation sd := (sum_depth i).
Ltac degs :=
  repeat match goal with
  | H : RatCst _ _ = Ok _ |- _ => apply (RatCst_deg i) in H
  | H : SumT _ _ = Ok _ |- _ => apply (SumT_m i) in H; destruct H as (? & _ & _)
  | H : Square _ = Ok _ |- _ => apply (Square_m i) in H; destruct H as (? & _ & _)
  | H : Minus _ = Ok _ |- _ => apply (Minus_m i) in H; destruct H as (? & _ & _)
  | H : Mult _ _ = Ok _ |- _ => apply (Mult_m i) in H; destruct H as (? & _ & _)
  | H : Add _ _ = Ok _ |- _ => apply (Add_m i) in H; destruct H as (? & _ & _)
  | H : Subtract _ _ = Ok _ |- _ => apply (Subtract_m i) in H; destruct H as (? & _ & _)
  | H : Divide _ _ = Ok _ |- _ => apply (Divide_deg i) in H
  | H : Sum _ = Ok _ |- _ => apply (Sum_deg i) in H
  | H : Scalprod _ _ = Ok _ |- _ => apply (Scalprod_deg i) in H
  | H : Exp _ = Ok _ |- _ => apply Exp_ok in H; subst
  | H : Inv _ = Ok _ |- _ => unfold Inv in H
  | H : mk _ = Ok _ |- _ => apply mk_ok in H; destruct H as [-> _]
  end; cbn [degree] in *; rewrite ?IntCst_deg in *.

Lemma unDer_deg : forall u f r, unDer u f = Some (Ok r) -> deg f = 0 -> deg r = 0.
Proof.
  intros u f r H Z. destruct u; cbn [unDer] in H; try discriminate; injection H as H; bind_inv;
  try (unfold Pow in *;
       repeat match goal with H : context [if ?c then _ else _] |- _ => destruct c end; ok_inv);
  try subst r; degs; lia.
Qed.

Lemma vecterm_deg : forall D f df g h,
  (forall g h, D f g = Ok h -> deg h <= deg g) ->
  vecterm D f df g = Ok h -> deg df = 0 -> deg h <= deg g.
Proof.
  intros D f df g h HD H Z. unfold vecterm in H. destruct (_ =? _); bind_inv.
  - apply HD in H0. degs. lia.
  - apply HD in H. degs. lia.
Qed.

(** The derivative of a formula in which the variable of index i does not occur is of the degree of gradin. *)
Lemma diff_body_deg : forall D v f g h,
  (forall a g h, deg a = 0 -> D a g = Ok h -> deg h <= deg g) ->
  deg f = 0 -> diff_body D v f g = Ok h -> deg h <= deg g.
Proof.
  intros D v f g h HD Z H.
  assert (V : forall a df g h, deg a = 0 -> vecterm D a df g = Ok h -> deg df = 0 -> deg h <= deg g).
  { intros a df g0 h0 Za E Zd. apply (vecterm_deg D a df g0 h0); auto; intros g1 h1; apply HD; auto. }
  destruct f; cbn [diff_body] in H.
  - destruct (feqb v _); [ok_inv; lia|degs; lia].
  - degs; lia.
  - degs; lia.
  - degs; lia.
  - destruct u;
    try (cbn [unDer] in H; degs; lia);
    try (match type of H with match unDer ?u ?f with _ => _ end = _ =>
           destruct (unDer u f) as [r|] eqn:E; [|degs; lia];
           apply rbind_ok in H as (df & Er & H); bind_inv; subst r;
           apply unDer_deg in E; [|simpl in Z; lia];
           match goal with H0 : vecterm _ _ _ _ = Ok _ |- _ => apply V in H0; [|simpl in Z; lia|auto] end;
           degs; lia end).
    bind_inv. apply HD in H0; [|exact Z]. degs. lia.
  - destruct b; cbn [degree] in Z;
    repeat match type of H with
    | (if ?c then _ else _) = _ => destruct c
    | match as_exp ?b with _ => _ end = _ => destruct (as_exp b) eqn:?
    end; bind_inv;
    repeat match goal with E : as_exp _ = Some _ |- _ => apply as_exp_S in E; subst; cbn [degree] in Z end;
    repeat match goal with
    | H : vecterm _ _ _ _ = Ok _ |- _ => apply V in H; [|lia|degs; lia]
    | H : D _ _ = Ok _ |- _ => apply HD in H; [|cbn [degree]; lia]
    end; degs; lia.
  - destruct t; cbn [degree] in Z; bind_inv;
    repeat match goal with
    | H : D _ _ = Ok _ |- _ => apply HD in H; [|cbn [degree]; degs; lia]
    end; degs; lia.
  - destruct l; cbn [degree] in Z; bind_inv;
    repeat match goal with H : D _ _ = Ok _ |- _ => apply HD in H; [|cbn [degree]; lia] end; degs; lia.
  - destruct b; cbn [degree] in Z; bind_inv;
    repeat match goal with H : D _ _ = Ok _ |- _ => apply HD in H; [|cbn [degree]; lia] end; degs; lia.
  - cbn [degree] in Z; bind_inv;
    repeat match goal with H : D _ _ = Ok _ |- _ => apply HD in H; [|cbn [degree]; lia] end; degs; lia.
  - destruct s; cbn [degree] in Z; bind_inv;
    repeat match goal with H : D _ _ = Ok _ |- _ => apply HD in H; [|cbn [degree]; lia] end; degs; lia.
Qed.

Lemma DiffTn_deg : forall n v f g h, DiffTn n v f g = Ok h -> deg f = 0 -> deg h <= deg g.
Proof.
  induction n as [|n IH]; intros v f g h H Z; [discriminate|]. cbn [DiffTn] in H.
  eapply diff_body_deg; [|exact Z|exact H]. intros a g' h' Za E. eapply IH; eauto.
Qed.
Lemma DiffT_deg : forall v f g h, DiffT f v g = Ok h -> deg f = 0 -> deg h <= deg g.
Proof. intros v f g h. apply DiffTn_deg. Qed.

Lemma occurs_deg : forall f, occurs i f = false <-> deg f = 0.
Proof.
  induction f; cbn [occurs degree]; rewrite ?orb_false_iff; try tauto.
  - destruct (i0 =? i)%Z; split; auto; discriminate.
  - rewrite IHf. destruct u; lia.
  - rewrite IHf1, IHf2. destruct b; lia.
  - rewrite IHf1, IHf2, IHf3. destruct t; lia.
  - rewrite IHf1, IHf2. lia.
  - rewrite IHf1, IHf2. lia.
  - rewrite IHf. lia.
Qed.

Lemma occurs_sd : forall f, occurs i f = false -> sd f = 0.
Proof.
  induction f; cbn [occurs sum_depth]; rewrite ?orb_false_iff; intros H; auto.
  - rewrite IHf1, IHf2 by tauto. auto.
  - rewrite IHf1, IHf2, IHf3 by tauto. auto.
  - destruct l; auto. rewrite H. auto.
  - destruct H as [H1 H2]. rewrite IHf1, IHf2, H1, H2 by auto. destruct b; auto.
  - rewrite IHf1, IHf2 by tauto. auto.
Qed.

End M.
