(** The simplifying constructors only introduce arithmetic nodes: a property of nodes that
    these satisfy and that holds of every node of the operands holds of every node of the
    result. *)

From Coq Require Import ZArith Lia List Bool.
From Verif Require Import Result Formula Simplify SimplifyProofs.

Local Open Scope nat_scope.

Section All.
Variable A : fm -> Prop.

Fixpoint everywhere (f : fm) : Prop :=
  A f /\
  match f with
  | Var _ _ _ | Zero _ | Int _ | Rat _ _ => True
  | Un _ f => everywhere f
  | Bin _ f g => everywhere f /\ everywhere g
  | Ter _ f g h => everywhere f /\ everywhere g /\ everywhere h
  | Lin _ f => everywhere f
  | Bil _ f g => everywhere f /\ everywhere g
  | Cat f g => everywhere f /\ everywhere g
  | Sel _ f => everywhere f
  end.

Record arith_nodes : Prop := {
  an_zero : forall d, A (Zero d);
  an_int : forall z, A (Int z);
  an_rat : forall p q, A (Rat p q);
  an_minus : forall f, A (Un UMinus f);
  an_square : forall f, A (Un USquare f);
  an_exp : forall f, A (Un UExp f);
  an_add : forall f g, A (Bin BAdd f g);
  an_sub : forall f g, A (Bin BSub f g);
  an_mult : forall f g, A (Bin BMult f g);
  an_div : forall f g, as_zero g = None -> as_int g = None -> as_rat g = None -> A (Bin BDiv f g);
  an_sumT : forall d f, A (Lin (LSumT d) f)
}.

Hypothesis HA : arith_nodes.
Local Hint Resolve an_zero an_int an_rat an_minus an_square an_exp an_add an_sub an_mult
  an_div an_sumT : core.
Notation E := everywhere.

Lemma ev_IntCst : forall z, E (IntCst z).
Proof. intros z. unfold IntCst. destruct (z =? 0)%Z; cbn; auto. Qed.
Lemma ev_RatCst : forall a b h, RatCst a b = Ok h -> E h.
Proof.
  intros a b h H. unfold RatCst in H.
  repeat match type of H with context [if ?c then _ else _] => destruct c end;
    inversion H; subst; cbn; auto using ev_IntCst.
Qed.
Lemma ev_SumT : forall f d h, SumT f d = Ok h -> E f -> E h.
Proof.
  intros f d h H Ef. unfold SumT in H. destruct (negb _) in H; [discriminate|].
  destruct (as_zero f); cbn [on orelse] in H; apply mk_ok in H as [-> _]; cbn; auto.
Qed.
Lemma ev_Broadcast : forall f d h, Broadcast f d = Ok h -> E f -> E h.
Proof.
  intros f d h H Ef. unfold Broadcast in H. destruct (_ || _)%bool in H; [inversion H; subst; auto|].
  destruct (_ =? _) in H; [eapply ev_SumT; eauto|discriminate].
Qed.
Lemma ev_Square : forall f h, Square f = Ok h -> E f -> E h.
Proof.
  intros f h H Ef. unfold Square in H. destruct (as_zero f); cbn [on orelse] in H.
  - inversion H; subst; auto.
  - apply mk_ok in H as [-> _]. cbn; auto.
Qed.

Record closedR (rc : recs) : Prop := {
  cl_minus : forall f h, rminus rc f = Ok h -> E f -> E h;
  cl_add : forall f g h, radd rc f g = Ok h -> E f -> E g -> E h;
  cl_sub : forall f g h, rsub rc f g = Ok h -> E f -> E g -> E h;
  cl_mult : forall f g h, rmult rc f g = Ok h -> E f -> E g -> E h
}.

Ltac opened :=
  repeat match goal with
  | H : E (Bin _ _ _) |- _ => destruct H as (_ & ? & ?)
  | H : E (Un _ _) |- _ => destruct H as (_ & ?)
  | H : E (Lin _ _) |- _ => destruct H as (_ & ?)
  end.

Ltac closed1 R :=
  match goal with
  | H : mk _ = Ok _ |- _ => apply mk_ok in H as [-> _]
  | H : Ok _ = Ok _ |- _ => inversion H; subst; clear H
  | H : RatCst _ _ = Ok _ |- _ => apply ev_RatCst in H
  | H : Exp _ = Ok _ |- _ => apply Exp_ok in H; subst
  | H : SumT _ _ = Ok _ |- _ => apply ev_SumT in H; [|solve [cbn; auto 10 using ev_IntCst]]
  | H : Broadcast _ _ = Ok _ |- _ =>
      apply ev_Broadcast in H; [|solve [cbn; auto 10 using ev_IntCst]]
  | H : Square _ = Ok _ |- _ => apply ev_Square in H; [|solve [cbn; auto 10 using ev_IntCst]]
  | H : rminus _ _ = Ok _ |- _ =>
      apply (cl_minus _ R) in H; [|solve [cbn; auto 10 using ev_IntCst]]
  | H : radd _ _ _ = Ok _ |- _ =>
      apply (cl_add _ R) in H; [|solve [cbn; auto 10 using ev_IntCst]..]
  | H : rsub _ _ _ = Ok _ |- _ =>
      apply (cl_sub _ R) in H; [|solve [cbn; auto 10 using ev_IntCst]..]
  | H : rmult _ _ _ = Ok _ |- _ =>
      apply (cl_mult _ R) in H; [|solve [cbn; auto 10 using ev_IntCst]..]
  end.

Ltac cbody R H :=
  steps H; try discriminate; bind_inv; inv_as; opened; repeat (closed1 R);
  try solve [cbn; auto 10 using ev_IntCst].

Lemma minus_closed : forall rc, closedR rc -> forall f h, minus_body rc f = Ok h -> E f -> E h.
Proof. intros rc R f h H Ef. unfold minus_body in H. cbody R H. Qed.
Lemma add_closed : forall rc, closedR rc -> forall f g h, add_body rc f g = Ok h ->
  E f -> E g -> E h.
Proof. intros rc R f g h H Ef Eg. unfold add_body in H. cbody R H. Qed.
Lemma sub_closed : forall rc, closedR rc -> forall f g h, sub_body rc f g = Ok h ->
  E f -> E g -> E h.
Proof. intros rc R f g h H Ef Eg. unfold sub_body in H. cbody R H. Qed.
Lemma mult_closed : forall rc, closedR rc -> forall f g h, mult_body rc f g = Ok h ->
  E f -> E g -> E h.
Proof. intros rc R f g h H Ef Eg. unfold mult_body in H. cbody R H. Qed.

Lemma calls_closed : forall n, closedR (calls n).
Proof.
  induction n as [|n IH]; split; cbn [calls rminus radd rsub rmult]; try discriminate;
    eauto using minus_closed, add_closed, sub_closed, mult_closed.
Qed.

Lemma ev_Minus : forall f h, Minus f = Ok h -> E f -> E h.
Proof. intros f h. apply (cl_minus _ (calls_closed _)). Qed.
Lemma ev_Add : forall f g h, Add f g = Ok h -> E f -> E g -> E h.
Proof. intros f g h. apply (cl_add _ (calls_closed _)). Qed.
Lemma ev_Subtract : forall f g h, Subtract f g = Ok h -> E f -> E g -> E h.
Proof. intros f g h. apply (cl_sub _ (calls_closed _)). Qed.
Lemma ev_Mult : forall f g h, Mult f g = Ok h -> E f -> E g -> E h.
Proof. intros f g h. apply (cl_mult _ (calls_closed _)). Qed.
Lemma ev_Divide : forall f g h, Divide f g = Ok h -> E f -> E g -> E h.
Proof.
  intros f g h H Ef Eg. unfold Divide in H. steps H; try discriminate; bind_inv; inv_as.
  - eapply ev_Broadcast; eauto.
  - eapply ev_Mult; eauto using ev_RatCst.
  - eapply ev_Mult; eauto using ev_RatCst.
  - apply mk_ok in H as [-> _]. cbn. auto.
Qed.
End All.
