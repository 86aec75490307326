(** Termination of the simplification rules: the fuel given by [fuel_for] always
    suffices, so [OutOfFuel] is never returned by the top-level functions. *)

From Coq Require Import ZArith List Bool Lia.
From Verif Require Import Result Formula Simplify SimplifyProofs.
Import ListNotations.
Local Open Scope nat_scope.

(** ** Sizes of results *)

Lemma size_pos : forall f, 1 <= size f.
Proof. destruct f; simpl; lia. Qed.

Lemma IntCst_size : forall z, size (IntCst z) = 1.
Proof. intros; unfold IntCst; destruct (z =? 0)%Z; auto. Qed.
Lemma RatCst_size : forall a b h, RatCst a b = Ok h -> size h = 1.
Proof.
  intros a b h. unfold RatCst.
  repeat match goal with |- context [if ?c then _ else _] => destruct c end;
  intros H; inversion H; auto using IntCst_size.
Qed.
Lemma SumT_size : forall f d h, SumT f d = Ok h -> size h <= size f + 1.
Proof.
  intros f d h. unfold SumT. destruct (negb _); [discriminate|].
  destruct (as_zero f) eqn:E; simpl; intros H; apply mk_ok in H as [-> _]; simpl; lia.
Qed.
Lemma Broadcast_size : forall f d h, Broadcast f d = Ok h -> size h <= size f + 1.
Proof.
  intros f d h. unfold Broadcast.
  destruct (_ || _)%bool; [intros H; inversion H; lia|].
  destruct (_ =? _); [apply SumT_size|discriminate].
Qed.
Lemma Broadcast_zero_size : forall d d' h, Broadcast (Zero d) d' = Ok h -> size h = 1.
Proof.
  intros d d' h. unfold Broadcast, SumT. simpl.
  destruct (_ || _)%bool; [intros H; inversion H; auto|].
  destruct (d =? 1); simpl; [|discriminate]. intros H; apply mk_ok in H as [-> _]; auto.
Qed.
Lemma Square_size : forall f h, Square f = Ok h -> size h <= size f + 1.
Proof.
  intros f h. unfold Square. destruct (as_zero f); simpl; intros H;
  [inversion H; lia|apply mk_ok in H as [-> _]; simpl; lia].
Qed.

Record sizeR (rc : recs) : Prop := {
  zr_minus : forall f h, rminus rc f = Ok h -> size h <= size f + 1;
  zr_minus_cst : forall f h, rminus rc f = Ok h -> is_cst f = true -> size h = 1;
  zr_add : forall f g h, radd rc f g = Ok h -> size h <= size f + size g + 1;
  zr_sub : forall f g h, rsub rc f g = Ok h -> size h <= size f + size g + 1;
  zr_mult : forall f g h, rmult rc f g = Ok h -> size h <= size f + size g + 1;
  zr_add_cst : forall f g h, radd rc f g = Ok h -> is_cst f = true -> is_cst g = true -> size h = 1;
  zr_sub_cst : forall f g h, rsub rc f g = Ok h -> is_cst f = true -> is_cst g = true -> size h = 1;
  zr_mult_cst : forall f g h, rmult rc f g = Ok h -> is_cst f = true -> is_cst g = true -> size h = 1
}.

Ltac sizes :=
  repeat match goal with
  | H : RatCst _ _ = Ok _ |- _ => apply RatCst_size in H
  | H : SumT _ _ = Ok _ |- _ => apply SumT_size in H
  | H : Broadcast (Zero _) _ = Ok _ |- _ => apply Broadcast_zero_size in H
  | H : Broadcast _ _ = Ok _ |- _ => apply Broadcast_size in H
  | H : Square _ = Ok _ |- _ => apply Square_size in H
  | H : Exp _ = Ok _ |- _ => apply Exp_ok in H; subst
  end.

Ltac size_rec R :=
  repeat match goal with
  | H : rminus _ ?f = Ok _, C : is_cst ?f = true |- _ => apply (zr_minus_cst _ R _ _ H) in C
  | H : radd _ ?f ?g = Ok _, C : is_cst ?f = true, C' : is_cst ?g = true |- _ =>
      apply (zr_add_cst _ R _ _ _ H) in C; [|assumption]
  | H : rsub _ ?f ?g = Ok _, C : is_cst ?f = true, C' : is_cst ?g = true |- _ =>
      apply (zr_sub_cst _ R _ _ _ H) in C; [|assumption]
  | H : rmult _ ?f ?g = Ok _, C : is_cst ?f = true, C' : is_cst ?g = true |- _ =>
      apply (zr_mult_cst _ R _ _ _ H) in C; [|assumption]
  end;
  repeat match goal with
  | H : rminus _ _ = Ok _ |- _ => apply (zr_minus _ R) in H
  | H : radd _ _ _ = Ok _ |- _ => apply (zr_add _ R) in H
  | H : rsub _ _ _ = Ok _ |- _ => apply (zr_sub _ R) in H
  | H : rmult _ _ _ = Ok _ |- _ => apply (zr_mult _ R) in H
  end.

Lemma cst_size : forall f, is_cst f = true -> size f = 1.
Proof. destruct f; simpl; try discriminate; auto. Qed.

Ltac pos_sizes :=
  repeat match goal with
  | f : fm |- _ => lazymatch goal with _ : 1 <= size f |- _ => fail
                   | _ => pose proof (size_pos f) end
  end.

Ltac split_bool :=
  repeat match goal with
  | H : (_ && _)%bool = true |- _ => apply andb_true_iff in H; destruct H
  end.

Ltac size_fin :=
  pos_sizes;
  repeat match goal with C : is_cst ?f = true |- _ => apply cst_size in C end;
  cbn [size] in *; rewrite ?IntCst_size in *; lia.

Ltac sbody R H :=
  steps H; try discriminate; bind_inv; inv_as; ok_inv; split_bool; size_rec R; sizes; size_fin.

Ltac unf_cst C := unfold is_cst in C; try (apply orb_true_iff in C).

Lemma minus_size : forall rc, sizeR rc -> forall f h, minus_body rc f = Ok h ->
  size h <= size f + 1 /\ (is_cst f = true -> size h = 1).
Proof.
  intros rc R f h H. unfold minus_body in H. split.
  - sbody R H.
  - intros C. destruct f; try discriminate C; cbn in H; [inversion H; apply IntCst_size|].
    eapply RatCst_size; eauto.
Qed.

Lemma add_size : forall rc, sizeR rc -> forall f g h, add_body rc f g = Ok h ->
  size h <= size f + size g + 1 /\ (is_cst f = true -> is_cst g = true -> size h = 1).
Proof.
  intros rc R f g h H. unfold add_body in H. split.
  - sbody R H.
  - intros C C'. destruct f; try discriminate C; destruct g; try discriminate C'; cbn in H;
    try discriminate H.
    all: try (destruct (feqb _ _); cbn in H; [apply (zr_mult_cst _ R) in H; auto|]);
      inversion H; sizes; auto using IntCst_size.
    all: try (eapply RatCst_size; eauto).
Qed.

Lemma sub_size : forall rc, sizeR rc -> forall f g h, sub_body rc f g = Ok h ->
  size h <= size f + size g + 1 /\ (is_cst f = true -> is_cst g = true -> size h = 1).
Proof.
  intros rc R f g h H. unfold sub_body in H. split.
  - sbody R H.
  - intros C C'. destruct f; try discriminate C; destruct g; try discriminate C'; cbn in H;
    try discriminate H.
    all: try (destruct (feqb _ _); cbn in H; [inversion H; auto|]);
      inversion H; sizes; auto using IntCst_size.
    all: try (eapply RatCst_size; eauto).
Qed.

Lemma mult_size : forall rc, sizeR rc -> forall f g h, mult_body rc f g = Ok h ->
  size h <= size f + size g + 1 /\ (is_cst f = true -> is_cst g = true -> size h = 1).
Proof.
  intros rc R f g h H. unfold mult_body in H. split.
  - sbody R H.
  - intros C C'. destruct f; try discriminate C; destruct g; try discriminate C'; cbn in H;
    try (destruct (_ =? 1)%Z; cbn in H; [inversion H; auto|]);
    try (destruct (_ =? -1)%Z; cbn in H; [apply (zr_minus_cst _ R) in H; auto|]).
    all: try solve [eapply RatCst_size; eauto].
    all: try solve [apply mk_ok in H as [-> _]; auto].
    all: try (apply (zr_mult_cst _ R) in H; auto).
    all: try (inversion H; auto).
Qed.

Lemma calls_size : forall n, sizeR (calls n).
Proof.
  induction n as [|n IH].
  - split; simpl; discriminate.
  - split; simpl; intros.
    + eapply minus_size; eauto.
    + eapply minus_size; eauto.
    + eapply add_size; eauto.
    + eapply sub_size; eauto.
    + eapply mult_size; eauto.
    + eapply add_size; eauto.
    + eapply sub_size; eauto.
    + eapply mult_size; eauto.
Qed.

(** ** Fuel *)

(** Calls of Mult on operands of the same total size are ordered by this rank. *)
Definition rank (f g : fm) : nat :=
  if is_exp g then 0 else if is_int f then 1 else if is_rat f then 2 else 3.

Lemma rank_le : forall f g, rank f g <= 3.
Proof. intros; unfold rank; repeat destruct (_ : bool); lia. Qed.
Lemma rank_exp : forall f a, rank f (Un UExp a) = 0.
Proof. reflexivity. Qed.
Lemma rank_int : forall z g, rank (Int z) g <= 1.
Proof. intros; unfold rank; destruct (is_exp g); simpl; lia. Qed.
Lemma rank_rat : forall p q g, rank (Rat p q) g <= 2.
Proof. intros; unfold rank; destruct (is_exp g); simpl; lia. Qed.
Lemma rank_cst : forall c g, is_cst c = true -> rank c g <= 2.
Proof.
  intros c g. unfold is_cst, rank. destruct (is_exp g); [lia|].
  destruct (is_int c); [lia|]. destruct (is_rat c); [lia|discriminate].
Qed.
Lemma rank_israt : forall c g, is_rat c = true -> rank c g <= 2.
Proof. intros; apply rank_cst; unfold is_cst; rewrite H; apply orb_true_r. Qed.

Record enough (rc : recs) (n : nat) : Prop := {
  en_minus : forall f, 8 * size f < n -> rminus rc f <> OutOfFuel;
  en_add : forall f g, 8 * (size f + size g) + 5 < n -> radd rc f g <> OutOfFuel;
  en_sub : forall f g, 8 * (size f + size g) + 5 < n -> rsub rc f g <> OutOfFuel;
  en_mult : forall f g, 8 * (size f + size g) + 1 + rank f g < n -> rmult rc f g <> OutOfFuel
}.

Lemma rbind_oof : forall A B (r : res A) (k : A -> res B),
  rbind r k = OutOfFuel -> r = OutOfFuel \/ exists a, r = Ok a /\ k a = OutOfFuel.
Proof. intros A B [a| | |] k H; simpl in H; try discriminate; eauto. Qed.

Lemma mk_noof : forall f, mk f <> OutOfFuel.
Proof. intros f; unfold mk; destruct (node_ok f); discriminate. Qed.
Lemma RatCst_noof : forall p q, RatCst p q <> OutOfFuel.
Proof.
  intros; unfold RatCst.
  repeat match goal with |- context [if ?c then _ else _] => destruct c end; discriminate.
Qed.
Lemma SumT_noof : forall f d, SumT f d <> OutOfFuel.
Proof.
  intros; unfold SumT; destruct (negb _); [discriminate|].
  destruct (as_zero f); simpl; apply mk_noof.
Qed.
Lemma Broadcast_noof : forall f d, Broadcast f d <> OutOfFuel.
Proof.
  intros; unfold Broadcast. repeat destruct (_ : bool); try discriminate; apply SumT_noof.
Qed.
Lemma Square_noof : forall f, Square f <> OutOfFuel.
Proof. intros; unfold Square; destruct (as_zero f); simpl; [discriminate|apply mk_noof]. Qed.
Lemma Exp_noof : forall f, Exp f <> OutOfFuel.
Proof. intros; apply mk_noof. Qed.

Ltac stepo H :=
  red_as H;
  lazymatch type of H with
  | orelse (on ?o _) _ = _ => pick H o
  | orelse (on' ?o _) _ = _ => pick H o
  | orelse (when ?c _) _ = _ => pick H c
  | (if ?c then _ else _) = _ => pick H c
  | orelse (when' ?c _ _) _ = _ => pick H c
  end.
Ltac stepso H := repeat (stepo H).

Ltac oof_inv H :=
  repeat (apply rbind_oof in H;
          let x := fresh "x" in destruct H as [H|(x & ? & H)]).

Ltac oof_leaf H :=
  first
  [ discriminate H
  | solve [revert H; apply mk_noof]
  | solve [revert H; apply RatCst_noof]
  | solve [revert H; apply SumT_noof]
  | solve [revert H; apply Broadcast_noof]
  | solve [revert H; apply Square_noof]
  | solve [revert H; apply Exp_noof] ].

Ltac ranks :=
  repeat match goal with
  | |- context [rank ?f (Un UExp ?a)] => change (rank f (Un UExp a)) with 0
  | |- context [rank (Int ?z) ?g] => pose proof (rank_int z g); generalize dependent (rank (Int z) g); intros
  | |- context [rank (Rat ?p ?q) ?g] => pose proof (rank_rat p q g); generalize dependent (rank (Rat p q) g); intros
  | C : is_rat ?f = true |- context [rank ?f ?g] =>
      pose proof (rank_israt f g C); generalize dependent (rank f g); intros
  | C : is_cst ?f = true |- context [rank ?f ?g] =>
      pose proof (rank_cst f g C); generalize dependent (rank f g); intros
  | |- context [rank ?f ?g] => pose proof (rank_le f g); generalize dependent (rank f g); intros
  end.

Ltac oof_rec R Z H :=
  revert H;
  first [apply (en_minus _ _ R)|apply (en_add _ _ R)|apply (en_sub _ _ R)|apply (en_mult _ _ R)];
  ranks; size_rec Z; sizes; size_fin.

Ltac obody R Z H :=
  stepso H; try (exfalso; oof_leaf H); inv_as; oof_inv H; try (oof_leaf H); split_bool;
  try (oof_rec R Z H).

Lemma minus_fuel : forall rc n, sizeR rc -> enough rc n -> forall f,
  8 * size f < S n -> minus_body rc f <> OutOfFuel.
Proof.
  intros rc n Z R f L H. unfold minus_body in H. obody R Z H.
Qed.

Lemma add_fuel : forall rc n, sizeR rc -> enough rc n -> forall f g,
  8 * (size f + size g) + 5 < S n -> add_body rc f g <> OutOfFuel.
Proof.
  intros rc n Z R f g L H. unfold add_body in H. obody R Z H.
Qed.
Lemma sub_fuel : forall rc n, sizeR rc -> enough rc n -> forall f g,
  8 * (size f + size g) + 5 < S n -> sub_body rc f g <> OutOfFuel.
Proof.
  intros rc n Z R f g L H. unfold sub_body in H. obody R Z H.
Qed.

(** ** Mult *)

Ltac know_rank L :=
  unfold rank in L;
  repeat match goal with
  | E : as_exp ?f = None |- _ => change (is_exp f = false) with (is_exp f = false);
      let A := fresh in assert (A : is_exp f = false) by (unfold is_exp; rewrite E; reflexivity); clear E
  | E : as_int ?f = None |- _ =>
      let A := fresh in assert (A : is_int f = false) by (unfold is_int; rewrite E; reflexivity); clear E
  | E : as_rat ?f = None |- _ =>
      let A := fresh in assert (A : is_rat f = false) by (unfold is_rat; rewrite E; reflexivity); clear E
  | E : negb (is_exp ?g) = true |- _ => apply negb_true_iff in E
  end;
  repeat match goal with
  | E : is_exp ?f = _ |- _ => rewrite E in L; clear E
  | E : is_int ?f = _ |- _ => rewrite E in L; clear E
  | E : is_rat ?f = false |- _ => rewrite E in L; clear E
  end;
  cbn [is_exp as_exp is_int as_int is_rat as_rat] in L.

Lemma is_rat_cst : forall f, is_rat f = true -> is_cst f = true.
Proof. intros f H; unfold is_cst; rewrite H; apply orb_true_r. Qed.

Ltac rat_cst :=
  repeat match goal with
  | H : is_rat ?f = true |- _ =>
      lazymatch goal with _ : is_cst f = true |- _ => fail | _ => pose proof (is_rat_cst f H) end
  end.

Ltac oof_rec' R Z H L :=
  split_bool; inv_as; rat_cst; know_rank L;
  repeat match type of L with context [if ?x then _ else _] => destruct x end;
  oof_rec R Z H.

Lemma mult_fuel : forall m, enough (calls m) m -> enough (calls (S m)) (S m) ->
  forall f g, 8 * (size f + size g) + 1 + rank f g < S (S m) ->
  mult_body (calls (S m)) f g <> OutOfFuel.
Proof.
  intros m R0 R f g L H. pose proof (calls_size (S m)) as Z. pose proof (calls_size m) as Z0.
  unfold mult_body in H.
  stepso H; try (exfalso; oof_leaf H); inv_as; oof_inv H; try (oof_leaf H).
  all: try match goal with E : (true && is_cst _)%bool = false |- _ => discriminate E end.
  all: try solve [oof_rec' R Z H L].
  (* SumT(x)*g -> g*SumT(x): the next call applies the rule for SumT on the right *)
  all: change (mult_body (calls m) g (Lin (LSumT n) f0) = OutOfFuel) in H
    || change (mult_body (calls m) (Bin BMult f0 f1) (Lin (LSumT n) f2) = OutOfFuel) in H;
    unfold mult_body in H.
  all: stepso H; try congruence; try (exfalso; oof_leaf H); inv_as; oof_inv H; try (oof_leaf H).
  all: try congruence.
  all: try discriminate.
  all: try solve [oof_rec' R0 Z0 H L].
  all: unfold is_cst, is_int in E10; rewrite E4, E6 in E10; discriminate E10.
Qed.

Lemma calls_enough : forall n, enough (calls n) n /\ enough (calls (S n)) (S n).
Proof.
  assert (O : enough (calls 0) 0) by (split; intros; lia).
  assert (I : enough (calls 1) 1) by (split; intros; pose proof (size_pos f); lia).
  induction n as [|n [A B]]; split; auto.
  pose proof (calls_size (S n)) as Z.
  split; intros.
  - eapply minus_fuel; eauto.
  - eapply add_fuel; eauto.
  - eapply sub_fuel; eauto.
  - apply mult_fuel; auto.
Qed.

Lemma Minus_terminates : forall f, Minus f <> OutOfFuel.
Proof.
  intros f. apply (en_minus _ (fuel_for (size f))); [apply calls_enough|]. unfold fuel_for; lia.
Qed.
Lemma Add_terminates : forall f g, Add f g <> OutOfFuel.
Proof.
  intros f g. apply (en_add _ (fuel_for (size f + size g))); [apply calls_enough|].
  unfold fuel_for; lia.
Qed.
Lemma Subtract_terminates : forall f g, Subtract f g <> OutOfFuel.
Proof.
  intros f g. apply (en_sub _ (fuel_for (size f + size g))); [apply calls_enough|].
  unfold fuel_for; lia.
Qed.
Lemma Mult_terminates : forall f g, Mult f g <> OutOfFuel.
Proof.
  intros f g. apply (en_mult _ (fuel_for (size f + size g))); [apply calls_enough|].
  unfold fuel_for. pose proof (rank_le f g). lia.
Qed.

Lemma Divide_terminates : forall f g, Divide f g <> OutOfFuel.
Proof.
  intros f g H. unfold Divide in H.
  stepso H; try (oof_leaf H); oof_inv H; try (oof_leaf H);
  exfalso; revert H; apply Mult_terminates.
Qed.

Lemma sum_calls_enough : forall n,
  (forall f, 2 * size f < n -> fst (sum_calls n) f <> OutOfFuel) /\
  (forall f g, 2 * (size f + size g) + 1 < n -> snd (sum_calls n) f g <> OutOfFuel).
Proof.
  induction n as [|n [A B]]; [split; intros; lia|].
  cbn [sum_calls]. destruct (sum_calls n) as [rs rp]. cbn [fst snd] in *. split.
  - intros f L H. unfold Sum_body in H.
    stepso H; try (oof_leaf H); oof_inv H; try (oof_leaf H);
    try (exfalso; revert H; apply Mult_terminates);
    revert H; (apply A || apply B); cbn [size] in L; lia.
  - intros f g L H. unfold Scalprod_body in H. pose proof (size_pos f). pose proof (size_pos g).
    stepso H; try (oof_leaf H); oof_inv H; try (oof_leaf H);
    try (exfalso; revert H; apply Mult_terminates);
    try (exfalso; revert H; apply Square_noof);
    sizes; revert H; (apply A || apply B); cbn [size] in *; lia.
Qed.

Lemma Sum_terminates : forall f, Sum f <> OutOfFuel.
Proof. intros f; apply sum_calls_enough; lia. Qed.
Lemma Scalprod_terminates : forall f g, Scalprod f g <> OutOfFuel.
Proof. intros f g; apply sum_calls_enough; lia. Qed.
