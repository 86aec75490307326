(** Simplification raises no error on compatible operands that contain no rational
    constant and no SumT of dimension 1 (the two constructs that can make it fail). *)

From Coq Require Import ZArith List Bool Lia.
From Verif Require Import Result Formula Simplify SimplifyProofs Termination.
Import ListNotations.
Local Open Scope nat_scope.

Fixpoint clean (f : fm) : Prop :=
  match f with
  | Var _ _ _ | Zero _ | Int _ => True
  | Rat _ _ => False
  | Un _ f => clean f
  | Bin _ f g => clean f /\ clean g
  | Ter _ f g h => clean f /\ clean g /\ clean h
  | Lin l f => clean f /\ match l with LSumT d => d <> 1 | _ => True end
  | Bil _ f g => clean f /\ clean g
  | Cat f g => clean f /\ clean g
  | Sel _ f => clean f
  end.

Definition fine (r : res fm) : Prop := match r with Ok h => clean h | OutOfFuel => True | _ => False end.

Record fineR (rc : recs) : Prop := {
  fr_minus : forall f, wf f -> clean f -> fine (rminus rc f);
  fr_add : forall f g, wf f -> wf g -> clean f -> clean g -> compat (dim f) (dim g) ->
     fine (radd rc f g);
  fr_sub : forall f g, wf f -> wf g -> clean f -> clean g -> compat (dim f) (dim g) ->
     fine (rsub rc f g);
  fr_mult : forall f g, wf f -> wf g -> clean f -> clean g -> compat (dim f) (dim g) ->
     fine (rmult rc f g)
}.

Lemma fine_bind : forall r k, fine r -> (forall h, r = Ok h -> clean h -> fine (k h)) ->
  fine (rbind r k).
Proof. intros [h| | |] k F K; simpl in *; auto. Qed.

Lemma fine_mk : forall f, node_ok f = true -> clean f -> fine (mk f).
Proof. intros f H C; unfold mk; rewrite H; exact C. Qed.

Lemma fine_SumT : forall f d, dim f = 1 -> clean f -> 1 < d -> fine (SumT f d).
Proof.
  intros f d H C L. unfold SumT. rewrite H. simpl.
  destruct (as_zero f); cbn [on orelse]; apply fine_mk; cbn [node_ok clean]; auto;
  rewrite ?H; try (apply Nat.leb_le; lia).
  split; auto; lia.
Qed.
Lemma fine_Broadcast : forall f d, clean f -> 1 <= d -> compat (dim f) d -> fine (Broadcast f d).
Proof.
  intros f d C L K. unfold Broadcast.
  destruct (Nat.eqb_spec (dim f) d); simpl; auto.
  destruct (Nat.eqb_spec d 1); simpl; auto.
  destruct (Nat.eqb_spec (dim f) 1); simpl; auto.
  - apply fine_SumT; auto; lia.
  - unfold compat in K; lia.
Qed.
Lemma fine_Square : forall f, clean f -> fine (Square f).
Proof.
  intros f C. unfold Square. destruct (as_zero f); simpl; auto.
Qed.
Lemma fine_Exp : forall f, clean f -> fine (Exp f).
Proof. auto. Qed.
Lemma clean_IntCst : forall z, clean (IntCst z).
Proof. intros; unfold IntCst; destruct (z =? 0)%Z; simpl; auto. Qed.

Ltac redf :=
  cbn [as_zero as_int as_rat as_mult as_add as_sub as_minus as_exp as_sumT
       is_int is_rat orelse on on' when when'].
Ltac stepf :=
  redf;
  lazymatch goal with
  | |- fine (orelse (on ?o _) _) => pickf o
  | |- fine (orelse (on' ?o _) _) => pickf o
  | |- fine (orelse (when ?c _) _) => pickf c
  | |- fine (if ?c then _ else _) => pickf c
  | |- fine (orelse (when' ?c _ _) _) => pickf c
  end
with pickf o :=
  let E := fresh "E" in
  destruct o eqn:E;
  [ repeat match goal with p : (_ * _)%type |- _ => destruct p end; inv_as | ].

Ltac cleans :=
  repeat match goal with
  | H : clean (Un _ _) |- _ => cbn [clean] in H
  | H : clean (Bin _ _ _) |- _ => cbn [clean] in H; destruct H
  | H : clean (Lin _ _) |- _ => cbn [clean] in H; destruct H
  | H : clean (Rat _ _) |- _ => destruct H
  end.

Ltac clean_goal :=
  match goal with
  | |- clean (IntCst _) => apply clean_IntCst
  | |- clean (Int _) => exact I
  | |- clean (Zero _) => exact I
  | |- clean (Un _ _) => cbn [clean]; clean_goal
  | |- clean (Bin _ _ _) => split; clean_goal
  | |- _ /\ _ => split; clean_goal
  | |- _ => assumption
  | |- clean (Lin (LSumT _) _) => split; [clean_goal|assumption]
  end.

Lemma cst_dim : forall f, is_cst f = true -> dim f = 1.
Proof. destruct f; simpl; try discriminate; auto. Qed.
Ltac csts := split_bool; repeat match goal with H : is_cst _ = true |- _ => apply cst_dim in H end.

Notation sndR := (soundR safe_doms).

Ltac forward1 :=
  match goal with
  | H : sound2 _ _ _ _ _ |- _ =>
      eapply sound2_use in H; [|wf_goal|wf_goal]; destruct H as (? & ? & ? & ? & _)
  | H : sound1 _ _ _ _ |- _ =>
      eapply sound1_use in H; [|wf_goal]; destruct H as (? & ? & ? & _)
  | H : RatCst _ _ = Ok _ |- _ =>
      apply (RatCst_ok safe_doms) in H; destruct H as (? & ? & ? & _)
  | H : Broadcast ?f ?d = Ok _ |- _ =>
      apply (Broadcast_ok safe_doms) in H; [|wf_goal|first [assumption|apply dim_pos; wf_goal]];
      destruct H as (? & ? & ? & _)
  | H : SumT ?f ?d = Ok _ |- _ =>
      apply (SumT_ok safe_doms) in H; [|wf_goal]; destruct H as (? & ? & ? & ? & _)
  | H : Exp _ = Ok _ |- _ => apply Exp_ok in H; subst
  | H : Square _ = Ok _ |- _ => apply (Square_ok _ safe_arith_ok) in H
  end.

(** Facts about the result of a call that succeeded. *)
Ltac fact S H :=
  lazymatch type of H with
  | rminus _ _ = Ok _ => apply (sr_minus _ _ S) in H
  | radd _ _ _ = Ok _ => apply (sr_add _ _ S) in H
  | rsub _ _ _ = Ok _ => apply (sr_sub _ _ S) in H
  | rmult _ _ _ = Ok _ => apply (sr_mult _ _ S) in H
  | _ => idtac
  end.

Ltac dimsf := unfold compat in *; cbn [dim] in *; rewrite ?IntCst_dim in *; lia.

Ltac fine_leaf R S :=
  lazymatch goal with
  | |- fine (Ok _) => cbn [fine]; clean_goal
  | |- fine (rbind _ _) =>
      apply fine_bind; [fine_leaf R S|
        let h := fresh "h" in let H := fresh "H" in let C := fresh "C" in
        intros h H C; fact S H; repeat forward1; fine_leaf R S]
  | |- fine (rminus _ _) => apply (fr_minus _ R); [wf_goal|clean_goal]
  | |- fine (radd _ _ _) => apply (fr_add _ R); [wf_goal|wf_goal|clean_goal|clean_goal|dimsf]
  | |- fine (rsub _ _ _) => apply (fr_sub _ R); [wf_goal|wf_goal|clean_goal|clean_goal|dimsf]
  | |- fine (rmult _ _ _) => apply (fr_mult _ R); [wf_goal|wf_goal|clean_goal|clean_goal|dimsf]
  | |- fine (Broadcast _ _) => apply fine_Broadcast; [clean_goal|dimsf|dimsf]
  | |- fine (Square _) => apply fine_Square; clean_goal
  | |- fine (Exp _) => apply fine_Exp; clean_goal
  | |- fine (SumT _ _) => apply fine_SumT; [dimsf|clean_goal|dimsf]
  | |- fine (mk (Bin _ _ _)) => apply fine_mk; [apply vcompat2_spec; dimsf|clean_goal]
  | |- fine (mk (Zero _)) => apply fine_mk; [apply Nat.leb_le; dimsf|clean_goal]
  | |- fine (mk _) => apply fine_mk; [reflexivity|clean_goal]
  | |- fine (RatCst _ _) => idtac
  | |- fine KErr => exfalso;
      repeat match goal with
      | H : (_ =? _) = false |- _ => apply Nat.eqb_neq in H
      | H : negb (_ =? _) = true |- _ => apply negb_true_iff in H; apply Nat.eqb_neq in H
      end; dimsf
  | |- _ => idtac
  end.

Lemma minus_fine : forall rc, sndR rc -> fineR rc -> forall f, wf f -> clean f -> fine (minus_body rc f).
Proof.
  intros rc S R f W C. assert (P := dim_pos _ W).
  unfold minus_body. repeat stepf; redf; cleans; csts; wfs; try tauto; try (fine_leaf R S).
Qed.
Lemma add_fine : forall rc, sndR rc -> fineR rc -> forall f g, wf f -> wf g -> clean f -> clean g ->
  compat (dim f) (dim g) -> fine (add_body rc f g).
Proof.
  intros rc S R f g W W' C C' K. assert (P := dim_pos _ W). assert (P' := dim_pos _ W').
  unfold add_body. repeat stepf; redf; cleans; csts; wfs; try tauto; try (fine_leaf R S).
Qed.
Lemma sub_fine : forall rc, sndR rc -> fineR rc -> forall f g, wf f -> wf g -> clean f -> clean g ->
  compat (dim f) (dim g) -> fine (sub_body rc f g).
Proof.
  intros rc S R f g W W' C C' K. assert (P := dim_pos _ W). assert (P' := dim_pos _ W').
  unfold sub_body. repeat stepf; redf; cleans; csts; wfs; try tauto; try (fine_leaf R S).
Qed.
Lemma mult_fine : forall rc, sndR rc -> fineR rc -> forall f g, wf f -> wf g -> clean f -> clean g ->
  compat (dim f) (dim g) -> fine (mult_body rc f g).
Proof.
  intros rc S R f g W W' C C' K. assert (P := dim_pos _ W). assert (P' := dim_pos _ W').
  unfold mult_body. repeat stepf; redf; cleans; csts; wfs; try tauto; try (fine_leaf R S).
Qed.

Lemma calls_fine : forall n, fineR (calls n).
Proof.
  induction n as [|n IH]; [split; simpl; auto|].
  pose proof (calls_sound _ safe_arith_ok n) as S.
  split; simpl; intros.
  - apply minus_fine; auto.
  - apply add_fine; auto.
  - apply sub_fine; auto.
  - apply mult_fine; auto.
Qed.

Lemma fine_ok : forall r, fine r -> r <> OutOfFuel -> exists h, r = Ok h /\ clean h.
Proof. intros [h| | |]; simpl; intros; try tauto; eauto. Qed.

Lemma Minus_succeeds : forall f, wf f -> clean f -> exists h, Minus f = Ok h /\ clean h.
Proof.
  intros f W C. apply fine_ok; [apply calls_fine; auto|apply Minus_terminates].
Qed.
Lemma Add_succeeds : forall f g, wf f -> wf g -> clean f -> clean g -> compat (dim f) (dim g) ->
  exists h, Add f g = Ok h /\ clean h.
Proof.
  intros. apply fine_ok; [apply calls_fine; auto|apply Add_terminates].
Qed.
Lemma Subtract_succeeds : forall f g, wf f -> wf g -> clean f -> clean g -> compat (dim f) (dim g) ->
  exists h, Subtract f g = Ok h /\ clean h.
Proof.
  intros. apply fine_ok; [apply calls_fine; auto|apply Subtract_terminates].
Qed.
Lemma Mult_succeeds : forall f g, wf f -> wf g -> clean f -> clean g -> compat (dim f) (dim g) ->
  exists h, Mult f g = Ok h /\ clean h.
Proof.
  intros. apply fine_ok; [apply calls_fine; auto|apply Mult_terminates].
Qed.

(** Sum and Scalprod *)

Lemma sum_calls_fine : forall n,
  (forall f, wf f -> clean f -> fine (fst (sum_calls n) f)) /\
  (forall f g, wf f -> wf g -> clean f -> clean g -> compat (dim f) (dim g) ->
     fine (snd (sum_calls n) f g)).
Proof.
  induction n as [|n [A B]]; [split; simpl; auto|].
  pose proof (sum_calls_sound _ safe_arith_ok n) as SC.
  cbn [sum_calls]. destruct (sum_calls n) as [rs rp]. cbn [fst snd] in *.
  destruct SC as [SA SB].
  assert (M : forall a s, wf a -> wf s -> clean a -> clean s -> dim a = 1 -> dim s = 1 ->
            fine (Mult a s)).
  { intros a s ? ? ? ? Da Ds. destruct (Mult_succeeds a s) as (h & E & C); auto.
    - left; congruence.
    - rewrite E; exact C. }
  split.
  - intros f W C. assert (P := dim_pos _ W). unfold Sum_body.
    repeat stepf; redf; cleans; wfs; auto.
    + apply fine_bind; [apply A; auto|]. intros s Hs Cs. apply SA in Hs.
      destruct (Hs ltac:(assumption)) as (Ws & Ds & _). apply M; auto.
    + apply fine_bind; [apply A; auto|]. intros s Hs Cs. apply SA in Hs.
      destruct (Hs ltac:(assumption)) as (Ws & Ds & _). apply M; auto.
    + apply fine_mk; simpl; auto.
  - intros f g W W' C C' K. assert (P := dim_pos _ W). assert (P' := dim_pos _ W').
    assert (SU : forall a b, wf a -> wf b -> clean a -> clean b -> dim a = 1 ->
              forall z, wf z -> clean z -> compat (dim b) (dim z) ->
              fine (do s <- rp b z; Mult a s)).
    { intros a b ? ? ? ? Da z ? ? ?. apply fine_bind; [apply B; auto|].
      intros s Hs Cs. apply SB in Hs. destruct Hs as (Ws & _ & Ds & _); auto. }
    unfold Scalprod_body.
    repeat stepf; redf.
    + apply fine_bind; [apply A; auto|]. intros s Hs Cs. apply SA in Hs.
      destruct (Hs ltac:(assumption)) as (Ws & Ds & _). apply M; auto.
    + apply fine_bind; [apply A; auto|]. intros s Hs Cs. apply SA in Hs.
      destruct (Hs ltac:(assumption)) as (Ws & Ds & _). apply M; auto.
    + apply fine_bind; [apply fine_Square; auto|]. intros s Hs Cs.
      apply (Square_ok _ safe_arith_ok) in Hs. destruct (Hs W) as (Ws & Ds & _). apply A; auto.
    + cleans; wfs. apply SU; auto. dimsf.
    + cleans; wfs. apply SU; auto. dimsf.
    + assert (Hw := W'). cleans; rewrite wf_bin in W'; destruct W' as (? & ? & ? & ? & ?).
      apply SU; auto; try (split; assumption). dimsf.
    + assert (Hw := W'). cleans; rewrite wf_bin in W'; destruct W' as (? & ? & ? & ? & ?).
      apply SU; auto; try (split; assumption). dimsf.
    + apply fine_mk; [|split; assumption]. cbn [node_ok].
      apply Nat.eqb_neq in E, E0. apply Nat.eqb_eq. dimsf.
    + apply fine_mk; [|split; assumption]. cbn [node_ok].
      apply Nat.eqb_neq in E, E0. apply Nat.eqb_eq. dimsf.
    + cleans; rewrite wf_bin in W'; destruct W' as (? & ? & ? & ? & ?).
      apply SU; auto; try (split; assumption). dimsf.
    + cleans; rewrite wf_bin in W'; destruct W' as (? & ? & ? & ? & ?).
      apply SU; auto; try (split; assumption). dimsf.
    + apply fine_mk; [|split; assumption]. cbn [node_ok].
      apply Nat.eqb_neq in E, E0. apply Nat.eqb_eq. dimsf.
    + apply fine_mk; [|split; assumption]. cbn [node_ok].
      apply Nat.eqb_neq in E, E0. apply Nat.eqb_eq. dimsf.
Qed.

Lemma Sum_succeeds : forall f, wf f -> clean f -> exists h, Sum f = Ok h /\ clean h.
Proof. intros; apply fine_ok; [apply sum_calls_fine; auto|apply Sum_terminates]. Qed.
Lemma Scalprod_succeeds : forall f g, wf f -> wf g -> clean f -> clean g -> compat (dim f) (dim g) ->
  exists h, Scalprod f g = Ok h /\ clean h.
Proof. intros; apply fine_ok; [apply sum_calls_fine; auto|apply Scalprod_terminates]. Qed.
