From Coq Require Import ZArith Lia.
From Verif Require Import Result Formula Simplify SimplifyProofs Termination NoError
  Build BuildProofs FormulaSpec.

Lemma division_free_clean : forall f, division_free f -> clean f.
Proof.
  induction f; cbn; intuition auto. destruct l; auto; intros ->; apply H0; reflexivity.
Qed.

Lemma division_free_nodiv : forall f, division_free f -> nodiv f.
Proof. induction f; cbn; intuition auto. Qed.

Lemma add_returns : forall f g, wf f -> wf g -> division_free f -> division_free g ->
  compatible (dim f) (dim g) -> exists h, Add f g = Ok h.
Proof.
  intros f g Wf Wg Cf Cg K. destruct (Add_succeeds f g) as (h & H & _);
    eauto using division_free_clean.
Qed.
Lemma sub_returns : forall f g, wf f -> wf g -> division_free f -> division_free g ->
  compatible (dim f) (dim g) -> exists h, Subtract f g = Ok h.
Proof.
  intros f g Wf Wg Cf Cg K. destruct (Subtract_succeeds f g) as (h & H & _);
    eauto using division_free_clean.
Qed.
Lemma mult_returns : forall f g, wf f -> wf g -> division_free f -> division_free g ->
  compatible (dim f) (dim g) -> exists h, Mult f g = Ok h.
Proof.
  intros f g Wf Wg Cf Cg K. destruct (Mult_succeeds f g) as (h & H & _);
    eauto using division_free_clean.
Qed.

Lemma build_returns : forall f, wf f -> division_free f -> exists h, build f = Ok h.
Proof.
  intros f W C. destruct (build_succeeds f) as (h & H & _);
    eauto using division_free_clean, division_free_nodiv.
Qed.

Lemma ops_terminate : forall f g,
  Add f g <> OutOfFuel /\ Subtract f g <> OutOfFuel /\ Mult f g <> OutOfFuel /\
  Divide f g <> OutOfFuel /\ Minus f <> OutOfFuel /\ Sum f <> OutOfFuel /\
  Scalprod f g <> OutOfFuel.
Proof.
  intros f g.
  repeat split; auto using Add_terminates, Subtract_terminates, Mult_terminates,
    Divide_terminates, Minus_terminates, Sum_terminates, Scalprod_terminates.
Qed.

Lemma incompatible_rejected : forall f g, wf f -> wf g -> ~ compatible (dim f) (dim g) ->
  (forall h, Add f g <> Ok h) /\ (forall h, Subtract f g <> Ok h) /\
  (forall h, Mult f g <> Ok h) /\ (forall h, Divide f g <> Ok h).
Proof.
  intros f g Wf Wg NC. repeat split; intros h H; apply NC.
  - apply (Add_ok _ safe_arith_ok) in H. apply H; auto.
  - apply (Subtract_ok _ safe_arith_ok) in H. apply H; auto.
  - apply (Mult_ok _ safe_arith_ok) in H. apply H; auto.
  - apply (Divide_ok _ safe_arith_ok) in H; auto. apply H.
Qed.

Lemma half_plus_triple_raises :
  build (Bin BAdd (Bin BDiv (Var 0 3 0) (Int 2)) (Bin BMult (Int 3) (Var 0 3 0))) = PyErr.
Proof. lazy. reflexivity. Qed.

Lemma rat_int_raises : forall p q n,
  Add (Rat p q) (Int n) = PyErr /\ Subtract (Rat p q) (Int n) = PyErr.
Proof. intros p q n. split; reflexivity. Qed.

Lemma sumT1_rejected :
  Mult (Lin (LSumT 1) (Lin LSum (Var 0 3 0))) (Var 1 3 1) = KErr.
Proof. lazy. reflexivity. Qed.
