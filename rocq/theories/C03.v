(** C03 -- symbolic gradients are true adjoint derivatives. *)

From Coq Require Import ZArith Reals Lra Lia.
From Verif Require Import Result Formula Diff GradSpec DiffTermination DiffProofs C03Proofs.

(** Whenever Grad(f, v, g) is built, it has the dimension of v, it is defined wherever f is
    differentiable and g is defined, and there <Grad(f,v,g), H> is the derivative of
    <g, f(v + t H)> at t = 0, for every direction H.

    Partial: [unmixed f] excludes scalar/vector mixes in Atan2, Powf and IfElse, and vector
    conditions in IfElse, for which the claim is refuted below and in C04.v.  The hypothesis
    [consistent] says that f gives a single dimension and category to the index of v. *)
Theorem C03_gradient_is_adjoint_partial : forall i d c f g h,
  DiffT f (Var i d c) g = Ok h -> (1 <= d)%nat ->
  wf f -> consistent i d c f -> unmixed f -> wf g -> dim g = dim f ->
  adjoint_derivative f i d g h.
Proof. exact DiffT_adjoint. Qed.
Print Assumptions C03_gradient_is_adjoint_partial.

(** Building a gradient always terminates, with a formula or with an exception. *)
Theorem C03_gradient_terminates : forall f v g, DiffT f v g <> OutOfFuel.
Proof. exact DiffT_terminates. Qed.
Print Assumptions C03_gradient_terminates.

(** IfElse.DiffT (IfElse.py 14-16) applies the condition to the gradients instead of to the
    incoming vector: with a condition of dimension 2 the result is not the derivative. *)
Theorem C03_ifelse_vector_condition_refuted : exists f i d c g h,
  wf f /\ consistent i d c f /\ wf g /\ dim g = dim f /\ (1 <= d)%nat /\
  DiffT f (Var i d c) g = Ok h /\ dim h = d /\ ~ adjoint_derivative f i d g h.
Proof. exact ifelse_refuted. Qed.
Print Assumptions C03_ifelse_vector_condition_refuted.

(** The hypotheses hold for the gradient of exp(-|x-y|^2) * b with respect to x, at every
    point. *)
Example C03_case :
  let d2 := Bin BSub (Var 0 3 0) (Var 1 3 1) in
  let f := Bin BMult (Var 2 2 1) (Un UExp (Un UMinus (Lin LSum (Un USquare d2)))) in
  wf f /\ consistent 0 3 0 f /\ unmixed f /\ (forall e, smooth e f) /\
  exists h, DiffT f (Var 0 3 0) (Var 3 2 0) = Ok h.
Proof.
  cbv zeta. split; [cbn; repeat split|].
  split; [cbn; repeat split; try reflexivity; discriminate|].
  split; [cbn; repeat split|]. split; [intros e; cbn; repeat split; lra|].
  eexists. lazy. reflexivity.
Qed.
