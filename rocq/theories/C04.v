(** C04 -- gradients of broadcast two-argument operations have the right shape. *)

From Coq Require Import ZArith Reals Lra Lia.
From Verif Require Import Result Formula Diff GradSpec C04Proofs.

(** For +, -, * and /, the gradient with respect to a scalar operand mixed with a vector
    operand is scalar, and is the adjoint derivative.  Partial: Atan2 and Powf, covered by
    the English claim, are refuted below. *)
Theorem C04_arithmetic_partial : forall b x i c g h,
  match b with BAdd | BSub | BMult | BDiv => True | _ => False end ->
  wf x -> wf (Var i 1 c) -> consistent i 1 c x -> unmixed x ->
  wf g -> dim g = dim x ->
  (DiffT (Bin b (Var i 1 c) x) (Var i 1 c) g = Ok h ->
   dim h = 1%nat /\ adjoint_derivative (Bin b (Var i 1 c) x) i 1 g h) /\
  (DiffT (Bin b x (Var i 1 c)) (Var i 1 c) g = Ok h ->
   dim h = 1%nat /\ adjoint_derivative (Bin b x (Var i 1 c)) i 1 g h).
Proof. exact arith_broadcast. Qed.
Print Assumptions C04_arithmetic_partial.

Example C04_case : wf (Var 1 3 1) /\ wf (Var 0 1 0) /\ consistent 0 1 0 (Var 1 3 1) /\
  unmixed (Var 1 3 1) /\ (forall e, (forall k, e 1%Z k <> 0%R) ->
    smooth e (Bin BDiv (Var 0 1 0) (Var 1 3 1))) /\
  exists h, DiffT (Bin BDiv (Var 0 1 0) (Var 1 3 1)) (Var 0 1 0) (Var 2 3 0) = Ok h.
Proof.
  split; [split; [reflexivity|exact I]|]. split; [split; [reflexivity|exact I]|].
  split; [cbn; discriminate|]. split; [exact I|]. split.
  - intros e H. cbn. split; [exact I|]. split; [exact I|]. intros k _. apply H.
  - eexists. lazy. reflexivity.
Qed.

(** VectorizedScalarOp.DiffT (VectorizedScalarOp.py 34-41) multiplies the incoming vector by
    the derivative without summing: the gradient of atan2(x, y) or of a power with respect
    to a scalar operand, the other operand having dimension 3, is a formula of dimension 3. *)
Theorem C04_atan2_first_refuted : exists h,
  DiffT (Bin BAtan2 (Var 0 1 0) (Var 1 3 1)) (Var 0 1 0) (Var 2 3 0) = Ok h /\ dim h = 3%nat.
Proof. exact atan2_shape. Qed.
Print Assumptions C04_atan2_first_refuted.
Theorem C04_atan2_second_refuted : exists h,
  DiffT (Bin BAtan2 (Var 1 3 1) (Var 0 1 0)) (Var 0 1 0) (Var 2 3 0) = Ok h /\ dim h = 3%nat.
Proof. exact atan2_shape'. Qed.
Print Assumptions C04_atan2_second_refuted.
Theorem C04_power_exponent_refuted : exists h,
  DiffT (Bin BPowf (Var 1 3 1) (Var 0 1 0)) (Var 0 1 0) (Var 2 3 0) = Ok h /\ dim h = 3%nat.
Proof. exact powf_shape. Qed.
Print Assumptions C04_power_exponent_refuted.
Theorem C04_power_base_refuted : exists h,
  DiffT (Bin BPowf (Var 0 1 0) (Var 1 3 1)) (Var 0 1 0) (Var 2 3 0) = Ok h /\ dim h = 3%nat.
Proof. exact powf_shape'. Qed.
Print Assumptions C04_power_base_refuted.

(** The same defect in IfElse with branches of dimensions 1 and 3. *)
Theorem C04_ifelse_branch_refuted : exists h,
  DiffT (Ter TIfElse (Var 1 1 1) (Var 0 1 0) (Var 2 3 1)) (Var 0 1 0) (Var 3 3 0) = Ok h /\
  dim h = 3%nat.
Proof. exact ifelse_shape. Qed.
Print Assumptions C04_ifelse_branch_refuted.
