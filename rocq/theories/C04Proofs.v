From Coq Require Import ZArith Reals Lra Lia.
From Verif Require Import Result Formula Simplify SimplifyProofs Diff GradSpec Calculus
  DiffTermination DiffProofs.
Local Open Scope nat_scope.

Lemma arith_broadcast : forall b x i c g h,
  match b with BAdd | BSub | BMult | BDiv => True | _ => False end ->
  wf x -> wf (Var i 1 c) -> consistent i 1 c x -> unmixed x ->
  wf g -> dim g = dim x ->
  (DiffT (Bin b (Var i 1 c) x) (Var i 1 c) g = Ok h ->
   dim h = 1 /\ adjoint_derivative (Bin b (Var i 1 c) x) i 1 g h) /\
  (DiffT (Bin b x (Var i 1 c)) (Var i 1 c) g = Ok h ->
   dim h = 1 /\ adjoint_derivative (Bin b x (Var i 1 c)) i 1 g h).
Proof.
  intros b x i c g h B W Wv K U Wg Dg. assert (P := dim_pos _ W).
  assert (V1 : vcompat2 1 (dim x) = true)
    by (unfold vcompat2; apply Bool.orb_true_iff; right; apply Nat.eqb_eq; lia).
  assert (V2 : vcompat2 (dim x) 1 = true)
    by (unfold vcompat2; apply Bool.orb_true_iff; right; apply Nat.eqb_eq; lia).
  split; intros E; apply DiffT_adjoint in E.
  - split; [apply E|exact E].
  - lia.
  - split; [exact V1|auto].
  - cbn [consistent]. auto.
  - destruct b; try contradiction; cbn [unmixed]; auto.
  - auto.
  - cbn [dim]. lia.
  - split; [apply E|exact E].
  - lia.
  - split; [exact V2|auto].
  - cbn [consistent]. auto.
  - destruct b; try contradiction; cbn [unmixed]; auto.
  - auto.
  - cbn [dim]. lia.
Qed.

Lemma atan2_shape : exists h,
  DiffT (Bin BAtan2 (Var 0 1 0) (Var 1 3 1)) (Var 0 1 0) (Var 2 3 0) = Ok h /\ dim h = 3.
Proof. eexists. split; [lazy; reflexivity|reflexivity]. Qed.
Lemma atan2_shape' : exists h,
  DiffT (Bin BAtan2 (Var 1 3 1) (Var 0 1 0)) (Var 0 1 0) (Var 2 3 0) = Ok h /\ dim h = 3.
Proof. eexists. split; [lazy; reflexivity|reflexivity]. Qed.
Lemma powf_shape : exists h,
  DiffT (Bin BPowf (Var 1 3 1) (Var 0 1 0)) (Var 0 1 0) (Var 2 3 0) = Ok h /\ dim h = 3.
Proof. eexists. split; [lazy; reflexivity|reflexivity]. Qed.
Lemma powf_shape' : exists h,
  DiffT (Bin BPowf (Var 0 1 0) (Var 1 3 1)) (Var 0 1 0) (Var 2 3 0) = Ok h /\ dim h = 3.
Proof. eexists. split; [lazy; reflexivity|reflexivity]. Qed.
Lemma ifelse_shape : exists h,
  DiffT (Ter TIfElse (Var 1 1 1) (Var 0 1 0) (Var 2 3 1)) (Var 0 1 0) (Var 3 3 0) = Ok h /\
  dim h = 3.
Proof. eexists. split; [lazy; reflexivity|reflexivity]. Qed.
