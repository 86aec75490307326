(** Shapes of the gradients of parameters and a concrete system. *)

From Coq Require Import ZArith Reals Lia Lra Psatz Arith List.
From Verif Require Import Result Formula Diff GradSpec KernelSum KernelSumSpec RedGradSpec KernelSolve
  KernelSolveSpec.
Import ListNotations.
Local Open Scope R_scope.

Lemma parameter_shape : forall M d, param_grad_shape [M; d] = Ok [d].
Proof.
  intros M d. unfold param_grad_shape, ones_matmul. cbn [rev app]. rewrite Nat.eqb_refl. cbn. do 2 f_equal. lia.
Qed.

Lemma batch_parameter_shape : forall B M d, (2 <= B)%nat -> (1 <= d)%nat ->
  param_grad_shape [B; M; d] <> Ok [B; d] /\ param_grad_shape [B; M; d] <> Ok [d] /\
  (B <> M -> param_grad_shape [B; M; d] = PyErr).
Proof.
  intros B M d HB Hd. unfold param_grad_shape, ones_matmul. cbn [rev app].
  destruct (Nat.eqb_spec M B) as [->|N]; cbn.
  - repeat split; [discriminate| |congruence]. intros E. injection E. nia.
  - repeat split; discriminate.
Qed.

(** K = p x y^T with p = 2 and x = y = (1, 2), alpha = 1. *)
Definition ex_f : fm :=
  Bin BMult (Bin BMult (Bin BMult (Var 3 1 2) (Var 0 1 0)) (Var 1 1 1)) (Var 2 1 1).
Definition ex_decl : declaration := fun a =>
  match a with 0%Z => (1, 0) | 1%Z => (1, 1) | 2%Z => (1, 1) | 3%Z => (1, 2) | _ => (1, 0) end%nat.
Definition ex_args : arguments := fun a r _ =>
  match a with 0%Z | 1%Z => INR (S r) | 2%Z => 1 | 3%Z => 2 | _ => 0 end.

Lemma ex_reg : forall A U n, regularised ex_decl A 2 2 ex_f 0 2 1 U n 0%nat
  = A 3%Z 0%nat 0%nat * A 0%Z n 0%nat * A 1%Z 0%nat 0%nat * U 0%nat 0%nat
    + A 3%Z 0%nat 0%nat * A 0%Z n 0%nat * A 1%Z 1%nat 0%nat * U 1%nat 0%nat + U n 0%nat.
Proof. intros A U n. unfold regularised. cbn. ring. Qed.

Lemma ex_linear : forall A, linear_op 2 1 (regularised ex_decl A 2 2 ex_f 0 2 1).
Proof.
  intros A U c V r k Hr Hk. replace k with 0%nat by lia. rewrite !ex_reg. ring.
Qed.
Lemma ex_symmetric : symmetric_op 2 1 (regularised ex_decl ex_args 2 2 ex_f 0 2 1).
Proof. intros U V. unfold pairing. cbn [total inner]. rewrite !ex_reg. cbn. ring. Qed.
Lemma ex_positive : positive_op 2 1 (regularised ex_decl ex_args 2 2 ex_f 0 2 1).
Proof.
  intros U HU. unfold pairing. cbn [total inner]. rewrite !ex_reg. cbn.
  set (u := U 0%nat 0%nat). set (v := U 1%nat 0%nat).
  assert (E : u <> 0 \/ v <> 0).
  { destruct (Req_dec u 0); auto. destruct (Req_dec v 0); auto. exfalso. apply HU.
    intros r k Hr Hk. replace k with 0%nat by lia. destruct r as [|[|r]]; [assumption|assumption|lia]. }
  assert (0 < u * u + v * v).
  { destruct E as [E|E]; [pose proof (Rsqr_pos_lt u E); pose proof (Rle_0_sqr v)|
      pose proof (Rsqr_pos_lt v E); pose proof (Rle_0_sqr u)]; unfold Rsqr in *; lra. }
  pose proof (Rle_0_sqr (u + 2 * v)). unfold Rsqr in *. lra.
Qed.
Lemma ex_accepted : forall pos, In pos [0; 1; 2; 3]%Z -> pos = 2%Z \/
  exists h, DiffT ex_f (Var pos (fst (ex_decl pos)) (snd (ex_decl pos))) (Var 4 1 0) = Ok h.
Proof.
  intros pos [<-|[<-|[<-|[<-|[]]]]]; try (left; reflexivity); right; eexists; lazy; reflexivity.
Qed.
