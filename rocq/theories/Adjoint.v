(** Linear algebra on finite sums, and the effect of the simplifying constructors on the
    pairing of a formula with a direction. *)

From Coq Require Import ZArith Reals Lia Lra List Bool.
From Verif Require Import Result Formula Simplify SimplifyProofs BuildProofs Diff
  GradSpec Calculus ScalarDeriv Tangent DiffRules Closure.
Local Open Scope nat_scope.

(** Inner product of the first n entries. *)
Definition ip (n : nat) (u v : nat -> R) : R := rsum n (fun k => (u k * v k)%R).

Lemma ip_inner : forall n u v, inner n u v = ip n u v.
Proof. intros n u v. unfold ip. induction n; cbn; congruence. Qed.

Lemma ip_ext : forall n u v u' v', (forall k, k < n -> u k = u' k) ->
  (forall k, k < n -> v k = v' k) -> ip n u v = ip n u' v'.
Proof. intros. apply rsum_ext. intros k K. rewrite H, H0; auto. Qed.

Lemma rsum_split : forall n m u, rsum (n + m) u = (rsum n u + rsum m (fun k => u (n + k)%nat))%R.
Proof.
  intros n m u. induction m as [|m IH].
  - rewrite Nat.add_0_r. cbn. ring.
  - rewrite Nat.add_succ_r. cbn [rsum]. rewrite IH. ring.
Qed.

Lemma rsum_prod : forall n m u,
  rsum (n * m) u = rsum n (fun i => rsum m (fun j => u (i * m + j))).
Proof.
  induction n as [|n IH]; intros m u; [reflexivity|].
  cbn [Nat.mul rsum]. rewrite Nat.add_comm, rsum_split, IH. reflexivity.
Qed.

Lemma rsum_swap : forall n m (u : nat -> nat -> R),
  rsum n (fun i => rsum m (fun j => u i j)) = rsum m (fun j => rsum n (fun i => u i j)).
Proof.
  induction n as [|n IH]; intros m u; cbn [rsum].
  - rewrite rsum_zero. reflexivity.
  - rewrite IH, <- rsum_plus. reflexivity.
Qed.

Lemma rsum_single : forall n m u, m < n ->
  rsum n (fun k => if k =? m then u k else 0%R) = u m.
Proof.
  induction n as [|n IH]; intros m u L; [lia|]. cbn [rsum].
  destruct (Nat.eqb_spec n m) as [->|N].
  - rewrite rsum_0; [ring|]. intros k K. destruct (Nat.eqb_spec k m); auto; lia.
  - rewrite IH by lia. ring.
Qed.

Lemma rsum_const : forall n c, rsum n (fun _ => c) = (INR n * c)%R.
Proof. induction n as [|n IH]; intros c; [cbn; ring|]. rewrite S_INR. cbn [rsum]. rewrite IH. ring. Qed.

Lemma divmod_ij : forall i j m, j < m -> (i * m + j) / m = i /\ (i * m + j) mod m = j.
Proof.
  intros i j m L. split.
  - rewrite Nat.add_comm, Nat.div_add by lia. rewrite Nat.div_small; auto.
  - rewrite Nat.add_comm, Nat.mod_add by lia. apply Nat.mod_small; auto.
Qed.

(** One operand of a vectorized operation: [w] is the vector sent to an operand of
    dimension [da] when the result has dimension [n]. *)
Lemma arg_sum : forall n da u w T, 1 <= da ->
  (da = n /\ (forall k, k < n -> w k = u k)) \/ (da = 1 /\ w 0 = rsum n u) ->
  ip da w T = rsum n (fun k => u k * T (pos da k))%R.
Proof.
  intros n da u w T P [[E H]|[E H]]; unfold ip, pos.
  - subst n. apply rsum_ext. intros k K. rewrite H by auto.
    destruct (Nat.eqb_spec da 1); auto. replace k with 0 by lia. auto.
  - subst da. cbn [Nat.eqb]. rewrite rsum_1, H, rsum_scal_r. reflexivity.
Qed.

Section Pairing.
Variable d : nat.
Hypothesis Hd : 1 <= d.

Notation pair h e H := (ip d (eval h e) H).

Lemma c_add : forall x y h, Add x y = Ok h -> wf x -> wf y -> dim x = d -> dim y = d ->
  wf h /\ dim h = d /\ forall e, safe e x -> safe e y -> safe e h /\
  forall H, pair h e H = (pair x e H + pair y e H)%R.
Proof.
  intros x y h E Wx Wy Dx Dy. destruct (i_add _ _ _ E Wx Wy) as (A & B & C).
  split; [auto|]. split; [lia|]. intros e Sx Sy. destruct (C e (conj Sx Sy)) as [S V].
  split; [auto|]. intros H. unfold ip. rewrite <- rsum_plus. apply rsum_ext. intros k K.
  rewrite V by lia. rewrite !val_own by lia. ring.
Qed.
Lemma c_sub : forall x y h, Subtract x y = Ok h -> wf x -> wf y -> dim x = d -> dim y = d ->
  wf h /\ dim h = d /\ forall e, safe e x -> safe e y -> safe e h /\
  forall H, pair h e H = (pair x e H - pair y e H)%R.
Proof.
  intros x y h E Wx Wy Dx Dy. destruct (i_sub _ _ _ E Wx Wy) as (A & B & C).
  split; [auto|]. split; [lia|]. intros e Sx Sy. destruct (C e (conj Sx Sy)) as [S V].
  split; [auto|]. intros H. unfold ip, Rminus. rewrite <- rsum_opp, <- rsum_plus.
  apply rsum_ext. intros k K. rewrite V by lia. rewrite !val_own by lia. ring.
Qed.
Lemma c_minus : forall x h, Minus x = Ok h -> wf x -> dim x = d ->
  wf h /\ dim h = d /\ forall e, safe e x -> safe e h /\
  forall H, pair h e H = (- pair x e H)%R.
Proof.
  intros x h E Wx Dx. destruct (i_minus _ _ E Wx) as (A & B & C).
  split; [auto|]. split; [lia|]. intros e Sx. destruct (C e Sx) as [S V].
  split; [auto|]. intros H. unfold ip. rewrite <- rsum_opp.
  apply rsum_ext. intros k K. rewrite V by lia. ring.
Qed.
Lemma c_mulr : forall x s h, Mult x s = Ok h -> wf x -> wf s -> dim x = d -> dim s = 1 ->
  wf h /\ dim h = d /\ forall e, safe e x -> safe e s -> safe e h /\
  forall H, pair h e H = (pair x e H * eval s e 0)%R.
Proof.
  intros x s h E Wx Wy Dx Dy. destruct (i_mult _ _ _ E Wx Wy) as (A & B & C).
  split; [auto|]. split; [lia|]. intros e Sx Sy. destruct (C e (conj Sx Sy)) as [S V].
  split; [auto|]. intros H. unfold ip. rewrite <- rsum_scal_r. apply rsum_ext. intros k K.
  rewrite V by lia. rewrite (val_own x), (val_1 s) by lia. ring.
Qed.
Lemma c_mull : forall s x h, Mult s x = Ok h -> wf s -> wf x -> dim s = 1 -> dim x = d ->
  wf h /\ dim h = d /\ forall e, safe e s -> safe e x -> safe e h /\
  forall H, pair h e H = (eval s e 0 * pair x e H)%R.
Proof.
  intros s x h E Wx Wy Dx Dy. destruct (i_mult _ _ _ E Wx Wy) as (A & B & C).
  split; [auto|]. split; [lia|]. intros e Sx Sy. destruct (C e (conj Sx Sy)) as [S V].
  split; [auto|]. intros H. unfold ip. rewrite <- rsum_scal. apply rsum_ext. intros k K.
  rewrite V by lia. rewrite (val_own x), (val_1 s) by lia. ring.
Qed.
Lemma c_div1 : forall x s h, Divide x s = Ok h -> wf x -> wf s -> dim x = d -> dim s = 1 ->
  wf h /\ dim h = d /\ forall e, safe e x -> safe e s -> eval s e 0 <> 0%R -> safe e h /\
  forall H, pair h e H = (pair x e H / eval s e 0)%R.
Proof.
  intros x s h E Wx Wy Dx Dy. destruct (i_div _ _ _ E Wx Wy) as (A & B & C).
  split; [auto|]. split; [lia|]. intros e Sx Sy N.
  assert (Q : forall k, k < max (dim x) (dim s) -> val s e k <> 0%R)
    by (intros; rewrite val_1; auto).
  destruct (C e (conj Sx (conj Sy Q))) as [S V].
  split; [auto|]. intros H. unfold ip, Rdiv. rewrite <- rsum_scal_r. apply rsum_ext.
  intros k K. rewrite V by lia. rewrite (val_own x), (val_1 s) by lia. unfold Rdiv. ring.
Qed.
Lemma c_add0 : forall x h, Add (IntCst 0) x = Ok h -> wf x -> dim x = d ->
  wf h /\ dim h = d /\ forall e, safe e x -> safe e h /\
  forall H, pair h e H = pair x e H.
Proof.
  intros x h E Wx Dx. change (IntCst 0) with (Zero 1) in E.
  assert (W0 : wf (Zero 1)) by (split; [reflexivity|exact I]).
  destruct (i_add _ _ _ E W0 Wx) as (A & B & C). cbn [dim] in *.
  split; [auto|]. split; [lia|]. intros e Sx. destruct (C e (conj I Sx)) as [S V].
  split; [auto|]. intros H. unfold ip. apply rsum_ext. intros k K.
  rewrite V by lia. rewrite val_zero, (val_own x) by lia. ring.
Qed.
End Pairing.
