(** Facts about loops over cells. *)

From Coq Require Import ZArith Reals Arith Lia List Bool.
From Verif Require Import XReal Reductions.
Import ListNotations.

Lemma upd_same : forall a p v, upd a p v p = v.
Proof. intros. unfold upd. now rewrite Nat.eqb_refl. Qed.
Lemma upd_other : forall a p v q, q <> p -> upd a p v q = a q.
Proof. intros. unfold upd. destruct (Nat.eqb_spec q p); congruence. Qed.

Lemma for_up_ind : forall (S : Type) (P : nat -> S -> Prop) body n s,
  P 0 s -> (forall k t, k < n -> P k t -> P (Datatypes.S k) (body k t)) -> P n (for_up n body s).
Proof.
  induction n; intros; simpl; [assumption|]. apply H0; [lia|]. apply IHn; [assumption|].
  intros; apply H0; [lia|assumption].
Qed.

Lemma for_up_ext : forall (S : Type) n (b b' : nat -> S -> S) s,
  (forall k t, k < n -> b k t = b' k t) -> for_up n b s = for_up n b' s.
Proof.
  induction n; intros; simpl; [reflexivity|]. rewrite (IHn b b') by (intros; apply H; lia).
  apply H; lia.
Qed.

(** A loop writing cell c k at step k, reading only cells not yet written. *)
Lemma for_up_cell : forall n (c : nat -> nat) (g : nat -> cells -> xr) a,
  (forall i j, i < n -> j < n -> c i = c j -> i = j) ->
  (forall k b, k < n -> (forall q, (forall j, j < k -> q <> c j) -> b q = a q) -> g k b = g k a) ->
  (forall k, k < n -> for_up n (fun k b => upd b (c k) (g k b)) a (c k) = g k a) /\
  (forall q, (forall k, k < n -> q <> c k) -> for_up n (fun k b => upd b (c k) (g k b)) a q = a q).
Proof.
  intros n c g a Hc Hg.
  apply (for_up_ind _ (fun m b => (forall k, k < m -> b (c k) = g k a) /\
                                (forall q, (forall k, k < m -> q <> c k) -> b q = a q))).
  - split; [lia|reflexivity].
  - intros k b Hk [H1 H2]. split.
    + intros j Hj. destruct (Nat.eq_dec j k).
      * subst. rewrite upd_same. apply Hg; assumption.
      * rewrite upd_other; [apply H1; lia|]. intros E. apply n0. apply Hc; (exact E || lia).
    + intros q Hq. rewrite upd_other by (apply Hq; lia). apply H2. intros; apply Hq; lia.
Qed.
