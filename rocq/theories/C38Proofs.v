(** Proofs for C38. *)

From Coq Require Import ZArith Reals Lia List Bool Arith.
From Verif Require Import Result Formula Complex ComplexSpec.
Import ListNotations.
Local Open Scope nat_scope.

Lemma set_nth_length : forall l k v, List.length (set_nth l k v) = List.length l.
Proof. induction l as [|x l IH]; intros [|k] v; cbn; auto. Qed.
Lemma set_nth_same : forall l k v, k < List.length l -> nth_error (set_nth l k v) k = Some v.
Proof. induction l as [|x l IH]; intros [|k] v K; cbn in *; try lia; auto. apply IH. lia. Qed.
Lemma set_nth_other : forall l k j v, j <> k -> nth_error (set_nth l k v) j = nth_error l j.
Proof. induction l as [|x l IH]; intros [|k] [|j] v N; cbn; auto; try lia. Qed.

Definition pow2 (n : nat) : bool := Nat.pow 2 (Nat.log2 n) =? n.

Lemma pow2_spec : forall n, 1 <= n -> pow2 n = true <-> power_of_two n.
Proof.
  intros n N. unfold pow2, power_of_two. rewrite Nat.eqb_eq. split.
  - intros H. eauto.
  - intros [k ->]. rewrite Nat.log2_pow2 by lia. auto.
Qed.
Lemma pow2_double : forall n, 1 <= n -> pow2 (2 * n) = pow2 n.
Proof.
  intros n N. unfold pow2. rewrite Nat.log2_double by lia. rewrite Nat.pow_succ_r'.
  destruct (Nat.eqb_spec (2 ^ Nat.log2 n) n), (Nat.eqb_spec (2 * 2 ^ Nat.log2 n) (2 * n)); lia.
Qed.
Lemma pow2_odd : forall n, 1 <= n -> pow2 (2 * n + 1) = false.
Proof.
  intros n N. unfold pow2. rewrite Nat.log2_succ_double by lia. rewrite Nat.pow_succ_r'. apply Nat.eqb_neq. lia.
Qed.

Section Loop.
Variables re im : R.
(** What is found at index j in the end. *)
Definition W (j : nat) : R := if j =? 0 then re else if pow2 j then im else 0%R.

Lemma W_double : forall n, 1 <= n -> W (2 * n) = W n.
Proof.
  intros n N. unfold W. rewrite pow2_double by auto.
  destruct (Nat.eqb_spec (2 * n) 0), (Nat.eqb_spec n 0); auto; lia.
Qed.
Lemma W_odd : forall n, 1 <= n -> W (2 * n + 1) = 0%R.
Proof. intros n N. unfold W. rewrite pow2_odd by auto. destruct (Nat.eqb_spec (2 * n + 1) 0); auto; lia. Qed.

Lemma loop_later : forall n i x, 1 <= i -> List.length x = 2 * (i + n) ->
  (forall j, j < 2 * i -> nth_error x j = Some (PFloat (W j))) ->
  exists x', list_loop n i x x = Ok x' /\ List.length x' = 2 * (i + n) /\
    forall j, j < 2 * (i + n) -> nth_error x' j = Some (PFloat (W j)).
Proof.
  induction n as [|n IH]; intros i x I L H.
  - exists x. rewrite Nat.add_0_r in *. auto.
  - cbn [list_loop]. unfold get. rewrite (H i) by lia. cbn [rbind py_real].
    destruct (Nat.eqb_spec i 0); [lia|].
    rewrite set_nth_other by lia. rewrite (H i) by lia. cbn [rbind py_imag].
    set (y := set_nth (set_nth x (2 * i) (PFloat (W i))) (2 * i + 1) (PFloat 0)).
    assert (Ly : List.length y = List.length x) by (unfold y; rewrite !set_nth_length; auto).
    destruct (IH (i + 1) y) as (x' & E & L' & V); [lia|lia| |].
    + intros j J. destruct (Nat.eq_dec j (2 * i + 1)) as [->|N1].
      * unfold y. rewrite set_nth_same by (rewrite set_nth_length; lia). rewrite W_odd by auto. auto.
      * unfold y. rewrite set_nth_other by auto. destruct (Nat.eq_dec j (2 * i)) as [->|N2].
        -- rewrite set_nth_same by lia. rewrite W_double by auto. auto.
        -- rewrite set_nth_other by auto. apply H. lia.
    + exists x'. replace (i + S n) with (i + 1 + n) by lia. auto.
Qed.
End Loop.

Lemma decoded_map : forall (W : nat -> R) n s, decoded (map (fun j => PFloat (W j)) (seq s (2 * n)))
  = Some (map (fun q => (W (s + 2 * q), W (s + 2 * q + 1))) (seq 0 n)).
Proof.
  intros W n. induction n as [|n IH]; intros s; [reflexivity|].
  replace (2 * S n) with (S (S (2 * n))) by lia. cbn [seq map decoded]. rewrite IH. cbn [option_map].
  f_equal. f_equal; [f_equal; f_equal; lia|].
  rewrite <- seq_shift, map_map. apply map_ext. intros q. f_equal; f_equal; lia.
Qed.

Lemma list_eq_map : forall (W : nat -> R) n x, List.length x = n ->
  (forall j, j < n -> nth_error x j = Some (PFloat (W j))) -> x = map (fun j => PFloat (W j)) (seq 0 n).
Proof.
  intros W n x L H. apply nth_ext with PNone PNone; [rewrite map_length, seq_length; auto|].
  intros j J. assert (E := H j ltac:(lia)). rewrite (nth_error_nth _ _ _ E).
  rewrite nth_indep with (d' := PFloat (W 0)) by (rewrite map_length, seq_length; lia).
  change (PFloat (W 0)) with ((fun j => PFloat (W j)) 0). rewrite map_nth, seq_nth by lia. reflexivity.
Qed.

Theorem lists : forall x l c, number_of x = Some c ->
  exists r, list_init (x :: l) = Ok r /\
    decoded r = Some (c :: map (fun q => (if pow2 q then snd c else 0, 0)%R) (seq 1 (List.length l))).
Proof.
  intros x l c C. unfold list_init. cbn [List.length list_loop]. unfold get at 1. cbn [nth_error rbind].
  assert (P : py_real x = Ok (PFloat (fst c)) /\ py_imag x = Ok (PFloat (snd c))).
  { destruct x; cbn in C; inversion C; subst; auto. }
  destruct P as [-> PI]. cbn [rbind]. change (0 =? 0) with true. cbn iota. unfold get. cbn [nth_error rbind].
  rewrite PI. cbn [rbind].
  replace (2 * S (List.length l)) with (S (S (2 * List.length l))) by lia.
  change (2 * 0) with 0. change (0 + 1) with 1. cbn [repeat set_nth].
  destruct (loop_later (fst c) (snd c) (List.length l) 1
      (PFloat (fst c) :: PFloat (snd c) :: repeat PNone (2 * List.length l))) as (r & E & L & V).
  - lia.
  - cbn [List.length]. rewrite repeat_length. lia.
  - intros [|[|j]] J; [reflexivity|reflexivity|lia].
  - exists r. split; [exact E|]. rewrite (list_eq_map (W (fst c) (snd c)) _ r L V), decoded_map.
    f_equal. change (1 + List.length l) with (S (List.length l)). cbn [seq map]. f_equal.
    + change (0 + 2 * 0) with 0. change (0 + 1) with 1. unfold W. cbn. destruct c; reflexivity.
    + apply map_ext_in. intros q Q. apply in_seq in Q. rewrite !Nat.add_0_l.
      rewrite W_double, W_odd by lia. unfold W. destruct (Nat.eqb_spec q 0); [lia|]. reflexivity.
Qed.

Theorem single : forall x c, number_of x = Some c -> exists r, list_init [x] = Ok r /\ decoded r = Some [c].
Proof. intros x c C. exact (lists x [] c C). Qed.

Theorem many : forall x l c, number_of x = Some c ->
  exists r v, list_init (x :: l) = Ok r /\ decoded r = Some v /\ List.length v = S (List.length l)
  /\ nth_error v 0 = Some c
  /\ forall q, 1 <= q <= List.length l ->
     (power_of_two q -> nth_error v q = Some (snd c, 0)%R) /\ (~ power_of_two q -> nth_error v q = Some (0, 0)%R).
Proof.
  intros x l c C. destruct (lists x l c C) as (r & E & D). eexists r, _. split; [exact E|]. split; [exact D|].
  split; [cbn [List.length]; rewrite map_length, seq_length; auto|]. split; [reflexivity|]. intros q Q.
  assert (N : forall k, 1 <= k <= List.length l ->
    nth_error (c :: map (fun q => (if pow2 q then snd c else 0, 0)%R) (seq 1 (List.length l))) k
    = Some (if pow2 k then snd c else 0, 0)%R).
  { intros [|k] K; [lia|]. cbn [nth_error].
    apply (map_nth_error (fun q => (if pow2 q then snd c else 0, 0)%R) k (seq 1 (List.length l)) (d := S k)).
    rewrite nth_error_nth' with (d := 0) by (rewrite seq_length; lia). rewrite seq_nth by lia. reflexivity. }
  split; intros P; rewrite N by auto.
  - apply pow2_spec in P; [|lia]. rewrite P. auto.
  - destruct (pow2 q) eqn:X; auto. exfalso. apply P. apply pow2_spec; auto. lia.
Qed.

(** The lists that come out right. *)
Theorem right_lists : forall x l c, number_of x = Some c ->
  (forall r, list_init (x :: l) = Ok r -> forall v, decoded r = Some v -> map Some v = map number_of (x :: l)) ->
  forall q y, 1 <= q -> nth_error (x :: l) q = Some y ->
    (power_of_two q -> number_of y = Some (snd c, 0)%R) /\ (~ power_of_two q -> number_of y = Some (0, 0)%R).
Proof.
  intros x l c C H q y Q Y. destruct (many x l c C) as (r & v & E & D & L & _ & V).
  assert (M := H r E v D).
  assert (B : q <= List.length l).
  { assert (q < List.length (x :: l)) by (apply nth_error_Some; congruence). cbn in *. lia. }
  assert (N : nth_error (map Some v) q = Some (number_of y)) by (rewrite M; apply map_nth_error; auto).
  destruct (V q ltac:(lia)) as [V1 V2].
  split; intros P.
  - assert (X := map_nth_error Some q v (V1 P)). rewrite X in N. injection N as N. symmetry. exact N.
  - assert (X := map_nth_error Some q v (V2 P)). rewrite X in N. injection N as N. symmetry. exact N.
Qed.
