(** * Proofs about batch shapes. *)

From Coq Require Import ZArith List Lia.
From Verif Require Import Result Broadcast BroadcastSpec.
Import ListNotations.
Open Scope Z_scope.

Lemma from_end_pad : forall k n s, from_end k (pad n s) = from_end k s.
Proof.
  intros. unfold from_end, pad. rewrite rev_app_distr.
  destruct (Nat.lt_ge_cases k (length (rev s))).
  - now rewrite app_nth1.
  - rewrite app_nth2 by easy. rewrite (nth_overflow (rev s)) by easy.
    rewrite <- repeat_length with (n := n) (x := 1) at 1.
    assert (H' : forall m j, nth j (rev (repeat 1 m)) 1 = 1).
    { intros m j. assert (E : forall x, In x (rev (repeat 1 m)) -> x = 1)
        by (intros x I; apply in_rev in I; now apply repeat_spec in I).
      destruct (nth_in_or_default j (rev (repeat 1 m)) 1) as [I|I]; auto. }
    apply H'.
Qed.

Lemma from_end_nth : forall k s, (k < length s)%nat -> from_end k s = nth (length s - S k) s 1.
Proof. intros. unfold from_end. now apply rev_nth. Qed.

Lemma nth_from_end : forall k s, (k < length s)%nat -> nth k s 1 = from_end (length s - S k) s.
Proof.
  intros. rewrite from_end_nth by lia. f_equal. lia.
Qed.

Lemma from_end_over : forall k s, (length s <= k)%nat -> from_end k s = 1.
Proof. intros. apply nth_overflow. now rewrite rev_length. Qed.

Lemma from_end_ext : forall a b, length a = length b ->
  (forall k, from_end k a = from_end k b) -> a = b.
Proof.
  intros a b L H. apply nth_ext with (d := 1) (d' := 1); auto.
  intros k I. rewrite nth_from_end by auto. rewrite H, nth_from_end by lia. now rewrite L.
Qed.

Lemma max_tuple_length : forall a b, length a = length b -> length (max_tuple a b) = length a.
Proof. induction a; destruct b; simpl; intros; try discriminate; auto. Qed.

Lemma max_tuple_nth : forall a b, length a = length b ->
  forall k, nth k (max_tuple a b) 1 = Z.max (nth k a 1) (nth k b 1).
Proof.
  induction a; destruct b; simpl; intros L k; try discriminate; destruct k; auto.
Qed.

Lemma max_tuple_end : forall a b, length a = length b ->
  forall k, from_end k (max_tuple a b) = Z.max (from_end k a) (from_end k b).
Proof.
  intros a b L k. destruct (Nat.lt_ge_cases k (length a)).
  - rewrite !from_end_nth by (rewrite ?max_tuple_length by auto; lia).
    rewrite max_tuple_length by auto. rewrite max_tuple_nth by auto. now rewrite L.
  - rewrite !from_end_over; auto; try lia. rewrite max_tuple_length; auto.
Qed.

Lemma checked_nth : forall a b, length a = length b ->
  (checked a b = true <->
   forall k, nth k a 1 = nth k b 1 \/ nth k a 1 = 1 \/ nth k b 1 = 1).
Proof.
  induction a as [|x a IH]; destruct b as [|y b]; simpl; intros L; try discriminate.
  - split; auto; intros _ [|k]; auto.
  - injection L as L. specialize (IH b L).
    destruct (Z.eqb_spec x 1), (Z.eqb_spec y 1), (Z.eqb_spec x y); simpl;
      try (rewrite IH; split;
        [intros H [|k]; auto | intros H k; exact (H (S k))]).
    split; try discriminate. intros H. destruct (H 0%nat) as [E|[E|E]]; contradiction.
Qed.

Lemma checked_end : forall a b, length a = length b -> (checked a b = true <-> compatible a b).
Proof.
  intros a b L. rewrite checked_nth by auto. unfold compatible. split; intros H k.
  - destruct (Nat.lt_ge_cases k (length a)).
    + rewrite !from_end_nth by lia. rewrite <- L. apply H.
    + rewrite !from_end_over by lia. auto.
  - destruct (Nat.lt_ge_cases k (length a)).
    + rewrite !nth_from_end by lia. rewrite <- L. apply H.
    + rewrite !nth_overflow by lia. auto.
Qed.

Lemma padded_length : forall a b : list Z,
  length (pad (length b - length a) a) = length (pad (length a - length b) b)
  /\ length (pad (length b - length a) a) = Nat.max (length a) (length b).
Proof. intros. unfold pad. rewrite !app_length, !repeat_length. lia. Qed.

Lemma compatible_pad : forall n m a b, compatible (pad n a) (pad m b) <-> compatible a b.
Proof. intros. unfold compatible. split; intros H k; specialize (H k);
  rewrite !from_end_pad in *; auto. Qed.

Lemma positive_end : forall a k, positive a -> 0 < from_end k a.
Proof.
  intros a k P. unfold from_end. destruct (nth_in_or_default k (rev a) 1) as [I|I].
  - apply in_rev in I. unfold positive in P. rewrite Forall_forall in P. now apply P.
  - rewrite I. lia.
Qed.

Lemma check_ok : forall a b, positive a -> positive b -> compatible a b ->
  exists c, check_broadcasting (Some a) (Some b) = Ok (Some c) /\ broadcasts a b c /\ positive c.
Proof.
  intros a b PA PB C. unfold check_broadcasting.
  destruct (padded_length a b) as [L1 L2].
  set (p1 := pad _ a) in *. set (p2 := pad _ b) in *.
  assert (E : checked p1 p2 = true)
    by (apply checked_end; auto; unfold p1, p2; now apply compatible_pad).
  rewrite E. eexists. split; [reflexivity|].
  assert (F : forall k, from_end k (max_tuple p1 p2) = Z.max (from_end k a) (from_end k b)).
  { intros k. rewrite max_tuple_end by auto. unfold p1, p2. now rewrite !from_end_pad. }
  assert (LL : length (max_tuple p1 p2) = Nat.max (length a) (length b))
    by (rewrite max_tuple_length; auto).
  split.
  - split; auto. intros k. rewrite F.
    pose proof (positive_end a k PA). pose proof (positive_end b k PB).
    destruct (C k) as [E1|[E1|E1]]; rewrite E1; lia.
  - apply Forall_forall. intros x I. apply In_nth with (d := 1) in I.
    destruct I as (k & I & X). rewrite nth_from_end in X by auto. subst x. rewrite F.
    pose proof (positive_end a (length (max_tuple p1 p2) - S k) PA). lia.
Qed.

Lemma check_err : forall a b,
  check_broadcasting (Some a) (Some b) = KErr <-> ~ compatible a b.
Proof.
  intros a b. unfold check_broadcasting. destruct (padded_length a b) as [L1 L2].
  pose proof (checked_end _ _ L1) as C. rewrite compatible_pad in C.
  destruct (checked _ _); split; intros H; try discriminate.
  - exfalso. apply H, C; auto.
  - intros N. apply C in N. discriminate.
  - reflexivity.
Qed.

Lemma broadcasts_compatible : forall a b c, broadcasts a b c -> compatible a b.
Proof. intros a b c [_ H] k. destruct (H k) as [[? ?]|[[? ?]|[? ?]]]; auto. Qed.

Lemma broadcasts_fun : forall a b c c', broadcasts a b c -> broadcasts a b c' -> c = c'.
Proof.
  intros a b c c' [L H] [L' H']. apply from_end_ext; try lia. intros k.
  destruct (H k) as [[? ?]|[[? ?]|[? ?]]], (H' k) as [[? ?]|[[? ?]|[? ?]]]; congruence.
Qed.

Lemma check_spec : forall a b c, positive a -> positive b ->
  (check_broadcasting (Some a) (Some b) = Ok (Some c) <-> broadcasts a b c).
Proof.
  intros a b c PA PB. split.
  - intros H. assert (C : compatible a b).
    { destruct (checked (pad (length b - length a) a) (pad (length a - length b) b)) eqn:E.
      - apply checked_end in E; [|apply padded_length]. now apply compatible_pad in E.
      - unfold check_broadcasting in H. rewrite E in H. discriminate. }
    destruct (check_ok a b PA PB C) as (c' & E & B & _). rewrite E in H.
    injection H as H. now subst.
  - intros B. destruct (check_ok a b PA PB (broadcasts_compatible _ _ _ B)) as (c' & E & B' & _).
    rewrite E. do 2 f_equal. eapply broadcasts_fun; eauto.
Qed.

Lemma max_tuple_comm : forall a b, max_tuple a b = max_tuple b a.
Proof. induction a; destruct b; simpl; auto. now rewrite Z.max_comm, IHa. Qed.

Lemma checked_comm : forall a b, checked a b = checked b a.
Proof.
  induction a as [|x a IH]; destruct b as [|y b]; simpl; auto.
  rewrite IH, (Z.eqb_sym x y), (Bool.andb_comm (negb (x =? 1))). reflexivity.
Qed.

Lemma check_comm : forall a b, check_broadcasting a b = check_broadcasting b a.
Proof.
  intros [a|] [b|]; auto. unfold check_broadcasting.
  now rewrite checked_comm, max_tuple_comm.
Qed.

Lemma check_cases : forall a b, (exists c, check_broadcasting (Some a) (Some b) = Ok (Some c))
  \/ check_broadcasting (Some a) (Some b) = KErr.
Proof. intros. unfold check_broadcasting. destruct (checked _ _); eauto. Qed.

Lemma compatible_dec : forall a b, compatible a b \/ ~ compatible a b.
Proof.
  intros a b. destruct (check_cases a b) as [[c H]|H].
  - left. destruct (checked (pad (length b - length a) a) (pad (length a - length b) b)) eqn:E.
    + apply checked_end in E; [|apply padded_length]. now apply compatible_pad in E.
    + unfold check_broadcasting in H. rewrite E in H. discriminate.
  - right. now apply check_err.
Qed.

(** One direction of associativity, on the rule. *)
Lemma broadcasts_assoc : forall a b c x r, positive a -> positive b -> positive c ->
  broadcasts a b x -> broadcasts x c r -> exists y, broadcasts b c y /\ broadcasts a y r.
Proof.
  intros a b c x r PA PB PC [L1 B1] [L2 B2].
  assert (C : compatible b c).
  { intros k. destruct (B1 k) as [[? ?]|[[? ?]|[? ?]]], (B2 k) as [[? ?]|[[? ?]|[? ?]]];
      intuition congruence. }
  destruct (check_ok b c PB PC C) as (y & _ & By & _).
  exists y. split; auto. destruct By as [L3 B3]. split; try lia.
  intros k. destruct (B1 k) as [[? ?]|[[? ?]|[? ?]]], (B2 k) as [[? ?]|[[? ?]|[? ?]]],
    (B3 k) as [[? ?]|[[? ?]|[? ?]]]; intuition congruence.
Qed.

Lemma broadcasts_sym : forall a b c, broadcasts a b c -> broadcasts b a c.
Proof.
  intros a b c [L H]. split; try lia. intros k.
  destruct (H k) as [[? ?]|[[? ?]|[? ?]]]; intuition congruence.
Qed.

Lemma check_positive : forall a b c, positive a -> positive b ->
  check_broadcasting (Some a) (Some b) = Ok (Some c) -> positive c.
Proof.
  intros a b c PA PB H. pose proof (proj1 (check_spec a b c PA PB) H) as B.
  destruct (check_ok a b PA PB (broadcasts_compatible _ _ _ B)) as (c' & E & _ & P).
  congruence.
Qed.

Lemma check_assoc_ok : forall a b c r, positive a -> positive b -> positive c ->
  (do x <- check_broadcasting (Some a) (Some b) ; check_broadcasting x (Some c)) = Ok (Some r) ->
  (do y <- check_broadcasting (Some b) (Some c) ; check_broadcasting (Some a) y) = Ok (Some r).
Proof.
  intros a b c r PA PB PC H.
  destruct (check_cases a b) as [[x E]|E]; rewrite E in H; cbn [rbind] in H; [|discriminate].
  pose proof (check_positive _ _ _ PA PB E) as PX.
  apply check_spec in E; auto. apply check_spec in H; auto.
  destruct (broadcasts_assoc a b c x r PA PB PC E H) as (y & B1 & B2).
  pose proof (proj2 (check_spec b c y PB PC) B1) as E1. rewrite E1. cbn [rbind].
  apply check_spec; auto. eapply check_positive; [exact PB|exact PC|exact E1].
Qed.

Lemma check_none_l : forall a, check_broadcasting None a = Ok a.
Proof. now intros []. Qed.

Lemma check_none_r : forall a, check_broadcasting a None = Ok a.
Proof. now intros []. Qed.

Lemma rbind_none : forall r : res (option shape),
  (do x <- r ; check_broadcasting x None) = r.
Proof. intros [x| | |]; simpl; auto. apply check_none_r. Qed.

Lemma rbind_none_l : forall r : res (option shape),
  (do x <- r ; check_broadcasting None x) = r.
Proof. now intros [x| | |]. Qed.

Lemma check_result : forall a b, (exists c, check_broadcasting a b = Ok c) \/ check_broadcasting a b = KErr.
Proof.
  intros [a|] [b|]; simpl; eauto. destruct (checked _ _); eauto.
Qed.

Lemma assoc_cases : forall a b c,
  (exists r, (do x <- check_broadcasting (Some a) (Some b) ; check_broadcasting x (Some c)) = Ok (Some r))
  \/ (do x <- check_broadcasting (Some a) (Some b) ; check_broadcasting x (Some c)) = KErr.
Proof.
  intros. destruct (check_cases a b) as [[x E]|E]; rewrite E; cbn [rbind]; auto.
  destruct (check_cases x c) as [[r R]|R]; eauto.
Qed.

Lemma check_assoc : forall a b c, positive_opt a -> positive_opt b -> positive_opt c ->
  (do x <- check_broadcasting a b ; check_broadcasting x c)
  = (do y <- check_broadcasting b c ; check_broadcasting a y).
Proof.
  intros a b c PA PB PC.
  destruct a as [a|]; [|rewrite check_none_l; cbn [rbind]; now rewrite rbind_none_l].
  destruct c as [c|]; [|rewrite rbind_none, check_none_r; reflexivity].
  destruct b as [b|]; [|reflexivity]. simpl in PA, PB, PC.
  assert (SW : forall a b c, (do y <- check_broadcasting (Some b) (Some c) ; check_broadcasting (Some a) y)
     = (do y <- check_broadcasting (Some c) (Some b) ; check_broadcasting y (Some a))).
  { intros u v w. rewrite (check_comm (Some v) (Some w)).
    destruct (check_broadcasting (Some w) (Some v)); cbn [rbind]; auto. apply check_comm. }
  destruct (assoc_cases a b c) as [[r E]|E]; rewrite E.
  - symmetry. now apply check_assoc_ok.
  - destruct (assoc_cases c b a) as [[r R]|R].
    + apply check_assoc_ok in R; auto. rewrite SW in R. congruence.
    + now rewrite SW.
Qed.

(** ** Output of a reduction *)

Lemma np_maximum_ok : forall a b c, length a = length b -> positive a -> positive b ->
  broadcasts a b c -> np_maximum a b = Ok c.
Proof.
  intros a b c L PA PB B. unfold np_maximum. rewrite L, Nat.eqb_refl. f_equal.
  destruct B as [L' B]. apply from_end_ext; [rewrite max_tuple_length by auto; lia|].
  intros k. rewrite max_tuple_end by auto.
  pose proof (positive_end a k PA). pose proof (positive_end b k PB).
  destruct (B k) as [[? ?]|[[? ?]|[? ?]]]; lia.
Qed.

Lemma reduce_snoc : forall l a b r, reduce_from a l = Ok r ->
  reduce_from a (l ++ [b]) = np_maximum r b.
Proof.
  induction l as [|x l IH]; simpl; intros a b r H.
  - injection H as ->. destruct (np_maximum r b); auto.
  - apply rbind_ok in H. destruct H as (c & E & H). rewrite E. cbn [rbind]. now apply IH.
Qed.

Lemma broadcasts_all_ok : forall l c n, broadcasts_all l c ->
  (forall a, In a l -> length a = n /\ positive a) ->
  length c = n /\ positive c
  /\ match l with [] => False | a :: l' => reduce_from a l' = Ok c end.
Proof.
  intros l c n B. induction B as [a|l a b c B IH BC]; intros H.
  - destruct (H a) as [L P]; simpl; auto.
  - destruct IH as (L & P & R); [intros x I; apply H, in_or_app; auto|].
    destruct (H a) as [La Pa]; [apply in_or_app; simpl; auto|].
    split; [destruct BC as [LL _]; lia|].
    pose proof (proj2 (check_spec b a c P Pa) BC) as CS.
    split; [eapply check_positive; [exact P|exact Pa|exact CS]|].
    destruct l as [|x l]; [contradiction|]. change (reduce_from x (l ++ [a]) = Ok c).
    rewrite (reduce_snoc _ _ _ _ R). apply np_maximum_ok; auto; lia.
Qed.

Lemma genred_batch_ok : forall n args c,
  (forall s, In s args -> (n <= length s)%nat /\ positive (firstn n s)) ->
  broadcasts_all (map (firstn n) args) c -> genred_batch n args = Ok c.
Proof.
  intros n args c H B. unfold genred_batch.
  apply (broadcasts_all_ok _ _ n) in B.
  - destruct (map (firstn n) args); [tauto|]. tauto.
  - intros a I. apply in_map_iff in I. destruct I as (s & <- & I).
    destruct (H s I). split; auto. rewrite firstn_length. lia.
Qed.

(** ** Statements *)

Lemma combined : forall a b, positive a -> positive b ->
  (compatible a b -> exists c, check_broadcasting (Some a) (Some b) = Ok (Some c) /\ broadcasts a b c)
  /\ (~ compatible a b -> check_broadcasting (Some a) (Some b) = KErr).
Proof.
  intros a b PA PB. split; intros H.
  - destruct (check_ok a b PA PB H) as (c & E & B & _). eauto.
  - now apply check_err.
Qed.

Lemma example_case : broadcasts [4; 1; 3] [5; 1] [4; 5; 3] /\ ~ compatible [4; 2] [4; 3].
Proof.
  split.
  - split; auto. intros [|[|[|[|k]]]]; unfold from_end; simpl; auto.
  - intros H. specialize (H 0%nat). unfold from_end in H. simpl in H. lia.
Qed.

Lemma zero_refuted :
  broadcasts [0] [1] [0]
  /\ check_broadcasting (Some [0]) (Some [1]) = Ok (Some [1])
  /\ (do x <- check_broadcasting (Some [0]) (Some [1]) ; check_broadcasting x (Some [5]))
     = Ok (Some [5])
  /\ (do y <- check_broadcasting (Some [1]) (Some [5]) ; check_broadcasting (Some [0]) y) = KErr.
Proof.
  repeat split; auto. intros [|[|k]]; unfold from_end; simpl; auto.
Qed.

Lemma example_all : broadcasts_all (map (firstn 2) [[3; 1; 10; 2]; [1; 4; 20; 2]; [1; 1; 7]]) [3; 4].
Proof.
  change (broadcasts_all (([[3; 1]] ++ [[1; 4]]) ++ [[1; 1]]) [3; 4]).
  apply BA_more with [3; 4].
  - apply BA_more with [3; 1]; [apply BA_one|].
    split; auto. intros [|[|[|k]]]; unfold from_end; simpl; auto.
  - split; auto. intros [|[|[|k]]]; unfold from_end; simpl; auto.
Qed.
