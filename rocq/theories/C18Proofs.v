(** Proofs for C18. *)

From Coq Require Import Arith Lia List Bool Permutation Sorted.
From Verif Require Import Result RangesConv RangesSpec Clusters ClusterSpec C17Proofs.
Import ListNotations.

(** ** Sorting *)

Lemma mapr_all {T U} (h : T -> res U) (g : T -> U) l : (forall x, In x l -> h x = Ok (g x)) -> mapr h l = Ok (map g l).
Proof.
  induction l as [|x l IH]; intros H; [reflexivity|]. cbn. rewrite H by (left; reflexivity). cbn.
  rewrite IH by (intros; apply H; right; assumption). reflexivity.
Qed.

Lemma taken_reordered {T} (a : list T) perm : Permutation (seq 0 (length a)) perm ->
  exists a', taken a perm = Ok a' /\ reordered perm a a'.
Proof.
  intros HP.
  assert (H : forall q, In q perm -> q < length a).
  { intros q Hq. apply (Permutation_in _ (Permutation_sym HP)) in Hq. apply in_seq in Hq. lia. }
  clear HP. induction perm as [|q perm IH].
  - exists []. split; reflexivity.
  - destruct IH as (a' & E & R); [intros; apply H; right; assumption|].
    destruct (nth_error a q) as [x|] eqn:Ex.
    + exists (x :: a'). unfold taken in *. cbn. unfold rd at 1. rewrite Ex. cbn. rewrite E. cbn. split; [reflexivity|].
      unfold reordered in *. cbn. rewrite R, Ex. reflexivity.
    + apply nth_error_None in Ex. specialize (H q (or_introl eq_refl)). lia.
Qed.

Lemma mapr_reordered {T} n perm (x : list (list T)) : Permutation (seq 0 n) perm -> (forall a, In a x -> length a = n) ->
  exists x', mapr (fun a => taken a perm) x = Ok x' /\ Forall2 (reordered perm) x x'.
Proof.
  intros HP. induction x as [|a x IH]; intros H; [exists []; split; [reflexivity|constructor]|].
  destruct IH as (x' & E & F); [intros; apply H; right; assumption|].
  destruct (taken_reordered a perm) as (a' & Ea & Ra).
  { rewrite (H a (or_introl eq_refl)). exact HP. }
  exists (a' :: x'). cbn. rewrite Ea. cbn. rewrite E. cbn. split; [reflexivity|]. constructor; assumption.
Qed.

Lemma taken_nth (lab : list nat) perm : Permutation (seq 0 (length lab)) perm ->
  taken lab perm = Ok (map (fun q => nth q lab 0) perm).
Proof.
  intros HP. apply taken_all. intros q Hq. apply (Permutation_in _ (Permutation_sym HP)) in Hq. apply in_seq in Hq. lia.
Qed.

Lemma reordered_nth (lab : list nat) perm : Permutation (seq 0 (length lab)) perm ->
  reordered perm lab (map (fun q => nth q lab 0) perm).
Proof.
  intros HP. destruct (taken_reordered lab perm HP) as (a & E & R). rewrite (taken_nth lab perm HP) in E.
  injection E as <-. exact R.
Qed.

Lemma nth_perm (lab : list nat) perm : Permutation (seq 0 (length lab)) perm ->
  Permutation lab (map (fun q => nth q lab 0) perm).
Proof.
  intros HP. etransitivity; [|apply Permutation_map; exact HP]. rewrite nth_seq. reflexivity.
Qed.

(** ** Ranges *)

Definition below (k : nat) (l : list nat) : nat := length (filter (fun x => x <? k) l).
Definition total (l : list nat) : nat := fold_right Nat.add 0 l.

Lemma below_perm k l l' : Permutation l l' -> below k l = below k l'.
Proof.
  unfold below. induction 1 as [|x l l' _ IH|x y l|l l' l'' _ IH _ IH']; cbn [filter].
  - reflexivity.
  - destruct (x <? k); cbn [length]; lia.
  - destruct (x <? k), (y <? k); cbn [length]; lia.
  - lia.
Qed.
Lemma below_step k l : below (S k) l = below k l + length (filter (Nat.eqb k) l).
Proof.
  unfold below. induction l as [|x l IH]; [reflexivity|]. cbn [filter].
  destruct (Nat.ltb_spec x (S k)), (Nat.ltb_spec x k), (Nat.eqb_spec k x); cbn [length]; lia.
Qed.
Lemma below_le k l : below k l <= length l.
Proof. unfold below. induction l as [|x l IH]; cbn [filter length]; [lia|]. destruct (x <? k); cbn [length]; lia. Qed.
Lemma below_0 l : below 0 l = 0.
Proof. unfold below. induction l as [|x l IH]; [reflexivity|exact IH]. Qed.
Lemma below_all k l : (forall x, In x l -> x < k) -> below k l = length l.
Proof.
  unfold below. induction l as [|x l IH]; intros H; [reflexivity|]. cbn [filter length].
  rewrite (proj2 (Nat.ltb_lt x k)) by (apply H; left; reflexivity). cbn [length]. rewrite IH; [reflexivity|].
  intros; apply H; right; assumption.
Qed.

Lemma sorted_below l q k : StronglySorted le l -> q < length l -> (nth q l 0 < k <-> q < below k l).
Proof.
  unfold below. intros HS; revert q. induction HS as [|x l HS IH HF]; intros q Hq; cbn in Hq; [lia|]. cbn [filter].
  destruct (Nat.ltb_spec x k) as [Hx|Hx]; cbn [length].
  - destruct q as [|q]; cbn [nth]; [lia|]. rewrite IH by lia. lia.
  - assert (E : filter (fun y => y <? k) l = []).
    { clear -HF Hx. induction HF as [|y l Hy HF IH]; [reflexivity|]. cbn [filter].
      destruct (Nat.ltb_spec y k); [lia|exact IH]. }
    rewrite E. cbn [length]. destruct q as [|q]; cbn [nth]; [lia|].
    assert (Hq' : q < length l) by lia.
    rewrite Forall_forall in HF. specialize (HF (nth q l 0) (nth_In l 0 Hq')). lia.
Qed.

(** Counts of the labels 0 .. C-1. *)
Definition counts (C : nat) (lab : list nat) : list nat := map (fun k => length (filter (Nat.eqb k) lab)) (seq 0 C).

Lemma cumsum_counts lab C s : cumsum (below s lab) (map (fun k => length (filter (Nat.eqb k) lab)) (seq s C)) =
  map (fun k => below (S k) lab) (seq s C).
Proof.
  revert s; induction C as [|C IH]; intros s; [reflexivity|]. cbn [seq map cumsum].
  rewrite <- below_step, IH. reflexivity.
Qed.

Lemma pivots_counts lab C : stack_pivots (cumsum 0 (counts C lab)) =
  map (fun k => (below k lab, below (S k) lab)) (seq 0 C).
Proof.
  unfold counts. rewrite <- (below_0 lab) at 1. rewrite cumsum_counts. unfold stack_pivots.
  assert (E : forall n s, combine (removelast (below s lab :: map (fun k => below (S k) lab) (seq s n)))
    (map (fun k => below (S k) lab) (seq s n)) = map (fun k => (below k lab, below (S k) lab)) (seq s n)).
  { induction n as [|n IH]; intros s; [reflexivity|].
    cbn [seq map]. change (removelast (below s lab :: below (S s) lab :: map (fun k => below (S k) lab) (seq (S s) n)))
      with (below s lab :: removelast (below (S s) lab :: map (fun k => below (S k) lab) (seq (S s) n))).
    cbn [combine]. rewrite IH. reflexivity. }
  specialize (E C 0). rewrite below_0 in E. exact E.
Qed.

Lemma max_spec lab x : In x lab -> x <= fold_left Nat.max lab 0.
Proof.
  assert (G : forall l m, m <= fold_left Nat.max l m /\ forall x, In x l -> x <= fold_left Nat.max l m).
  { induction l as [|y l IH]; intros m; cbn; [split; [lia|contradiction]|].
    destruct (IH (Nat.max m y)) as (H1 & H2). split; [lia|]. intros z [<-|Hz]; [lia|apply H2; exact Hz]. }
  apply G.
Qed.

Lemma bincount_counts lab : exists C, bincount lab = counts C lab /\ forall x, In x lab -> x < C.
Proof.
  unfold bincount, counts. destruct lab as [|y lab]; [exists 0; split; [reflexivity|contradiction]|].
  eexists; split; [reflexivity|]. intros x Hx. pose proof (max_spec _ _ Hx). lia.
Qed.

Lemma occurrences_filter k l : occurrences k l = length (filter (Nat.eqb k) l).
Proof.
  unfold occurrences. induction l as [|x l IH]; [reflexivity|]. cbn.
  destruct (Nat.eq_dec x k), (Nat.eqb_spec k x); cbn; try lia.
Qed.

(** Intervals of a sorted list of labels below C. *)
Lemma intervals_ok C lab lab' : Permutation lab lab' -> StronglySorted le lab' -> (forall x, In x lab -> x < C) ->
  let r := stack_pivots (cumsum 0 (counts C lab)) in
  length r = C /\
  (forall q k, q < length lab -> (nth q lab' 0 = k <-> k < length r /\ In q (interval (nth k r (0, 0))))) /\
  (forall p, In p r -> fst p <= snd p <= length lab).
Proof.
  intros HP HS HC. cbn zeta. rewrite pivots_counts. rewrite map_length, seq_length. split; [reflexivity|]. split.
  - intros q k Hq.
    assert (HQ : q < length lab') by (rewrite <- (Permutation_length HP); exact Hq).
    assert (HL : nth q lab' 0 < C).
    { apply HC. apply (Permutation_in _ (Permutation_sym HP)). apply nth_In. exact HQ. }
    assert (E : forall k, k < C -> nth k (map (fun k => (below k lab, below (S k) lab)) (seq 0 C)) (0, 0) =
                                   (below k lab, below (S k) lab)).
    { intros k' Hk'. rewrite (nth_indep _ _ ((fun k => (below k lab, below (S k) lab)) 0)) by
        (rewrite map_length, seq_length; exact Hk').
      rewrite (map_nth (fun k => (below k lab, below (S k) lab))), seq_nth by exact Hk'. reflexivity. }
    pose proof (sorted_below lab' q k HS HQ) as H1. pose proof (sorted_below lab' q (S k) HS HQ) as H2.
    rewrite <- (below_perm k _ _ HP) in H1. rewrite <- (below_perm (S k) _ _ HP) in H2. split.
    + intros <-. split; [exact HL|]. rewrite E by exact HL. unfold interval; cbn. apply in_seq. lia.
    + intros (Hk & Hin). rewrite E in Hin by exact Hk. unfold interval in Hin; cbn [fst snd] in Hin. apply in_seq in Hin. lia.
  - intros p Hp. apply in_map_iff in Hp as (k & <- & _). cbn. rewrite below_step at 1.
    pose proof (below_le (S k) lab). rewrite below_step in *. lia.
Qed.

Lemma counts_perm C l l' : Permutation l l' -> counts C l = counts C l'.
Proof.
  intros HP. unfold counts. apply map_ext. intros k. induction HP as [|x l l' _ IH|x y l|l l' l'' _ IH _ IH']; cbn [filter].
  - reflexivity.
  - destruct (k =? x); cbn [length]; lia.
  - destruct (k =? x), (k =? y); cbn [length]; lia.
  - lia.
Qed.
Lemma max_perm l l' : Permutation l l' -> fold_left Nat.max l 0 = fold_left Nat.max l' 0.
Proof.
  intros HP.
  assert (G : forall l m, fold_left Nat.max l m = Nat.max m (fold_right Nat.max 0 l)).
  { induction l0 as [|y l0 IH]; intros m; cbn; [lia|]. rewrite IH. lia. }
  rewrite !G. f_equal. induction HP; cbn; lia.
Qed.
Lemma bincount_perm l l' : Permutation l l' -> bincount l = bincount l'.
Proof.
  intros HP. unfold bincount. rewrite (max_perm _ _ HP). destruct l as [|x l], l' as [|x' l'].
  - reflexivity.
  - apply Permutation_nil in HP. discriminate.
  - symmetry in HP. apply Permutation_nil in HP. discriminate.
  - apply counts_perm. exact HP.
Qed.

(** ** Single precision *)

Lemma rounded_small p n : n <= 2 ^ p -> 1 <= p -> rounded p n = n.
Proof.
  intros H Hp. unfold rounded. cbv zeta. destruct (Nat.ltb_spec n (2 ^ p)) as [|G]; [reflexivity|].
  assert (n = 2 ^ p) as -> by lia. rewrite Nat.log2_pow2 by lia. replace (S p - p) with 1 by lia.
  assert (E : 2 ^ p = 2 ^ (p - 1) * 2 ^ 1) by (rewrite <- Nat.pow_add_r; f_equal; lia).
  rewrite E. rewrite Nat.div_mul by (cbn; lia). rewrite Nat.mod_mul by (cbn; lia).
  change (2 * 0 <? 2 ^ 1) with true. cbn iota. apply Nat.mul_comm.
Qed.

Lemma rounded_next p : 2 <= p -> rounded p (2 ^ p + 1) = 2 ^ p.
Proof.
  intros Hp. unfold rounded. cbv zeta.
  assert (E : 2 ^ p = 2 * 2 ^ (p - 1)) by (change 2 with (2 ^ 1) at 2; rewrite <- Nat.pow_add_r; f_equal; lia).
  assert (E' : 2 ^ (p - 1) = 2 * 2 ^ (p - 2)) by (change 2 with (2 ^ 1) at 2; rewrite <- Nat.pow_add_r; f_equal; lia).
  assert (P : 2 ^ (p - 2) <> 0) by (apply Nat.pow_nonzero; lia).
  destruct (Nat.ltb_spec (2 ^ p + 1) (2 ^ p)) as [|G]; [lia|].
  replace (Nat.log2 (2 ^ p + 1)) with p.
  2: { symmetry. apply Nat.log2_unique; [lia|]. rewrite Nat.pow_succ_r'. lia. }
  replace (S p - p) with 1 by lia. change (2 ^ 1) with 2.
  assert (D : (2 ^ p + 1) / 2 = 2 ^ (p - 1)).
  { symmetry. apply (Nat.div_unique _ 2 _ 1); lia. }
  assert (M : (2 ^ p + 1) mod 2 = 1).
  { symmetry. apply (Nat.mod_unique _ 2 (2 ^ (p - 1)) 1); lia. }
  rewrite D, M. change (2 * 1 <? 2) with false. change (2 <? 2 * 1) with false. cbn iota.
  rewrite E' at 1. rewrite Nat.even_mul. cbn [Nat.even orb]. lia.
Qed.

Lemma cumsum_bound a l : total l + a = last (cumsum a l) a.
Proof.
  revert a; induction l as [|x l IH]; intros a; [reflexivity|]. cbn [total fold_right cumsum].
  fold (total l). specialize (IH (a + x)).
  assert (G : forall (y : nat) l d d', last (y :: l) d = last (y :: l) d').
  { intros y l0; revert y; induction l0 as [|z l0 IHl]; intros y d d'; [reflexivity|]. exact (IHl z d d'). }
  destruct (cumsum (a + x) l) as [|y m] eqn:E.
  - cbn in IH. cbn. lia.
  - change (last (a + x :: y :: m) a) with (last (y :: m) a). rewrite (G y m a (a + x)). lia.
Qed.

Lemma cumsum_exact rnd B a l : (forall n, n <= B -> rnd n = n) -> a + total l <= B ->
  cumsum_rounded rnd a (map rnd l) = cumsum a l.
Proof.
  intros HR; revert a; induction l as [|x l IH]; intros a H; [reflexivity|]. cbn in H. fold (total l) in H. cbn.
  rewrite (HR x) by lia. rewrite HR by lia. rewrite IH by lia. reflexivity.
Qed.

Lemma total_counts C lab : total (counts C lab) = below C lab.
Proof.
  assert (G : forall n s, total (map (fun k => length (filter (Nat.eqb k) lab)) (seq s n)) + below s lab = below (s + n) lab).
  { induction n as [|n IH]; intros s; cbn [seq map total fold_right].
    - cbn. rewrite Nat.add_0_r. reflexivity.
    - match goal with |- context[fold_right Nat.add 0 ?l] => change (fold_right Nat.add 0 l) with (total l) end.
      replace (s + S n) with (S s + n) by lia. rewrite <- (IH (S s)), below_step. lia. }
  specialize (G C 0). rewrite below_0 in G. unfold counts. cbn [Nat.add] in G. lia.
Qed.

Lemma torch_ranges_exact lab : length lab <= 2 ^ 24 -> cluster_ranges_torch lab = cluster_ranges lab None.
Proof.
  intros H. unfold cluster_ranges_torch, cluster_ranges. f_equal.
  apply (cumsum_exact (rounded 24) (2 ^ 24)).
  - intros n Hn. apply rounded_small; [exact Hn|lia].
  - destruct (bincount_counts lab) as (C & -> & _). rewrite total_counts. pose proof (below_le C lab). lia.
Qed.

Lemma torch_one_cluster p : 2 <= p ->
  stack_pivots (cumsum_rounded (rounded p) 0 (map (rounded p) (bincount (repeat 0 (2 ^ p + 1))))) = [(0, 2 ^ p)].
Proof.
  intros Hp.
  assert (E : bincount (repeat 0 (2 ^ p + 1)) = [2 ^ p + 1]).
  { replace (2 ^ p + 1) with (S (2 ^ p)) by lia. generalize (2 ^ p) as n; intros n.
    unfold bincount. cbn [repeat].
    assert (M : forall n, fold_left Nat.max (0 :: repeat 0 n) 0 = 0) by (induction n0; [reflexivity|exact IHn0]).
    rewrite M. cbn [seq map]. f_equal. change (0 :: repeat 0 n) with (repeat 0 (S n)).
    assert (F : forall n, length (filter (Nat.eqb 0) (repeat 0 n)) = n) by (induction n0 as [|n0 IH]; [reflexivity|exact (f_equal S IH)]).
    apply F. }
  rewrite E. cbn [map cumsum_rounded]. rewrite rounded_next by exact Hp. cbn [Nat.add].
  rewrite rounded_small by lia. reflexivity.
Qed.

(** ** Statements *)

Lemma sorted_numpy {T} argsort (x : list (list T)) lab : sorts argsort -> (forall a, In a x -> length a = length lab) ->
  exists x' lab' perm, sort_clusters argsort x lab = Ok (x', lab') /\
    Permutation (seq 0 (length lab)) perm /\ Forall2 (reordered perm) x x' /\ reordered perm lab lab' /\
    StronglySorted le lab'.
Proof.
  intros HS Hx. destruct (HS lab) as (HP & Hsort).
  destruct (mapr_reordered _ _ x HP Hx) as (x' & E & F).
  exists x', (map (fun q => nth q lab 0) (argsort lab)), (argsort lab).
  unfold sort_clusters. cbn zeta. rewrite (taken_nth _ _ HP). cbn. rewrite E. cbn.
  repeat split; auto. apply reordered_nth; exact HP.
Qed.

Lemma sorted_torch {T} sort (x : list (list T)) lab : sorts (fun l => snd (sort l)) ->
  (forall l, reordered (snd (sort l)) l (fst (sort l))) -> (forall a, In a x -> length a = length lab) ->
  exists x' lab' perm, sort_clusters_torch sort x lab = Ok (x', lab') /\
    Permutation (seq 0 (length lab)) perm /\ Forall2 (reordered perm) x x' /\ reordered perm lab lab' /\
    StronglySorted le lab'.
Proof.
  intros HS HR Hx. destruct (HS lab) as (HP & Hsort).
  destruct (mapr_reordered _ _ x HP Hx) as (x' & E & F).
  assert (Efst : fst (sort lab) = map (fun q => nth q lab 0) (snd (sort lab))).
  { pose proof (HR lab) as H1. pose proof (reordered_nth _ _ HP) as H2. unfold reordered in H1, H2.
    rewrite <- H2 in H1. clear -H1. revert H1. generalize (map (fun q => nth q lab 0) (snd (sort lab))) as b.
    generalize (fst (sort lab)) as a. induction a as [|y a IH]; intros [|z b] H; cbn in H; try discriminate; [reflexivity|].
    injection H as -> H. f_equal. apply IH. exact H. }
  unfold sort_clusters_torch. specialize (HR lab). destruct (sort lab) as (lab', perm) eqn:Es. cbn [fst snd] in *.
  exists x', lab', perm. rewrite E. cbn. repeat split; auto. rewrite Efst. exact Hsort.
Qed.

Lemma reordered_perm (lab lab' perm : list nat) : Permutation (seq 0 (length lab)) perm -> reordered perm lab lab' ->
  Permutation lab lab'.
Proof.
  intros HP HR. pose proof (reordered_nth _ _ HP) as H2. unfold reordered in HR, H2. rewrite <- H2 in HR.
  assert (lab' = map (fun q => nth q lab 0) perm).
  { clear -HR. revert HR. generalize (map (fun q => nth q lab 0) perm) as b. induction lab' as [|y a IH]; intros [|z b] H;
      cbn in H; try discriminate; [reflexivity|]. injection H as -> H. f_equal. apply IH. exact H. }
  subst. apply nth_perm. exact HP.
Qed.

Lemma ranges_numpy lab lab' perm : Permutation (seq 0 (length lab)) perm -> reordered perm lab lab' ->
  StronglySorted le lab' ->
  (forall q k, q < length lab ->
     (nth q lab' 0 = k <-> k < length (cluster_ranges lab None) /\
                           In q (interval (nth k (cluster_ranges lab None) (0, 0))))) /\
  (forall p, In p (cluster_ranges lab None) -> fst p <= snd p <= length lab) /\
  cluster_ranges lab' None = cluster_ranges lab None.
Proof.
  intros HP HR HS. pose proof (reordered_perm _ _ _ HP HR) as HPL.
  unfold cluster_ranges. rewrite <- (bincount_perm _ _ HPL).
  destruct (bincount_counts lab) as (C & E & HC). rewrite E.
  destruct (intervals_ok C lab lab' HPL HS HC) as (_ & H1 & H2). auto.
Qed.

Lemma ranges_given lab lab' perm C : Permutation (seq 0 (length lab)) perm -> reordered perm lab lab' ->
  StronglySorted le lab' -> (forall x, In x lab -> x < C) ->
  let r := cluster_ranges lab (Some (map (fun k => occurrences k lab) (seq 0 C))) in
  length r = C /\
  (forall q k, q < length lab -> (nth q lab' 0 = k <-> k < length r /\ In q (interval (nth k r (0, 0))))) /\
  (forall p, In p r -> fst p <= snd p <= length lab).
Proof.
  intros HP HR HS HC. pose proof (reordered_perm _ _ _ HP HR) as HPL.
  unfold cluster_ranges. cbn zeta.
  replace (map (fun k => occurrences k lab) (seq 0 C)) with (counts C lab).
  - apply (intervals_ok C lab lab' HPL HS HC).
  - unfold counts. apply map_ext. intros k. symmetry. apply occurrences_filter.
Qed.

Lemma torch_refuted : cluster_ranges_torch (repeat 0 (2 ^ 24 + 1)) = [(0, 2 ^ 24)].
Proof. exact (torch_one_cluster 24 ltac:(lia)). Qed.
