(** * Proofs about the centroids of clusters. *)

From Coq Require Import Reals Arith List Bool Lia Lra.
From Verif Require Import Result RangesConv Clusters Centroids CentroidSpec.
Import ListNotations.
Local Open Scope R_scope.

(** ** Sums *)

Lemma sum_ext : forall f g n, (forall i, (i < n)%nat -> f i = g i) -> sum_to f n = sum_to g n.
Proof.
  induction n as [|n IH]; intros H; [reflexivity|]. cbn [sum_to].
  rewrite IH by (intros; apply H; lia). now rewrite H by lia.
Qed.

Lemma sum_shift : forall f n, sum_to f (S n) = f O + sum_to (fun i => f (S i)) n.
Proof. induction n as [|n IH]; cbn [sum_to] in *; [lra|]. rewrite IH. lra. Qed.

Lemma sum_plus : forall f g n, sum_to (fun i => f i + g i) n = sum_to f n + sum_to g n.
Proof. induction n as [|n IH]; cbn [sum_to]; [lra|]. rewrite IH. lra. Qed.

Lemma sum_zero : forall n, sum_to (fun _ => 0) n = 0.
Proof. induction n as [|n IH]; cbn [sum_to]; [lra|]. rewrite IH. lra. Qed.

Lemma sum_scal : forall c f n, sum_to (fun i => c * f i) n = c * sum_to f n.
Proof. induction n as [|n IH]; cbn [sum_to]; [lra|]. rewrite IH. lra. Qed.

Lemma sum_le : forall f g n, (forall i, (i < n)%nat -> f i <= g i) -> sum_to f n <= sum_to g n.
Proof.
  induction n as [|n IH]; intros H; cbn [sum_to]; [lra|].
  assert (sum_to f n <= sum_to g n) by (apply IH; intros; apply H; lia).
  assert (f n <= g n) by (apply H; lia). lra.
Qed.

Lemma sum_pos : forall f n j, (j < n)%nat -> (forall i, (i < n)%nat -> 0 <= f i) -> 0 < f j ->
  0 < sum_to f n.
Proof.
  induction n as [|n IH]; intros j L H P; [lia|]. cbn [sum_to].
  assert (0 <= sum_to f n).
  { rewrite <- (sum_zero n). apply sum_le. intros. apply H. lia. }
  assert (0 <= f n) by (apply H; lia).
  destruct (Nat.eq_dec j n) as [->|N]; [lra|].
  assert (0 < sum_to f n) by (apply (IH j); auto; lia). lra.
Qed.

Lemma sum_swap : forall f n m,
  sum_to (fun i => sum_to (fun k => f i k) m) n = sum_to (fun k => sum_to (fun i => f i k) n) m.
Proof.
  induction n as [|n IH]; intros m; cbn [sum_to].
  - now rewrite sum_zero.
  - rewrite IH, sum_plus. reflexivity.
Qed.

(** Exactly one term. *)
Lemma sum_one : forall n k c, (k < n)%nat -> sum_to (fun i => if Nat.eqb k i then c else 0) n = c.
Proof.
  induction n as [|n IH]; intros k c L; [lia|]. cbn [sum_to].
  destruct (Nat.eqb_spec k n) as [->|N].
  - rewrite (sum_ext _ (fun _ => 0)); [rewrite sum_zero; lra|].
    intros i I. destruct (Nat.eqb_spec n i); [lia|reflexivity].
  - rewrite IH by lia. lra.
Qed.

(** ** Classes *)

Definition ncl (lab : list nat) : nat := match lab with [] => O | _ => S (fold_left Nat.max lab O) end.

Lemma fold_max_ge : forall l a, (a <= fold_left Nat.max l a)%nat
  /\ (forall x, In x l -> (x <= fold_left Nat.max l a)%nat).
Proof.
  induction l as [|y l IH]; intros a; cbn [fold_left]; [split; [lia|intros x []]|].
  destruct (IH (Nat.max a y)) as [A B]. split; [lia|].
  intros x [->|I]; [lia|]. now apply B.
Qed.

Lemma fold_max_in : forall l a, fold_left Nat.max l a = a \/ In (fold_left Nat.max l a) l.
Proof.
  induction l as [|y l IH]; intros a; cbn [fold_left]; [now left|].
  destruct (IH (Nat.max a y)) as [E|I]; [|right; now right].
  rewrite E. destruct (Nat.max_spec a y) as [[_ ->]|[_ ->]]; [right; now left|now left].
Qed.

Lemma ncl_classes : forall lab, classes lab (ncl lab).
Proof.
  intros lab. unfold classes, ncl. destruct lab as [|y l]; [split; [intros k []|now left]|].
  set (L := y :: l). split.
  - intros k I. destruct (fold_max_ge L O) as [_ B]. specialize (B k I). lia.
  - right. rewrite Nat.sub_succ, Nat.sub_0_r. destruct (fold_max_in L O) as [E|I]; [|exact I].
    rewrite E. destruct (fold_max_ge L O) as [_ B]. specialize (B y (or_introl eq_refl)).
    assert (y = O) by lia. subst y. now left.
Qed.

Lemma class_sum_cons : forall a lab k f,
  class_sum (a :: lab) k f = (if Nat.eqb a k then f O else 0) + class_sum lab k (fun i => f (S i)).
Proof. intros. unfold class_sum. cbn [length]. rewrite sum_shift. reflexivity. Qed.

Lemma class_sum_ext : forall lab k f g, (forall i, (i < length lab)%nat -> f i = g i) ->
  class_sum lab k f = class_sum lab k g.
Proof. intros. apply sum_ext. intros i I. destruct (Nat.eqb _ _); auto. Qed.

Lemma class_sum_empty : forall lab k f, ~ In k lab -> class_sum lab k f = 0.
Proof.
  intros lab k f N. unfold class_sum. rewrite (sum_ext _ (fun _ => 0)); [apply sum_zero|].
  intros i I. destruct (Nat.eqb_spec (nth i lab O) k) as [E|]; [|reflexivity].
  exfalso. apply N. rewrite <- E. now apply nth_In.
Qed.

Lemma class_sum_pos : forall lab k f, In k lab ->
  (forall i, (i < length lab)%nat -> 0 < f i) -> 0 < class_sum lab k f.
Proof.
  intros lab k f I P. apply (In_nth _ _ O) in I. destruct I as (j & L & E).
  apply (sum_pos _ _ j); auto.
  - intros i H. specialize (P i H). destruct (Nat.eqb _ _); lra.
  - rewrite E, Nat.eqb_refl. now apply P.
Qed.

Lemma fold_bins : forall k lab w s, length lab = length w ->
  fold_left (fun s p => if Nat.eqb (fst p) k then s + snd p else s) (combine lab w) s
  = s + class_sum lab k (fun i => nth i w 0).
Proof.
  intros k. induction lab as [|a lab IH]; intros [|b w] s L; cbn [length] in L; try discriminate.
  - unfold class_sum. cbn. lra.
  - cbn [combine fold_left fst snd]. rewrite IH by now injection L.
    rewrite class_sum_cons. cbn [nth]. destruct (Nat.eqb a k); lra.
Qed.

Lemma wbincount_ok : forall lab w, length lab = length w ->
  wbincount lab w
  = Ok (map (fun k => class_sum lab k (fun i => nth i w 0)) (seq 0 (ncl lab))).
Proof.
  intros lab w L. unfold wbincount. rewrite L, Nat.eqb_refl. f_equal. apply map_ext.
  intros k. rewrite fold_bins by exact L. lra.
Qed.

Lemma count_sum : forall k lab, INR (length (filter (Nat.eqb k) lab)) = class_sum lab k (fun _ => 1).
Proof.
  intros k. induction lab as [|a lab IH]; [reflexivity|].
  rewrite class_sum_cons, <- IH. cbn [filter]. rewrite (Nat.eqb_sym k a).
  destruct (Nat.eqb a k); [|lra]. cbn [length]. rewrite S_INR. lra.
Qed.

Lemma bincount_ok : forall lab,
  map INR (bincount lab) = map (fun k => class_sum lab k (fun _ => 1)) (seq 0 (ncl lab)).
Proof.
  intros lab. unfold bincount. rewrite map_map. apply map_ext. intros k. apply count_sum.
Qed.

(** ** Columns *)

Lemma map2_map : forall {A B C T} (h : A -> B -> C) (f : T -> A) (g : T -> B) l,
  map2 h (map f l) (map g l) = map (fun t => h (f t) (g t)) l.
Proof. induction l as [|t l IH]; cbn [map map2]; [reflexivity|]. now rewrite IH. Qed.

Lemma broadcast_map : forall {A B C T} (h : A -> B -> C) (f : T -> A) (g : T -> B) l,
  broadcast h (map f l) (map g l) = Ok (map (fun t => h (f t) (g t)) l).
Proof.
  intros. unfold broadcast. rewrite !map_length, Nat.eqb_refl. now rewrite map2_map.
Qed.

Lemma map2_nth : forall a b i, length a = length b ->
  nth i (map2 Rmult a b) 0 = nth i a 0 * nth i b 0.
Proof.
  induction a as [|x a IH]; intros [|y b] i L; cbn [length] in L; try discriminate.
  - destruct i; cbn; lra.
  - destruct i; cbn [map2 nth]; [reflexivity|]. apply IH. now injection L.
Qed.

Lemma map2_length : forall {A B C} (h : A -> B -> C) a b, length a = length b ->
  length (map2 h a b) = length b.
Proof.
  intros A B C h. induction a as [|x a IH]; intros [|y b] L; cbn [length] in *; try discriminate; auto.
  cbn [map2 length]. rewrite IH; auto.
Qed.

Lemma nth_column : forall x i d, nth i (map (fun p => nth d p 0) x) 0 = coordinate x i d.
Proof.
  intros x i d. unfold coordinate. destruct (Nat.ltb_spec i (length x)) as [L|L].
  - rewrite (nth_indep _ 0 (nth d [] 0)) by now rewrite map_length.
    now rewrite (map_nth (fun p => nth d p 0)).
  - rewrite (nth_overflow x) by exact L. rewrite nth_overflow by now rewrite map_length.
    destruct d; reflexivity.
Qed.

Lemma mapr_ok : forall {A B} (h : A -> res B) (g : A -> B) l,
  (forall a, In a l -> h a = Ok (g a)) -> mapr h l = Ok (map g l).
Proof.
  induction l as [|a l IH]; intros H; [reflexivity|]. cbn [mapr map].
  rewrite H by now left. cbn [rbind]. rewrite IH by (intros; apply H; now right). reflexivity.
Qed.

(** The column of coordinate [d], for weights [w]. *)
Definition means (lab : list nat) (x : list (list R)) (w : nat -> R) (d : nat) : list (option R) :=
  map (fun k => quotient (class_sum lab k (fun i => w i * coordinate x i d)) (class_sum lab k w))
      (seq 0 (ncl lab)).

Lemma means_spec : forall lab x D w,
  (forall i, (i < length lab)%nat -> 0 < w i) ->
  weighted_means lab x D w (map (means lab x w) (seq 0 D)).
Proof.
  intros lab x D w P. split; [now rewrite map_length, seq_length|].
  exists (ncl lab). split; [apply ncl_classes|]. intros d L.
  assert (E : nth d (map (means lab x w) (seq 0 D)) [] = means lab x w d).
  { rewrite (nth_indep _ [] (means lab x w O)) by now rewrite map_length, seq_length.
    rewrite map_nth, seq_nth by exact L. reflexivity. }
  rewrite E. split; [unfold means; now rewrite map_length, seq_length|].
  intros k K. unfold means.
  set (q := fun k => quotient _ _).
  rewrite (nth_indep _ None (q O)) by now rewrite map_length, seq_length.
  rewrite map_nth, seq_nth by exact K. cbn [Nat.add]. unfold q, quotient.
  destruct (in_dec Nat.eq_dec k lab) as [I|N].
  - pose proof (class_sum_pos lab k w I P). destruct (Req_EM_T _ _); [lra|reflexivity].
  - rewrite (class_sum_empty lab k w N). destruct (Req_EM_T _ _); [reflexivity|lra].
Qed.

(** Counts or nothing, total weights or nothing. *)
Lemma centroids_weighted : forall D x lab w Nlab wc,
  length x = length lab -> length w = length lab ->
  Nlab = None \/ Nlab = Some (map INR (bincount lab)) ->
  wc = None \/ wbincount lab w = Ok match wc with Some c => c | None => [] end ->
  cluster_centroids D x lab Nlab (Some w) wc
  = Ok (map (means lab x (fun i => nth i w 0)) (seq 0 D)).
Proof.
  intros D x lab w Nlab wc LX LW HN HC. unfold cluster_centroids.
  set (n := match Nlab with Some n => n | None => map INR (bincount lab) end).
  assert (EN : length n = ncl lab).
  { unfold n. destruct HN as [->| ->]; rewrite bincount_ok, map_length, seq_length; reflexivity. }
  assert (EC : (match wc with
                | None => do s <- wbincount lab w ; Ok (Some s)
                | Some c => Ok (Some c)
                end)
               = Ok (Some (map (fun k => class_sum lab k (fun i => nth i w 0)) (seq 0 (ncl lab))))).
  { destruct wc as [c|].
    - destruct HC as [|HC]; [discriminate|]. rewrite wbincount_ok in HC by now rewrite LW.
      injection HC as <-. reflexivity.
    - rewrite wbincount_ok by now rewrite LW. reflexivity. }
  replace (match wc with Some _ => Ok wc | None => do s <- wbincount lab w ; Ok (Some s) end)
    with (match wc with
          | None => do s <- wbincount lab w ; Ok (Some s)
          | Some c => Ok (Some c)
          end) by (destruct wc; reflexivity).
  rewrite EC. cbn [rbind]. apply mapr_ok. intros d _.
  assert (LC : length (map (fun p => nth d p 0) x) = length w) by now rewrite map_length, LX, LW.
  unfold broadcast at 1. rewrite LC, Nat.eqb_refl. cbn [rbind].
  rewrite wbincount_ok by now rewrite map2_length, LW. cbn [rbind].
  rewrite broadcast_map. cbn [rbind]. unfold column. rewrite map_length, seq_length, EN, Nat.eqb_refl.
  f_equal. apply map_ext. intros k. f_equal. apply class_sum_ext. intros i _.
  rewrite map2_nth by exact LC. rewrite nth_column. lra.
Qed.

Lemma centroids_plain : forall D x lab Nlab wc,
  length x = length lab ->
  Nlab = None \/ Nlab = Some (map INR (bincount lab)) ->
  cluster_centroids D x lab Nlab None wc = Ok (map (means lab x (fun _ => 1)) (seq 0 D)).
Proof.
  intros D x lab Nlab wc LX HN. unfold cluster_centroids.
  set (n := match Nlab with Some n => n | None => map INR (bincount lab) end).
  assert (EN : n = map (fun k => class_sum lab k (fun _ => 1)) (seq 0 (ncl lab))).
  { unfold n. destruct HN as [->| ->]; apply bincount_ok. }
  cbn [rbind]. apply mapr_ok. intros d _.
  rewrite wbincount_ok by now rewrite map_length, LX. cbn [rbind].
  rewrite EN, broadcast_map. cbn [rbind]. unfold column. rewrite !map_length, Nat.eqb_refl.
  f_equal. apply map_ext. intros k. f_equal. apply class_sum_ext. intros i _.
  rewrite nth_column. lra.
Qed.

(** ** The functions *)

Lemma centroids_weighted_spec : forall D x lab w wc,
  length x = length lab -> length w = length lab -> Forall (Rlt 0) w ->
  wc = None \/ wc = Some (map (fun k => class_sum lab k (fun i => nth i w 0))
                            (seq 0 (length (bincount lab)))) ->
  exists cols, cluster_centroids D x lab None (Some w) wc = Ok cols
    /\ weighted_means lab x D (fun i => nth i w 0) cols.
Proof.
  intros D x lab w wc LX LW P HC.
  eexists. split.
  - apply centroids_weighted; auto. destruct HC as [->| ->]; [now left|right].
    rewrite wbincount_ok by now rewrite LW. unfold bincount. now rewrite map_length, seq_length.
  - apply means_spec. intros i I. rewrite Forall_forall in P. apply P. apply nth_In. now rewrite LW.
Qed.

Lemma centroids_plain_spec : forall D x lab wc, length x = length lab ->
  exists cols, cluster_centroids D x lab None None wc = Ok cols
    /\ weighted_means lab x D (fun _ => 1) cols.
Proof.
  intros D x lab wc LX. eexists. split; [apply centroids_plain; auto|].
  apply means_spec. intros. lra.
Qed.

Lemma nth_map_seq : forall (f : nat -> R) n k, (k < n)%nat -> nth k (map f (seq 0 n)) 0 = f k.
Proof.
  intros f n k L. rewrite (nth_indep _ 0 (f O)) by now rewrite map_length, seq_length.
  rewrite map_nth, seq_nth by exact L. reflexivity.
Qed.

Lemma total_weights : forall lab w,
  forall k, (k < ncl lab)%nat ->
  nth k (map (fun k => class_sum lab k w) (seq 0 (ncl lab))) 0 = class_sum lab k w.
Proof. intros. now apply (nth_map_seq (fun k => class_sum lab k w)). Qed.

(** The barycenter is kept. *)
Lemma means_barycenter : forall lab x D w d,
  (forall i, (i < length lab)%nat -> 0 < w i) -> (d < D)%nat ->
  sum_to (fun k => nth k (map (fun k => class_sum lab k w) (seq 0 (ncl lab))) 0
                   * match entry (map (means lab x w) (seq 0 D)) k d with Some c => c | None => 0 end)
         (ncl lab)
  = sum_to (fun i => w i * coordinate x i d) (length lab).
Proof.
  intros lab x D w d P L.
  rewrite (sum_ext _ (fun k => class_sum lab k (fun i => w i * coordinate x i d))).
  - unfold class_sum.
    rewrite <- (sum_swap (fun i k => if Nat.eqb (nth i lab O) k then w i * coordinate x i d else 0)).
    apply sum_ext. intros i I. apply sum_one. destruct (ncl_classes lab) as [B _].
    apply B. now apply nth_In.
  - intros k K. rewrite total_weights by exact K. unfold entry.
    destruct (means_spec lab x D w P) as [_ (C & HC & M)].
    assert (EC : C = ncl lab).
    { destruct (ncl_classes lab) as [B1 B2], HC as [C1 C2].
      destruct B2 as [B2|B2], C2 as [C2|C2]; try (specialize (C1 _ B2)); try (specialize (B1 _ C2)); lia. }
    subst C. destruct (M d L) as [_ E]. rewrite E by exact K.
    destruct (in_dec Nat.eq_dec k lab) as [I|N].
    + pose proof (class_sum_pos lab k w I P). field. lra.
    + rewrite (class_sum_empty lab k w N), (class_sum_empty lab k _ N). lra.
Qed.

(** A mean is between the smallest and the largest coordinate of its class. *)
Lemma mean_between : forall lab x w k d lo hi, In k lab ->
  (forall i, (i < length lab)%nat -> 0 < w i) ->
  (forall i, (i < length lab)%nat -> nth i lab O = k -> lo <= coordinate x i d <= hi) ->
  lo <= class_sum lab k (fun i => w i * coordinate x i d) / class_sum lab k w <= hi.
Proof.
  intros lab x w k d lo hi I P B. pose proof (class_sum_pos lab k w I P) as Q.
  assert (L : lo * class_sum lab k w <= class_sum lab k (fun i => w i * coordinate x i d)).
  { unfold class_sum. rewrite <- sum_scal. apply sum_le. intros i H.
    specialize (P i H). destruct (Nat.eqb_spec (nth i lab O) k) as [E|]; [|lra].
    specialize (B i H E). nra. }
  assert (U : class_sum lab k (fun i => w i * coordinate x i d) <= hi * class_sum lab k w).
  { unfold class_sum. rewrite <- sum_scal. apply sum_le. intros i H.
    specialize (P i H). destruct (Nat.eqb_spec (nth i lab O) k) as [E|]; [|lra].
    specialize (B i H E). nra. }
  split.
  - apply (Rmult_le_reg_r (class_sum lab k w)); [exact Q|]. unfold Rdiv.
    rewrite Rmult_assoc, Rinv_l by lra. lra.
  - apply (Rmult_le_reg_r (class_sum lab k w)); [exact Q|]. unfold Rdiv.
    rewrite Rmult_assoc, Rinv_l by lra. lra.
Qed.

Lemma means_between : forall lab x D w cols k d lo hi,
  weighted_means lab x D w cols -> (forall i, (i < length lab)%nat -> 0 < w i) ->
  In k lab -> (d < D)%nat ->
  (forall i, (i < length lab)%nat -> nth i lab O = k -> lo <= coordinate x i d <= hi) ->
  exists c, entry cols k d = Some c /\ lo <= c <= hi.
Proof.
  intros lab x D w cols k d lo hi [_ (C & [HC _] & M)] P I L B. destruct (M d L) as [_ E].
  unfold entry. rewrite E by now apply HC.
  destruct (in_dec Nat.eq_dec k lab) as [_|N]; [|contradiction].
  eexists. split; [reflexivity|]. now apply mean_between.
Qed.

(** The weights used by [cluster_ranges_centroids]: the given ones, or ones. *)
Definition weight_of (weights : option (list R)) (i : nat) : R :=
  match weights with Some w => nth i w 0 | None => 1 end.

Lemma ranges_centroids_spec : forall D x lab weights,
  length x = length lab ->
  (forall w, weights = Some w -> length w = length lab /\ Forall (Rlt 0) w) ->
  exists cols wc,
    cluster_ranges_centroids D x lab weights = Ok (cluster_ranges lab None, cols, wc)
    /\ weighted_means lab x D (weight_of weights) cols
    /\ classes lab (length wc)
    /\ (forall k, (k < length wc)%nat -> nth k wc 0 = class_sum lab k (weight_of weights))
    /\ (forall d, (d < D)%nat ->
          sum_to (fun k => nth k wc 0 * match entry cols k d with Some c => c | None => 0 end)
                 (length wc)
          = sum_to (fun i => weight_of weights i * coordinate x i d) (length lab))
    /\ (forall k d lo hi, In k lab -> (d < D)%nat ->
          (forall i, (i < length lab)%nat -> nth i lab O = k -> lo <= coordinate x i d <= hi) ->
          exists c, entry cols k d = Some c /\ lo <= c <= hi).
Proof.
  intros D x lab weights LX HW.
  set (u := weight_of weights).
  assert (P : forall i, (i < length lab)%nat -> 0 < u i).
  { unfold u, weight_of. intros i I. destruct weights as [w|]; [|lra].
    destruct (HW w eq_refl) as [LW F]. rewrite Forall_forall in F. apply F. apply nth_In. now rewrite LW. }
  exists (map (means lab x u) (seq 0 D)), (map (fun k => class_sum lab k u) (seq 0 (ncl lab))).
  split; [|split; [now apply means_spec|]].
  - unfold cluster_ranges_centroids, u, weight_of. destruct weights as [w|].
    + destruct (HW w eq_refl) as [LW F]. rewrite wbincount_ok by now rewrite LW. cbn [rbind].
      rewrite centroids_weighted; auto. right. now rewrite wbincount_ok by now rewrite LW.
    + rewrite centroids_plain; auto. cbn [rbind]. rewrite bincount_ok. reflexivity.
  - rewrite map_length, seq_length. split; [apply ncl_classes|].
    split; [intros k K; now apply total_weights|]. split.
    + intros d L. now apply means_barycenter.
    + intros k d lo hi I L B. eapply means_between; eauto. now apply means_spec.
Qed.

Lemma clamped_pos : forall m w, 0 < m -> 0 < clamped m w.
Proof. intros m w H. unfold clamped. destruct (Rle_dec w m); lra. Qed.

Lemma nth_clamped : forall m w i, (i < length w)%nat ->
  nth i (map (clamped m) w) 0 = clamped m (nth i w 0).
Proof.
  intros m w i L. rewrite (nth_indep _ 0 (clamped m 0)) by now rewrite map_length.
  now rewrite (map_nth (clamped m)).
Qed.

Definition weight_torch (weights : option (list R)) (m : R) (i : nat) : R :=
  match weights with Some w => Rmax (nth i w 0) m | None => 1 end.

Lemma means_ext : forall lab x D u v, (forall i, (i < length lab)%nat -> u i = v i) ->
  map (means lab x u) (seq 0 D) = map (means lab x v) (seq 0 D).
Proof.
  intros lab x D u v H. apply map_ext. intros d. apply map_ext. intros k. f_equal.
  - apply class_sum_ext. intros i I. now rewrite H.
  - now apply class_sum_ext.
Qed.

Lemma torch_spec : forall D x lab weights m, 0 < m ->
  length x = length lab ->
  (forall w, weights = Some w -> length w = length lab) ->
  exists cols wc,
    cluster_ranges_centroids_torch D x lab weights m = Ok (cluster_ranges_torch lab, cols, wc)
    /\ weighted_means lab x D (weight_torch weights m) cols
    /\ classes lab (length wc)
    /\ (forall k, (k < length wc)%nat -> nth k wc 0 = class_sum lab k (weight_torch weights m)).
Proof.
  intros D x lab weights m M LX HW.
  set (u := weight_torch weights m).
  assert (P : forall i, (i < length lab)%nat -> 0 < u i).
  { unfold u, weight_torch. intros i I. destruct weights as [w|]; [|lra].
    pose proof (Rmax_r (nth i w 0) m). lra. }
  exists (map (means lab x u) (seq 0 D)), (map (fun k => class_sum lab k u) (seq 0 (ncl lab))).
  split; [|split; [now apply means_spec|]].
  - unfold cluster_ranges_centroids_torch, u, weight_torch. destruct weights as [w|].
    + specialize (HW w eq_refl).
      assert (E : forall i, (i < length lab)%nat -> nth i (map (clamped m) w) 0 = Rmax (nth i w 0) m).
      { intros i I. rewrite nth_clamped by now rewrite HW. unfold clamped, Rmax.
        destruct (Rle_dec (nth i w 0) m); reflexivity. }
      rewrite wbincount_ok by now rewrite map_length, HW. cbn [rbind].
      rewrite centroids_weighted; auto.
      * cbn [rbind]. f_equal. f_equal; [f_equal|].
        -- now apply means_ext.
        -- apply map_ext. intros k. now apply class_sum_ext.
      * now rewrite map_length.
      * right. now rewrite wbincount_ok by now rewrite map_length, HW.
    + rewrite centroids_plain; auto. cbn [rbind]. rewrite bincount_ok. reflexivity.
  - rewrite map_length, seq_length. split; [apply ncl_classes|].
    intros k K. now apply total_weights.
Qed.

(** Weights below the smallest one allowed by torch. *)
Lemma torch_small : forall m, 0 < m -> exists cols wc,
  cluster_ranges_centroids_torch 1 [[0]; [1]] [0; 0]%nat (Some [m / 4; 3 * m / 4]) m
    = Ok ([(0, 2)%nat], cols, wc)
  /\ entry cols 0 0 = Some (1 / 2) /\ wc = [2 * m]
  /\ class_sum [0; 0]%nat 0 (fun i => nth i [m / 4; 3 * m / 4] 0 * coordinate [[0]; [1]] i 0)
     / class_sum [0; 0]%nat 0 (fun i => nth i [m / 4; 3 * m / 4] 0) = 3 / 4.
Proof.
  intros m M.
  assert (A : clamped m (m / 4) = m) by (unfold clamped; destruct (Rle_dec _ _); lra).
  assert (B : clamped m (3 * m / 4) = m) by (unfold clamped; destruct (Rle_dec _ _); lra).
  assert (Q : quotient (0 + 0 * m + 1 * m) (0 + m + m) = Some (1 / 2)).
  { unfold quotient. destruct (Req_EM_T _ _); [lra|]. f_equal. field. lra. }
  do 2 eexists. split; [|split; [|split]].
  - cbn -[quotient INR cluster_ranges_torch]. rewrite A, B.
    cbn -[quotient INR cluster_ranges_torch].
    replace (cluster_ranges_torch [0; 0]%nat) with [(0, 2)%nat]; [reflexivity|].
    vm_compute. reflexivity.
  - cbn -[quotient]. rewrite Q. reflexivity.
  - f_equal. lra.
  - unfold class_sum, coordinate. cbn. field. lra.
Qed.

(** Counts for more classes than there are labels: an error. *)
Lemma missing_classes : forall D x lab n,
  length x = length lab -> (0 < D)%nat ->
  (1 < length (bincount lab))%nat -> (1 < length n)%nat -> length n <> length (bincount lab) ->
  cluster_centroids D x lab (Some n) None None = PyErr.
Proof.
  intros D x lab n LX HD HB HN NE. unfold cluster_centroids. cbn [rbind].
  assert (LB : length (bincount lab) = ncl lab) by (unfold bincount; now rewrite map_length, seq_length).
  destruct D as [|D]; [lia|]. cbn [seq mapr].
  rewrite wbincount_ok by now rewrite map_length, LX. cbn [rbind].
  set (s := map _ (seq 0 (ncl lab))).
  assert (LS : length s = ncl lab) by (unfold s; now rewrite map_length, seq_length).
  assert (E : broadcast quotient s n = PyErr).
  { unfold broadcast. destruct (Nat.eqb_spec (length s) (length n)) as [X|_]; [lia|].
    destruct s as [|a [|b s]]; cbn [length] in LS; try lia.
    destruct n as [|y [|z n]]; cbn [length] in HN; try lia. reflexivity. }
  rewrite E. reflexivity.
Qed.

(** The example of the documentation. *)
Definition ex_points : list (list R) := [[0]; [1]; [4]; [5]; [6]].
Definition ex_labels : list nat := [0; 0; 1; 1; 1]%nat.
Definition ex_weights : list R := [1 / 2; 1 / 2; 2; 1; 1].

Lemma ex_centroids : exists cols,
  cluster_centroids 1 ex_points ex_labels None (Some ex_weights) None = Ok cols
  /\ cols = [[Some (1 / 2); Some (19 / 4)]]
  /\ length ex_points = length ex_labels /\ length ex_weights = length ex_labels
  /\ Forall (Rlt 0) ex_weights.
Proof.
  destruct (centroids_weighted_spec 1 ex_points ex_labels ex_weights None) as (cols & E & L & C & HC & M);
    auto; try reflexivity.
  { unfold ex_weights. repeat constructor; lra. }
  exists cols. split; [exact E|]. split; [|repeat split; unfold ex_weights; repeat constructor; lra].
  assert (C = 2%nat).
  { destruct HC as [H1 H2]. assert (1 < C)%nat by (apply H1; cbn; auto).
    destruct H2 as [|H2]; [lia|]. cbn in H2. lia. }
  subst C. destruct (M O) as [L0 N]; [lia|].
  destruct cols as [|c [|]]; try discriminate. cbn [nth] in *. f_equal.
  destruct c as [|a [|b [|]]]; try discriminate.
  pose proof (N 0%nat ltac:(lia)) as N0. pose proof (N 1%nat ltac:(lia)) as N1. cbn [nth] in N0, N1.
  destruct (in_dec Nat.eq_dec 0%nat ex_labels) as [_|X]; [|exfalso; apply X; cbn; auto].
  destruct (in_dec Nat.eq_dec 1%nat ex_labels) as [_|X]; [|exfalso; apply X; cbn; auto].
  rewrite N0, N1. f_equal; [f_equal|f_equal; f_equal].
  - unfold class_sum, coordinate. cbn. field.
  - unfold class_sum, coordinate. cbn. field.
Qed.

(** A class without points, in the middle and at the end. *)
Lemma ex_empty : exists cols,
  cluster_centroids 1 [[3]; [5]] [0; 2]%nat None None None = Ok cols
  /\ entry cols 1 0 = None /\ entry cols 2 0 = Some 5
  /\ cluster_centroids 1 [[3]; [5]] [0; 1]%nat (Some [1; 1; 0]) None None = PyErr.
Proof.
  destruct (centroids_plain_spec 1 [[3]; [5]] [0; 2]%nat None eq_refl) as (cols & E & L & C & HC & M).
  exists cols. split; [exact E|].
  assert (C = 3%nat).
  { destruct HC as [H1 H2]. assert (2 < C)%nat by (apply H1; cbn; auto).
    destruct H2 as [|H2]; [lia|]. cbn in H2. lia. }
  subst C. destruct (M O) as [L0 N]; [lia|]. unfold entry. split; [|split].
  - rewrite (N 1%nat) by lia. destruct (in_dec _ _ _) as [X|_]; [|reflexivity].
    exfalso. cbn in X. lia.
  - rewrite (N 2%nat) by lia. destruct (in_dec _ _ _) as [_|X]; [|exfalso; apply X; cbn; auto].
    f_equal. unfold class_sum, coordinate. cbn. field.
  - apply missing_classes; cbn; lia.
Qed.
