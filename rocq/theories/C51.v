(** C51: centroids of clusters. *)

From Coq Require Import Reals Arith List.
From Verif Require Import Result Clusters Centroids CentroidSpec C51Proofs.
Import ListNotations.
Local Open Scope R_scope.

(** The centroids of weighted points are the weighted means of the classes; a class without points below
    the largest label has no number.  The total weights of the classes may be given.
    Partial: exact arithmetic, weights of the size of the labels (a weight of size one would be repeated). *)
Theorem C51_weighted_partial : forall D x lab w wc,
  length x = length lab -> length w = length lab -> Forall (Rlt 0) w ->
  wc = None \/ wc = Some (map (fun k => class_sum lab k (fun i => nth i w 0))
                            (seq 0 (length (bincount lab)))) ->
  exists cols, cluster_centroids D x lab None (Some w) wc = Ok cols
    /\ weighted_means lab x D (fun i => nth i w 0) cols.
Proof. exact centroids_weighted_spec. Qed.
Print Assumptions C51_weighted_partial.

Example C51_weighted_case : exists cols,
  cluster_centroids 1 ex_points ex_labels None (Some ex_weights) None = Ok cols
  /\ cols = [[Some (1 / 2); Some (19 / 4)]]
  /\ length ex_points = length ex_labels /\ length ex_weights = length ex_labels
  /\ Forall (Rlt 0) ex_weights.
Proof. exact ex_centroids. Qed.

(** Without weights, the means of the classes. *)
Theorem C51_plain_partial : forall D x lab wc, length x = length lab ->
  exists cols, cluster_centroids D x lab None None wc = Ok cols
    /\ weighted_means lab x D (fun _ => 1) cols.
Proof. exact centroids_plain_spec. Qed.
Print Assumptions C51_plain_partial.

Example C51_plain_case : exists cols,
  cluster_centroids 1 [[3]; [5]] [0; 2]%nat None None None = Ok cols
  /\ entry cols 1 0 = None /\ entry cols 2 0 = Some 5
  /\ cluster_centroids 1 [[3]; [5]] [0; 1]%nat (Some [1; 1; 0]) None None = PyErr.
Proof. exact ex_empty. Qed.

(** [cluster_ranges_centroids] (numpy): the ranges of C18, the weighted means, the total weights; the
    barycenter of the centroids with the total weights is the one of the points; a centroid is
    between the smallest and the largest coordinates of its class.
    Partial: exact arithmetic; the conversion of the counts to floating point numbers is left
    out (it is exact below 2^53). *)
Theorem C51_ranges_partial : forall D x lab weights,
  length x = length lab ->
  (forall w, weights = Some w -> length w = length lab /\ Forall (Rlt 0) w) ->
  exists cols wc,
    cluster_ranges_centroids D x lab weights = Ok (cluster_ranges lab None, cols, wc)
    /\ weighted_means lab x D (weight_of weights) cols
    /\ classes lab (length wc)
    /\ (forall k, (k < length wc)%nat -> nth k wc 0 = class_sum lab k (weight_of weights))
    /\ (forall d, (d < D)%nat ->
          sum_to (fun k => nth k wc 0 * match entry cols k d with Some c => c | None => 0 end)
                 (length wc)
          = sum_to (fun i => weight_of weights i * coordinate x i d) (length lab))
    /\ (forall k d lo hi, In k lab -> (d < D)%nat ->
          (forall i, (i < length lab)%nat -> nth i lab O = k -> lo <= coordinate x i d <= hi) ->
          exists c, entry cols k d = Some c /\ lo <= c <= hi).
Proof. exact ranges_centroids_spec. Qed.
Print Assumptions C51_ranges_partial.

Example C51_ranges_case : length ex_points = length ex_labels
  /\ (forall w, Some ex_weights = Some w -> length w = length ex_labels /\ Forall (Rlt 0) w).
Proof.
  destruct ex_centroids as (c & _ & _ & A & B & P).
  split; [exact A|]. intros w E. injection E as <-. split; [exact B|exact P].
Qed.

(** torch: the weights are replaced by [min_weight] when they are smaller, so that a class with points always
    has a centroid, whatever the weights.
    Partial: exact arithmetic, except for the ranges (C18). *)
Theorem C51_torch_partial : forall D x lab weights m, 0 < m ->
  length x = length lab ->
  (forall w, weights = Some w -> length w = length lab) ->
  exists cols wc,
    cluster_ranges_centroids_torch D x lab weights m = Ok (cluster_ranges_torch lab, cols, wc)
    /\ weighted_means lab x D (weight_torch weights m) cols
    /\ classes lab (length wc)
    /\ (forall k, (k < length wc)%nat -> nth k wc 0 = class_sum lab k (weight_torch weights m)).
Proof. exact torch_spec. Qed.
Print Assumptions C51_torch_partial.

Example C51_torch_case : 0 < / 1000000000 /\ length ex_points = length ex_labels
  /\ (forall w, Some [0; 0; -1; 1; 2] = Some w -> length w = length ex_labels).
Proof.
  split; [apply Rinv_0_lt_compat, IZR_lt; reflexivity|]. split; [reflexivity|].
  intros w E. injection E as <-. reflexivity.
Qed.

(** torch: with positive weights below [min_weight] the centroid is not the weighted mean, and the total
    weight is not the sum. *)
Theorem C51_torch_small_refuted : forall m, 0 < m -> exists cols wc,
  cluster_ranges_centroids_torch 1 [[0]; [1]] [0; 0]%nat (Some [m / 4; 3 * m / 4]) m
    = Ok ([(0, 2)%nat], cols, wc)
  /\ entry cols 0 0 = Some (1 / 2) /\ wc = [2 * m]
  /\ class_sum [0; 0]%nat 0 (fun i => nth i [m / 4; 3 * m / 4] 0 * coordinate [[0]; [1]] i 0)
     / class_sum [0; 0]%nat 0 (fun i => nth i [m / 4; 3 * m / 4] 0) = 3 / 4.
Proof. exact torch_small. Qed.
Print Assumptions C51_torch_small_refuted.

(** Numbers of points that are given for more classes than there are labels (the last classes are empty)
    give an error (last part of C51_plain_case). *)
Theorem C51_counts_refuted : forall D x lab n,
  length x = length lab -> (0 < D)%nat ->
  (1 < length (bincount lab))%nat -> (1 < length n)%nat -> length n <> length (bincount lab) ->
  cluster_centroids D x lab (Some n) None None = PyErr.
Proof. exact missing_classes. Qed.
Print Assumptions C51_counts_refuted.
