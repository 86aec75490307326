(** C18 -- after sort_clusters the clusters are contiguous and cluster_ranges gives their
    intervals. *)

From Coq Require Import Arith Lia List Bool Permutation Sorted.
From Verif Require Import Result RangesConv RangesSpec Clusters ClusterSpec C18Proofs.
Import ListNotations.

(** Every point is kept exactly once, all arrays are reordered alike, and the labels are sorted;
    argsort is any function that sorts, stable or not. *)
Theorem C18_sort : forall T argsort (x : list (list T)) lab, sorts argsort ->
  (forall a, In a x -> length a = length lab) ->
  exists x' lab' perm, sort_clusters argsort x lab = Ok (x', lab') /\
    Permutation (seq 0 (length lab)) perm /\ Forall2 (reordered perm) x x' /\ reordered perm lab lab' /\
    StronglySorted le lab'.
Proof. exact @sorted_numpy. Qed.
Print Assumptions C18_sort.

Theorem C18_sort_torch : forall T sort (x : list (list T)) lab, sorts (fun l => snd (sort l)) ->
  (forall l, reordered (snd (sort l)) l (fst (sort l))) -> (forall a, In a x -> length a = length lab) ->
  exists x' lab' perm, sort_clusters_torch sort x lab = Ok (x', lab') /\
    Permutation (seq 0 (length lab)) perm /\ Forall2 (reordered perm) x x' /\ reordered perm lab lab' /\
    StronglySorted le lab'.
Proof. exact @sorted_torch. Qed.
Print Assumptions C18_sort_torch.

(** Position q of the sorted labels holds k exactly when q is in the k-th interval; the labels may
    be given sorted or not. *)
Theorem C18_ranges : forall lab lab' perm, Permutation (seq 0 (length lab)) perm -> reordered perm lab lab' ->
  StronglySorted le lab' ->
  (forall q k, q < length lab ->
     (nth q lab' 0 = k <-> k < length (cluster_ranges lab None) /\
                           In q (interval (nth k (cluster_ranges lab None) (0, 0))))) /\
  (forall p, In p (cluster_ranges lab None) -> fst p <= snd p <= length lab) /\
  cluster_ranges lab' None = cluster_ranges lab None.
Proof. exact ranges_numpy. Qed.
Print Assumptions C18_ranges.

(** The same with the numbers of points of C classes given, the last ones possibly empty. *)
Theorem C18_ranges_given : forall lab lab' perm C, Permutation (seq 0 (length lab)) perm -> reordered perm lab lab' ->
  StronglySorted le lab' -> (forall x, In x lab -> x < C) ->
  let r := cluster_ranges lab (Some (map (fun k => occurrences k lab) (seq 0 C))) in
  length r = C /\
  (forall q k, q < length lab -> (nth q lab' 0 = k <-> k < length r /\ In q (interval (nth k r (0, 0))))) /\
  (forall p, In p r -> fst p <= snd p <= length lab).
Proof. exact ranges_given. Qed.
Print Assumptions C18_ranges_given.

(** torch, at most 2^24 points: the sums in single precision are exact. *)
Theorem C18_ranges_torch : forall lab, length lab <= 2 ^ 24 -> cluster_ranges_torch lab = cluster_ranges lab None.
Proof. exact torch_ranges_exact. Qed.
Print Assumptions C18_ranges_torch.

(** torch, one cluster of 2^24 + 1 points: its interval misses the last one. *)
Theorem C18_ranges_torch_refuted : cluster_ranges_torch (repeat 0 (2 ^ 24 + 1)) = [(0, 2 ^ 24)].
Proof. exact torch_refuted. Qed.
Print Assumptions C18_ranges_torch_refuted.

(** Labels with an empty cluster (1); a sort that is not stable. *)
Example C18_case :
  let lab := [0; 2; 0; 0; 3] in let perm := [3; 0; 2; 1; 4] in
  Permutation (seq 0 (length lab)) perm /\ reordered perm lab [0; 0; 0; 2; 3] /\
  StronglySorted le [0; 0; 0; 2; 3] /\
  cluster_ranges lab None = [(0, 3); (3, 3); (3, 4); (4, 5)] /\
  cluster_ranges_torch lab = [(0, 3); (3, 3); (3, 4); (4, 5)] /\
  sort_clusters (fun _ => perm) [[10; 11; 12; 13; 14]] lab = Ok ([[13; 10; 12; 11; 14]], [0; 0; 0; 2; 3]).
Proof.
  cbv zeta. split.
  - cbn. apply (Permutation_count_occ Nat.eq_dec). intros x. cbn.
    destruct x as [|[|[|[|[|x]]]]]; reflexivity.
  - split; [reflexivity|]. split; [repeat constructor|]. split; [reflexivity|]. split; [|reflexivity].
    rewrite C18_ranges_torch; [reflexivity|]. cbn [length]. change (5 <= 2 ^ 24).
    apply Nat.le_trans with (2 ^ 3); [cbn; lia|]. apply Nat.pow_le_mono_r; lia.
Qed.
