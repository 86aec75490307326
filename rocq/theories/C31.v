(** C31: pairs of rows in half precision. *)

From Coq Require Import List Arith Permutation.
From Verif Require Import Result Half2 Half2Spec C31Proofs.
Import ListNotations.

(** For any formula and any reduction that does not depend on the order, the whole chain (packing of the
    arguments, evaluation by lanes, unpacking, removal of the row that was added) gives [M] rows, and the
    row [i] is the reduction over all the rows [j] of the values of the formula at (i, j).
    Partial: without ranges (see C32), with a variable for the rows of the output, and [N] not zero. *)
Theorem C31_reduction_partial : forall A V axis M N E (formula : list (list A) -> V)
    (reduce : nat -> list V -> A) args,
  axis = 0 \/ axis = 1 -> 0 < N -> 0 < E -> sizes_ok axis M N args ->
  (exists a, In a args /\ a_cat a = 1 - axis) ->
  (forall e l l', Permutation l l' -> reduce e l = reduce e l') ->
  exists out,
    genred_half axis (if axis =? 1 then M else N) (if axis =? 1 then N else M) E formula reduce args = Ok out
    /\ rows out = M /\ cols out = E
    /\ forall i e, i < M -> e < E ->
         at_ out i e = reduce e (map (fun j => formula (map (row_of axis i j) args)) (seq 0 N)).
Proof. exact half_sum. Qed.
Print Assumptions C31_reduction_partial.

Example C31_reduction_case : sizes_ok 1 3 4 (ex_args 3 4)
  /\ (forall e l l', Permutation l l' -> ex_reduce e l = ex_reduce e l')
  /\ exists out, genred_half 1 3 4 2 ex_formula ex_reduce (ex_args 3 4) = Ok out
       /\ rows out = 3 /\ at_ out 2 1 = 16609.
Proof. exact (conj ex_sizes (conj ex_reduce_ok ex_result)). Qed.

(** In each lane, the rows that the pairs of the doubled array stand for are all the rows, each one once. *)
Theorem C31_pairs : forall N l, l < 2 ->
  Permutation (map (fun m => true_index N (2 * m + l)) (seq 0 N)) (seq 0 N).
Proof. exact lane_permutation. Qed.
Print Assumptions C31_pairs.

Example C31_pairs_case : map (fun m => true_index 4 (2 * m + 1)) (seq 0 4) = [1; 3; 0; 2].
Proof. reflexivity. Qed.

(** Without any variable for the rows of the output there is one row, and two rows are returned. *)
Theorem C31_degenerate_refuted :
  exists out, genred_half 1 1 4 2 ex_formula ex_reduce (only_j 4) = Ok out /\ rows out = 2.
Proof. exact degenerate. Qed.
Print Assumptions C31_degenerate_refuted.

(** Without any row to reduce there is an exception. *)
Theorem C31_empty_refuted : genred_half 1 3 0 2 ex_formula ex_reduce (ex_args 3 0) = PyErr.
Proof. exact empty_reduction. Qed.
Print Assumptions C31_empty_refuted.
