(** C32: half precision and ranges. *)

From Coq Require Import List Arith Permutation.
From Verif Require Import Half2 HalfRanges C32Proofs.
Import ListNotations.

(** Each row visits the same rows as in single precision.
    Partial: a single range that covers everything; the claim is false for other ranges. *)
Theorem C32_whole_partial : forall M N i, i < M ->
  Permutation (visited_half (whole M N) N i) (visited (whole M N) i).
Proof. exact whole_half. Qed.
Print Assumptions C32_whole_partial.

Example C32_whole_case : visited_half (whole 3 4) 4 2 = [0; 2; 3; 1] /\ visited (whole 3 4) 2 = [0; 1; 2; 3].
Proof. vm_compute. auto. Qed.

(** Two rows, four columns, the first two columns: the rows of the reduction are used as pairs, so
    that the rows of the output see columns that are not in the range. *)
Theorem C32_columns_refuted : visited some_columns 0 = [0; 1] /\ visited some_columns 1 = [0; 1]
  /\ visited_half some_columns 4 0 = [0; 2] /\ visited_half some_columns 4 1 = [1; 3].
Proof. exact some_columns_half. Qed.
Print Assumptions C32_columns_refuted.

(** The shifted copies of the slices and of the ranges of the reduction, which should give the second half
    of the rows, are never read: the kernel visits what it would visit without them. *)
Theorem C32_copies_refuted : forall r N i, List.length (r_slices r) = List.length (r_i r) ->
  Forall (fun s => s <= List.length (r_red r)) (r_slices r) ->
  visited (ranges2half2 r N) i
  = visited {| r_i := map (fun p => (fst p / 2, (snd p + 1) / 2)) (r_i r);
               r_slices := r_slices r; r_red := r_red r |} i.
Proof. exact first_half_only. Qed.
Print Assumptions C32_copies_refuted.

Example C32_copies_case : r_slices (ranges2half2 two_blocks 4) = [1; 2; 3; 4]
  /\ r_red (ranges2half2 two_blocks 4) = [(0, 4); (0, 4); (2, 5); (2, 4)]
  /\ visited (ranges2half2 two_blocks 4) 1 = [0; 1; 2; 3].
Proof. vm_compute. repeat split. Qed.

(** The array of the caller is modified: with the same ranges, the second call does not visit anything
    for the row 2. *)
Theorem C32_second_call_refuted : visited_half two_blocks 4 2 = [0; 2; 3; 1]
  /\ visited_half (caller_after two_blocks) 4 2 = []
  /\ visited (caller_after two_blocks) 2 = [].
Proof. exact second_call. Qed.
Print Assumptions C32_second_call_refuted.

(** A boundary between two rows of a pair: the two blocks, which do not have the same columns, become
    two blocks that write the same pair of rows. *)
Theorem C32_boundary_refuted : visited odd_block 0 = [0; 1; 2; 3]
  /\ r_i (ranges2half2 odd_block 4) = [(0, 1); (0, 1)].
Proof. exact odd_rows. Qed.
Print Assumptions C32_boundary_refuted.
