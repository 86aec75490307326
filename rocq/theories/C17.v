(** C17 -- from_matrix: block I interacts with block J exactly when keep[I,J]. *)

From Coq Require Import ZArith Reals Lia List Bool Permutation.
From Verif Require Import Result Formula XReal Reductions KernelSum KernelSumSpec LseSpec Postprocess CpuReduc Loader
  CpuConv CpuConvSpec GpuConv RangesConv RangesSpec Clusters ClusterSpec C17Proofs.
Import ListNotations.

(** The six arrays encode the pattern of keep for reductions over j, its transpose for
    reductions over i. *)
Theorem C17_describes : forall ri rj keep, nrows keep = length ri -> ncols keep = length rj ->
  exists u, from_matrix ri rj keep = Ok u /\
    user_describes u 0 (pattern ri rj (fun I J => entry_at keep I J)) /\
    user_describes u 1 (pattern rj ri (fun J I => entry_at keep I J)).
Proof. exact matrix_blocks. Qed.
Print Assumptions C17_describes.

(** The columns visited by the I-th block of a pattern. *)
Theorem C17_pairs : forall rows cols rel I j, (I < length rows)%nat ->
  In j (visited (nth I (pattern rows cols rel) {| brows := (0, 0)%nat; bcols := [] |})) <->
  exists J, (J < length cols)%nat /\ rel I J = true /\ In j (interval (nth J cols (0, 0)%nat)).
Proof. exact pattern_pairs. Qed.
Print Assumptions C17_pairs.

(** swap_axes exchanges the two directions, and is from_matrix on the transposed matrix. *)
Theorem C17_swap : forall u tagI bs, (tagI <= 1)%nat ->
  exists u', swap_axes (Some u) = Some u' /\ (user_describes u' tagI bs <-> user_describes u (1 - tagI) bs).
Proof. exact swapped. Qed.
Print Assumptions C17_swap.

Theorem C17_swap_matrix : forall ri rj keep u, from_matrix ri rj keep = Ok u ->
  exists u', from_matrix rj ri (transposed keep) = Ok u' /\ swap_axes (Some u) = Some u'.
Proof. exact swap_matrix. Qed.
Print Assumptions C17_swap_matrix.

(** Together with the CPU program for ranges: the sum of a row of block I is over the columns of
    the blocks J with keep[I,J] (keep[J,I] for a reduction over i). *)
Theorem C17_cpu_sum : forall decl f d tagI A ri rj keep schedule junk tmp nx out u,
  declared decl f -> wf f -> categories decl -> (tagI <= 1)%nat -> dim f = d -> complete schedule ->
  nrows keep = length ri -> ncols keep = length rj -> from_matrix ri rj keep = Ok u ->
  let '(rows, cols, rel) := match tagI with
                            | O => (ri, rj, fun I J => entry_at keep I J)
                            | _ => (rj, ri, fun J I => entry_at keep I J)
                            end in
  NoDup (flat_map interval rows) -> (forall p, In p rows -> (snd p <= nx)%nat) ->
  exists out', launch_cpu_ranges schedule junk tmp (Sum_Red d) direct_sum f tagI A None (from_user u tagI) nx out = Ok out' /\
    forall I i k, (I < length rows)%nat -> In i (interval (nth I rows (0, 0)%nat)) -> (k < d)%nat ->
      out' (i * d + k)%nat = Fin (lsum k (block_terms decl A f tagI i
        (flat_map (fun J => interval (nth J cols (0, 0)%nat)) (filter (rel I) (seq 0 (length cols)))))).
Proof. exact matrix_sum. Qed.
Print Assumptions C17_cpu_sum.

(** The example of the documentation. *)
Example C17_case :
  let ri := [(2, 5); (7, 12)]%nat in let rj := [(1, 4); (4, 9); (20, 30)]%nat in
  let keep := {| nrows := 2; ncols := 3;
                 entry_at := fun I J => match I, J with 0, 0 | 0, 1 | 1, 1 => true | _, _ => false end |}%nat in
  from_matrix ri rj keep =
    Ok {| ranges_i := ri; slices_i := [2; 3]; redranges_j := [(1, 4); (4, 9); (4, 9)];
          ranges_j := rj; slices_j := [1; 3; 3]; redranges_i := [(2, 5); (2, 5); (7, 12)] |}%nat /\
  NoDup (flat_map interval ri) /\ NoDup (flat_map interval rj).
Proof.
  cbv zeta. split; [reflexivity|]. split; apply (NoDup_count_occ' Nat.eq_dec); intros x Hx; cbn in Hx;
  repeat (destruct Hx as [<-|Hx]; [reflexivity|]); contradiction.
Qed.
