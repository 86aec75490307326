(** C07 -- Kmin / argKmin return the K smallest values in order with stable indices. *)

From Coq Require Import ZArith Reals Lra Lia List Sorted.
From Verif Require Import Result XReal Reductions ReductionSpec C06Proofs C07Proofs.
Import ListNotations.

(** For every K, every formula dimension f, every component k and every sequence l of vectors
    with increasing indices (dense or sparse) and values below +inf: there is a list L that
    satisfies the specification of the K smallest elements, and the outputs of KMin, ArgKMin
    and KMin_ArgKMin hold its values and indices.  Partial: sequences that contain +inf are
    excluded, see the refutation below. *)
Theorem C07_k_smallest_partial : forall K f l, finite_seq f l -> forall k, (k < f)%nat ->
  let out o := rfinal (KMin_Red o K f) (run (KMin_Red o K f) l (rinit (KMin_Red o K f))) in
  exists L, k_smallest K (map (fun p => (snd p k, fst p)) l) L /\ length L = K /\
    forall s v i, nth_error L s = Some (v, i) ->
      out OVal (s * f + k)%nat = v /\ out OArg (s * f + k)%nat = of_long i /\
      out OBoth (2 * s * f + k)%nat = v /\ out OBoth ((2 * s + 1) * f + k)%nat = of_long i.
Proof. exact kmin_correct. Qed.
Print Assumptions C07_k_smallest_partial.

Example C07_case :
  finite_seq 2 (dense 4 (fun j k => match j, k with 0, 0 | 2, 0 => Fin 1 | _, _ => Fin (-3) end)%nat).
Proof.
  split; [apply dense_sorted|]. intros z x Hx k _. unfold dense in Hx. cbn in Hx.
  destruct Hx as [Hx|[Hx|[Hx|[Hx|[]]]]]; inversion Hx; destruct k; split; discriminate.
Qed.

(** A value +inf never enters the accumulator (the comparison is strict), so its index is
    lost: for the values 1, +inf and K = 2 the index returned in the second slot is 0. *)
Theorem C07_infinite_value_index_refuted : exists l, good_seq 1 l /\
  let out o := rfinal (KMin_Red o 2 1) (run (KMin_Red o 2 1) l (rinit (KMin_Red o 2 1))) in
  ~ exists L, k_smallest 2 (map (fun p => (snd p O, fst p)) l) L /\ length L = 2%nat /\
    forall s v i, nth_error L s = Some (v, i) ->
      out OVal (s * 1 + 0)%nat = v /\ out OArg (s * 1 + 0)%nat = of_long i.
Proof. exact kmin_inf. Qed.
Print Assumptions C07_infinite_value_index_refuted.
