(** C08 -- partial K-min accumulators can be merged. *)

From Coq Require Import ZArith Reals Lra Lia List Sorted.
From Verif Require Import Result XReal Reductions ReductionSpec C06Proofs C08Proofs.
Import ListNotations.

(** Merging (KMin ReducePair) the accumulators of two consecutive pieces of the sequence gives,
    in every cell, the accumulator of the whole sequence. *)
Theorem C08_merge_two_pieces : forall o K f l1 l2, finite_seq f (l1 ++ l2) ->
  forall p, (p < 2 * K * f)%nat ->
    kmin_merge K f (run (KMin_Red o K f) l1 (rinit (KMin_Red o K f)))
                   (run (KMin_Red o K f) l2 (rinit (KMin_Red o K f))) p =
    run (KMin_Red o K f) (l1 ++ l2) (rinit (KMin_Red o K f)) p.
Proof. exact kmin_merge_correct. Qed.
Print Assumptions C08_merge_two_pieces.

(** Any number of pieces, merged in order from the initial accumulator. *)
Theorem C08_merge_any_pieces : forall o K f (ls : list (list (Z * cells))),
  finite_seq f (concat ls) ->
  forall p, (p < 2 * K * f)%nat ->
    fold_left (kmin_merge K f)
      (map (fun l => run (KMin_Red o K f) l (rinit (KMin_Red o K f))) ls)
      (rinit (KMin_Red o K f)) p =
    run (KMin_Red o K f) (concat ls) (rinit (KMin_Red o K f)) p.
Proof. exact kmin_pieces_correct. Qed.
Print Assumptions C08_merge_any_pieces.

(** Two pieces with ties across them. *)
Example C08_case :
  let v (r : R) := fun _ : nat => Fin r in
  finite_seq 1 ([(0%Z, v 2%R); (1%Z, v 1%R)] ++ [(2%Z, v 1%R); (3%Z, v 2%R)]).
Proof.
  cbv zeta. split.
  - cbn. repeat constructor.
  - intros z x Hx k _. cbn in Hx.
    destruct Hx as [Hx|[Hx|[Hx|[Hx|[]]]]]; inversion Hx; split; discriminate.
Qed.
