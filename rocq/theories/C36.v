(** C36: tensor contractions follow the documented index convention. *)

From Coq Require Import ZArith Reals List Arith Permutation.
From Verif Require Import Result Tensordot LayoutSpec TensordotSpec C36Proofs.
Import ListNotations.

(** Exactly the contractions that make sense are accepted; negative axes, repeated axes and axes of different
    sizes are all refused.  The axes of a permutation are also checked. *)
Theorem C36_accepted : forall da db ca cb pm t,
  tensordot (entries_of da) (entries_of db) da db ca cb pm = Ok t ->
  exists ca' cb' p, ca = map Z.of_nat ca' /\ cb = map Z.of_nat cb' /\ good da db ca' cb' p
  /\ match pm with None => p = seq 0 (List.length p) | Some q => q = map Z.of_nat p end.
Proof. exact accepted. Qed.
Print Assumptions C36_accepted.

(** numpy.tensordot, the axes of the output being moved by [permute]: its axis number p[i] is the axis i of the
    usual output.  Partial: with more than 21 axes in all the code does not compile (below). *)
Theorem C36_tensordot_partial : forall da db ca cb p a b out, good da db ca cb p ->
  List.length da + List.length db - List.length ca <= 21 ->
  exists t out', tensordot (entries_of da) (entries_of db) da db (map Z.of_nat ca) (map Z.of_nat cb)
                   (Some (map Z.of_nat p)) = Ok t
  /\ td_op t (entries_of da) (entries_of db) out a b = Ok out'
  /\ forall shape, moved p (sizes da (kept (List.length da) ca) ++ sizes db (kept (List.length db) cb)) shape ->
     td_dim t = entries_of shape
     /\ forall x y idx, index (sizes da (kept (List.length da) ca)) x ->
        index (sizes db (kept (List.length db) cb)) y -> moved p (x ++ y) idx ->
        out' (number shape idx) = dot da db ca cb a b x y.
Proof. exact tensordot_values. Qed.
Print Assumptions C36_tensordot_partial.

(** Without [permute]. *)
Theorem C36_default_partial : forall da db ca cb a b out,
  let ka := kept (List.length da) ca in let kb := kept (List.length db) cb in
  good da db ca cb (seq 0 (List.length ka + List.length kb)) ->
  List.length da + List.length db - List.length ca <= 21 ->
  exists t out', tensordot (entries_of da) (entries_of db) da db (map Z.of_nat ca) (map Z.of_nat cb) None = Ok t
  /\ td_op t (entries_of da) (entries_of db) out a b = Ok out'
  /\ td_dim t = entries_of (sizes da ka ++ sizes db kb)
  /\ forall x y, index (sizes da ka) x -> index (sizes db kb) y ->
     out' (number (sizes da ka ++ sizes db kb) (x ++ y)) = dot da db ca cb a b x y.
Proof. exact tensordot_default. Qed.
Print Assumptions C36_default_partial.

(** The two formulas of the gradient, again contractions, are the adjoints. *)
Theorem C36_gradients_partial : forall da db ca cb p a b g out out', good da db ca cb p ->
  Forall (fun d => 0 < d) da -> Forall (fun d => 0 < d) db ->
  List.length da + List.length db - List.length ca <= 21 ->
  exists t o ta oa tb ob,
  tensordot (entries_of da) (entries_of db) da db (map Z.of_nat ca) (map Z.of_nat cb)
    (Some (map Z.of_nat p)) = Ok t
  /\ td_op t (entries_of da) (entries_of db) out a b = Ok o
  /\ grad_a t (entries_of db) = Ok ta /\ td_dim ta = entries_of da
  /\ td_op ta (td_dim t) (entries_of db) out' g b = Ok oa
  /\ grad_b t (entries_of da) = Ok tb /\ td_dim tb = entries_of db
  /\ td_op tb (td_dim t) (entries_of da) out' g a = Ok ob
  /\ inner (td_dim t) o g = inner (entries_of da) a oa
  /\ inner (td_dim t) o g = inner (entries_of db) b ob.
Proof. exact gradients. Qed.
Print Assumptions C36_gradients_partial.

(** The Kronecker product. *)
Theorem C36_kron_partial : forall da db a b out, List.length da = List.length db -> List.length da <= 10 ->
  exists t out', kron (entries_of da) (entries_of db) da db = Ok t
  /\ td_op t (entries_of da) (entries_of db) out a b = Ok out'
  /\ td_dim t = entries_of (kron_shape da db)
  /\ forall x y, index da x -> index db y ->
     out' (number (kron_shape da db) (kron_index db x y)) = (a (number da x) * b (number db y))%R.
Proof. exact kron_values. Qed.
Print Assumptions C36_kron_partial.

(** A matrix, row-major, times a vector. *)
Theorem C36_matvec : forall n m out a b, 0 < m ->
  exists out', matvec (n * m) m out a b = Ok (n, out')
  /\ forall i, i < n -> out' i = range_sum m (fun k => a (i * m + k)%nat * b k)%R.
Proof. exact matvec_values. Qed.
Print Assumptions C36_matvec.

(** A vector times a matrix. *)
Theorem C36_vecmat : forall n m out a b, 0 < m ->
  exists out', vecmat m (m * n) out b a = Ok (n, out')
  /\ forall i, i < n -> out' i = range_sum m (fun k => a (k * n + i)%nat * b k)%R.
Proof. exact vecmat_values. Qed.
Print Assumptions C36_vecmat.

(** Tensor product of two vectors. *)
Theorem C36_tensorprod : forall n m out a b,
  exists out', tensorprod n m out a b = Ok (n * m, out')
  /\ forall k l, k < n -> l < m -> out' (k * m + l) = (a k * b l)%R.
Proof. exact tensorprod_values. Qed.
Print Assumptions C36_tensorprod.

(** The loops are named TD_var_F, TD_var_G, ... after the letter comes "[": with 22 axes or more
    the formula is accepted and the code that is generated is not valid. *)
Theorem C36_names_refuted : forall da db ca cb p out a b, good da db ca cb p ->
  21 < List.length da + List.length db - List.length ca ->
  exists t, tensordot (entries_of da) (entries_of db) da db (map Z.of_nat ca) (map Z.of_nat cb)
              (Some (map Z.of_nat p)) = Ok t
  /\ td_op t (entries_of da) (entries_of db) out a b = KErr.
Proof. exact names_fail. Qed.
Print Assumptions C36_names_refuted.

(** Shapes (4,2,3) and (3,4,5), contraction of two axes in the order (2,0) and (0,1), output (5,2). *)
Example C36_case :
  good [4; 2; 3] [3; 4; 5] [2; 0] [0; 1] [1; 0]
  /\ sizes [4; 2; 3] (kept 3 [2; 0]) = [2] /\ sizes [3; 4; 5] (kept 3 [0; 1]) = [5]
  /\ moved [1; 0] [2; 5] [5; 2]
  /\ full_index 3 [2; 0] [2; 1] [1] = [1; 1; 2] /\ number [4; 2; 3] [1; 1; 2] = 11
  /\ full_index 3 [0; 1] [2; 1] [1] = [2; 1; 1] /\ number [3; 4; 5] [2; 1; 1] = 46.
Proof.
  split; [|split; [reflexivity|split; [reflexivity|split; [|repeat split]]]].
  - constructor.
    + repeat constructor.
    + repeat constructor; cbn; intuition discriminate.
    + repeat constructor; cbn; intuition discriminate.
    + repeat constructor.
    + repeat constructor.
    + reflexivity.
    + apply perm_swap.
  - split; [reflexivity|]. intros [|[|i]] H; [reflexivity|reflexivity|].
    cbn in H. exfalso. apply Nat.lt_nge in H. apply H. repeat apply le_n_S. apply Nat.le_0_l.
Qed.

(** 22 axes of size one. *)
Example C36_names_case : good (repeat 1 22) [] [] [] (seq 0 22).
Proof.
  constructor; [constructor|constructor|constructor|constructor|constructor|reflexivity|].
  change (Permutation (seq 0 22) (seq 0 22)). apply Permutation_refl.
Qed.
