(** C54 -- sum_j k(x_i,y_j) * b_j with b processed by chunks of 64 components, with blocks of pairs or
    with batches.  [o], [m], [u], [bs] are as in C15; [argshapes], [full] as in C16. *)

From Coq Require Import ZArith Reals Arith Lia List Permutation.
From Verif Require Import Result Formula XReal Reductions KernelSum KernelSumSpec CpuReduc Loader
  CpuConvSpec GpuConv RangesConv RangesSpec FinalChunks C21Proofs RangesFinal RangesFinalSpec C54Proofs.
Import ListNotations.

(** Blocks given by the user: the sum of the formula over the columns of the block, for every
    position of b in the list of the arguments; nothing else is written. *)
Theorem C54_blocks_partial : forall decl f g b d tagI A u bs o m nx bd out,
  f = Bin BMult g (Var b d (1 - tagI)) \/ f = Bin BMult (Var b d (1 - tagI)) g ->
  declared decl f -> wf f -> categories decl -> (tagI <= 1)%nat -> dim g = 1%nat -> (2 <= d)%nat ->
  orders_ok o -> (1 <= bd)%nat -> user_describes u tagI bs -> disjoint_rows nx bs ->
  flat_map (fun b => interval (brows b)) bs <> [] -> ends_visiting bs ->
  (forall blk c, In blk bs -> In c (bcols blk) -> (fst c <= snd c)%nat) ->
  exists out', launch_ranges_final o m false block_sum f tagI A None (from_user u tagI) bd out = Ok out' /\
    (forall blk i k, In blk bs -> In i (interval (brows blk)) -> (k < dim f)%nat ->
       out' (i * dim f + k)%nat = Fin (lsum k (block_terms decl A f tagI i (visited blk)))) /\
    (forall q, (forall blk i k, In blk bs -> In i (interval (brows blk)) -> (k < dim f)%nat -> q <> (i * dim f + k)%nat) ->
       out' q = out q).
Proof. exact final_blocks. Qed.
Print Assumptions C54_blocks_partial.

(** Batches.  Partial: no parameter depends on the batch. *)
Theorem C54_batches_partial : forall decl f tagI A argshapes full M N, declared decl f -> wf f -> categories decl ->
  (tagI <= 1)%nat ->
  (forall a d c, In (a, d, c) (vars f) -> shape_ok decl argshapes full M N a) ->
  common argshapes full (map vpos (vars f)) ->
  (forall a d c, In (a, d, c) (vars f) -> fits decl argshapes (length full) a) ->
  (1 <= M)%nat -> (1 <= N)%nat ->
  forall g b d, f = Bin BMult g (Var b d (1 - tagI)) \/ f = Bin BMult (Var b d (1 - tagI)) g ->
  dim g = 1%nat -> (2 <= d)%nat ->
  forall o m bd out, orders_ok o -> (1 <= bd)%nat -> (1 <= fold_right Nat.mul 1 full)%nat ->
  single_parameters f argshapes (length full) ->
  let bt := batch_data f tagI argshapes (length full) M N in
  let rows := (fold_right Nat.mul 1 full * out_rows tagI M N)%nat in
  exists out', launch_ranges_final o m false block_sum f tagI A (Some bt) (batch_ranges (bsizes bt) tagI) bd out = Ok out' /\
    (forall idx x k, inside idx full -> (x < out_rows tagI M N)%nat -> (k < dim f)%nat ->
       out' (numpy_row full (out_rows tagI M N) idx x * dim f + k)%nat =
       Fin (lsum k (batch_terms decl argshapes A f tagI idx x (red_terms tagI M N)))) /\
    (forall q, (rows * dim f <= q)%nat -> out' q = out q).
Proof. exact final_batch. Qed.
Print Assumptions C54_batches_partial.

(** x * p * b with a parameter p of batch size 2: the second batch is computed with the first
    value of p. *)
Theorem C54_parameters_refuted : forall A m out,
  let bt := batch_data par_product 0 par_product_shapes 1 1 1 in
  (exists out', launch_ranges_final {| load_order := fun _ _ l => l; store_order := fun l => l |} m false
     block_sum par_product 0 A (Some bt) (batch_ranges (bsizes bt) 0) 1 out = Ok out' /\
     out' 147%nat = Fin (A 0%Z 1%nat * A 2%Z 0%nat * A 1%Z 147%nat)) /\
  lsum 0 (batch_terms par_product_decl par_product_shapes A par_product 0 [1%nat] 0 1) =
  (A 0%Z 1%nat * A 2%Z 1%nat * A 1%Z 147%nat)%R.
Proof. exact batched_parameters_wrong. Qed.
Print Assumptions C54_parameters_refuted.

(** As without ranges (C21), the operation is not examined: x + b is computed as x * b. *)
Theorem C54_operation_refuted : forall A m out,
  let u := {| ranges_i := [(0, 1)]; slices_i := [1]; redranges_j := [(0, 1)];
              ranges_j := []; slices_j := []; redranges_i := [] |}%nat in
  (exists out', launch_ranges_final {| load_order := fun _ _ l => l; store_order := fun l => l |} m false block_sum
     add_formula 0 A None (from_user u 0) 1 out = Ok out' /\
     out' 0%nat = Fin (A 0%Z 0%nat * A 1%Z 0%nat)) /\
  lsum 0 (block_terms add_decl A add_formula 0 0 [0%nat]) = (A 0%Z 0%nat + A 1%Z 0%nat)%R.
Proof. exact ranges_operation. Qed.
Print Assumptions C54_operation_refuted.

(** b indexed by the rows of the output: the code cannot be generated. *)
Theorem C54_rows_refuted : forall o m host g i d tagI A bt sp bd out s, dim g = 1%nat -> (2 <= d)%nat -> (tagI <= 1)%nat ->
  (forall e, ~ In (i, e, 1 - tagI)%nat (vars g)) ->
  forall out', launch_ranges_final o m host s (Bin BMult g (Var i d tagI)) tagI A bt sp bd out <> Ok out'.
Proof. exact outer_factor. Qed.
Print Assumptions C54_rows_refuted.

(** Exp(-|x-y|^2) * b with b of dimension 150 at a position before y, on the blocks of C15, and in
    2 * 3 batches with a parameter without batch sizes. *)
Example C54_case :
  let g := Un UExp (Un UMinus (Bin BMult (Var 3 1 2) (Lin LSum (Un USquare (Bin BSub (Var 0 3 0) (Var 2 3 1)))))) in
  let f := Bin BMult g (Var 1 150 1) in
  let decl := fun a : Z => if Z.eqb a 1 then (150, 1)%nat else if Z.eqb a 2 then (3, 1)%nat
                           else if Z.eqb a 3 then (1, 2)%nat else (3, 0)%nat in
  let bs := [ {| brows := (0, 2); bcols := [(0, 2); (2, 5); (7, 7)] |};
              {| brows := (3, 6); bcols := [(4, 6); (4, 9)] |} ]%nat in
  let u := {| ranges_i := [(0, 2); (3, 6)]; slices_i := [3; 5];
              redranges_j := [(0, 2); (2, 5); (7, 7); (4, 6); (4, 9)];
              ranges_j := []; slices_j := []; redranges_i := [] |}%nat in
  let argshapes := fun a : Z => if Z.eqb a 1 then [1; 3; 6; 150]%nat else if Z.eqb a 2 then [2; 1; 6; 3]%nat
                                else if Z.eqb a 3 then [1; 1; 1]%nat else [2; 3; 4; 3]%nat in
  let full := [2; 3]%nat in
  declared decl f /\ wf f /\ categories decl /\ dim g = 1%nat /\ use_final true true (Sum_Red (dim f)) = true /\
  user_describes u 0 bs /\ disjoint_rows 8 bs /\ ends_visiting bs /\
  (forall blk c, In blk bs -> In c (bcols blk) -> (fst c <= snd c)%nat) /\
  (forall a d c, In (a, d, c) (vars f) -> shape_ok decl argshapes full 4 6 a) /\
  common argshapes full (map vpos (vars f)) /\
  (forall a d c, In (a, d, c) (vars f) -> fits decl argshapes 2 a) /\ single_parameters f argshapes 2.
Proof.
  cbv zeta. split; [repeat split|]. split; [repeat split|]. split.
  { intros a. destruct (Z.eqb a 1); [cbn; lia|]. destruct (Z.eqb a 2); [cbn; lia|]. destruct (Z.eqb a 3); cbn; lia. }
  split; [reflexivity|]. split; [reflexivity|]. split; [repeat split|]. split.
  { split.
    - cbn. repeat constructor; cbn; lia.
    - intros c [<-|[<-|[]]]; cbn; lia. }
  split; [exists [{| brows := (0, 2); bcols := [(0, 2); (2, 5); (7, 7)] |}]%nat; eexists; split; [reflexivity|discriminate]|].
  split.
  { intros blk c [<-|[<-|[]]] H; cbn in H; repeat (destruct H as [<-|H]; [cbn; lia|]); contradiction. }
  split.
  { intros a d c H. cbn in H. destruct H as [H|[H|[H|[H|[]]]]]; inversion H; subst;
      [exists [2; 3]%nat|exists [1; 3]%nat|exists [2; 1]%nat|exists [1; 1]%nat];
      (split; [repeat (constructor; [auto; fail|]); constructor|reflexivity]). }
  split.
  { intros [|[|q]] Hq; [right|right|cbn in Hq; lia].
    - exists 0%Z. split; [cbn; auto|reflexivity].
    - exists 0%Z. split; [cbn; auto|reflexivity]. }
  split.
  { intros a d c H. cbn in H. destruct H as [H|[H|[H|[H|[]]]]]; inversion H; subst; unfold fits; cbn; lia. }
  intros a d H. cbn in H. destruct H as [H|[H|[H|[H|[]]]]]; inversion H; subst. intros n [<-|[<-|[]]]; reflexivity.
Qed.
