(** C53 -- evaluation by chunks, with blocks of pairs or with batches.

    [order], [o] and [m] are as in C20; [u], [bs] as in C15; [argshapes], [full] as in C16.  The
    hypothesis on scalar variables and the hypothesis on parameters are those of C20. *)

From Coq Require Import ZArith Reals Arith Lia List Permutation.
From Verif Require Import Result Formula XReal Reductions KernelSum KernelSumSpec LseSpec Postprocess CpuReduc Loader
  CpuConvSpec GpuConv RangesConv RangesSpec Chunks ChunkSpec RangesChunks RangesChunkSpec C53Proofs.
Import ListNotations.

(** Blocks given by the user: each row of a block is reduced over the columns of the block, and
    nothing else is written.  Partial: reductions that do not use the index of a term. *)
Theorem C53_blocks_partial : forall order decl f r s tagI A u bs o m nx bd out K,
  declared decl f -> wf f -> categories decl -> (tagI <= 1)%nat -> enumerates order -> reduction_of (dim f) r ->
  available r s -> ignores_index r ->
  orders_ok o -> (1 <= bd)%nat -> user_describes u tagI bs -> disjoint_rows nx bs ->
  flat_map (fun b => interval (brows b)) bs <> [] -> ends_visiting bs ->
  (forall blk c, In blk bs -> In c (bcols blk) -> (fst c <= snd c)%nat) ->
  chunk_mode order f tagI = Ok true -> chunk_constants order f tagI = Ok K ->
  (forall v, In v (vars (c_fun K)) -> vdim v = 1%nat -> In v (vars (c_post K))) ->
  c_pN K = [] \/ c_pC K = [] ->
  exists out', launch_ranges_chunks order o m false r s f tagI A None (from_user u tagI) bd out = Ok out' /\
    (forall blk i, In blk bs -> In i (interval (brows blk)) ->
       row_value r s (block_terms decl A f tagI i (visited blk)) (fun k => out' (i * rdim r + k)%nat)) /\
    (forall q, (forall blk i k, In blk bs -> In i (interval (brows blk)) -> (k < rdim r)%nat -> q <> (i * rdim r + k)%nat) ->
       out' q = out q).
Proof. exact chunks_blocks. Qed.
Print Assumptions C53_blocks_partial.

(** Which reductions do not use the index. *)
Theorem C53_ignores : forall d,
  ignores_index (Sum_Red d) /\ (forall mx, ignores_index (Opt_Red mx d)) /\ ignores_index (LSE_Red d).
Proof. exact which_ignore. Qed.
Print Assumptions C53_ignores.

(** The other ones, for a block with one interval of columns: the indices are counted from the
    start of the interval. *)
Theorem C53_interval_partial : forall order decl f r s tagI A u bs o m nx bd out K,
  declared decl f -> wf f -> categories decl -> (tagI <= 1)%nat -> enumerates order -> reduction_of (dim f) r ->
  available r s ->
  orders_ok o -> (1 <= bd)%nat -> user_describes u tagI bs -> disjoint_rows nx bs ->
  flat_map (fun b => interval (brows b)) bs <> [] -> ends_visiting bs ->
  (forall blk c, In blk bs -> In c (bcols blk) -> (fst c <= snd c)%nat) ->
  chunk_mode order f tagI = Ok true -> chunk_constants order f tagI = Ok K ->
  (forall v, In v (vars (c_fun K)) -> vdim v = 1%nat -> In v (vars (c_post K))) ->
  c_pN K = [] \/ c_pC K = [] ->
  exists out', launch_ranges_chunks order o m false r s f tagI A None (from_user u tagI) bd out = Ok out' /\
    forall blk i y0 y1, In blk bs -> In i (interval (brows blk)) -> bcols blk = [(y0, y1)] ->
       row_value r s (map (fun t => (fst t - Z.of_nat y0, snd t)%Z) (block_terms decl A f tagI i (visited blk)))
         (fun k => out' (i * rdim r + k)%nat).
Proof. exact chunks_interval. Qed.
Print Assumptions C53_interval_partial.

(** So ArgMin is wrong: row 0, column 1 only; the answer is 0 instead of 1. *)
Theorem C53_indices_refuted : forall m A out,
  let u := {| ranges_i := [(0, 1)]; slices_i := [1]; redranges_j := [(1, 2)];
              ranges_j := []; slices_j := []; redranges_i := [] |}%nat in
  let decl := fun a : Z => if Z.eqb a 1 then (100, 1)%nat else (100, 0)%nat in
  let r := OptArg_Red false OArg 1 in
  user_describes u 0 [{| brows := (0, 1); bcols := [(1, 2)] |}]%nat /\
  (exists out', launch_ranges_chunks (fun l => l) {| load_order := fun _ _ l => l; store_order := fun l => l |} m false
     r direct_sum dist_formula 0 A None (from_user u 0) 1 out = Ok out' /\ out' 0%nat = Fin 0) /\
  rfinal r (run r (map (fun p => (fst p, fins (snd p))) (block_terms decl A dist_formula 0 0 [1%nat])) (rinit r)) 0 = Fin 1.
Proof. exact indices_wrong. Qed.
Print Assumptions C53_indices_refuted.

(** Batches, every reduction, with the indices of numpy.  Partial: all parameters have the same
    batch sizes. *)
Theorem C53_batches_partial : forall decl f tagI A argshapes full M N, declared decl f -> wf f -> categories decl ->
  (tagI <= 1)%nat ->
  (forall a d c, In (a, d, c) (vars f) -> shape_ok decl argshapes full M N a) ->
  common argshapes full (map vpos (vars f)) ->
  (forall a d c, In (a, d, c) (vars f) -> fits decl argshapes (length full) a) ->
  (1 <= M)%nat -> (1 <= N)%nat ->
  forall order r s o m bd out K, enumerates order -> reduction_of (dim f) r -> available r s -> orders_ok o -> (1 <= bd)%nat ->
  (1 <= fold_right Nat.mul 1 full)%nat -> same_batches f argshapes (length full) ->
  chunk_mode order f tagI = Ok true -> chunk_constants order f tagI = Ok K ->
  (forall v, In v (vars (c_fun K)) -> vdim v = 1%nat -> In v (vars (c_post K))) ->
  c_pN K = [] \/ c_pC K = [] ->
  let bt := batch_data f tagI argshapes (length full) M N in
  let rows := (fold_right Nat.mul 1 full * out_rows tagI M N)%nat in
  exists out', launch_ranges_chunks order o m false r s f tagI A (Some bt) (batch_ranges (bsizes bt) tagI) bd out = Ok out' /\
    (forall idx x, inside idx full -> (x < out_rows tagI M N)%nat ->
       row_value r s (batch_terms decl argshapes A f tagI idx x (red_terms tagI M N))
         (fun k => out' (numpy_row full (out_rows tagI M N) idx x * rdim r + k)%nat)) /\
    (forall q, (rows * rdim r <= q)%nat -> out' q = out q).
Proof. exact chunks_batch. Qed.
Print Assumptions C53_batches_partial.

(** Two parameters p and q, with batch sizes 2 and 1: <x,y> + (p - q), p = 10, 20, q = 5.  If the
    set of the two parameters is enumerated from the second one, the kernel reads p in batch 0
    and q one cell after its only value: whatever v is there, the result is 10 - v instead of 15. *)
Theorem C53_parameters_refuted : forall m v out,
  let bt := batch_data two_formula 0 two_shapes 1 1 1 in
  (exists out', launch_ranges_chunks (@rev fvar) {| load_order := fun _ _ l => l; store_order := fun l => l |} m false
     (Sum_Red 1) direct_sum two_formula 0 (two_memory v) (Some bt) (batch_ranges (bsizes bt) 0) 1 out = Ok out' /\
     out' 1%nat = Fin (10 - v)) /\
  lsum 0 (batch_terms two_decl two_shapes (two_memory v) two_formula 0 [1%nat] 0 1) = 15%R.
Proof. exact parameters_wrong_order. Qed.
Print Assumptions C53_parameters_refuted.

(** Exp(-Sum(Square(x-y))) * b with x, y of dimension 150, on the blocks of C15. *)
Example C53_case :
  let x := Var 0 150 0 in let y := Var 1 150 1 in let b := Var 2 1 1 in
  let f := Bin BMult (Un UExp (Un UMinus (Lin LSum (Un USquare (Bin BSub x y))))) b in
  let decl := fun a : Z => if Z.eqb a 2 then (1, 1)%nat else if Z.eqb a 1 then (150, 1)%nat else (150, 0)%nat in
  let bs := [ {| brows := (0, 2); bcols := [(0, 2); (2, 5); (7, 7)] |};
              {| brows := (3, 6); bcols := [(4, 6); (4, 9)] |} ]%nat in
  let u := {| ranges_i := [(0, 2); (3, 6)]; slices_i := [3; 5];
              redranges_j := [(0, 2); (2, 5); (7, 7); (4, 6); (4, 9)];
              ranges_j := []; slices_j := []; redranges_i := [] |}%nat in
  declared decl f /\ wf f /\ categories decl /\ chunk_mode (fun l => l) f 0 = Ok true /\
  user_describes u 0 bs /\ disjoint_rows 8 bs /\ ends_visiting bs /\
  (forall blk c, In blk bs -> In c (bcols blk) -> (fst c <= snd c)%nat) /\
  exists K, chunk_constants (fun l => l) f 0 = Ok K /\ c_pN K = [] /\
    (forall v, In v (vars (c_fun K)) -> vdim v = 1%nat -> In v (vars (c_post K))).
Proof.
  cbv zeta. split; [repeat split|]. split; [repeat split|]. split.
  { intros a. destruct (Z.eqb a 2); [cbn; lia|]. destruct (Z.eqb a 1); cbn; lia. }
  split; [reflexivity|]. split; [repeat split|]. split.
  { split.
    - cbn. repeat constructor; cbn; lia.
    - intros c [<-|[<-|[]]]; cbn; lia. }
  split; [exists [{| brows := (0, 2); bcols := [(0, 2); (2, 5); (7, 7)] |}]%nat; eexists; split; [reflexivity|discriminate]|].
  split.
  { intros blk c [<-|[<-|[]]] H; cbn in H; repeat (destruct H as [<-|H]; [cbn; lia|]); contradiction. }
  eexists. split; [reflexivity|]. split; [reflexivity|].
  intros v H. cbn in H. destruct H as [<-|[<-|[]]]; cbn; discriminate.
Qed.

(** The same formula times a parameter, in 2 * 3 batches. *)
Example C53_batches_case :
  let x := Var 0 150 0 in let y := Var 1 150 1 in let p := Var 2 1 2 in
  let f := Bin BMult (Un UExp (Un UMinus (Lin LSum (Un USquare (Bin BSub x y))))) p in
  let decl := fun a : Z => if Z.eqb a 2 then (1, 2)%nat else if Z.eqb a 1 then (150, 1)%nat else (150, 0)%nat in
  let argshapes := fun a : Z => if Z.eqb a 2 then [2; 1; 1]%nat
                                else if Z.eqb a 1 then [1; 3; 6; 150]%nat else [2; 3; 4; 150]%nat in
  let full := [2; 3]%nat in
  declared decl f /\ wf f /\ categories decl /\
  (forall a d c, In (a, d, c) (vars f) -> shape_ok decl argshapes full 4 6 a) /\
  common argshapes full (map vpos (vars f)) /\
  (forall a d c, In (a, d, c) (vars f) -> fits decl argshapes 2 a) /\ same_batches f argshapes 2 /\
  chunk_mode (fun l => l) f 0 = Ok true /\
  exists K, chunk_constants (fun l => l) f 0 = Ok K /\ c_pC K = [] /\ c_pN K <> [] /\
    (forall v, In v (vars (c_fun K)) -> vdim v = 1%nat -> In v (vars (c_post K))).
Proof.
  cbv zeta. split; [repeat split|]. split; [repeat split|]. split.
  { intros a. destruct (Z.eqb a 2); [cbn; lia|]. destruct (Z.eqb a 1); cbn; lia. }
  split.
  { intros a d c H. cbn in H. destruct H as [H|[H|[H|[]]]]; inversion H; subst; [exists [2; 3]%nat|exists [1; 3]%nat|exists [2; 1]%nat];
      (split; [repeat (constructor; [auto; fail|]); constructor|reflexivity]). }
  split.
  { intros [|[|q]] Hq; [right|right|cbn in Hq; lia].
    - exists 0%Z. split; [cbn; auto|reflexivity].
    - exists 0%Z. split; [cbn; auto|reflexivity]. }
  split.
  { intros a d c H. cbn in H. destruct H as [H|[H|[H|[]]]]; inversion H; subst; unfold fits; cbn; lia. }
  split.
  { intros a d a' d' H H'. cbn in H, H'. destruct H as [H|[H|[H|[]]]]; inversion H; destruct H' as [H'|[H'|[H'|[]]]]; inversion H'; subst; reflexivity. }
  split; [reflexivity|].
  eexists. split; [reflexivity|]. split; [reflexivity|]. split; [discriminate|].
  intros v H. cbn in H. destruct H as [<-|[<-|[]]]; cbn; discriminate.
Qed.
