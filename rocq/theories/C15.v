(** C15 -- block-sparse reductions visit exactly the requested pairs.

    [bs] is the list of blocks (an interval of output rows, and the intervals of columns to
    visit); [user_describes] says that the arrays given by the user are its encoding. *)

From Coq Require Import ZArith Reals Lia List Permutation.
From Verif Require Import Result Formula XReal Reductions KernelSum KernelSumSpec LseSpec Postprocess CpuReduc Loader
  CpuConv CpuConvSpec GpuConv RangesConv RangesSpec C15Proofs.
Import ListNotations.

(** CPU: a row of a block is reduced over the columns of the block, in order; a row of no block
    gets the value of an empty reduction; nothing is written after the last row. *)
Theorem C15_cpu : forall decl f r s tagI A u bs schedule junk tmp nx out,
  declared decl f -> wf f -> categories decl -> (tagI <= 1)%nat -> reduction_of (dim f) r -> available r s ->
  complete schedule -> user_describes u tagI bs -> disjoint_rows nx bs ->
  exists out', launch_cpu_ranges schedule junk tmp r s f tagI A None (from_user u tagI) nx out = Ok out' /\
    (forall blk i, In blk bs -> In i (interval (brows blk)) ->
       row_value r s (block_terms decl A f tagI i (visited blk)) (fun k => out' (i * rdim r + k)%nat)) /\
    (forall i k, (i < nx)%nat -> (k < rdim r)%nat -> (forall blk, In blk bs -> ~ In i (interval (brows blk))) ->
       out' (i * rdim r + k)%nat = rfinal r (run r [] (rinit r)) k) /\
    (forall q, (nx * rdim r <= q)%nat -> out' q = out q).
Proof. exact cpu_blocks. Qed.
Print Assumptions C15_cpu.

(** GPU: rows split in thread blocks of any size, adjacent intervals merged, any order of the
    threads; here the ranges are in device memory. *)
Theorem C15_gpu : forall decl f r s tagI A u bs o m nx bd out,
  declared decl f -> wf f -> categories decl -> (tagI <= 1)%nat -> reduction_of (dim f) r -> available r s ->
  orders_ok o -> (1 <= bd)%nat -> user_describes u tagI bs -> disjoint_rows nx bs ->
  flat_map (fun b => interval (brows b)) bs <> [] -> ends_visiting bs ->
  (forall blk c, In blk bs -> In c (bcols blk) -> (fst c <= snd c)%nat) ->
  exists out', launch_gpu_ranges o m false r s f tagI A None (from_user u tagI) bd out = Ok out' /\
    (forall blk i, In blk bs -> In i (interval (brows blk)) ->
       row_value r s (block_terms decl A f tagI i (visited blk)) (fun k => out' (i * rdim r + k)%nat)) /\
    (forall q, (forall blk i k, In blk bs -> In i (interval (brows blk)) -> (k < rdim r)%nat ->
                q <> (i * rdim r + k)%nat) -> out' q = out q).
Proof. exact gpu_blocks. Qed.
Print Assumptions C15_gpu.

(** GPU, rows of no block: they keep the content of the uninitialised output. *)
Theorem C15_gpu_uncovered_rows_refuted : forall decl f r s tagI A u bs o m nx bd out i,
  declared decl f -> wf f -> categories decl -> (tagI <= 1)%nat -> reduction_of (dim f) r -> available r s ->
  orders_ok o -> (1 <= bd)%nat -> user_describes u tagI bs -> disjoint_rows nx bs ->
  flat_map (fun b => interval (brows b)) bs <> [] -> ends_visiting bs ->
  (forall blk c, In blk bs -> In c (bcols blk) -> (fst c <= snd c)%nat) ->
  (forall blk, In blk bs -> ~ In i (interval (brows blk))) ->
  exists out', launch_gpu_ranges o m false r s f tagI A None (from_user u tagI) bd out = Ok out' /\
    forall k, (k < rdim r)%nat -> out' (i * rdim r + k)%nat = out (i * rdim r + k)%nat.
Proof. exact gpu_uncovered. Qed.
Print Assumptions C15_gpu_uncovered_rows_refuted.

(** GPU: when the last block visits no column, the program reads after the end of the array of
    column intervals. *)
Theorem C15_gpu_empty_last_block_refuted : forall o m r s f tagI A u bs blk bd out out', (tagI <= 1)%nat ->
  user_describes u tagI (bs ++ [blk]) -> bcols blk = [] -> interval (brows blk) <> [] ->
  launch_gpu_ranges o m false r s f tagI A None (from_user u tagI) bd out <> Ok out'.
Proof. exact gpu_empty_last. Qed.
Print Assumptions C15_gpu_empty_last_block_refuted.

(** GPU, ranges in host memory: for every pattern with a block, the copy reads after the end of
    the array of slices. *)
Theorem C15_gpu_host_ranges_refuted : forall o m r s f tagI A u bs bd out out', (tagI <= 1)%nat ->
  user_describes u tagI bs -> bs <> [] ->
  launch_gpu_ranges o m true r s f tagI A None (from_user u tagI) bd out <> Ok out'.
Proof. exact gpu_host. Qed.
Print Assumptions C15_gpu_host_ranges_refuted.

(** CPU, log-sum-exp with the default scheme: a row of a block without columns gets NaN where an
    empty reduction has weight 0. *)
Theorem C15_cpu_empty_logsumexp_refuted : forall schedule junk tmp A nx out, complete schedule -> (1 <= nx)%nat ->
  let f := Cat (Var 0 1 1) (Var 1 1 1) in
  let u := {| ranges_i := [(0, 1)]; slices_i := [0]; redranges_j := [];
              ranges_j := []; slices_j := []; redranges_i := [] |}%nat in
  exists out', launch_cpu_ranges schedule junk tmp (LSE_Red 1) block_sum f 0 A None (from_user u 0) nx out = Ok out' /\
    out' 1%nat = NaN /\ rfinal (LSE_Red 1) (run (LSE_Red 1) [] (rinit (LSE_Red 1))) 1 = Fin 0.
Proof. exact cpu_empty_lse. Qed.
Print Assumptions C15_cpu_empty_logsumexp_refuted.

(** Two blocks of rows, rows 2 and 6.. uncovered, adjacent intervals, an empty interval, columns
    visited twice. *)
Example C15_case :
  let f := Bin BSub (Var 0 2 0) (Var 1 2 1) in
  let decl := fun a : Z => if Z.eqb a 1 then (2, 1)%nat else (2, 0)%nat in
  let bs := [ {| brows := (0, 2); bcols := [(0, 2); (2, 5); (7, 7)] |};
              {| brows := (3, 6); bcols := [(4, 6); (4, 9)] |} ]%nat in
  let u := {| ranges_i := [(0, 2); (3, 6)]; slices_i := [3; 5];
              redranges_j := [(0, 2); (2, 5); (7, 7); (4, 6); (4, 9)];
              ranges_j := []; slices_j := []; redranges_i := [] |}%nat in
  declared decl f /\ wf f /\ categories decl /\ reduction_of (dim f) (Sum_Red 2) /\
  available (Sum_Red 2) block_sum /\ available (Sum_Red 2) kahan_scheme /\
  user_describes u 0 bs /\ disjoint_rows 8 bs /\ ends_visiting bs /\
  flat_map (fun b => interval (brows b)) bs = [0; 1; 3; 4; 5]%nat /\
  (forall blk c, In blk bs -> In c (bcols blk) -> (fst c <= snd c)%nat) /\
  map visited bs = [[0; 1; 2; 3; 4]; [4; 5; 4; 5; 6; 7; 8]]%nat.
Proof.
  cbv zeta. split; [repeat split|]. split; [repeat split|]. split; [intros a; destruct (Z.eqb a 1); cbn; lia|].
  split; [constructor|]. split; [eexists; reflexivity|]. split; [eexists; reflexivity|].
  split; [repeat split|]. split.
  { split.
    - cbn. repeat constructor; cbn; lia.
    - intros b [<-|[<-|[]]]; cbn; lia. }
  split; [exists [{| brows := (0, 2); bcols := [(0, 2); (2, 5); (7, 7)] |}]%nat; eexists; split; [reflexivity|discriminate]|].
  split; [reflexivity|]. split; [|reflexivity].
  intros blk c [<-|[<-|[]]] H; cbn in H; repeat (destruct H as [<-|H]; [cbn; lia|]); contradiction.
Qed.
