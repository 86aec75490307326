(** C13 -- the one-dimensional GPU routine gives every row the reduction over all columns, for
    every block size and every order in which the threads of a phase act.

    [o] gives the order of the assignments to shared memory between two barriers, per block and
    tile, and of the writes to the output; [m] is the content of uninitialised shared memory and
    registers; bd is the block size. *)

From Coq Require Import ZArith Reals Lia List Permutation.
From Verif Require Import Result Formula XReal Reductions ReductionSpec KernelSum KernelSumSpec LseSpec
  Postprocess CpuReduc Loader CpuConvSpec GpuConv C13Proofs.
Import ListNotations.

(** Sum reductions, any scheme. *)
Theorem C13_sum : forall decl f s tagI A M N bd o m out,
  declared decl f -> wf f -> categories decl -> (tagI <= 1)%nat ->
  orders_ok o -> (1 <= bd)%nat -> (0 < out_rows tagI M N)%nat ->
  exists out', launch_1d o m (Sum_Red (dim f)) s f tagI A M N bd out = Ok out' /\
    (forall n k, (n < out_rows tagI M N)%nat -> (k < dim f)%nat ->
       out' (n * dim f + k)%nat =
       Fin (reduce_sum decl (contiguous decl A) M N {| sformula := f; stagI := tagI |} n k)) /\
    (forall q, (out_rows tagI M N * dim f <= q)%nat -> out' q = out q).
Proof. exact gpu_sum. Qed.
Print Assumptions C13_sum.

(** Every reduction with direct_sum: the sequential reduction of C06 and C07. *)
Theorem C13_every_reduction : forall decl f r tagI A M N bd o m out,
  declared decl f -> wf f -> categories decl -> (tagI <= 1)%nat -> reduction_of (dim f) r ->
  orders_ok o -> (1 <= bd)%nat -> (0 < out_rows tagI M N)%nat ->
  exists out', launch_1d o m r direct_sum f tagI A M N bd out = Ok out' /\
    (forall n k, (n < out_rows tagI M N)%nat -> (k < rdim r)%nat ->
       out' (n * rdim r + k)%nat =
       rfinal r (run r (dense (red_terms tagI M N) (terms decl A f tagI n)) (rinit r)) k) /\
    (forall q, (out_rows tagI M N * rdim r <= q)%nat -> out' q = out q).
Proof. exact gpu_direct. Qed.
Print Assumptions C13_every_reduction.

(** Log-sum-exp. *)
Theorem C13_logsumexp : forall decl f s w tagI A M N bd o m out,
  declared decl f -> wf f -> categories decl -> (tagI <= 1)%nat -> orders_ok o -> (1 <= bd)%nat ->
  (0 < out_rows tagI M N)%nat -> dim f = S w -> s <> kahan_scheme -> (0 < red_terms tagI M N)%nat ->
  exists out', launch_1d o m (LSE_Red w) s f tagI A M N bd out = Ok out' /\
    (forall n k, (n < out_rows tagI M N)%nat -> (k < w)%nat ->
       let es := taken (red_terms tagI M N) (entry_of decl A f tagI n) in
       (0 < exp_sum k es)%R ->
       lse_post (fun q => out' (n * S w + q)%nat) k = Fin (ln (exp_sum k es))) /\
    (forall q, (out_rows tagI M N * S w <= q)%nat -> out' q = out q).
Proof. exact gpu_lse. Qed.
Print Assumptions C13_logsumexp.

(** The loads of a tile write inside the shared array (bd * dimy cells) and read existing rows
    of arguments of the reduced category. *)
Theorem C13_in_bounds : forall decl f tagI bd ny tile c, declared decl f -> (tagI <= 1)%nat ->
  In c (block_copies (loader f tagI) bd ny tile) ->
  (dst c < bd * dims (varsJ (loader f tagI)))%nat /\
  snd (decl (src c)) = (1 - tagI)%nat /\ (spos c < ny * fst (decl (src c)))%nat.
Proof. exact loads_in_bounds. Qed.
Print Assumptions C13_in_bounds.

(** The block size chosen by the launcher never needs more than the available shared memory; it
    is at least 1 exactly when one row of the j variables fits. *)
Theorem C13_block_size : forall cuda_block_size max_threads shared_mem dimY sizeof,
  (1 <= cuda_block_size)%nat -> (1 <= max_threads)%nat ->
  (block_size cuda_block_size max_threads shared_mem dimY sizeof * (dimY * sizeof) <= shared_mem)%nat /\
  ((1 <= block_size cuda_block_size max_threads shared_mem dimY sizeof)%nat <->
   (1 <= shared_mem)%nat /\ (dimY * sizeof <= shared_mem)%nat).
Proof. exact block_sizes. Qed.
Print Assumptions C13_block_size.

(** A j variable whose row does not fit (d float32 components with 4*d > 49152, the shared memory
    of a block on most devices): the block size is zero, and there is no result. *)
Theorem C13_wide_rows_refuted : forall d A M N o m out out', (48 * 1024 < d * 4)%nat ->
  launch_1d o m (Sum_Red d) block_sum (Var 0 d 1) 0 A M N
    (block_size 192 1024 (48 * 1024) (dims (varsJ (loader (Var 0 d 1) 0))) 4) out <> Ok out'.
Proof. exact wide_rows. Qed.
Print Assumptions C13_wide_rows_refuted.

(** Orders reversing every phase, block size 4 for 10 rows and 7 columns. *)
Example C13_case :
  let x := Var 0 3 0 in let y := Var 1 3 1 in let p := Var 2 1 2 in
  let f := Bin BMult p (Bin BSub x y) in
  let decl := fun a : Z => if Z.eqb a 2 then (1, 2)%nat else if Z.eqb a 1 then (3, 1)%nat else (3, 0)%nat in
  declared decl f /\ wf f /\ categories decl /\ reduction_of (dim f) (OptArg_Red false OArg 3) /\
  orders_ok {| load_order := fun _ _ l => rev l; store_order := fun l => rev l |} /\
  (0 < out_rows 0 10 7)%nat /\ tiles 4 7 = 2%nat /\ blocks 10 4 = 3%nat /\
  block_size 192 1024 (48 * 1024) 3 4 = 192%nat.
Proof.
  cbv zeta. split; [repeat split|]. split; [repeat split|]. split.
  - intros a. destruct (Z.eqb a 2); [cbn; lia|]. destruct (Z.eqb a 1); cbn; lia.
  - split; [constructor|]. split; [split; intros; apply Permutation_sym, Permutation_rev|].
    split; [cbn; lia|]. split; [reflexivity|]. split; [reflexivity|].
    unfold block_size. change (Nat.max 1 (3 * 4)) with 12%nat.
    assert ((192 <= 48 * 1024 / 12)%nat) by (apply Nat.div_le_lower_bound; lia). lia.
Qed.
