(** C20 -- evaluation by chunks of 64 components.

    [order] is the order in which Python enumerates a set of variables; [o] and [m] are as in C13. *)

From Coq Require Import ZArith Reals Lia List Permutation.
From Verif Require Import Result Formula XReal Reductions ReductionSpec KernelSum KernelSumSpec LseSpec
  Postprocess CpuReduc Loader CpuConvSpec GpuConv Chunks ChunkSpec C20Proofs.
Import ListNotations.

(** Deciding whether to work by chunks never fails. *)
Theorem C20_mode_total : forall order f tagI, wf f -> exists b, chunk_mode order f tagI = Ok b.
Proof. exact mode_total. Qed.
Print Assumptions C20_mode_total.

(** When the mode is selected, the sum of the chunked formula over the chunks, given to the
    remaining formula as a new variable, yields the value of the formula. *)
Theorem C20_formula : forall order decl f tagI, wf f -> declared decl f -> enumerates order -> (tagI <= 1)%nat ->
  chunk_mode order f tagI = Ok true ->
  exists K, chunk_constants order f tagI = Ok K /\
  forall e k, eval f e k =
    eval (c_post K) (with_value e (c_new K)
      (rsum (c_nchunks K) (fun n => eval (chunk_fun K n) (chunk_of decl n e) 0))) k.
Proof. exact formula_value. Qed.
Print Assumptions C20_formula.

(** Every chunked variable has dimension c_org, and each of its components is in exactly one
    chunk. *)
Theorem C20_partition : forall order decl f tagI K, wf f -> declared decl f -> enumerates order -> (tagI <= 1)%nat ->
  chunk_mode order f tagI = Ok true -> chunk_constants order f tagI = Ok K ->
  (forall c i, In i (chunked_inds order (c_fun K) c) -> decl i = (c_org K, c)) /\
  (forall k v, (k < c_nchunks K)%nat -> (v < chunk_dim K k)%nat -> (64 * k + v < c_org K)%nat) /\
  (forall q, (q < c_org K)%nat ->
     exists k v, (k < c_nchunks K)%nat /\ (v < chunk_dim K k)%nat /\ q = (64 * k + v)%nat) /\
  (forall k v k' v', (v < chunk_dim K k)%nat -> (v' < chunk_dim K k')%nat ->
     (64 * k + v = 64 * k' + v')%nat -> k = k' /\ v = v').
Proof. exact chunk_partition. Qed.
Print Assumptions C20_partition.

(** The kernel, for sums and any scheme.  Partial: no chunked parameter, or chunked parameters
    only. *)
Theorem C20_sum_partial : forall order decl f s tagI A M N bd o m out out' K,
  declared decl f -> wf f -> categories decl -> (tagI <= 1)%nat -> enumerates order ->
  orders_ok o -> (0 < out_rows tagI M N)%nat ->
  chunk_mode order f tagI = Ok true -> chunk_constants order f tagI = Ok K ->
  c_pN K = [] \/ c_pC K = [] ->
  launch_chunks order o m (Sum_Red (dim f)) s f tagI A M N bd out = Ok out' ->
    (forall n k, (n < out_rows tagI M N)%nat -> (k < dim f)%nat ->
       out' (n * dim f + k)%nat =
       Fin (reduce_sum decl (contiguous decl A) M N {| sformula := f; stagI := tagI |} n k)) /\
    (forall q, (out_rows tagI M N * dim f <= q)%nat -> out' q = out q).
Proof. exact chunks_sum. Qed.
Print Assumptions C20_sum_partial.

(** Every reduction, with direct_sum. *)
Theorem C20_every_reduction_partial : forall order decl f r tagI A M N bd o m out out' K,
  declared decl f -> wf f -> categories decl -> (tagI <= 1)%nat -> enumerates order -> reduction_of (dim f) r ->
  orders_ok o -> (0 < out_rows tagI M N)%nat ->
  chunk_mode order f tagI = Ok true -> chunk_constants order f tagI = Ok K ->
  c_pN K = [] \/ c_pC K = [] ->
  launch_chunks order o m r direct_sum f tagI A M N bd out = Ok out' ->
    (forall n k, (n < out_rows tagI M N)%nat -> (k < rdim r)%nat ->
       out' (n * rdim r + k)%nat =
       rfinal r (run r (dense (red_terms tagI M N) (terms decl A f tagI n)) (rinit r)) k) /\
    (forall q, (out_rows tagI M N * rdim r <= q)%nat -> out' q = out q).
Proof. exact chunks_direct. Qed.
Print Assumptions C20_every_reduction_partial.

(** Log-sum-exp. *)
Theorem C20_logsumexp_partial : forall order decl f s w tagI A M N bd o m out out' K,
  declared decl f -> wf f -> categories decl -> (tagI <= 1)%nat -> enumerates order -> orders_ok o ->
  (0 < out_rows tagI M N)%nat -> dim f = S w -> s <> kahan_scheme -> (0 < red_terms tagI M N)%nat ->
  chunk_mode order f tagI = Ok true -> chunk_constants order f tagI = Ok K ->
  c_pN K = [] \/ c_pC K = [] ->
  launch_chunks order o m (LSE_Red w) s f tagI A M N bd out = Ok out' ->
    (forall n k, (n < out_rows tagI M N)%nat -> (k < w)%nat ->
       let es := taken (red_terms tagI M N) (entry_of decl A f tagI n) in
       (0 < exp_sum k es)%R ->
       lse_post (fun q => out' (n * S w + q)%nat) k = Fin (ln (exp_sum k es))) /\
    (forall q, (out_rows tagI M N * S w <= q)%nat -> out' q = out q).
Proof. exact chunks_lse. Qed.
Print Assumptions C20_logsumexp_partial.

(** The condition on parameters holds if every parameter is a scalar. *)
Theorem C20_scalar_parameters : forall order decl f tagI K, wf f -> declared decl f -> enumerates order ->
  (tagI <= 1)%nat -> chunk_mode order f tagI = Ok true -> chunk_constants order f tagI = Ok K ->
  (forall v, In v (vars f) -> vcat v = 2%nat -> vdim v = 1%nat) -> c_pC K = [].
Proof. exact scalar_parameters. Qed.
Print Assumptions C20_scalar_parameters.

(** The kernel is generated if every scalar variable of the chunked formula occurs in the
    remaining one. *)
Theorem C20_generated_partial : forall order decl f r s op tagI A M N bd o m out,
  declared decl f -> wf f -> categories decl -> (tagI <= 1)%nat -> enumerates order ->
  scheme_code r s = Ok op -> (1 <= bd)%nat -> (0 < out_rows tagI M N)%nat ->
  chunk_mode order f tagI = Ok true -> (forall K, chunk_constants order f tagI = Ok K ->
     forall v, In v (vars (c_fun K)) -> vdim v = 1%nat -> In v (vars (c_post K))) ->
  exists out', launch_chunks order o m r s f tagI A M N bd out = Ok out'.
Proof. exact launch_ok. Qed.
Print Assumptions C20_generated_partial.

(** A chunked parameter next to another parameter: <x,p> * q with x, p of dimension 100, all
    first components equal to 1, the other ones to 0.  The result is 0 instead of 1. *)
Theorem C20_parameters_refuted : forall m out,
  chunk_mode (fun l => l) par_formula 0 = Ok true /\
  (exists out', launch_chunks (fun l => l) {| load_order := fun _ _ l => l; store_order := fun l => l |} m
     (Sum_Red 1) direct_sum par_formula 0 par_memory 1 1 1 out = Ok out' /\ out' 0%nat = Fin 0) /\
  reduce_sum par_decl (contiguous par_decl par_memory) 1 1 {| sformula := par_formula; stagI := 0 |} 0 0 = 1%R.
Proof. exact parameters_wrong. Qed.
Print Assumptions C20_parameters_refuted.

(** A scalar variable in the chunked formula only: Sum(Exp(x*p)) with x of dimension 100.  The mode
    is selected and the kernel cannot be generated. *)
Theorem C20_scalars_refuted : forall order o m r s A M N bd out, enumerates order ->
  wf scal_formula /\ chunk_mode order scal_formula 0 = Ok true /\
  launch_chunks order o m r s scal_formula 0 A M N bd out = PyErr.
Proof. exact scalars_missing. Qed.
Print Assumptions C20_scalars_refuted.

(** Exp(-Sum(Square(x-y))) * b with x, y of dimension 150: three chunks, the last of size 22. *)
Example C20_case :
  let x := Var 0 150 0 in let y := Var 1 150 1 in let b := Var 2 1 1 in
  let f := Bin BMult (Un UExp (Un UMinus (Lin LSum (Un USquare (Bin BSub x y))))) b in
  let decl := fun a : Z => if Z.eqb a 2 then (1, 1)%nat else if Z.eqb a 1 then (150, 1)%nat else (150, 0)%nat in
  declared decl f /\ wf f /\ categories decl /\ chunk_mode (fun l => l) f 0 = Ok true /\
  enumerates (fun l => l) /\ reduction_of (dim f) (Sum_Red (dim f)) /\
  exists K, chunk_constants (fun l => l) f 0 = Ok K /\ c_nchunks K = 3%nat /\ c_dimlast K = 22%nat /\
    c_pN K = [] /\
    (forall o m A out, exists out',
       launch_chunks (fun l => l) o m (Sum_Red 1) block_sum f 0 A 5 7 4 out = Ok out').
Proof.
  cbv zeta. split; [repeat split|]. split; [repeat split|]. split.
  { intros a. destruct (Z.eqb a 2); [cbn; lia|]. destruct (Z.eqb a 1); cbn; lia. }
  split; [reflexivity|]. split; [intros l; apply Permutation_refl|]. split; [constructor|].
  eexists. split; [reflexivity|]. split; [reflexivity|]. split; [reflexivity|]. split; [reflexivity|].
  intros. eexists. reflexivity.
Qed.
