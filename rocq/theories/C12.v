(** C12 -- the dense CPU routine computes the reduction in every row, and nothing else.

    In all statements: [declared decl f] says that the variables of f follow one declaration
    (dimension and category per argument), A is the memory of the arguments, M and N the numbers
    of i and j rows, [schedule] any completion order of the parallel loop, [out] the content of
    the output array before the call. *)

From Coq Require Import ZArith Reals Lia List Permutation.
From Verif Require Import Result Formula XReal Reductions ReductionSpec KernelSum KernelSumSpec LseSpec
  Postprocess CpuReduc Loader CpuConv CpuConvSpec C12Proofs.
Import ListNotations.

(** Sum reductions, any scheme: row n, component k is sum_j F(x_n, y_j)[k] (sum_i F(x_i, y_n)[k]
    for a reduction over i); cells after the last row are unchanged. *)
Theorem C12_sum : forall decl f s tagI A M N schedule out,
  declared decl f -> wf f -> categories decl -> (tagI <= 1)%nat -> complete schedule ->
  exists out', launch_cpu schedule (Sum_Red (dim f)) s f tagI A M N out = Ok out' /\
    (forall n k, (n < out_rows tagI M N)%nat -> (k < dim f)%nat ->
       out' (n * dim f + k)%nat =
       Fin (reduce_sum decl (contiguous decl A) M N {| sformula := f; stagI := tagI |} n k)) /\
    (forall q, (out_rows tagI M N * dim f <= q)%nat -> out' q = out q).
Proof. exact dense_sum. Qed.
Print Assumptions C12_sum.

(** Minimum (maximum) with its first index. *)
Theorem C12_optimum : forall decl f mx tagI A M N schedule out,
  declared decl f -> wf f -> categories decl -> (tagI <= 1)%nat -> complete schedule ->
  exists out', launch_cpu schedule (OptArg_Red mx OBoth (dim f)) direct_sum f tagI A M N out = Ok out' /\
    (forall n k, (n < out_rows tagI M N)%nat -> (k < dim f)%nat -> (0 < red_terms tagI M N)%nat ->
       exists i, (i < red_terms tagI M N)%nat /\
         out' (n * (2 * dim f) + k)%nat = terms decl A f tagI n i k /\
         out' (n * (2 * dim f) + dim f + k)%nat = of_long (Z.of_nat i) /\
         (forall j, (j < red_terms tagI M N)%nat ->
            as_good mx (terms decl A f tagI n i k) (terms decl A f tagI n j k)) /\
         (forall j, (j < i)%nat -> terms decl A f tagI n j k <> terms decl A f tagI n i k)) /\
    (forall q, (out_rows tagI M N * (2 * dim f) <= q)%nat -> out' q = out q).
Proof. exact dense_optimum. Qed.
Print Assumptions C12_optimum.

(** Log-sum-exp with weights in the components after the first. *)
Theorem C12_logsumexp : forall decl f s w tagI A M N schedule out,
  declared decl f -> wf f -> categories decl -> (tagI <= 1)%nat -> complete schedule ->
  dim f = S w -> s <> kahan_scheme -> (0 < red_terms tagI M N)%nat ->
  exists out', launch_cpu schedule (LSE_Red w) s f tagI A M N out = Ok out' /\
    (forall n k, (n < out_rows tagI M N)%nat -> (k < w)%nat ->
       let es := taken (red_terms tagI M N) (entry_of decl A f tagI n) in
       (0 < exp_sum k es)%R ->
       lse_post (fun q => out' (n * S w + q)%nat) k = Fin (ln (exp_sum k es))) /\
    (forall q, (out_rows tagI M N * S w <= q)%nat -> out' q = out q).
Proof. exact dense_lse. Qed.
Print Assumptions C12_logsumexp.

(** Every reduction with direct_sum: row n holds the sequential reduction of C06 and C07 applied
    to F(x_n, y_0), F(x_n, y_1), ... *)
Theorem C12_every_reduction : forall decl f r tagI A M N schedule out,
  declared decl f -> wf f -> categories decl -> (tagI <= 1)%nat ->
  reduction_of (dim f) r -> complete schedule ->
  exists out', launch_cpu schedule r direct_sum f tagI A M N out = Ok out' /\
    (forall n k, (n < out_rows tagI M N)%nat -> (k < rdim r)%nat ->
       out' (n * rdim r + k)%nat =
       rfinal r (run r (dense (red_terms tagI M N) (terms decl A f tagI n)) (rinit r)) k) /\
    (forall q, (out_rows tagI M N * rdim r <= q)%nat -> out' q = out q).
Proof. exact dense_direct. Qed.
Print Assumptions C12_every_reduction.

(** Reductions known to be zero: the routine used instead fills an output of shape
    [shape ++ [d]] with zeros and writes nothing else. *)
Theorem C12_zero : forall schedule shape d out, complete schedule ->
  (forall q, (q < fold_right Nat.mul 1 shape * d)%nat ->
     assign_zero schedule shape d out q = Fin 0) /\
  (forall q, (fold_right Nat.mul 1 shape * d <= q)%nat ->
     assign_zero schedule shape d out q = out q).
Proof. exact zero_output. Qed.
Print Assumptions C12_zero.

(** A formula with i, j and parameter variables of dimensions 3, 3 and 1, reverse schedule. *)
Example C12_case :
  let x := Var 0 3 0 in let y := Var 1 3 1 in let p := Var 2 1 2 in
  let f := Bin BMult p (Bin BSub x y) in
  let decl := fun a : Z => if Z.eqb a 2 then (1, 2)%nat else if Z.eqb a 1 then (3, 1)%nat else (3, 0)%nat in
  declared decl f /\ wf f /\ categories decl /\ dim f = 3%nat /\
  complete (fun n => rev (seq 0 n)) /\ reduction_of (dim f) (KMin_Red OArg 5 3).
Proof.
  cbv zeta. split; [repeat split|]. split; [repeat split|]. split.
  - intros a. destruct (Z.eqb a 2); [cbn; lia|]. destruct (Z.eqb a 1); cbn; lia.
  - split; [reflexivity|]. split; [|constructor]. intros n. apply Permutation_sym, Permutation_rev.
Qed.
