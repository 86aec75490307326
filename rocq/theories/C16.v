(** C16 -- batch dimensions follow numpy broadcasting.

    [full] is the list of the common batch sizes; each argument has size 1 or the common size
    along each of them; idx is a batch index.  [numpy_row shape n idx x] is the row that numpy
    broadcasting reads, in C order, in an array of batch sizes [shape] with n rows. *)

From Coq Require Import ZArith Reals Arith Lia List Permutation.
From Verif Require Import Result Formula XReal Reductions KernelSum KernelSumSpec LseSpec Postprocess CpuReduc Loader
  CpuConv CpuConvSpec GpuConv RangesConv RangesSpec C16Proofs.
Import ListNotations.

(** The row computed by broadcast_index, for any number of dimensions. *)
Theorem C16_address : forall shape full n idx x, compatible shape full -> inside idx full -> (x < n)%nat ->
  (Z.of_nat (fold_right Nat.mul 1 shape * n)%nat <= 2 ^ 31)%Z ->
  broadcast_index (ravel (full ++ [n]) (idx ++ [x])) full (shape, n) = Ok (numpy_row shape n idx x).
Proof. exact broadcast_address. Qed.
Print Assumptions C16_address.

(** The row is inside the array. *)
Theorem C16_in_bounds : forall shape full n idx x, compatible shape full -> inside idx full -> (x < n)%nat ->
  (numpy_row shape n idx x < fold_right Nat.mul 1 shape * n)%nat.
Proof. exact numpy_row_bound. Qed.
Print Assumptions C16_in_bounds.

(** The number of batch dimensions is recovered when the formula has an i or j variable. *)
Theorem C16_batch_dimensions : forall decl f argshapes full M N, declared decl f ->
  (forall a d c, In (a, d, c) (vars f) -> shape_ok decl argshapes full M N a /\ (0 <= a)%Z) ->
  (exists a d c, In (a, d, c) (vars f) /\ (c <= 1)%nat) ->
  nbatchdims argshapes (map fst (vars_cat f 0)) (map fst (vars_cat f 1)) = length full.
Proof. exact batch_dims. Qed.
Print Assumptions C16_batch_dimensions.

(** CPU: the whole computation, for every reduction. *)
Theorem C16_cpu : forall decl f tagI A argshapes full M N, declared decl f -> wf f -> categories decl -> (tagI <= 1)%nat ->
  (forall a d c, In (a, d, c) (vars f) -> shape_ok decl argshapes full M N a) ->
  common argshapes full (map vpos (vars f)) ->
  (forall a d c, In (a, d, c) (vars f) -> fits decl argshapes (length full) a) ->
  (1 <= M)%nat -> (1 <= N)%nat ->
  forall r s schedule junk tmp out, reduction_of (dim f) r -> available r s -> complete schedule ->
  let bt := batch_data f tagI argshapes (length full) M N in
  let rows := (fold_right Nat.mul 1 full * out_rows tagI M N)%nat in
  exists out', launch_cpu_ranges schedule junk tmp r s f tagI A (Some bt) (batch_ranges (bsizes bt) tagI) rows out = Ok out' /\
    (forall idx x, inside idx full -> (x < out_rows tagI M N)%nat ->
       row_value r s (batch_terms decl argshapes A f tagI idx x (red_terms tagI M N))
         (fun k => out' (numpy_row full (out_rows tagI M N) idx x * rdim r + k)%nat)) /\
    (forall q, (rows * rdim r <= q)%nat -> out' q = out q).
Proof. exact cpu_batch. Qed.
Print Assumptions C16_cpu.

(** GPU (ranges in device memory). *)
Theorem C16_gpu : forall decl f tagI A argshapes full M N, declared decl f -> wf f -> categories decl -> (tagI <= 1)%nat ->
  (forall a d c, In (a, d, c) (vars f) -> shape_ok decl argshapes full M N a) ->
  common argshapes full (map vpos (vars f)) ->
  (forall a d c, In (a, d, c) (vars f) -> fits decl argshapes (length full) a) ->
  (1 <= M)%nat -> (1 <= N)%nat ->
  forall r s o m bd out, reduction_of (dim f) r -> available r s -> orders_ok o -> (1 <= bd)%nat ->
  (1 <= fold_right Nat.mul 1 full)%nat ->
  let bt := batch_data f tagI argshapes (length full) M N in
  let rows := (fold_right Nat.mul 1 full * out_rows tagI M N)%nat in
  exists out', launch_gpu_ranges o m false r s f tagI A (Some bt) (batch_ranges (bsizes bt) tagI) bd out = Ok out' /\
    (forall idx x, inside idx full -> (x < out_rows tagI M N)%nat ->
       row_value r s (batch_terms decl argshapes A f tagI idx x (red_terms tagI M N))
         (fun k => out' (numpy_row full (out_rows tagI M N) idx x * rdim r + k)%nat)) /\
    (forall q, (rows * rdim r <= q)%nat -> out' q = out q).
Proof. exact gpu_batch. Qed.
Print Assumptions C16_gpu.

(** Rows from 2^31 on: the int returned by broadcast_index is negative. *)
Theorem C16_many_rows_refuted : forall M x, (2 ^ 31 <= Z.of_nat x)%Z -> (Z.of_nat x < 2 ^ 32)%Z -> (x < M)%nat ->
  broadcast_index x [1%nat] ([1%nat], M) = PyErr.
Proof. exact broadcast_overflow. Qed.
Print Assumptions C16_many_rows_refuted.

(** No columns (N = 0): division by zero, where the computation without batch gives zero. *)
Theorem C16_no_columns_refuted : forall schedule junk tmp A out out', complete schedule ->
  let f := Bin BAdd (Var 0 1 0) (Var 1 1 1) in
  let argshapes := fun a : Z => if Z.eqb a 0 then [2; 1; 1]%nat else [2; 0; 1]%nat in
  let bt := batch_data f 0 argshapes 1 1 0 in
  launch_cpu_ranges schedule junk tmp (Sum_Red 1) block_sum f 0 A (Some bt) (batch_ranges (bsizes bt) 0) 2 out <> Ok out'.
Proof. exact empty_columns. Qed.
Print Assumptions C16_no_columns_refuted.

(** A formula of parameters only: the batch dimensions of its arguments are not seen. *)
Theorem C16_parameters_only_refuted : forall d argshapes,
  nbatchdims argshapes (map fst (vars_cat (Var 0 d 2) 0)) (map fst (vars_cat (Var 0 d 2) 1)) = 0%nat.
Proof. intros d. exact params_no_batch. Qed.
Print Assumptions C16_parameters_only_refuted.

(** x of sizes (2,1,3; M=4), y of sizes (1,5,3; N=6), p of sizes (2,5,1): common sizes (2,5,3). *)
Example C16_case :
  let f := Bin BMult (Var 2 1 2) (Bin BSub (Var 0 2 0) (Var 1 2 1)) in
  let decl := fun a : Z => if Z.eqb a 2 then (1, 2)%nat else if Z.eqb a 1 then (2, 1)%nat else (2, 0)%nat in
  let argshapes := fun a : Z => if Z.eqb a 2 then [2; 5; 1; 1]%nat
                                else if Z.eqb a 1 then [1; 5; 3; 6; 2]%nat else [2; 1; 3; 4; 2]%nat in
  let full := [2; 5; 3]%nat in
  declared decl f /\ wf f /\ categories decl /\
  (forall a d c, In (a, d, c) (vars f) -> shape_ok decl argshapes full 4 6 a) /\
  common argshapes full (map vpos (vars f)) /\
  (forall a d c, In (a, d, c) (vars f) -> fits decl argshapes 3 a) /\
  full_batch (bsizes (batch_data f 0 argshapes 3 4 6)) = full /\
  inside [1; 3; 2]%nat full /\
  numpy_row [2; 1; 3]%nat 4 [1; 3; 2]%nat 1 = 21%nat /\ numpy_row full 4 [1; 3; 2]%nat 1 = 105%nat /\
  broadcast_index 105 full ([2; 1; 3]%nat, 4%nat) = Ok 21%nat.
Proof.
  cbv zeta. split; [repeat split|]. split; [repeat split|]. split.
  { intros a. destruct (Z.eqb a 2); [cbn; lia|]. destruct (Z.eqb a 1); cbn; lia. }
  split.
  { intros a d c H. cbn in H. destruct H as [H|[H|[H|[]]]]; inversion H; subst; [exists [2; 1; 3]%nat|exists [1; 5; 3]%nat|exists [2; 5; 1]%nat];
      (split; [repeat (constructor; [auto; fail|]); constructor|reflexivity]). }
  split.
  { intros [|[|[|q]]] Hq; [right|right|right|cbn in Hq; lia].
    - exists 0%Z. split; [cbn; auto|reflexivity].
    - exists 1%Z. split; [cbn; auto|reflexivity].
    - exists 0%Z. split; [cbn; auto|reflexivity]. }
  split.
  { intros a d c H. cbn in H. destruct H as [H|[H|[H|[]]]]; inversion H; subst; unfold fits; cbn; lia. }
  split; [reflexivity|]. split; [repeat constructor|]. split; [reflexivity|]. split; reflexivity.
Qed.
