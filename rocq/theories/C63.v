(** * C63: torch.vmap.

    The claim (a reduction called inside torch.vmap gives, stacked along a new first dimension, the results of
    the calls on the slices of the mapped arguments) holds when the mapped dimensions are among the first two, there
    are rows and columns, and neither ranges nor [out] are given ([C63_vmap_partial], [C63_equal_partial]).
    Otherwise it is false: a third dimension is exchanged with the first one, not moved
    ([C63_third_dimension_refuted]); with ranges the indices of the blocks are not set
    ([C63_ranges_refuted]); a tensor [out] is returned with its own sizes and written after its end
    ([C63_out_refuted]); without columns the call divides by 0 ([C63_no_columns_refuted]); for a formula of
    parameters there is one result ([C63_parameters_only_refuted]).
    Restricted to the CPU routines and contiguous tensors. *)

From Coq Require Import ZArith Reals Arith Lia Permutation List.
From Verif Require Import Result Formula XReal Reductions KernelSum KernelSumSpec CpuReduc Loader CpuConv CpuConvSpec
  RangesConv RangesSpec Broadcast ArgCheck ArgCheckSpec Vmap VmapSpec C63Proofs.
Import ListNotations.

(** The result has a first dimension of B slices, and the slice b of it and the result of the call on the slices b
    of the arguments are both the reduction of the same values, whatever the memory contains before both calls. *)
Theorem C63_vmap_partial : forall g in_dims args full B M N decl, mappable g in_dims args full B M N decl ->
  forall schedule junk tmp, complete schedule -> leading in_dims ->
  let rows := out_rows (g_tag g) M N in
  let sizes := full ++ [rows; rdim (g_red g)] in
  let terms := fun b idx x => tensor_terms decl (slices in_dims b args) (g_formula g) (g_tag g) idx x (red_terms (g_tag g) M N) in
  forall mem, exists o,
    vmap_call schedule junk tmp g None None in_dims args mem = Ok (B :: sizes, o) /\
    forall b mem', b < B -> exists o',
      plain_call schedule junk tmp g None None (slices in_dims b args) mem' = Ok (sizes, o') /\
      forall idx x, inside idx full -> x < rows ->
        row_value (g_red g) (g_sch g) (terms b idx x) (fun k => o (ravel (B :: sizes) (b :: idx ++ [x; k]))) /\
        row_value (g_red g) (g_sch g) (terms b idx x) (fun k => o' (ravel sizes (idx ++ [x; k]))).
Proof. exact vmap_slices. Qed.
Print Assumptions C63_vmap_partial.

(** All numbers are equal, for the direct scheme and for sums. *)
Theorem C63_equal_partial : forall g in_dims args full B M N decl, mappable g in_dims args full B M N decl ->
  forall schedule junk tmp, complete schedule -> leading in_dims ->
  g_sch g = direct_sum \/ (exists d, g_red g = Sum_Red d) ->
  let sizes := full ++ [out_rows (g_tag g) M N; rdim (g_red g)] in
  forall mem, exists o,
    vmap_call schedule junk tmp g None None in_dims args mem = Ok (B :: sizes, o) /\
    forall b mem', b < B -> exists o',
      plain_call schedule junk tmp g None None (slices in_dims b args) mem' = Ok (sizes, o') /\
      forall p, inside p sizes -> o (ravel (B :: sizes) (b :: p)) = o' (ravel sizes p).
Proof. exact vmap_equal. Qed.
Print Assumptions C63_equal_partial.

(** The sum over j of x_i of dimension n, mapped along its third dimension: rows and components are exchanged. *)
Theorem C63_third_dimension_refuted : forall n B x schedule junk tmp, complete schedule -> 1 <= n -> 1 <= B ->
  t_size x = [n; n; B] -> (Z.of_nat (ArgCheckSpec.entries [n; n; B]) <= 2 ^ 31)%Z -> forall mem, exists o,
  vmap_call schedule junk tmp (of_variable n) None None [Some 2] [x] mem = Ok ([B; n; n], o) /\
  (forall b i k, b < B -> i < n -> k < n -> o (ravel [B; n; n] [b; i; k]) = Fin (t_at x [k; i; b])) /\
  forall b mem', b < B -> exists o',
    plain_call schedule junk tmp (of_variable n) None None (slices [Some 2] b [x]) mem' = Ok ([n; n], o') /\
    forall i k, i < n -> k < n -> o' (ravel [n; n] [i; k]) = Fin (t_at x [i; k; b]).
Proof. exact third_dimension. Qed.
Print Assumptions C63_third_dimension_refuted.

(** Ranges: undefined for all calls. *)
Theorem C63_ranges_refuted : forall g in_dims args full B M N decl, mappable g in_dims args full B M N decl ->
  forall schedule junk tmp, leading in_dims ->
  forall u out mem, vmap_call schedule junk tmp g (Some u) out in_dims args mem = PyErr.
Proof. exact ranges_undefined. Qed.
Print Assumptions C63_ranges_refuted.

(** [out] of sizes (1, 1), two slices: the result has no new dimension and the second number is written after the end
    of [out]. *)
Theorem C63_out_refuted : forall x junk tmp mem, t_size x = [2; 1; 1] -> exists o,
  vmap_call (fun n => seq 0 n) junk tmp (of_variable 1) None (Some [1; 1]) [Some 0] [x] mem = Ok ([1; 1], o) /\
  o 0%nat = Fin (t_at x [0; 0; 0]) /\ o 1%nat = Fin (t_at x [1; 0; 0]).
Proof. exact out_overrun. Qed.
Print Assumptions C63_out_refuted.

(** No columns: the call of each slice returns 0, the mapped call fails. *)
Theorem C63_no_columns_refuted : forall x y schedule junk tmp mem, complete schedule ->
  t_size x = [2; 1; 1] -> t_size y = [0; 1] ->
  (forall res, vmap_call schedule junk tmp of_pair None None [Some 0; None] [x; y] mem <> Ok res) /\
  forall b mem', exists o',
    plain_call schedule junk tmp of_pair None None (slices [Some 0; None] b [x; y]) mem' = Ok ([1; 1], o') /\
    o' 0%nat = Fin 0.
Proof. exact no_columns. Qed.
Print Assumptions C63_no_columns_refuted.

(** Parameters only: one row, for any number of slices. *)
Theorem C63_parameters_only_refuted : forall d B x schedule junk tmp, complete schedule -> 1 <= d -> t_size x = [B; d] ->
  forall mem, exists o,
  vmap_call schedule junk tmp (of_parameter d) None None [Some 0] [x] mem = Ok ([1; d], o).
Proof. exact parameters_only. Qed.
Print Assumptions C63_parameters_only_refuted.

(** x of sizes (2, 3, 4, 1) mapped along its second dimension and y of sizes (1, 5, 1) not mapped: three calls with one
    batch dimension of size 2, 4 rows and 5 columns. *)
Example C63_case : forall ax ay,
  mappable of_pair [Some 1; None] [Tensor [2; 3; 4; 1] ax; Tensor [1; 5; 1] ay] [2] 3 4 5
    (fun a => if (a =? 0)%Z then (1, 0) else (1, 1)) /\ leading [Some 1; None].
Proof.
  intros ax ay. split.
  - constructor; try (cbn; lia); try exact I; try reflexivity.
    + split; [repeat constructor|]. exists 1. left. reflexivity.
    + constructor; try reflexivity.
      * intros al [<-|[<-|[]]]; cbn; lia.
      * intros al [<-|[<-|[]]]; [exists [2]|exists [1]]; (split; [constructor; [cbn; lia|constructor]|reflexivity]).
      * intros [|q] H; cbn in H; [|lia]. right. split; [cbn; lia|]. exists [2; 4; 1]. split; [left; reflexivity|reflexivity].
      * right. eexists. split; [left; reflexivity|reflexivity].
      * right. eexists. split; [right; left; reflexivity|reflexivity].
      * eexists. split; [left; reflexivity|]. cbn. lia.
    + cbn. auto.
    + intros a. destruct (a =? 0)%Z; cbn; lia.
    + intros a d c [H|[H|[]]]; injection H as <- <- <-; eexists.
      * split; [left; reflexivity|repeat split].
      * split; [right; left; reflexivity|repeat split].
    + intros al [<-|[<-|[]]]; cbn; auto.
    + constructor.
    + intros x [<-|[<-|[]]]; vm_compute; discriminate.
    + intros al [<-|[<-|[]]]; cbn; lia.
  - intros d [H|[H|[]]]; [injection H as <-; lia|discriminate].
Qed.

(** [C63_third_dimension_refuted] for n = 2 and B = 3: the slice 0 of x is returned
    transposed. *)
Example C63_exchanged : forall ax mem, exists o,
  vmap_call (fun n => seq 0 n) (fun _ => 0%R) (fun _ => Fin 0) (of_variable 2) None None [Some 2] [Tensor [2; 2; 3] ax] mem
    = Ok ([3; 2; 2], o) /\ o 1 = Fin (ax [1; 0; 0]) /\ o 2 = Fin (ax [0; 1; 0]).
Proof.
  intros ax mem.
  destruct (C63_third_dimension_refuted 2 3 (Tensor [2; 2; 3] ax) (fun n => seq 0 n) (fun _ => 0%R) (fun _ => Fin 0)
              (fun n => Permutation_refl _)) with (mem := mem) as [o [E [H _]]];
    [lia|lia|reflexivity|vm_compute; discriminate|].
  exists o. split; [exact E|]. split; [apply (H 0 0 1)|apply (H 0 1 0)]; lia.
Qed.

(** The same ranges outside of torch.vmap. *)
Example C63_ranges_outside : forall ax ay mem, exists o,
  plain_call (fun n => seq 0 n) (fun _ => 0%R) (fun _ => Fin 0) of_pair
    (Some {| ranges_i := [(0, 1)]; slices_i := [1]; redranges_j := [(0, 1)];
             ranges_j := [(0, 1)]; slices_j := [1]; redranges_i := [(0, 1)] |}) None
    [Tensor [1; 1] ax; Tensor [1; 1] ay] mem = Ok ([1; 1], o) /\ o 0 = Fin (ax [0; 0]%nat + ay [0; 0]%nat).
Proof.
  intros ax ay mem. eexists. split; [cbv -[Rplus Rmult IZR]; reflexivity|]. cbv -[Rplus Rmult IZR]. f_equal. ring.
Qed.
