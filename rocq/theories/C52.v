(** C52: rounding errors of the summation schemes. *)

From Coq Require Import ZArith Reals Arith List.
From Verif Require Import Result XReal Reductions CpuReduc SumRounding SumRoundingSpec C52Proofs.
Import ListNotations.
Local Open Scope R_scope.

(** Direct sum of [n] numbers, accumulator of the type of the data: at most [n - 1] roundings.
    Partial (all theorems of this file): no overflow, rounding to nearest; the terms are given,
    the errors of their evaluation are not included; the conditions on the sizes are those stated. *)
Theorem C52_direct_partial : forall t n x, proper t ->
  (forall j, (j < n)%nat -> representable t (x j)) ->
  within ((1 + unit_roundoff t) ^ (n - 1) - 1) n x
    (cpu_float_row (nearest t) (nearest t) direct_sum n x).
Proof. exact direct_same. Qed.
Print Assumptions C52_direct_partial.

(** An accumulator of another type ([dtype_acc], [use_double_acc]), that contains the type of the data: one
    rounding to the type of the data. *)
Theorem C52_direct_mixed_partial : forall ta td n x, proper ta -> proper td -> narrower td ta ->
  (forall j, (j < n)%nat -> representable td (x j)) ->
  within ((1 + unit_roundoff ta) ^ (n - 1) * (1 + unit_roundoff td) - 1) n x
    (cpu_float_row (nearest ta) (nearest td) direct_sum n x).
Proof. exact direct_mixed. Qed.
Print Assumptions C52_direct_mixed_partial.

(** Block scheme on CPU: a number of roundings of the order of the square root of [n]. *)
Theorem C52_block_partial : forall t n x, proper t ->
  (forall j, (j < n)%nat -> representable t (x j)) ->
  within ((1 + unit_roundoff t) ^ (2 * Nat.sqrt n + 3) - 1) n x
    (cpu_float_row (nearest t) (nearest t) block_sum n x).
Proof. exact block_cpu. Qed.
Print Assumptions C52_block_partial.

(** With an accumulator of another type, the roundings inside of a block are still those of the type of
    the data. *)
Theorem C52_block_mixed_partial : forall ta td n x, proper ta -> proper td -> narrower td ta ->
  (forall j, (j < n)%nat -> representable td (x j)) ->
  let p := period_accumulate n in
  within ((1 + unit_roundoff td) ^ (Nat.min n p - 1) * (1 + unit_roundoff ta) ^ (n / p)
          * (1 + unit_roundoff td) - 1) n x
    (cpu_float_row (nearest ta) (nearest td) block_sum n x).
Proof. exact block_mixed_cpu. Qed.
Print Assumptions C52_block_mixed_partial.

(** Block scheme on GPU, tiles of [B] columns. *)
Theorem C52_gpu_block_partial : forall t B n x, proper t -> (0 < B)%nat ->
  (forall j, (j < n)%nat -> representable t (x j)) ->
  within ((1 + unit_roundoff t) ^ (Nat.min n B - 1 + n / B) - 1) n x
    (gpu_float_row (nearest t) (nearest t) B block_sum n x).
Proof. exact gpu_block. Qed.
Print Assumptions C52_gpu_block_partial.

(** The other schemes: the tiles do not change the result at all, rounding included. *)
Theorem C52_gpu_others_partial : forall ta td B s n x,
  proper ta -> (0 < B)%nat -> s <> block_sum ->
  gpu_float_row (nearest ta) (nearest td) B s n x = cpu_float_row (nearest ta) (nearest td) s n x.
Proof. exact gpu_others. Qed.
Print Assumptions C52_gpu_others_partial.

(** Compensated sum: an error of a few roundings, that does not depend on [n] as long as [n] is at most
    the inverse of the unit roundoff (at most 16 units). *)
Theorem C52_kahan_partial : forall t n x, proper t -> (8 <= digits t)%Z ->
  (forall j, (j < n)%nat -> representable t (x j)) ->
  INR n * unit_roundoff t <= 1 ->
  within (5 * unit_roundoff t + 11 * INR n * unit_roundoff t * unit_roundoff t) n x
    (cpu_float_row (nearest t) (nearest t) kahan_scheme n x).
Proof. exact kahan_cpu. Qed.
Print Assumptions C52_kahan_partial.

(** The CPU routine for ranges and batches, direct and compensated sums, on the visited columns. *)
Theorem C52_ranges_direct_partial : forall ta td slices x, proper ta -> proper td -> narrower td ta ->
  (forall j, representable td (x j)) ->
  within ((1 + unit_roundoff ta) ^ (length (columns slices) - 1) * (1 + unit_roundoff td) - 1)
    (length (columns slices)) (fun i => x (nth i (columns slices) O))
    (ranges_float_row (nearest ta) (nearest td) direct_sum slices x).
Proof. exact ranges_direct. Qed.
Print Assumptions C52_ranges_direct_partial.

Theorem C52_ranges_kahan_partial : forall t slices x, proper t -> (8 <= digits t)%Z ->
  (forall j, representable t (x j)) ->
  INR (length (columns slices)) * unit_roundoff t <= 1 ->
  within (5 * unit_roundoff t + 11 * INR (length (columns slices)) * unit_roundoff t * unit_roundoff t)
    (length (columns slices)) (fun i => x (nth i (columns slices) O))
    (ranges_float_row (nearest t) (nearest t) kahan_scheme slices x).
Proof. exact ranges_kahan. Qed.
Print Assumptions C52_ranges_kahan_partial.

(** The hypotheses hold for the usual types and for the numbers [spike]. *)
Example C52_case : proper half /\ proper single /\ proper double /\ narrower single double
  /\ (8 <= digits single)%Z /\ (forall j, representable single (spike j))
  /\ representable half 1 /\ INR 121 * unit_roundoff single <= 1.
Proof. exact ex_hypotheses. Qed.

(** A direct sum of ones stops at 2^digits. *)
Theorem C52_ones_refuted : forall t n, proper t ->
  cpu_float_row (nearest t) (nearest t) direct_sum n (fun _ => 1)
  = IZR (Z.min (Z.of_nat n) (2 ^ digits t)).
Proof. exact cpu_ones. Qed.
Print Assumptions C52_ones_refuted.

(** For ranges and batches on CPU the block scheme is the direct sum in the type of the data, whatever
    the type of the accumulator: it is not more precise. *)
Theorem C52_ranges_block_refuted : forall ta td slices x, proper ta -> proper td -> narrower td ta ->
  ranges_float_row (nearest ta) (nearest td) block_sum slices x
  = ranges_float_row (nearest td) (nearest td) direct_sum slices x.
Proof. exact ranges_block_same. Qed.
Print Assumptions C52_ranges_block_refuted.

(** In particular, with [use_double_acc] and the default scheme, a batched sum of ones in single precision
    stops at 2^24. *)
Theorem C52_ranges_ones_refuted : forall ta td n, proper ta -> proper td -> narrower td ta ->
  ranges_float_row (nearest ta) (nearest td) block_sum [(O, n)] (fun _ => 1)
  = IZR (Z.min (Z.of_nat n) (2 ^ digits td)).
Proof. exact ranges_ones. Qed.
Print Assumptions C52_ranges_ones_refuted.

(** The block scheme with [use_double_acc], without ranges: 10 is lost in a sum that the direct scheme
    with [use_double_acc] computes without error. *)
Theorem C52_double_acc_refuted : (forall j, representable single (spike j))
  /\ sum 121 spike = IZR (2 ^ 24 + 10)
  /\ cpu_float_row (nearest double) (nearest single) direct_sum 121 spike = IZR (2 ^ 24 + 10)
  /\ cpu_float_row (nearest double) (nearest single) block_sum 121 spike = IZR (2 ^ 24).
Proof. exact spike_all. Qed.
Print Assumptions C52_double_acc_refuted.

(** Without rounding, the rows are those of the reduction of C11. *)
Theorem C52_exact_partial : forall s d n (y : nat -> nat -> R) k, (k < d)%nat ->
  exists out, cpu_row (Sum_Red d) s n (fun j c => Fin (y j c)) = Ok out
    /\ out k = Fin (cpu_float_row exactly exactly s n (fun j => y j k)).
Proof. exact exact_row. Qed.
Print Assumptions C52_exact_partial.
