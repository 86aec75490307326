(** * Sums in floating point arithmetic.

    Models the sum schemes with rounded operations: keopscore/keopscore/formulas/reductions/
    sum_schemes.py, Sum_Reduction.py lines 21-41 ([InitializeReduction], [ReducePairScalar],
    [KahanScheme]), Reduction.py [FinalizeOutput], in the loops of mapreduce/cpu/CpuReduc.py lines 48-62,
    mapreduce/cpu/CpuReduc_ranges.py lines 189-228 and mapreduce/gpu/GpuReduc1D.py lines 59-97.

    The accumulator [acc] has the type [dtypeacc] (MapReduce.py line 74); the temporary accumulator of the scheme
    has the type [dtype] of the data (MapReduce.py line 59).  [fa] and [fd] are the roundings of
    these types.  One component of the output; the term [x j] is the content of [fout], a number of the
    type of the data, that is converted exactly to the type of the accumulator.

    Simplifications: operations round to nearest, ties to even, in the format with subnormal numbers
    and without largest number (no overflow); the compiler does not reorder operations. *)

From Coq Require Import ZArith Reals Arith List Bool.
From Flocq Require Import Core.
From Verif Require Import Result Reductions CpuReduc.
Import ListNotations.
Local Open Scope R_scope.

(** A floating point type: digits, exponent of the smallest positive number. *)
Record ftype := { digits : Z; least : Z }.
Definition half : ftype := {| digits := 11; least := -24 |}.
Definition single : ftype := {| digits := 24; least := -149 |}.
Definition double : ftype := {| digits := 53; least := -1074 |}.

Definition nearest (t : ftype) (x : R) : R :=
  round radix2 (FLT_exp (least t) (digits t)) ZnearestE x.

Section Row.

Variables fa fd : R -> R.

(** [acc += xi], [acc] of the type of the accumulator; [tmp += xi], [tmp] of the type of the data. *)
Definition add_acc (a b : R) : R := fa (a + b).
Definition add_tmp (a b : R) : R := fd (a + b).

(** [KahanScheme]: [a] and [b] have the type of the accumulator, and the first subtraction is between
    numbers of the type of the data. *)
Definition kahan_step (acc xi tmp : R) : R * R :=
  let a := fd (xi - tmp) in
  let b := fa (acc + a) in
  (b, fd (fa (fa (b - acc) - a))).

(** Body of the loop for [block_sum]: [accumulate_result], [periodic_accumulate_temporary]. *)
Definition block_step (period : nat) (x : nat -> R) (j : nat) (st : R * R) : R * R :=
  let (acc, tmp) := st in
  let tmp := add_tmp tmp (x j) in
  if ((j + 1) mod period =? 0)%nat then (add_acc acc tmp, 0) else (acc, tmp).

(** One row of the dense CPU routine, for a period of the block scheme; the output has the type of the
    data. *)
Definition dense_row (period : nat) (s : scheme) (ny : nat) (x : nat -> R) : R :=
  fd match s with
     | direct_sum => for_up ny (fun j acc => add_acc acc (x j)) 0
     | block_sum =>
         let (acc, tmp) := for_up ny (block_step period x) (0, 0) in add_acc acc tmp
     | kahan_scheme =>
         fst (for_up ny (fun j (st : R * R) => kahan_step (fst st) (x j) (snd st)) (0, 0))
     end.

Definition cpu_float_row (s : scheme) (ny : nat) (x : nat -> R) : R :=
  dense_row (period_accumulate ny) s ny x.

(** One row of the CPU routine for ranges and batches: the slices give the visited columns; there is no
    periodic accumulation. *)
Definition ranges_float_row (s : scheme) (slices : list (nat * nat)) (x : nat -> R) : R :=
  let columns := flat_map (fun p => seq (fst p) (snd p - fst p)) slices in
  fd match s with
     | direct_sum => fold_left (fun acc j => add_acc acc (x j)) columns 0
     | block_sum => add_acc 0 (fold_left (fun tmp j => add_tmp tmp (x j)) columns 0)
     | kahan_scheme =>
         fst (fold_left (fun (st : R * R) j => kahan_step (fst st) (x j) (snd st)) columns (0, 0))
     end.

(** One row of the GPU routine, tiles of [B] columns. *)
Definition tile_size (B ny tile : nat) : nat := Nat.min B (ny - tile * B).

Definition gpu_float_row (B : nat) (s : scheme) (ny : nat) (x : nat -> R) : R :=
  let tiles := ((ny + B - 1) / B)%nat in
  fd match s with
     | direct_sum =>
         for_up tiles (fun tile acc =>
           for_up (tile_size B ny tile) (fun jrel acc => add_acc acc (x (jrel + tile * B)%nat)) acc) 0
     | block_sum =>
         for_up tiles (fun tile acc =>
           add_acc acc
             (for_up (tile_size B ny tile) (fun jrel tmp => add_tmp tmp (x (jrel + tile * B)%nat)) 0)) 0
     | kahan_scheme =>
         fst (for_up tiles (fun tile st =>
           for_up (tile_size B ny tile)
             (fun jrel (st : R * R) => kahan_step (fst st) (x (jrel + tile * B)%nat) (snd st)) st) (0, 0))
     end.

End Row.
