(** Dense CPU reduction: keopscore/keopscore/mapreduce/cpu/CpuReduc.py lines 24-69 and
    formulas/reductions/sum_schemes.py. *)

From Coq Require Import ZArith Reals Arith List Bool.
From Verif Require Import Result XReal Reductions.
Import ListNotations.

Inductive scheme := direct_sum | block_sum | kahan_scheme.

(** pykeops/common/parse_type.py, get_optional_flags lines 161-192: choice and check of the
    scheme for a reduction of sum type (Sum, Max_SumShiftExp, Max_SumShiftExpWeight) or not.
    [None] is "auto". *)
Definition get_scheme (sumtype : bool) (opt : option scheme) : res scheme :=
  let s := match opt with
           | Some s => s
           | None => if sumtype then block_sum else direct_sum
           end in
  match s with
  | direct_sum => Ok s
  | block_sum | kahan_scheme => if sumtype then Ok s else PyErr
  end.

(** block_sum.initialize_temporary_accumulator, lines 49-53:
    period_accumulate = ny<10 ? 100 : sqrt(ny), converted to an integer. *)
Definition period_accumulate (ny : nat) : nat := if ny <? 10 then 100 else Nat.sqrt ny.

(** Body of the loop on j for block_sum: accumulate_result (lines 58-60) and
    periodic_accumulate_temporary (lines 62-68). *)
Definition block_body (r : reduction) (rp : cells -> cells -> cells) (period : nat)
    (F : nat -> cells) (j : nat) (st : cells * cells) : cells * cells :=
  let (acc, tmp) := st in
  let tmp := rshort r tmp (F j) (Z.of_nat j) in
  if (j + 1) mod period =? 0 then (rp acc tmp, rinit r) else (acc, tmp).

(** One row of the output: CpuReduc.py lines 48-62.  [F j] is the content of fout. *)
Definition cpu_row (r : reduction) (s : scheme) (ny : nat) (F : nat -> cells) : res cells :=
  match s with
  | direct_sum =>
      Ok (rfinal r (for_up ny (fun j acc => rshort r acc (F j) (Z.of_nat j)) (rinit r)))
  | block_sum =>
      match rpair r with
      | Ok rp =>
          let (acc, tmp) :=
            for_up ny (block_body r rp (period_accumulate ny) F) (rinit r, rinit r) in
          Ok (rfinal r (rp acc tmp))
      | KErr => KErr | PyErr => PyErr | OutOfFuel => OutOfFuel
      end
  | kahan_scheme =>
      match rkahan r with
      | Ok kahan =>
          Ok (rfinal r (fst (for_up ny (fun j (st : cells * cells) =>
                 kahan (fst st) (F j) (snd st)) (rinit r, fun _ => Fin 0))))
      | KErr => KErr | PyErr => PyErr | OutOfFuel => OutOfFuel
      end
  end.
