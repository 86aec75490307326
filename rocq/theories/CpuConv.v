(** The dense CPU routine at the level of memory: keopscore/keopscore/mapreduce/cpu/CpuReduc.py
    lines 22-88 and CpuAssignZero.py lines 37-70. *)

From Coq Require Import ZArith Reals Arith List Bool.
From Verif Require Import Result Formula XReal Reductions CpuReduc Loader.
Import ListNotations.

(** FinalizeOutput(acc, outi, i): the rdim cells of row i of the output array, at
    out + i * dim (MapReduce.py line 79), receive the result. *)
Definition write_row (d i : nat) (v out : cells) : cells :=
  for_up d (fun k o => upd o (i * d + k) (v k)) out.

(** Content of fout at (i,j): values of the formula on the direct table. *)
Definition fout (f : fm) (L : var_loader) (A : memory) (i j : nat) : cells :=
  fun k => Fin (eval f (table_env (direct_table L A i j)) k).

(** The loop on i (lines 45-64), "#pragma omp parallel for": [order] is the order in which the
    rows are completed.  Iterations share only the output array. *)
Fixpoint conv_rows (r : reduction) (s : scheme) (f : fm) (L : var_loader) (A : memory)
    (ny : nat) (order : list nat) (out : cells) : res cells :=
  match order with
  | [] => Ok out
  | i :: order =>
      do v <- cpu_row r s ny (fout f L A i) ;
      conv_rows r s f L A ny order (write_row (rdim r) i v out)
  end.

(** launch_keops, lines 72-86: exchange of nx and ny when tagI = 1, then CpuConv.  [schedule n]
    is a completion order of the iterations 0..n-1. *)
Definition launch_cpu (schedule : nat -> list nat) (r : reduction) (s : scheme) (f : fm)
    (tagI : nat) (A : memory) (nx ny : nat) (out : cells) : res cells :=
  let L := loader f tagI in
  let '(nx, ny) := if Nat.eqb tagI 1 then (ny, nx) else (nx, ny) in
  if table_ok f (direct_table L A 0 0)
  then conv_rows r s f L A ny (schedule nx) out
  else PyErr.

(** CpuAssignZero.py lines 37-56: zero in every row of an output of shape shapeout (here given
    by its first dimensions and the last one). *)
Definition assign_zero (schedule : nat -> list nat) (shape : list nat) (d : nat) (out : cells) : cells :=
  fold_left (fun o i => for_up d (fun k o => upd o (i * d + k) (Fin 0)) o)
            (schedule (fold_left Nat.mul shape 1)) out.
