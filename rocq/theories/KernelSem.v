(** * Meaning of the generated CPU routine.

    keopscore/keopscore/mapreduce/cpu/CpuReduc.py lines 44-86: CpuConv and launch_keops.  [s] is
    the body of the loop on i.  The iterations of "#pragma omp parallel for" are executed in an order
    given by [schedule].  The memory of the caller holds the array [out] and, under the name
    [arg[k]], the k-th argument: these arrays do not overlap. *)

From Coq Require Import List String Arith.
From Verif Require Import CodeGen CSem.
Import ListNotations.
Local Open Scope string_scope.

Definition conv (schedule : nat -> list nat) (s : stmt) (nx ny : nat) (m : mem) : option mem :=
  let m0 := ("ny", OInt ny) :: ("nx", OInt nx) :: m in
  let? m' := each (fun i => exec (set_index (fun _ => O) "i" i) s) "i" (schedule nx) m0 in
  Some (leave m m').

Definition launch (schedule : nat -> list nat) (s : stmt) (tagI nx ny : nat) (m : mem) : option mem :=
  if Nat.eqb tagI 1 then conv schedule s ny nx m else conv schedule s nx ny m.
