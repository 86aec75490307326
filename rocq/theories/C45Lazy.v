(** Proofs for C45: products of LazyTensors. *)

From Coq Require Import ZArith Reals List Bool String Arith Lia.
From Verif Require Import Result Formula Reductions GpuConv FinalChunks LazyTensors Options C29Proofs C21Proofs.
Import ListNotations.
Open Scope string_scope.

(** x * y with 150 components each. *)
Definition entrywise : res lazy :=
  do x <- lt_array "float32" 900 [10; 1; 150]%Z None ;
  do y <- lt_array "float32" 950 [1; 20; 150]%Z None ;
  binary x y "*" true None DSameOr1 None false.

Lemma entrywise_refused : exists l c,
  entrywise = Ok l /\ sum_reduction l 1 = Ok (Call c) /\
  c_formula c = "(Var(0,150,0) * Var(1,150,1))" /\ c_highdim c = Some 1%Z /\
  final_selected true 0 false (torch_flag (VInt 1)) (Sum_Red 150) = true /\
  forall s o m A M N bd out,
    launch_final o m s (Bin BMult (Var 0 150 0) (Var 1 150 1)) 0 A M N bd out = KErr.
Proof.
  do 2 eexists. split; [vm_compute; reflexivity|]. split; [vm_compute; reflexivity|].
  split; [reflexivity|]. split; [reflexivity|]. split; [reflexivity|].
  intros. apply wrong_dimensions. lia.
Qed.
