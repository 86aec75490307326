(** C29: transposition of symbolic tensors. *)

From Coq Require Import ZArith List Bool Ascii String.
From Verif Require Import Result Keys Broadcast LazyTensors LazySpec TransposeSpec C27Proofs C29Proofs.
Import ListNotations.
Open Scope string_scope.

(** The transposed tensor carries an expression whose value at (j, i) is the value at (i, j) of the
    original one, for any meaning of the operations and any contents of the tensors that
    the views share; sizes, axis and ranges are exchanged.
    Partial: the positions of symbolic variables are natural numbers that are not identities of
    tensors, and the tensor has no second formula; see C29_reduction_refuted for what is not transposed. *)
Theorem C29_transpose_partial : forall views l e,
  carries l e -> List.length views = count_arrays l -> Forall (Z.le 0) views ->
  (forall i, In i (symbols e) -> (0 <= i)%Z
     /\ forall v sh, In v (variables l) -> t_data v = Array sh -> t_id v <> i) ->
  exists r e', transpose views l = Ok r /\ carries r e'
    /\ symbols e' = symbols e
    /\ ni r = nj l /\ nj r = ni l /\ ndim r = ndim l /\ batchdims r = batchdims l
    /\ dtype r = dtype l /\ symbolic r = symbolic l
    /\ axis r = option_map other_side (axis l)
    /\ (forall a b c x y z, ranges l = Some [a; b; c; x; y; z] -> ranges r = Some [x; y; z; a; b; c])
    /\ (ranges l = None -> ranges r = None)
    /\ forall (V A I : Type) (m : meaning V) (read : A -> Z -> option I -> V) (mem sym : Z -> A),
         same_contents mem l r ->
         forall i j, value_at m read mem sym j i e' = value_at m read mem sym i j e.
Proof. exact transposed. Qed.
Print Assumptions C29_transpose_partial.

Example C29_transpose_case : carries ex_lazy ex_expr
  /\ exists r, transpose [1000; 1001; 1002]%Z ex_lazy = Ok r
  /\ formula r = "(SqNorm2((Var(1000,3,1) - Var(1001,3,0))) * (Var(1000,3,1) | VarSymb(0,3,0)))"
  /\ variables r = [array_at 1000 [10; 3]%Z; array_at 1001 [20; 3]%Z; array_at 1002 [10; 3]%Z]
  /\ ni r = Some 20%Z /\ nj r = Some 10%Z
  /\ ranges r = Some [[3]; [4]; [5]; [0]; [1]; [2]]%Z.
Proof. exact (conj ex_carries ex_transposed). Qed.

(** Transposing twice gives a tensor with the same attributes and the same values. *)
Theorem C29_involution_partial : forall v1 v2 l r q e,
  carries l e -> Forall (Z.le 0) v1 -> Forall (Z.le 0) v2 ->
  List.length v1 = count_arrays l -> List.length v2 = count_arrays r ->
  (forall i, In i (symbols e) -> (0 <= i)%Z
     /\ forall v sh, In v (variables l ++ variables r) -> t_data v = Array sh -> t_id v <> i) ->
  (forall s, ranges l = Some s -> List.length s = 6%nat) ->
  transpose v1 l = Ok r -> transpose v2 r = Ok q ->
  exists e'', carries q e''
    /\ ni q = ni l /\ nj q = nj l /\ ndim q = ndim l /\ batchdims q = batchdims l
    /\ dtype q = dtype l /\ symbolic q = symbolic l /\ axis q = axis l /\ ranges q = ranges l
    /\ forall (V A I : Type) (m : meaning V) (read : A -> Z -> option I -> V) (mem sym : Z -> A),
         same_contents mem l r -> same_contents mem r q ->
         forall i j, value_at m read mem sym i j e'' = value_at m read mem sym i j e.
Proof. exact transposed_twice. Qed.
Print Assumptions C29_involution_partial.

Example C29_involution_case : exists r q, transpose [1000; 1001; 1002]%Z ex_lazy = Ok r
  /\ transpose [1100; 1101; 1102]%Z r = Ok q
  /\ formula q = "(SqNorm2((Var(1100,3,0) - Var(1101,3,1))) * (Var(1100,3,0) | VarSymb(0,3,1)))".
Proof. do 2 eexists. split; [vm_compute; reflexivity|]. split; vm_compute; reflexivity. Qed.

(** A product by a variable of more than 100 components remembers its factors, and the transposed
    tensor remembers the factors that are not transposed.  Here K has 10 rows and 20 columns, and the sum
    over the columns of the transposed tensor is the sum over the columns of K: 10 rows, not 20. *)
Theorem C29_reduction_refuted : exists k kt o,
  ex_big = Ok k /\ transpose [1000; 1001; 1002]%Z k = Ok kt
  /\ ni k = Some 10%Z /\ ni kt = Some 20%Z
  /\ formula kt = "((Var(1000,3,1) | Var(1001,3,0)) * Var(1002,200,1))"
  /\ sum_reduction k 1 = Ok o /\ sum_reduction kt 1 = Ok o
  /\ o = Times (Call {| c_op := "Sum"; c_axis := 1; c_formula := "(Var(0,3,0) | Var(1,3,1))";
                        c_formula2 := ""; c_args := [array_at 900 [10; 3]%Z; array_at 950 [20; 3]%Z];
                        c_highdim := None; c_ni := Some 10%Z; c_nj := Some 20%Z; c_ranges := None |})
               (array_at 970 [10; 200]%Z).
Proof. exact big_reduction. Qed.
Print Assumptions C29_reduction_refuted.

(** A symbolic variable of negative position keeps its category, although the axis is exchanged. *)
Theorem C29_negative_refuted : exists r, transpose [] (lt_symbolic (-1) 3 0) = Ok r
  /\ formula r = formula (lt_symbolic (-1) 3 0) /\ axis r = Some 1%Z.
Proof. exact negative_symbol. Qed.
Print Assumptions C29_negative_refuted.
