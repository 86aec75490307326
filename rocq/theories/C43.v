(** C43: B-splines. *)

From Coq Require Import ZArith Reals List Arith String Lia Lra.
From Verif Require Import Result Tensordot BSpline BSplineSpec C43Proofs.
Local Open Scope R_scope.

(** In single precision, with sorted knots and at least order + 2 of them, the code returns the functions of Cox and de
    Boor of the order asked for, whatever the array held before. *)
Theorem C43_basis : forall nk order t x out, (0 <= order)%Z -> (order + 2 <= Z.of_nat nk)%Z -> sorted_knots nk t ->
  exists out', bspline "float" nk 1 order t x out = Ok ((nk - Z.to_nat order - 1)%nat, out')
  /\ forall i, (i < nk - Z.to_nat order - 1)%nat -> out' i = basis t (Z.to_nat order) i (x 0%nat).
Proof. exact bspline_basis. Qed.
Print Assumptions C43_basis.

Example C43_basis_case : sorted_knots 5 (fun i => INR (Nat.min i 3)) /\ (0 <= 1)%Z /\ (1 + 2 <= Z.of_nat 5)%Z
  /\ basis (fun i => INR (Nat.min i 3)) 1 1 (3/2) = 1/2
  /\ basis (fun i => INR (Nat.min i 3)) 1 0 (3/2) = 1/2.
Proof.
  split; [|split; [lia|split; [cbn; lia|]]].
  - intros i H. apply le_INR. lia.
  - cbn. unfold over.
    split; repeat match goal with
      | |- context [Rle_dec ?a ?b] => destruct (Rle_dec a b); try lra
      | |- context [Rlt_dec ?a ?b] => destruct (Rlt_dec a b); try lra
      | |- context [Req_EM_T ?a ?b] => destruct (Req_EM_T a b); try lra end.
Qed.

(** It is refused in these cases and no other. *)
Theorem C43_rejects : forall dtype nk nx order t x out, dtype = "float"%string -> sorted_knots nk t ->
  (bspline dtype nk nx order t x out = KErr <-> (order < 0)%Z \/ nx <> 1%nat \/ (Z.of_nat nk < order + 2)%Z).
Proof. exact bspline_rejects. Qed.
Print Assumptions C43_rejects.

Example C43_rejects_case : forall t x out, bspline "float" 4 1 3 t x out = KErr /\ bspline "float" 5 2 3 t x out = KErr.
Proof. intros. split; reflexivity. Qed.

(** Each value is nonnegative, and zero unless the point is between the knots that the function spans. *)
Theorem C43_support : forall nk order t x out d out' i, sorted_knots nk t ->
  bspline "float" nk 1 order t x out = Ok (d, out') -> (i < d)%nat ->
  0 <= out' i /\ (out' i <> 0 -> t i <= x 0%nat < t (i + Z.to_nat order + 1)%nat).
Proof. exact bspline_support. Qed.
Print Assumptions C43_support.

(** The values sum to one between the first and the last knots at which all of them are defined. *)
Theorem C43_unity : forall nk order t x out d out', sorted_knots nk t ->
  bspline "float" nk 1 order t x out = Ok (d, out') -> t (Z.to_nat order) <= x 0%nat < t d -> sum_to d out' = 1.
Proof. exact bspline_unity. Qed.
Print Assumptions C43_unity.

Example C43_unity_case : (fun i => INR (Nat.min i 3)) 1%nat <= 3/2 < (fun i => INR (Nat.min i 3)) (5 - 1 - 1)%nat.
Proof. cbn. lra. Qed.

(** Not so at the last of these knots: with the usual repetition of the end knot, every value is zero there. *)
Theorem C43_right_end_refuted : exists nk order t, sorted_knots nk t /\ (order + 1 < nk)%nat
  /\ forall x out, x 0%nat = t (nk - order - 1)%nat ->
     exists out', bspline "float" nk 1 (Z.of_nat order) t x out = Ok ((nk - order - 1)%nat, out')
     /\ forall i, (i < nk - order - 1)%nat -> out' i = 0.
Proof. exact right_end. Qed.
Print Assumptions C43_right_end_refuted.

(** In any other precision no code is generated: the sampling point is declared as a float, and the arithmetic on variables
    of two types is an error. *)
Theorem C43_double_refuted : forall dtype nk nx order t x out, dtype <> "float"%string ->
  bspline dtype nk nx order t x out = KErr.
Proof. exact bspline_dtype. Qed.
Print Assumptions C43_double_refuted.

Example C43_double_case : "double"%string <> "float"%string. Proof. discriminate. Qed.
