(** C38: lists of complex constants. *)

From Coq Require Import ZArith Reals List Arith Lra.
From Verif Require Import Result Complex ComplexSpec C38Proofs.
Import ListNotations.

(** A list with one number, which is also how a single number is read, holds that number.  Partial: longer
    lists do not hold theirs (below). *)
Theorem C38_single_partial : forall x c, number_of x = Some c ->
  exists r, list_init [x] = Ok r /\ decoded r = Some [c].
Proof. exact single. Qed.
Print Assumptions C38_single_partial.

(** What any list of numbers becomes: the first number is right, and each other one is replaced by the imaginary
    part of the first, if its index is a power of two, or zero. *)
Theorem C38_lists_refuted : forall x l c, number_of x = Some c ->
  exists r v, list_init (x :: l) = Ok r /\ decoded r = Some v /\ List.length v = S (List.length l)
  /\ nth_error v 0 = Some c
  /\ forall q, 1 <= q <= List.length l ->
     (power_of_two q -> nth_error v q = Some (snd c, 0)%R) /\ (~ power_of_two q -> nth_error v q = Some (0, 0)%R).
Proof. exact many. Qed.
Print Assumptions C38_lists_refuted.

(** So only the lists that already have this form come out right. *)
Theorem C38_right_lists : forall x l c, number_of x = Some c ->
  (forall r, list_init (x :: l) = Ok r -> forall v, decoded r = Some v -> map Some v = map number_of (x :: l)) ->
  forall q y, 1 <= q -> nth_error (x :: l) q = Some y ->
    (power_of_two q -> number_of y = Some (snd c, 0)%R) /\ (~ power_of_two q -> number_of y = Some (0, 0)%R).
Proof. exact right_lists. Qed.
Print Assumptions C38_right_lists.

(** The numbers 1 + 2i, 3 + 4i, 5 + 6i, 7 + 8i become 1 + 2i, 2, 2, 0. *)
Example C38_case : exists r, list_init [PComplex 1 2; PComplex 3 4; PComplex 5 6; PComplex 7 8] = Ok r
  /\ decoded r = Some [(1, 2); (2, 0); (2, 0); (0, 0)]%R
  /\ map Some [(1, 2); (2, 0); (2, 0); (0, 0)]%R <> map number_of [PComplex 1 2; PComplex 3 4; PComplex 5 6; PComplex 7 8].
Proof.
  eexists. split; [reflexivity|]. split; [reflexivity|]. cbn. intros H. inversion H; lra.
Qed.
