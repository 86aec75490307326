(** C02 -- building a formula always terminates, and errors only on real incompatibilities. *)

From Coq Require Import ZArith Reals Lra Lia.
From Verif Require Import Result Formula Simplify Build FormulaSpec C02Proofs.

(** No call to the simplifying constructors runs forever: [OutOfFuel] stands for a
    recursion deeper than any bound the model allows, and it never occurs. *)
Theorem C02_operations_terminate : forall f g,
  Add f g <> OutOfFuel /\ Subtract f g <> OutOfFuel /\ Mult f g <> OutOfFuel /\
  Divide f g <> OutOfFuel /\ Minus f <> OutOfFuel /\ Sum f <> OutOfFuel /\
  Scalprod f g <> OutOfFuel.
Proof. exact ops_terminate. Qed.
Print Assumptions C02_operations_terminate.

(** Incompatible dimensions are never accepted. *)
Theorem C02_incompatible_rejected : forall f g,
  wf f -> wf g -> ~ compatible (dim f) (dim g) ->
  (forall h, Add f g <> Ok h) /\ (forall h, Subtract f g <> Ok h) /\
  (forall h, Mult f g <> Ok h) /\ (forall h, Divide f g <> Ok h).
Proof. exact incompatible_rejected. Qed.
Print Assumptions C02_incompatible_rejected.

(** Partial: restricted to formulas without division and without [SumT(f,1)]; the full
    statement (any formulas of compatible dimensions) is refuted below. *)
Theorem C02_add_partial : forall f g, wf f -> wf g -> division_free f -> division_free g ->
  compatible (dim f) (dim g) -> exists h, Add f g = Ok h.
Proof. exact add_returns. Qed.
Print Assumptions C02_add_partial.

Theorem C02_subtract_partial : forall f g, wf f -> wf g -> division_free f -> division_free g ->
  compatible (dim f) (dim g) -> exists h, Subtract f g = Ok h.
Proof. exact sub_returns. Qed.
Print Assumptions C02_subtract_partial.

Theorem C02_mult_partial : forall f g, wf f -> wf g -> division_free f -> division_free g ->
  compatible (dim f) (dim g) -> exists h, Mult f g = Ok h.
Proof. exact mult_returns. Qed.
Print Assumptions C02_mult_partial.

Theorem C02_expression_partial : forall f, wf f -> division_free f ->
  exists h, build f = Ok h.
Proof. exact build_returns. Qed.
Print Assumptions C02_expression_partial.

Example C02_case : let f := Bin BSub (Bin BMult (Int 3) (Var 0 3 0))
    (Bin BMult (Lin LSum (Var 0 3 0)) (Un UExp (Var 1 3 1))) in wf f /\ division_free f.
Proof. cbv zeta. repeat split; try discriminate. Qed.

Example C02_case_incompatible :
  wf (Var 0 3 0) /\ wf (Var 1 2 1) /\ ~ compatible (dim (Var 0 3 0)) (dim (Var 1 2 1)).
Proof. repeat split. unfold compatible. cbn. lia. Qed.

(** Add.py 69-71 and Subtract.py 69-71 read the attribute q of an integer constant: a
    rational constant plus (minus) any integer constant raises AttributeError. *)
Theorem C02_rational_plus_integer_refuted : forall p q n,
  Add (Rat p q) (Int n) = PyErr /\ Subtract (Rat p q) (Int n) = PyErr.
Proof. exact rat_int_raises. Qed.
Print Assumptions C02_rational_plus_integer_refuted.

(** x/2 + 3*x raises although every operand is well formed and of the same dimension. *)
Theorem C02_expression_refuted :
  build (Bin BAdd (Bin BDiv (Var 0 3 0) (Int 2)) (Bin BMult (Int 3) (Var 0 3 0))) = PyErr.
Proof. exact half_plus_triple_raises. Qed.
Print Assumptions C02_expression_refuted.

(** SumT(Sum(x),1) * y is rejected although a scalar and a vector are compatible. *)
Theorem C02_degenerate_broadcast_refuted :
  Mult (Lin (LSumT 1) (Lin LSum (Var 0 3 0))) (Var 1 3 1) = KErr.
Proof. exact sumT1_rejected. Qed.
Print Assumptions C02_degenerate_broadcast_refuted.
