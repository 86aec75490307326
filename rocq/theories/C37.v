(** C37: complex LazyTensors implement complex arithmetic. *)

From Coq Require Import ZArith Reals List Bool Arith Lra.
From Verif Require Import Result Formula GradSpec Complex ComplexSpec C37Proofs C37Grad.
Import ListNotations.

(** Sum, difference and product of two LazyTensors, one of them complex: the result is complex, the entries are
    those of complex arithmetic, and a single entry is repeated. *)
Theorem C37_sum : forall t u r, lwf t -> lwf u -> lcx t || lcx u = true -> add t (OT u) = Ok r ->
  exists v, r = OT v /\ lcx v = true /\ lwf v /\ count v = Nat.max (count t) (count u)
  /\ forall e q, q < count v -> entry v e q = c_add (spread (count v) t e q) (spread (count v) u e q).
Proof. exact (fun t u r => addsub_ok KAdd t u r (or_introl eq_refl)). Qed.
Print Assumptions C37_sum.

Theorem C37_difference : forall t u r, lwf t -> lwf u -> lcx t || lcx u = true -> sub t (OT u) = Ok r ->
  exists v, r = OT v /\ lcx v = true /\ lwf v /\ count v = Nat.max (count t) (count u)
  /\ forall e q, q < count v -> entry v e q = c_sub (spread (count v) t e q) (spread (count v) u e q).
Proof. exact (fun t u r => addsub_ok KSub t u r (or_intror eq_refl)). Qed.
Print Assumptions C37_difference.

Theorem C37_product : forall t u r, lwf t -> lwf u -> lcx t || lcx u = true -> mul t (OT u) = Ok r ->
  exists v, r = OT v /\ lcx v = true /\ lwf v /\ count v = Nat.max (count t) (count u)
  /\ forall e q, q < count v -> entry v e q = c_mul (spread (count v) t e q) (spread (count v) u e q).
Proof. exact mul_ok. Qed.
Print Assumptions C37_product.

(** Quotient, where the divisor is not zero. *)
Theorem C37_quotient : forall t u r, lwf t -> lwf u -> lcx t || lcx u = true -> div t (OT u) = Ok r ->
  exists v, r = OT v /\ lcx v = true /\ lwf v /\ count v = Nat.max (count t) (count u)
  /\ forall e q, q < count v -> spread (count v) u e q <> (0, 0)%R ->
     c_mul (entry v e q) (spread (count v) u e q) = spread (count v) t e q.
Proof. exact div_ok. Qed.
Print Assumptions C37_quotient.

(** They are accepted exactly when the numbers of entries agree or one of them is one. *)
Theorem C37_accepted : forall t u, lwf t -> lwf u -> lcx t || lcx u = true ->
  ((exists r, add t (OT u) = Ok r) <-> count t = count u \/ count t = 1 \/ count u = 1)
  /\ ((exists r, sub t (OT u) = Ok r) <-> count t = count u \/ count t = 1 \/ count u = 1)
  /\ ((exists r, mul t (OT u) = Ok r) <-> count t = count u \/ count t = 1 \/ count u = 1)
  /\ ((exists r, div t (OT u) = Ok r) <-> count t = count u \/ count t = 1 \/ count u = 1).
Proof. exact accepts. Qed.
Print Assumptions C37_accepted.

(** Conjugate, exponential, opposite, modulus, real and imaginary parts, and the sum of the entries. *)
Theorem C37_methods : forall t, lwf t -> lcx t = true ->
  gives (l_conj t) true (count t) (fun e q => c_conj (entry t e q))
  /\ gives (l_exp t) true (count t) (fun e q => c_exp (entry t e q))
  /\ gives (minus t) true (count t) (fun e q => c_sub (0, 0)%R (entry t e q))
  /\ gives (l_abs t) false (count t) (fun e q => c_real (c_abs (entry t e q)))
  /\ gives (l_real t) false (count t) (fun e q => c_real (fst (entry t e q)))
  /\ gives (l_imag t) false (count t) (fun e q => c_real (snd (entry t e q)))
  /\ gives (l_sum t) true 1 (fun e q => c_sum (map (entry t e) (seq 0 (count t)))).
Proof. exact methods. Qed.
Print Assumptions C37_methods.

Theorem C37_exp1j : forall t, lwf t -> lcx t = false ->
  gives (l_exp1j t) true (count t) (fun e q => c_exp (c_mul c_i (entry t e q))).
Proof. exact exp1j_ok. Qed.
Print Assumptions C37_exp1j.

(** A real LazyTensor times a complex number, on either side. *)
Theorem C37_scaling : forall t a b, lwf t -> lcx t = false ->
  (exists r, mul t (OC a b) = Ok r /\ forall e q, q < count t -> shown r e q = c_mul (entry t e q) (a, b))
  /\ (exists r, rmul t (OC a b) = Ok r /\ forall e q, q < count t -> shown r e q = c_mul (entry t e q) (a, b)).
Proof. exact complex_number_ok. Qed.
Print Assumptions C37_scaling.

(** Gradients are adjoint derivatives.  Partial: of the real operations, those of [covered], without the
    simplification rules. *)
Theorem C37_gradients_partial : forall f i d g h, cDiffT f i d g = Ok h -> cwf f -> c_consistent i d f -> cwf g ->
  cdim g = cdim f -> c_adjoint f i d g h.
Proof. exact gradient_adjoint. Qed.
Print Assumptions C37_gradients_partial.

(** The gradient exists for variables of even dimension, and the recursion always ends. *)
Theorem C37_differentiable_partial : forall f i m g, cwf f -> covered f -> 1 <= m -> cdim g = cdim f ->
  exists h, cDiffT f i (2 * m) g = Ok h.
Proof. exact gradient_exists. Qed.
Print Assumptions C37_differentiable_partial.

Theorem C37_ends : forall f i d g, cDiffT f i d g <> OutOfFuel.
Proof. exact (fun f i d g => no_fuel (cweight f) i d f g (le_n _)). Qed.
Print Assumptions C37_ends.

(** Not so for variables of odd dimension: the gradient of any sum, difference, product or real scaling is
    refused, as the gradients with respect to the operands are added as if they were complex. *)
Theorem C37_odd_refuted : forall f i d o a b g h, f = CBin o a b -> Nat.odd d = true ->
  (o = KAdd \/ o = KSub \/ o = KMult \/ o = KRealScal) ->
  cwf f -> c_consistent i d f -> cwf g -> cdim g = cdim f -> cDiffT f i d g <> Ok h.
Proof. intros f i d o a b g h ->. exact (odd_refused _ i d o a b g h). Qed.
Print Assumptions C37_odd_refuted.

(** A complex LazyTensor and a number, other than zero and plus or minus one: an attribute error. *)
Theorem C37_numbers_refuted : forall t o, lcx t = true -> match o with OT _ => False | _ => True end ->
  scalar_is o 0 = false -> scalar_is o 1 = false -> scalar_is o (-1) = false ->
  add t o = PyErr /\ radd t o = PyErr /\ sub t o = PyErr /\ rsub t o = PyErr /\
  mul t o = PyErr /\ rmul t o = PyErr /\ div t o = PyErr /\ rdiv t o = PyErr.
Proof. exact numbers_raise. Qed.
Print Assumptions C37_numbers_refuted.

(** The reciprocal 1 / z and the square of z invert and square the two parts. *)
Theorem C37_parts_refuted : forall t, lcx t = true ->
  (exists v, rdiv t (ON 1) = Ok (OT v) /\ lcx v = true /\
     forall e q, entry v e q = (1 / fst (entry t e q), 1 / snd (entry t e q))%R)
  /\ (exists v, square t = Ok (OT v) /\ lcx v = true /\
     forall e q, entry v e q = (fst (entry t e q) * fst (entry t e q), snd (entry t e q) * snd (entry t e q))%R).
Proof. exact parts. Qed.
Print Assumptions C37_parts_refuted.

(** A real LazyTensor plus a complex number: added to the parts if there is one entry, taken for the two parts of
    one number if there are two entries, and otherwise refused. *)
Theorem C37_plus_refuted : forall t a b, lwf t -> lcx t = false -> (a, b) <> (0, 0)%R ->
  (2 < cdim (lf t) -> add t (OC a b) = KErr)
  /\ (cdim (lf t) = 1 -> exists v, add t (OC a b) = Ok (OT v) /\ lcx v = true /\ count v = 1 /\
        forall e, entry v e 0 = (ceval (lf t) e 0 + a, ceval (lf t) e 0 + b)%R)
  /\ (cdim (lf t) = 2 -> exists v, add t (OC a b) = Ok (OT v) /\ lcx v = true /\ count v = 1 /\
        forall e, entry v e 0 = (ceval (lf t) e 0 + a, ceval (lf t) e 1 + b)%R).
Proof. exact plus_number. Qed.
Print Assumptions C37_plus_refuted.

(** A complex variable with two entries, a real one with one entry: hypotheses and operators. *)
Example C37_case : let z := {| lf := CVar 0 4; lcx := true |} in let x := {| lf := CVar 1 1; lcx := false |} in
  lwf z /\ lwf x /\ count z = 2 /\ count x = 1
  /\ mul x (OT z) = Ok (OT {| lf := CBin KRealScal (CVar 1 1) (CVar 0 4); lcx := true |})
  /\ sub x (OT z) = Ok (OT {| lf := CBin KSub (CUn KR2C (CVar 1 1)) (CVar 0 4); lcx := true |})
  /\ (exists v, div x (OT z) = Ok (OT v) /\ cdim (lf v) = 4).
Proof.
  cbv zeta. repeat split; try (cbn; auto; fail); try discriminate.
  eexists. split; reflexivity.
Qed.

(** Gradient of the modulus of z * w, and the refusal for a real scalar. *)
Example C37_gradient_case :
  let f := CUn (RUn USqrt) (CUn KSqAbs (CBin KMult (CVar 0 4) (CVar 1 2))) in
  let s := CBin KRealScal (CVar 2 1) (CVar 0 4) in
  cwf f /\ covered f /\ c_consistent 1 2 f /\ (exists h, cDiffT f 1 2 (CVar 9 2) = Ok h /\ cdim h = 2)
  /\ cwf s /\ c_consistent 2 1 s /\ cDiffT s 2 1 (CVar 9 4) = KErr.
Proof.
  cbv zeta. split; [cbn; auto 10|]. split; [cbn; auto 10|]. split; [cbn; split; [discriminate|auto]|].
  split; [eexists; split; reflexivity|]. split; [cbn; auto|]. split; [cbn; split; [auto|discriminate]|]. reflexivity.
Qed.

(** The reciprocal of 1 + i is computed as 1 + i, and its square as 1 + i; the complex products would be 1 and 2i. *)
Example C37_parts_case : let z := {| lf := CVar 0 2; lcx := true |} in let e := fun (_ : Z) (_ : nat) => 1%R in
  exists v w, rdiv z (ON 1) = Ok (OT v) /\ square z = Ok (OT w)
  /\ c_mul (entry v e 0) (entry z e 0) <> (1, 0)%R /\ entry w e 0 <> c_mul (entry z e 0) (entry z e 0).
Proof.
  cbv zeta. destruct (parts {| lf := CVar 0 2; lcx := true |} eq_refl) as [(v & V & _ & A) (w & W & _ & B)].
  exists v, w. split; [exact V|]. split; [exact W|]. rewrite A, B. unfold c_mul, entry. cbn [lcx lf ceval fst snd].
  split; intros H; inversion H; lra.
Qed.
