(** * C35: factorising common sub-formulas preserves values.

    Model: Factor.v, FactorFm.v; specification: FactorSpec.v.

    Partial: the operations are those of an arbitrary signature, and those of Formula.v; generated code is
    replaced by the values it computes.  Formulas that hold a factorised part below the root, which users
    can write, are not covered: see C35_nested_refuted. *)

From Coq Require Import ZArith List Reals Lra.
From Verif Require Import Result Formula Factor FactorFm FactorSpec C35Proofs.
Import ListNotations.
Local Open Scope nat_scope.

(** Any number of factorisations, of any sub-formulas, one after the other: the formula that is obtained
    means the same, and its code, which works with positions in a table that grows, computes that value
    and leaves the inputs in place. *)
Theorem C35_factorize_partial : forall op op_eq_dec odim light val osem (d : val) t0 t table,
  plain op t0 -> inputs op (List.length table) t0 ->
  factored op op_eq_dec odim light t0 t ->
  (forall env, value op val osem t env = value op val osem t0 env)
  /\ forall fuel, nodes op t <= fuel -> exists extra,
     call op op_eq_dec val osem fuel t table = Ok (value op val osem t0 (from_table val d table), table ++ extra).
Proof. exact factored_value. Qed.
Print Assumptions C35_factorize_partial.

(** AutoFactorize terminates; its result evaluates to the same value and has no sub-formula left to
    factorise. *)
Theorem C35_auto_partial : forall op op_eq_dec odim light val osem (d : val) t0 table,
  plain op t0 -> inputs op (List.length table) t0 ->
  forall fuel, nodes op t0 < fuel ->
  exists t, auto_factorize op op_eq_dec odim light fuel t0 = Ok t
  /\ (forall env, value op val osem t env = value op val osem t0 env)
  /\ (forall s, below op s t -> factorize op op_eq_dec odim light t s = t)
  /\ forall fuel', nodes op t <= fuel' -> exists extra,
     call op op_eq_dec val osem fuel' t table = Ok (value op val osem t0 (from_table val d table), table ++ extra).
Proof. exact auto_value. Qed.
Print Assumptions C35_auto_partial.

(** For the formulas of Formula.v: the array computed from the factorised formula is the value of the
    formula, and has its dimension. *)
Theorem C35_formulas_partial : forall f table fuel,
  (forall v, In v (vars fop (embed f)) -> (0 <= vind v)%Z
     /\ exists a, nth_error table (Z.to_nat (vind v)) = Some a /\ fst a = vdim v) ->
  nodes fop (embed f) < fuel ->
  exists t, auto_factorize_fm fuel (embed f) = Ok t
  /\ forall fuel', nodes fop t <= fuel' -> exists out extra,
     call_fm fuel' t table = Ok ((dim f, out), table ++ extra)
     /\ forall k, out k = eval f (fun i => snd (nth (Z.to_nat i) table (0, fun _ => 0%R))) k.
Proof. exact auto_fm. Qed.
Print Assumptions C35_formulas_partial.

(** The formula that the gradient differentiates means the same. *)
Theorem C35_unfactored : forall op op_eq_dec odim light val osem t0 t env,
  plain op t0 -> (forall x, In x (vars op t0) -> (0 <= vind x)%Z) ->
  factored op op_eq_dec odim light t0 t ->
  value op val osem (unfactored op op_eq_dec t) env = value op val osem t0 env.
Proof. exact unfactored_value. Qed.
Print Assumptions C35_unfactored.

(** Exp(Sin(x) - y) * Sin(x) + Exp(Sin(x) - y): two nested definitions, the second one inside the scope
    of the first. *)
Example C35_case :
  let x := Var 0 2 0 in let y := Var 1 2 1 in
  let e := Un UExp (Bin BSub (Un USin x) y) in
  let f := Bin BAdd (Bin BMult e (Un USin x)) e in
  let a := Leaf fop (V (-1) 2 3) in let b := Leaf fop (V (-2) 2 3) in
  auto_factorize_fm 20 (embed f)
  = Ok (Fact fop
          (Fact fop (Node fop (OBin BAdd) [Node fop (OBin BMult) [a; b]; a])
             (Node fop (OUn UExp) [Node fop (OBin BSub) [b; embed y]]) (V (-1) 2 3))
          (embed (Un USin x)) (V (-2) 2 3))
  /\ (forall v, In v (vars fop (embed f)) -> (0 <= vind v)%Z
     /\ exists a : arrayv, nth_error [(2, fun _ => 1%R); (2, fun k => INR k)] (Z.to_nat (vind v)) = Some a
        /\ fst a = vdim v).
Proof.
  cbv zeta. split; [vm_compute; reflexivity|].
  intros v Hv. cbn in Hv. repeat (destruct Hv as [Hv|Hv]; [subst v; split; [discriminate|eexists; split; reflexivity]|]).
  destruct Hv.
Qed.

(** Outside the claim, but within reach of users ("Factorize(...) + y" with automatic factorisation): when the
    factorised part is not at the root, the search finds a sub-formula that holds its alias and defines it
    out of the scope of the alias.  The index -1 of the alias is then read as a position of the table, the
    last input: (-x)^2 (-x)^2 + y evaluates to y^2 y^2 + y, without an error. *)
Theorem C35_nested_refuted :
  let x := Var 0 1 0 in let y := Var 1 1 1 in
  let square := Un USquare (Un UMinus x) in
  let f := factorize_fm (embed (Bin BMult square square)) (embed (Un UMinus x)) in
  let t0 := Node fop (OBin BAdd) [f; embed y] in
  let table : list arrayv := [(1, fun _ => 0%R); (1, fun _ => 1%R)] in
  exists t out1 out2 tab1 tab2,
  auto_factorize_fm 20 t0 = Ok t
  /\ call_fm 20 t0 table = Ok ((1, out1), tab1) /\ out1 0 = 1%R
  /\ call_fm 20 t table = Ok ((1, out2), tab2) /\ out2 0 = 2%R.
Proof. exact nested. Qed.
Print Assumptions C35_nested_refuted.
