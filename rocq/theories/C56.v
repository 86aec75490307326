(** C56: the printed form of a formula, read again. *)

From Coq Require Import ZArith Reals List Bool String.
From Verif Require Import Result Formula FormulaSpec Build PyRead PyReadSpec PrintTree PrintSpec C56Proofs C56More.
Import ListNotations.
Open Scope string_scope.

(** The parentheses are enough: the text is read with the structure of the formula.
    Partial: without rational constants, without scalar products or comparisons directly under sums, without negative
    constants directly under squares and coordinates; see below. *)
Theorem C56_structure_partial : forall f, faithful f -> reads (printed f) (structure f).
Proof. exact printed_read. Qed.
Print Assumptions C56_structure_partial.

Example C56_structure_case : faithful ex_gauss
  /\ printed ex_gauss
     = "Exp(-(Sum((Var(0,3,0)-Var(1,3,1))**2)/-2))*((3-(Var(2,1,2)*-Var(3,1,1)-1/Var(2,1,2)))<Pow(Var(3,1,1),-3))"
  /\ structure ex_gauss
     = PBin SStar (apply1 "Exp" (PNeg (PBin SSlash (apply1 "Sum" (PPow (PBin SDash (structure (Var 0 3 0)) (structure (Var 1 3 1))) (PNum 2)) []) (PNeg (PNum 2)))) [])
         (PCmp (PBin SDash (PNum 3) (PBin SDash (PBin SStar (structure (Var 2 1 2)) (PNeg (structure (Var 3 1 1)))) (PBin SSlash (PNum 1) (structure (Var 2 1 2)))))
               [(SLt, apply1 "Pow" (structure (Var 3 1 1)) [-3]%Z)]).
Proof. split; [cbn; tauto|]. split; reflexivity. Qed.

(** Evaluated, it gives the formula that the engine builds, which has the same values.
    Partial: constants are operands of an operator whose other operand is not constant, and not the numerator 1; no
    equality, concatenation or coordinate. *)
Theorem C56_value_partial : forall names f, wf f -> faithful f -> evaluable f -> ~ constant f ->
  exists e, reads (printed f) e
  /\ (forall h, evaluate names e = Ok (VF h) <-> build f = Ok h)
  /\ (forall h, evaluate names e = Ok (VF h) -> equivalent f h).
Proof. exact print_again. Qed.
Print Assumptions C56_value_partial.

Example C56_value_case : wf ex_gauss /\ faithful ex_gauss /\ evaluable ex_gauss /\ ~ constant ex_gauss
  /\ build ex_gauss = Ok ex_built /\ evaluate (fun _ => None) (structure ex_gauss) = Ok (VF ex_built).
Proof.
  split; [cbn; repeat split|]. split; [cbn; tauto|]. split; [|split; [cbn; tauto|split; reflexivity]].
  cbn. repeat split; try tauto; discriminate.
Qed.

(** The printed form of a scalar product plus another term is read as the scalar product with a sum: no error, and
    another value. *)
Theorem C56_sum_refuted :
  let f := Bin BAdd (Bil KScal x2 y2) z1 in
  let e := PBin SBar (structure x2) (PBin SPlus (structure y2) (structure z1)) in
  let h := Bil KScal x2 (Bin BAdd y2 z1) in
  build f = Ok f /\ printed f = "Var(0,2,0)|Var(1,2,1)+Var(2,1,1)" /\ reads (printed f) e
  /\ evaluate (fun _ => None) e = Ok (VF h) /\ eval f ex_env 0 = 5%R /\ eval h ex_env 0 = 8%R.
Proof. exact sum_of_scalprod. Qed.
Print Assumptions C56_sum_refuted.

(** Equalities are evaluated on the formulas themselves: the mask becomes the constant 0. *)
Theorem C56_equality_refuted :
  let f := Bin BMult (Bin BEqual x1 y1) z1 in
  build f = Ok f /\ faithful f /\ printed f = "(Var(0,1,0)==Var(1,1,1))*Var(2,1,1)"
  /\ reads (printed f) (structure f) /\ evaluate (fun _ => None) (structure f) = Ok (VF (Zero 1))
  /\ eval f ones 0 = 1%R /\ eval (Zero 1) ones 0 = 0%R.
Proof. exact equality_lost. Qed.
Print Assumptions C56_equality_refuted.

(** Rational constants, constants as arguments of functions, coordinates and concatenations are printed as texts that
    cannot be evaluated to a formula. *)
Theorem C56_rejected_refuted :
  let f := Bin BMult (Rat 1 2) x1 in let g := Un UExp (Int 3) in let h := Lin (LElem 1) x2 in let k := Cat x1 y1 in
  build f = Ok f /\ printed f = "1/2*Var(0,1,0)"
  /\ (exists e, reads (printed f) e /\ evaluate (fun _ => None) e = KErr)
  /\ build g = Ok g /\ printed g = "Exp(3)" /\ reads (printed g) (structure g)
  /\ evaluate (fun _ => None) (structure g) = PyErr
  /\ build h = Ok h /\ printed h = "Var(0,2,0)[1]" /\ reads (printed h) (structure h)
  /\ evaluate (fun _ => None) (structure h) = PyErr
  /\ build k = Ok k /\ printed k = "[Var(0,1,0),Var(1,1,1)]" /\ reads (printed k) (structure k)
  /\ evaluate (fun _ => None) (structure k) = Ok (VL [VF x1; VF y1]).
Proof. exact not_read_again. Qed.
Print Assumptions C56_rejected_refuted.
