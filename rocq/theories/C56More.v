(** * The values of printed formulas. *)

From Coq Require Import ZArith Reals Lia Lra List Bool Ascii String.
From Verif Require Import Result Keys Formula FormulaSpec Simplify Build C01Proofs PyRead PyReadSpec PyReadProofs C55Proofs C55More
  PrintTree PrintSpec C56Proofs.
Import ListNotations.
Open Scope string_scope.

Section Names.
  Variable names : string -> option pv.
  Notation ev := (evaluate names).
  Notation evs := (C55More.ev_list names).

  (** The value of an operand: a formula, or an integer. *)
  Definition operand (r : res pv) (b : res fm) (z : option Z) : Prop :=
    match z with Some z => r = Ok (VZ z) /\ b = Ok (IntCst z) | None => agrees r b end.
  Definition as_int (f : fm) : option Z := match f with Int z => Some z | _ => None end.

  Lemma constant_int : forall f, ~ constant f -> as_int f = None.
  Proof. intros f N. destruct f; try reflexivity. destruct N. exact I. Qed.

  Lemma call_op1 : forall name g k ps b, agrees (ev g) b ->
    (forall x, call name (VF x :: map VZ ps) = lift (k x)) ->
    agrees (ev (apply1 name g ps)) (do x <- b ; k x).
  Proof.
    intros name g k ps b A H. unfold apply1. rewrite ev_call, ev_list_cons, ev_literals, rbind_assoc.
    apply agrees_bind; auto. intros h _. cbn [rbind]. rewrite H. apply agrees_lift.
  Qed.
  Lemma call_op2 : forall name g g' k b b', agrees (ev g) b -> agrees (ev g') b' ->
    (forall x y, call name [VF x; VF y] = lift (k x y)) ->
    agrees (ev (apply2 name g g')) (do x <- b ; do y <- b' ; k x y).
  Proof.
    intros name g g' k b b' A A' H. unfold apply2. rewrite ev_call, !ev_list_cons, rbind_assoc.
    apply agrees_bind; auto. intros x _. rewrite !rbind_assoc. apply agrees_bind; auto. intros y _.
    cbn [rbind C55More.ev_list]. rewrite H. apply agrees_lift.
  Qed.

  (** Operators, with a constant on one side at most. *)
  Lemma operator2 : forall (op : pv -> pv -> res pv) k r r' b b' z z',
    operand r b z -> operand r' b' z' -> ~ (z <> None /\ z' <> None) ->
    (forall x y, op (VF x) (VF y) = lift (k x y)) ->
    (forall n y, z = Some n -> op (VZ n) (VF y) = lift (k (IntCst n) y)) ->
    (forall x n, op (VF x) (VZ n) = lift (k x (IntCst n))) ->
    agrees (do v <- r ; do w <- r' ; op v w) (do x <- b ; do y <- b' ; k x y).
  Proof.
    intros op k r r' b b' [n|] [n'|] O O' N H1 H2 H3; cbn in O, O'.
    - destruct N. split; discriminate.
    - destruct O as [-> ->]. cbn [rbind]. apply agrees_bind; auto. intros y _. rewrite H2 by reflexivity. apply agrees_lift.
    - destruct O' as [-> ->]. cbn [rbind]. apply agrees_bind; auto. intros x _. rewrite H3. apply agrees_lift.
    - apply agrees_two; auto. intros x y _ _. rewrite H1. apply agrees_lift.
  Qed.

  Lemma ev_compare : forall s a b, ev (PCmp a [(s, b)]) = do x <- ev a ; do y <- ev b ; compare_op s x y.
  Proof.
    intros s a b. cbn [evaluate]. destruct (ev a) as [x| | |]; [|reflexivity..]. cbn [rbind].
    destruct (ev b) as [y| | |]; [|reflexivity..]. cbn [rbind]. destruct (compare_op s x y); reflexivity.
  Qed.

  Lemma eval_structure : forall f, evaluable f -> operand (ev (structure f)) (build f) (as_int f).
  Proof.
    induction f as [i d c|d|z|p q|u f IH|b f IHf g IHg|t f IHf g IHg h IHh|l f IH|b f IHf g IHg|f IHf g IHg|s f IH];
      intros E; cbn [evaluable] in E; try contradiction.
    - cbn [as_int operand structure]. rewrite ev_call, ev_literals. cbn [rbind map].
      unfold call, integers, ocons, option_map, call_ints, nonneg. cbn [String.eqb Ascii.eqb Bool.eqb].
      destruct (Z.ltb_spec (Z.of_nat d) 0); [lia|]. destruct (Z.ltb_spec (Z.of_nat c) 0); [lia|].
      rewrite !Nat2Z.id. apply agrees_lift.
    - cbn [as_int operand structure]. rewrite ev_call. change [literal (Z.of_nat d)] with (map literal [Z.of_nat d]).
      rewrite ev_literals. cbn [rbind map].
      unfold call, integers, ocons, option_map, call_ints, nonneg. cbn [String.eqb Ascii.eqb Bool.eqb].
      destruct (Z.ltb_spec (Z.of_nat d) 0); [lia|]. rewrite Nat2Z.id. apply agrees_lift.
    - cbn [as_int operand structure build]. rewrite eval_literal. auto.
    - destruct E as [N E]. specialize (IH E). rewrite (constant_int f N) in IH. cbn [operand] in IH.
      cbn [as_int operand].
      destruct u; cbn [structure build];
        try (apply call_op1; [exact IH|intros x; reflexivity]).
      + cbn [evaluate]. apply agrees_bind; auto. intros x _. apply agrees_lift.
      + cbn [evaluate]. apply agrees_bind; auto. intros x _. cbn [rbind]. apply agrees_lift.
      + cbn [evaluate rbind]. apply agrees_bind; auto. intros x _. apply agrees_lift.
    - assert (NN : forall x y, ~ (constant x /\ constant y) -> ~ (as_int x <> None /\ as_int y <> None)).
      { intros [] [] H [H1 H2]; try (now destruct H1); try (now destruct H2). now apply H. }
      cbn [as_int operand]. destruct b; cbn [structure build evaluate]; try contradiction.
      + destruct E as (N & Ef & Eg). specialize (IHf Ef). specialize (IHg Eg).
        apply (operator2 (binary_op SPlus) Add _ _ _ _ (as_int f) (as_int g)); auto.
      + destruct E as (N & Ef & Eg). specialize (IHf Ef). specialize (IHg Eg).
        apply (operator2 (binary_op SDash) Subtract _ _ _ _ (as_int f) (as_int g)); auto.
      + destruct E as (N & Ef & Eg). specialize (IHf Ef). specialize (IHg Eg).
        apply (operator2 (binary_op SStar) Mult _ _ _ _ (as_int f) (as_int g)); auto.
      + destruct E as (N1 & N & Ef & Eg). specialize (IHf Ef). specialize (IHg Eg).
        apply (operator2 (binary_op SSlash) Divide _ _ _ _ (as_int f) (as_int g)); auto.
        intros n y H. destruct f; try discriminate H. injection H as ->.
        cbn [binary_op]. unfold divide. cbn [number].
        destruct n as [|[p|p|]|p]; try reflexivity. now destruct N1.
      + destruct E as (N & N' & Ef & Eg). specialize (IHf Ef). specialize (IHg Eg).
        rewrite (constant_int f N) in IHf. rewrite (constant_int g N') in IHg.
        apply (call_op2 "Atan2" _ _ (fun x y => mk (Bin BAtan2 x y))); auto.
      + destruct E as (N & N' & Ef & Eg). specialize (IHf Ef). specialize (IHg Eg).
        rewrite (constant_int f N) in IHf. rewrite (constant_int g N') in IHg.
        apply (call_op2 "Powf" _ _ (fun x y => mk (Bin BPowf x y))); auto.
      + destruct E as (N & Ef & Eg). specialize (IHf Ef). specialize (IHg Eg). 
        apply (agrees_eql _ _ _ (ev_compare SLt (structure f) (structure g))).
        apply (operator2 (compare_op SLt) (fun x y => mk (Bin BLess x y)) _ _ _ _ (as_int f) (as_int g)); auto.
      + destruct E as (N & Ef & Eg). specialize (IHf Ef). specialize (IHg Eg).
        apply (agrees_eql _ _ _ (ev_compare SLe (structure f) (structure g))).
        apply (operator2 (compare_op SLe) (fun x y => mk (Bin BLessEq x y)) _ _ _ _ (as_int f) (as_int g)); auto.
    - destruct E as (N & N' & N'' & Ef & Eg & Eh). specialize (IHf Ef). specialize (IHg Eg). specialize (IHh Eh).
      rewrite (constant_int f N) in IHf. rewrite (constant_int g N') in IHg. rewrite (constant_int h N'') in IHh.
      cbn [as_int operand structure build] in *. rewrite ev_call, !ev_list_cons, rbind_assoc.
      apply agrees_bind; auto. intros x _. rewrite !rbind_assoc. apply agrees_bind; auto. intros y _.
      rewrite !rbind_assoc. apply agrees_bind; auto. intros z _. cbn [rbind C55More.ev_list].
      destruct t; exact (agrees_lift _).
    - assert (Q : (~ constant f /\ evaluable f) /\ forall m, l <> LElem m) by (destruct l; try contradiction; split; auto; discriminate).
      destruct Q as [[N Ef] NL]. specialize (IH Ef). rewrite (constant_int f N) in IH. cbn [operand] in IH.
      cbn [as_int operand]. destruct l; cbn [structure build]; try (now destruct (NL m)).
      + apply call_op1; [exact IH|reflexivity].
      + apply call_op1; [exact IH|]. intros x. cbn [map call]. unfold call1_int, nonneg. cbn [String.eqb Ascii.eqb Bool.eqb].
        destruct (Z.ltb_spec (Z.of_nat d) 0); [lia|]. now rewrite Nat2Z.id.
      + apply call_op1; [exact IH|]. intros x. cbn [map call]. unfold call1_ints, nonneg. cbn [String.eqb Ascii.eqb Bool.eqb].
        destruct (Z.ltb_spec (Z.of_nat n) 0); [lia|]. destruct (Z.ltb_spec (Z.of_nat m) 0); [lia|]. now rewrite !Nat2Z.id.
      + apply call_op1; [exact IH|]. intros x. cbn [map call]. unfold call1_ints, nonneg. cbn [String.eqb Ascii.eqb Bool.eqb].
        destruct (Z.ltb_spec (Z.of_nat s) 0); [lia|]. destruct (Z.ltb_spec (Z.of_nat d) 0); [lia|]. now rewrite !Nat2Z.id.
      + apply call_op1; [exact IH|]. intros x. cbn [map call]. unfold call1_ints, nonneg. cbn [String.eqb Ascii.eqb Bool.eqb].
        destruct (Z.ltb_spec (Z.of_nat s) 0); [lia|]. destruct (Z.ltb_spec (Z.of_nat d) 0); [lia|]. now rewrite !Nat2Z.id.
    - destruct E as (N & N' & Ef & Eg). specialize (IHf Ef). specialize (IHg Eg).
      rewrite (constant_int f N) in IHf. rewrite (constant_int g N') in IHg. cbn [as_int operand] in *.
      destruct b; cbn [structure build].
      + cbn [evaluate]. apply agrees_two; auto. intros x y _ _. apply agrees_lift.
      + apply call_op2; auto.
      + apply call_op2; auto.
      + apply call_op2; auto.
    - destruct E as [N E]. specialize (IH E). rewrite (constant_int f N) in IH. cbn [as_int operand] in *.
      destruct s; cbn [structure build]; try (apply (call_op1 _ _ (fun x => mk (Sel _ x))); [exact IH|reflexivity]).
      apply (call_op1 _ _ (fun x => mk (Sel _ x))); [exact IH|]. intros x. cbn [map call].
      unfold call1_int, nonneg. cbn [String.eqb Ascii.eqb Bool.eqb].
      destruct (Z.ltb_spec (Z.of_nat d) 0); [lia|]. now rewrite Nat2Z.id.
  Qed.
End Names.

Lemma print_value : forall names f, evaluable f -> ~ constant f ->
  forall h, evaluate names (structure f) = Ok (VF h) <-> build f = Ok h.
Proof.
  intros names f E N. pose proof (eval_structure names f E) as H. rewrite (constant_int f N) in H.
  now apply agrees_iff.
Qed.

Lemma print_again : forall names f, wf f -> faithful f -> evaluable f -> ~ constant f ->
  exists e, reads (printed f) e
  /\ (forall h, evaluate names e = Ok (VF h) <-> build f = Ok h)
  /\ (forall h, evaluate names e = Ok (VF h) -> equivalent f h).
Proof.
  intros names f W F E N. exists (structure f). split; [now apply printed_read|].
  assert (V := print_value names f E N). split; auto. intros h H. apply build_value; auto. now apply V.
Qed.

(** ** Where the text says something else *)

Definition x1 := Var 0 1 0. Definition y1 := Var 1 1 1. Definition z1 := Var 2 1 1.
Definition x2 := Var 0 2 0. Definition y2 := Var 1 2 1.
Definition ex_env : env := fun i _ => if (i =? 0)%Z then 2%R else 1%R.
Definition ones : env := fun _ _ => 1%R.

Ltac read :=
  eexists; exists 60; split; [vm_compute; reflexivity|];
  let m := fresh "m" in let L := fresh "L" in intros m L;
  do 60 (destruct m; [exfalso; repeat apply le_S_n in L; inversion L|]); vm_compute; reflexivity.

Lemma sum_of_scalprod :
  let f := Bin BAdd (Bil KScal x2 y2) z1 in
  let e := PBin SBar (structure x2) (PBin SPlus (structure y2) (structure z1)) in
  let h := Bil KScal x2 (Bin BAdd y2 z1) in
  build f = Ok f /\ printed f = "Var(0,2,0)|Var(1,2,1)+Var(2,1,1)" /\ reads (printed f) e
  /\ evaluate (fun _ => None) e = Ok (VF h) /\ eval f ex_env 0 = 5%R /\ eval h ex_env 0 = 8%R.
Proof.
  cbv zeta. split; [reflexivity|]. split; [reflexivity|]. split; [|split; [reflexivity|]].
  - change (printed (Bin BAdd (Bil KScal x2 y2) z1)) with "Var(0,2,0)|Var(1,2,1)+Var(2,1,1)". read.
  - split; cbn; unfold ex_env; cbn; lra.
Qed.

Lemma equality_lost :
  let f := Bin BMult (Bin BEqual x1 y1) z1 in
  build f = Ok f /\ faithful f /\ printed f = "(Var(0,1,0)==Var(1,1,1))*Var(2,1,1)"
  /\ reads (printed f) (structure f) /\ evaluate (fun _ => None) (structure f) = Ok (VF (Zero 1))
  /\ eval f ones 0 = 1%R /\ eval (Zero 1) ones 0 = 0%R.
Proof.
  cbv zeta. split; [reflexivity|]. assert (F : faithful (Bin BMult (Bin BEqual x1 y1) z1)) by (cbn; auto).
  split; [exact F|]. split; [reflexivity|]. split; [now apply printed_read|]. split; [reflexivity|].
  split; [|reflexivity]. cbn. unfold ones. unfold Reqb. destruct (Req_EM_T 1 1); [cbn; lra|congruence].
Qed.

Lemma not_read_again :
  let f := Bin BMult (Rat 1 2) x1 in let g := Un UExp (Int 3) in let h := Lin (LElem 1) x2 in let k := Cat x1 y1 in
  build f = Ok f /\ printed f = "1/2*Var(0,1,0)"
  /\ (exists e, reads (printed f) e /\ evaluate (fun _ => None) e = KErr)
  /\ build g = Ok g /\ printed g = "Exp(3)" /\ reads (printed g) (structure g)
  /\ evaluate (fun _ => None) (structure g) = PyErr
  /\ build h = Ok h /\ printed h = "Var(0,2,0)[1]" /\ reads (printed h) (structure h)
  /\ evaluate (fun _ => None) (structure h) = PyErr
  /\ build k = Ok k /\ printed k = "[Var(0,1,0),Var(1,1,1)]" /\ reads (printed k) (structure k)
  /\ evaluate (fun _ => None) (structure k) = Ok (VL [VF x1; VF y1]).
Proof.
  cbv zeta. split; [reflexivity|]. split; [reflexivity|]. split.
  { exists (PBin SStar (PBin SSlash (PNum 1) (PNum 2)) (structure x1)). split; [|reflexivity].
    change (printed (Bin BMult (Rat 1 2) x1)) with "1/2*Var(0,1,0)". read. }
  repeat (split; [first [reflexivity | apply printed_read; cbn; tauto]|]). reflexivity.
Qed.

Definition ex_gauss : fm :=
  Bin BMult (Un UExp (Un UMinus (Bin BDiv (Lin LSum (Un USquare (Bin BSub (Var 0 3 0) (Var 1 3 1)))) (Int (-2)))))
    (Bin BLess (Bin BSub (Int 3) (Bin BSub (Bin BMult (Var 2 1 2) (Un UMinus (Var 3 1 1))) (Un UInv (Var 2 1 2))))
               (Un (UPow (-3)) (Var 3 1 1))).

Definition ex_built : fm :=
  Bin BMult
    (Bin BLess (Bin BSub (Int 3) (Bin BSub (Un UMinus (Bin BMult (Var 2 1 2) (Var 3 1 1))) (Un UInv (Var 2 1 2))))
               (Un (UPow (-3)) (Var 3 1 1)))
    (Un UExp (Bin BMult (Rat 1 2) (Lin LSum (Un USquare (Bin BSub (Var 0 3 0) (Var 1 3 1)))))).
