(** Cases of the functions of the R interface. *)

From Coq Require Import ZArith Reals Lra Lia List Bool Ascii String.
From Verif Require Import RedText Result BackText Keys KeySpec Aliases AliasSpec Formula Simplify Build Methods MethodsSpec PyRead PyReadSpec C55Proofs
  C61Proofs GenericOps GenericOpsSpec RKeops RKeopsSpec RLazy RLazySpec C65Proofs C65Cases RMethods RMethodsSpec C66Proofs.
Import ListNotations.
Local Open Scope nat_scope.
Open Scope string_scope.

(** exp(-|x-y|^2) * clamp(y^0.5, 0, 1), with |y| made of positive numbers. *)
Definition xc : RMethods.call := CVar "0x55d1" Ri (m1 4 3).
Definition yc : RMethods.call := CVar "0x55e2" Rj (Matrix 5 3 (fun j k => IZR (Z.of_nat (1 + j + k)))).
Definition half : RMethods.call := CVec "0x55aa" 1 (fun _ => (1 / 2)%R).
Definition mixed : RMethods.call :=
  C2 Fmul (C1 Fexp (C1 Fneg (C2 Fsqdist xc yc))) (C3 Fclamp (C2 Fpow yc half) (CInt 0) (CInt 1)).

Lemma mixed_fitting : fitting mixed.
Proof.
  cbn -[spreads]. repeat split; try lia; try tauto; try (intros [[] []]; fail).
  - exists 3. cbn. lia.
  - exists 3. cbn. lia.
  - exists 3. cbn. lia.
  - exists 3. cbn. lia.
Qed.
Definition mixed_program : program :=
  X2 "Mult" (Some SameOr1) None
    (X1 "Exp" [] None (X1 "Minus" [] None (X2 "SqDist" (Some SameOr1) (Some 1%Z) x_i (XTensor "0x55e2" Rj (Matrix 5 3 (fun j k => IZR (Z.of_nat (1 + j + k))))))))
    (X1 "ClampInt" [0%Z; 1%Z] None (X1 "Sqrt" [] None (XTensor "0x55e2" Rj (Matrix 5 3 (fun j k => IZR (Z.of_nat (1 + j + k))))))).
Lemma mixed_program_of : program_of mixed = Ok mixed_program.
Proof.
  cbn [program_of mixed xc yc half rbind method2 method3 is_number andb negb power fun1_op fst snd Nat.eqb accepts_numbers].
  destruct (Req_EM_T (1 / 2) (1 / 2)) as [E|E]; [reflexivity|]. now destruct E.
Qed.
Lemma mixed_objects : objects mixed_program.
Proof.
  split.
  - intros a x v x' v' H H'. cbn -[Z.of_nat Nat.add] in H, H'. repeat destruct H as [H|H]; repeat destruct H' as [H'|H']; try contradiction; congruence.
  - intros a x v H. cbn -[Z.of_nat Nat.add] in H. repeat destruct H as [H|H]; try contradiction; injection H as <- <- <-; (split; [|cbn; lia]);
      [exists "55d1"|exists "55e2"|exists "55e2"]; split; reflexivity.
Qed.
Lemma mixed_not_empty : not_empty mixed.
Proof. now apply fitting_not_empty, mixed_fitting. Qed.
Lemma mixed_defined : forall i j, defined mixed i j.
Proof.
  intros i j. cbn -[Rlt]. repeat split; auto. intros k _. apply IZR_lt. lia.
Qed.
Lemma mixed_reduced : exists z o l, run mixed_program = Ok z /\ reduction z "Sum" Rj NoArg = Ok (o, l) /\
  o_formula o = "Sum_Reduction(Mult(Exp(Minus(SqDist(V0,V1))),ClampInt(Sqrt(V1),0,1)),1)".
Proof. do 3 eexists. split; [reflexivity|]. split; vm_compute; reflexivity. Qed.

(** ** [extractT] *)

Definition seven_i : program := XTensor "0x77a4" Ri (m1 4 7).
Lemma extractT_accepts : exists x z o l p al a e, run x_i = Ok x /\ extractT x 2 4 = Ok z /\ reduction z "Sum" Rj NoArg = Ok (o, l) /\
  operator_text o = Ok p /\ p_formula p = "Sum_Reduction(ExtractT(V0,2,4),0)" /\ engine_aliases 0 None None (p_aliases p) = Ok al /\
  reads (p_formula p) e /\ dictionary al a /\ reduction_in a e = KErr.
Proof.
  do 3 eexists. exists [as_matrix (m1 4 3)]. do 2 eexists.
  exists [("V0", VF (Var 0 3 0))], (PCall (PName "Sum_Reduction") [PCall (PName "ExtractT") [PName "V0"; PNum 2; PNum 4]; PNum 0]).
  split; [reflexivity|]. split; [reflexivity|]. split; [vm_compute; reflexivity|].
  split; [vm_compute; reflexivity|]. split; [vm_compute; reflexivity|]. split; [vm_compute; reflexivity|]. split; [reading|].
  split; [entry (vt 0 3 0); constructor|lazy; reflexivity].
Qed.
Lemma extractT_dimension : exists x z s, run x_i = Ok x /\ run seven_i = Ok s /\ extractT x 2 7 = Ok z /\ z_dim z = 3%Z /\
  z_formula z = "ExtractT(A0x55d1i,2,7)" /\ binaryop z s "Add" false (Some SameOr1) None = KErr /\
  exists o a e, reads "Sum_Reduction(Add(ExtractT(V0,2,7),V1),0)" e /\ dictionary ["V0=Var(0,3,0)"; "V1=Var(1,7,0)"] a /\
    reduction_in a e = Ok (o, None) /\ ro_dim o = 7%Z.
Proof.
  do 3 eexists. repeat (split; [reflexivity|]). eexists.
  exists [("V0", VF (Var 0 3 0)); ("V1", VF (Var 1 7 0))],
    (PCall (PName "Sum_Reduction") [PCall (PName "Add") [PCall (PName "ExtractT") [PName "V0"; PNum 2; PNum 7]; PName "V1"]; PNum 0]).
  split; [reading|]. split; [entry (vt 0 3 0); entry (vt 1 7 0); constructor|]. split; [lazy; reflexivity|reflexivity].
Qed.

(** ** [elemT] *)

Ltac reading_deep := eexists; exists 80; split; [reflexivity|]; let m := fresh in let L := fresh in intros m L;
  do 80 (destruct m; [exfalso; repeat apply le_S_n in L; inversion L|]); reflexivity.
Definition x_plus : program := X2 "Add" (Some SameOr1) None x_i (XInt 1).
Lemma elemT_accepts : exists x z o l p al a e, run x_plus = Ok x /\ z_dim x = 3%Z /\ elemT x 0 4 = Ok z /\ reduction z "Sum" Rj NoArg = Ok (o, l) /\
  operator_text o = Ok p /\ p_formula p = "Sum_Reduction(ElemT(Add(V0,IntCst(1)),4,0),0)" /\ engine_aliases 0 None None (p_aliases p) = Ok al /\
  reads (p_formula p) e /\ dictionary al a /\ reduction_in a e = KErr.
Proof.
  do 3 eexists. exists [as_matrix (m1 4 3)]. do 2 eexists.
  exists [("V0", VF (Var 0 3 0))],
    (PCall (PName "Sum_Reduction") [PCall (PName "ElemT") [PCall (PName "Add") [PName "V0"; PCall (PName "IntCst") [PNum 1]]; PNum 4; PNum 0]; PNum 0]).
  split; [reflexivity|]. split; [reflexivity|]. split; [reflexivity|]. split; [vm_compute; reflexivity|].
  split; [vm_compute; reflexivity|]. split; [vm_compute; reflexivity|]. split; [vm_compute; reflexivity|]. split; [reading_deep|].
  split; [entry (vt 0 3 0); constructor|lazy; reflexivity].
Qed.
Definition one_pm : program := XTensor "0x88b5" RNA (Vector 1 (fun _ => 2%R)).
Definition four_j : program := XTensor "0x99c6" Rj (m1 5 4).
Lemma elemT_dimension : exists x y z, run one_pm = Ok x /\ run four_j = Ok y /\ elemT x 1 4 = Ok z /\ z_dim z = 1%Z /\
  z_formula z = "ElemT(A0x88b5NA,4,1)" /\ scalar_product z y = KErr /\
  exists o a e, reads "Sum_Reduction((ElemT(V0,4,1)|V1),0)" e /\ dictionary ["V0=Var(0,1,2)"; "V1=Var(1,4,1)"] a /\
    reduction_in a e = Ok (o, None) /\ ro_dim o = 1%Z.
Proof.
  do 3 eexists. repeat (split; [reflexivity|]). eexists.
  exists [("V0", VF (Var 0 1 2)); ("V1", VF (Var 1 4 1))],
    (PCall (PName "Sum_Reduction") [PBin SBar (PCall (PName "ElemT") [PName "V0"; PNum 4; PNum 1]) (PName "V1"); PNum 0]).
  split; [reading_deep|]. split; [entry (vt 0 1 2); entry (vt 1 4 1); constructor|]. split; [lazy; reflexivity|reflexivity].
Qed.

(** ** A weight *)

Lemma square_weighted : exists z y o l, run (XScal x_i x_i) = Ok z /\ run b_j = Ok y /\ reduction z "SumSoftMaxWeight" Rj (TensorArg y) = Ok (o, l).
Proof. do 4 eexists. split; [reflexivity|]. split; [reflexivity|]. vm_compute; reflexivity. Qed.
Lemma square_objects : objects (XScal x_i x_i).
Proof.
  split.
  - intros a x v x' v' H H'. cbn in H, H'. repeat destruct H as [H|H]; repeat destruct H' as [H'|H']; try contradiction; congruence.
  - intros a x v H. cbn in H. repeat destruct H as [H|H]; try contradiction; injection H as <- <- <-; (split; [|cbn; lia]); exists "55d1"; split; reflexivity.
Qed.

(** ** Weights and products *)

(** weightedsqnorm with the weights [w_j], of two columns. *)
Definition wc : RMethods.call := CVar "0x55f3" Rj (m1 5 2).
Lemma weights_accepted : exists p z o l q al a e, program_of (C2 Fwsqnorm xc wc) = Ok p /\ run p = Ok z /\ reduction z "Sum" Rj NoArg = Ok (o, l) /\
  operator_text o = Ok q /\ p_formula q = "Sum_Reduction(WeightedSqNorm(V0,V1),0)" /\ engine_aliases 0 None None (p_aliases q) = Ok al /\
  reads (p_formula q) e /\ dictionary al a /\ reduction_in a e = KErr.
Proof.
  do 3 eexists. exists [as_matrix (m1 5 2); as_matrix (m1 4 3)]. do 2 eexists.
  exists [("V0", VF (Var 0 2 1)); ("V1", VF (Var 1 3 0))],
    (PCall (PName "Sum_Reduction") [PCall (PName "WeightedSqNorm") [PName "V0"; PName "V1"]; PNum 0]).
  split; [reflexivity|]. split; [reflexivity|]. split; [vm_compute; reflexivity|].
  split; [vm_compute; reflexivity|]. split; [vm_compute; reflexivity|]. split; [vm_compute; reflexivity|]. split; [reading|].
  split; [entry (vt 0 2 1); entry (vt 1 3 0); constructor|lazy; reflexivity].
Qed.
(** one_hot of a number, times the squared norm of x for a matrix of weights, plus the product of y and a vector. *)
Definition encoded : RMethods.call :=
  C2 Fadd (C2 Fmul (COneHot (CVar "0x88b5" RNA (Vector 1 (fun _ => 2%R))) 4) (C2 Fwsqnorm (C2 Fsub xc yc) (CVar "0x66a4" Ri (m1 4 9))))
    (C2 Fmatvec yc (CVar "0x77a4" RNA (Vector 3 (fun k => INR k)))).
Lemma encoded_fitting : fitting encoded.
Proof.
  cbn -[spreads]. unfold weights. repeat split; try lia; try tauto; try (intros [[] []]; fail).
  - eexists _, _. reflexivity.
  - exists 3. cbn. lia.
  - exists 4. cbn. lia.
  - exists 4. cbn. lia.
Qed.
