(** Cases of the symbolic tensors of the R interface. *)

From Coq Require Import ZArith Reals Lia List Bool Ascii String.
From Verif Require Import Result BackText Keys KeySpec Aliases AliasSpec Formula Simplify Build Methods MethodsSpec PyRead PyReadSpec C55Proofs
  GenericOps GenericOpsSpec RKeops RKeopsSpec RLazy RLazySpec C65Names C65Args C65Read C65Proofs.
Import ListNotations.
Local Open Scope nat_scope.
Open Scope string_scope.

Definition m1 (n d : nat) : rvalue := Matrix n d (fun i k => IZR (Z.of_nat (i + k))).
(** x_i, y_j, and exp(-|x-y|^2) * (x|y), where x is used twice. *)
Definition x_i : program := XTensor "0x55d1" Ri (m1 4 3).
Definition y_j : program := XTensor "0x55e2" Rj (m1 5 3).
Definition b_j : program := XTensor "0x55f3" Rj (m1 5 1).
Definition kernel : program :=
  X2 "Mult" (Some SameOr1) None (X1 "Exp" [] None (X1 "Minus" [] None (X2 "SqDist" (Some SameOr1) (Some 1%Z) x_i y_j))) (XScal y_j x_i).

Lemma kernel_objects : objects kernel.
Proof.
  split.
  - intros a x v x' v' H H'. cbn in H, H'. repeat destruct H as [H|H]; repeat destruct H' as [H'|H']; try contradiction; congruence.
  - intros a x v H. cbn in H. repeat destruct H as [H|H]; try contradiction; injection H as <- <- <-; (split; [|cbn; lia]);
      [exists "55d1"|exists "55e2"|exists "55e2"|exists "55d1"]; split; reflexivity.
Qed.
Lemma weight_objects : objects b_j.
Proof.
  split.
  - intros a x v x' v' H H'. cbn in H, H'. destruct H as [H|[]]. destruct H' as [H'|[]]. congruence.
  - intros a x v H. cbn in H. destruct H as [H|[]]. injection H as <- <- <-. split; [exists "55f3"; split; reflexivity|cbn; lia].
Qed.
Ltac op_name := split; [ident|split; [reflexivity|split; [reflexivity|intros k; split; discriminate]]].
Lemma kernel_operations : operations kernel.
Proof.
  cbn [operations kernel x_i y_j]. repeat match goal with |- True => exact I | |- operation_name _ => op_name | |- _ /\ _ => split end.
Qed.
Lemma kernel_usual : usual kernel.
Proof.
  cbn [usual kernel x_i y_j]. split; [left; repeat split; left; discriminate|]. split; [|repeat split].
  split; [left; repeat split; left; discriminate|]. split; [left; repeat split; left; discriminate|].
  split; [right; right; left; repeat split|repeat split].
Qed.
Lemma kernel_runs : exists z, run kernel = Ok z /\ z_dim z = 1%Z /\
  z_formula z = "Mult(Exp(Minus(SqDist(A0x55d1i,A0x55e2j))),(A0x55e2j|A0x55d1i))" /\
  z_args z = ["A0x55d1i=Vi(3)"; "A0x55e2j=Vj(3)"] /\ z_data z = [m1 4 3; m1 5 3].
Proof. eexists. repeat split. Qed.

(** ** Gradients *)

Definition one_i (f : nat -> R) : program := XTensor "0xa1" Ri (Matrix 4 1 (fun i _ => f i)).
Definition one_j (f : nat -> R) : program := XTensor "0xb2" Rj (Matrix 5 1 (fun i _ => f i)).
Definition seed_i (f : nat -> R) : program := XTensor "0xc3" Ri (Matrix 4 1 (fun i _ => f i)).
Definition product (f g : nat -> R) : program := X2 "Mult" (Some SameOr1) None (one_i f) (one_j g).

Lemma grad_refuted : forall f g h, exists z x y s o l,
  run (product f g) = Ok z /\ run (one_i f) = Ok x /\ run (one_j g) = Ok y /\ run (seed_i h) = Ok s /\
  grad "eta" z s "Sum" y Rj = Ok (o, l) /\ grad "eta" z s "Sum" x Rj = Ok (o, l) /\
  o_formula o = "Grad(Sum_Reduction(Mult(V0,V1),1),V0,eta)" /\ o_args o = ["V0=Vi(1)"; "V1=Vj(1)"; "eta=Vi(1)"] /\
  exists a b c, l = [a; b; c] /\ points "col" (Matrix 4 1 (fun i _ => f i)) a /\ points "col" (Matrix 5 1 (fun i _ => g i)) b.
Proof.
  intros f g h. do 6 eexists. repeat (split; [reflexivity|]). do 3 eexists. split; [reflexivity|].
  split; left; repeat split; reflexivity.
Qed.

(** ** Dimensions *)

Definition two_j : program := XTensor "0x55f3" Rj (m1 5 2).

Definition five_i : program := XTensor "0x66a4" Ri (m1 4 5).
Definition joined : program := X2 "Concat" None (Some 5%Z) (X1 "Sum" [] (Some 1%Z) x_i) two_j.

Lemma concat_refuted : exists x y z w F, run (X1 "Sum" [] (Some 1%Z) x_i) = Ok x /\ run two_j = Ok y /\ concat x y = Ok z /\
  run joined = Ok z /\ z_dim z = 5%Z /\ run (X2 "Add" (Some SameOr1) None joined five_i) = Ok w /\
  z_formula w = "Add(Concat(Sum(A0x55d1i),A0x55f3j),A0x66a4i)" /\
  (forall place, place "0x55d1" Ri = 0 -> place "0x55f3" Rj = 1 -> place "0x66a4" Ri = 2 ->
     as_formula (term_of place (X2 "Add" (Some SameOr1) None joined five_i)) = Some F) /\
  build F = KErr.
Proof.
  eexists _, _, _, _, (Bin BAdd (Cat (Lin LSum (Var 0 3 0)) (Var 1 2 1)) (Var 2 5 0)). repeat (split; [reflexivity|]). split; [|lazy; reflexivity].
  intros place P Q S. cbn [term_of joined x_i two_j five_i]. change (arithmetic "Concat") with (@None string).
  change (arithmetic "Add") with (Some "+"). cbn [term_of]. rewrite P, Q, S. reflexivity.
Qed.

Lemma min_refuted : exists x F, run (X1 "Min" [] None x_i) = Ok x /\ z_dim x = 3%Z /\
  run (X2 "Add" (Some SameOr1) None (X1 "Min" [] None x_i) two_j) = KErr /\
  (forall place, place "0x55d1" Ri = 0 -> place "0x55f3" Rj = 1 ->
     as_formula (term_of place (X2 "Add" (Some SameOr1) None (X1 "Min" [] None x_i) two_j)) = Some F) /\
  wf F /\ exists h, build F = Ok h /\ dim h = 2.
Proof.
  eexists _, (Bin BAdd (Sel SMin (Var 0 3 0)) (Var 1 2 1)). repeat (split; [reflexivity|]). split.
  - intros place P Q. cbn [term_of x_i two_j]. rewrite P, Q. reflexivity.
  - split; [cbn; repeat split|]. eexists. split; [lazy; reflexivity|reflexivity].
Qed.

(** ** Arrays *)

Lemma data_claim : forall z op index opt o l, reduction z op index opt = Ok (o, l) ->
  List.length l = List.length (z_data z ++ match opt with TensorArg w => z_data w | _ => [] end) /\
  forall k v, nth_error (z_data z ++ match opt with TensorArg w => z_data w | _ => [] end) k = Some v ->
    exists m, nth_error l k = Some m /\ points "col" v m.
Proof.
  intros z op index opt o l H. unfold reduction in H. apply C64Grad.rbind_inv in H. destruct H as (o' & _ & H).
  apply C64Grad.rbind_inv in H. destruct H as (l' & D & H). injection H as -> ->. apply unnamed_data in D. subst l.
  split; [apply map_length|]. intros k v N. exists (as_matrix v). split; [|apply as_points]. rewrite nth_error_map, N. reflexivity.
Qed.

Lemma text_case : forall z, run kernel = Ok z ->
  fix_variables false z = Ok ("Mult(Exp(Minus(SqDist(V0,V1))),(V1|V0))", ["V0=Vi(3)"; "V1=Vj(3)"]).
Proof. intros z H. injection H as <-. reflexivity. Qed.
Lemma sum_case : exists z o l, run kernel = Ok z /\ reduction z "Sum" Rj NoArg = Ok (o, l) /\
  o_formula o = "Sum_Reduction(Mult(Exp(Minus(SqDist(V0,V1))),(V1|V0)),1)".
Proof. do 3 eexists. split; [reflexivity|]. split; vm_compute; reflexivity. Qed.
Lemma smallest_case : exists z o l, run kernel = Ok z /\ reduction z "ArgKMin" Rj (IntArg 4) = Ok (o, l) /\
  o_formula o = "ArgKMin_Reduction(Mult(Exp(Minus(SqDist(V0,V1))),(V1|V0)),4,1)".
Proof. do 3 eexists. split; [reflexivity|]. split; vm_compute; reflexivity. Qed.
Lemma softmax_case : exists z y o l, run kernel = Ok z /\ run b_j = Ok y /\ reduction z "SumSoftMaxWeight" Rj (TensorArg y) = Ok (o, l) /\
  o_formula o = "SumSoftMaxWeight_Reduction(Mult(Exp(Minus(SqDist(V0,V1))),(V1|V0)),OptV0,1)".
Proof. do 4 eexists. split; [reflexivity|]. split; [reflexivity|]. split; vm_compute; reflexivity. Qed.
Lemma number_case : exists z o, run kernel = Ok z /\ preprocess_reduction z "KMin" Ri (IntArg 2) = Ok o /\ reduction_name "KMin".
Proof. do 2 eexists. split; [reflexivity|]. split; [vm_compute; reflexivity|repeat split; discriminate]. Qed.
Lemma weight_case : exists z y o, run kernel = Ok z /\ run b_j = Ok y /\ preprocess_reduction z "LogSumExpWeight" Rj (TensorArg y) = Ok o /\
  o_formula o = "LogSumExpWeight_Reduction(Mult(Exp(Minus(SqDist(V0,V1))),(V1|V0)),OptV0,1)" /\
  o_args o = ["V0=Vi(3)"; "V1=Vj(3)"; "OptV0=Vj(1)"].
Proof. do 3 eexists. split; [reflexivity|]. split; [reflexivity|]. split; [vm_compute; reflexivity|]. split; reflexivity. Qed.
