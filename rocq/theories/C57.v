(** C57: the reduction that the user asks for is the one that the engine makes. *)

From Coq Require Import ZArith List Bool Ascii String.
From Verif Require Import Result Keys Formula FormulaSpec Build LazyTensors Methods MethodsSpec LazySpec PyRead PyReadSpec
  Layout RedText RedTextSpec C57Proofs.
Import ListNotations.
Open Scope string_scope.

(** A reduction of a symbolic tensor gives a text and arguments.  The arguments are the tensors of the formulas, each one
    once; the tensor at place [p] of the arguments is the variable of position [p] after the symbolic ones; and the
    engine makes from the text the class that is asked for, with the formula of the tensor (and the one of the weights)
    in which each tensor is the variable of its position.
    Partial: methods in [computes]; no identity is one of the positions (see C27); names of [wanted]. *)
Theorem C57_reduction_partial : forall l F op w k ax x args hd,
  computes l F -> (forall s, wf (F s)) -> (forall o G, w = Some (o, G) -> computes o G /\ forall s, wf (G s)) ->
  lt_reduction l op (option_map fst w) k ax = Ok (Ready x args hd) ->
  let vs := all_variables l (option_map fst w) in
  let start := new_variable_index (all_symbolic l (option_map fst w)) in
  (forall v, In v vs -> (0 <= t_id v)%Z /\ ~ (start <= t_id v < start + Z.of_nat (List.length vs))%Z) ->
  exists s,
    NoDup (map t_id args) /\ (forall i, In i (map t_id args) <-> In i (map t_id vs))
    /\ (forall p v, nth_error args p = Some v -> s (t_id v) = (start + Z.of_nat p)%Z)
    /\ hd = option_map (fun v => s (t_id v)) (highdim op l)
    /\ (forall p, hd = Some p -> exists q, (q < List.length args)%nat /\ p = (start + Z.of_nat q)%Z)
    /\ forall cls phi d, wanted op k (F s) (option_map (fun g => snd g s) w) = Some (cls, phi, d) ->
       makes x k (exponential op) (ax - nbatchdims l) (F s) cls phi d.
Proof. exact reduction_meaning. Qed.
Print Assumptions C57_reduction_partial.

(** [b_j] against the softmax of [-|x_i - y_j|^2]. *)
Example C57_reduction_case : exists x y b d f t F G,
  lt_array "float32" 900 [10; 3]%Z (Some 0%Z) = Ok x /\ lt_array "float32" 950 [20; 3]%Z (Some 1%Z) = Ok y
  /\ lt_array "float32" 970 [20; 2]%Z (Some 1%Z) = Ok b
  /\ m_sqdist x y = Ok d /\ f = m_map Mminus d /\ computes f F /\ computes b G
  /\ (forall s, wf (F s)) /\ (forall s, wf (G s))
  /\ t = "Max_SumShiftExpWeight_Reduction(Minus(SqDist(Var(0,3,0), Var(1,3,1))),0,Concat(IntCst(1),Var(2,2,1)))"
  /\ (exists args, lt_reduction f "SumSoftMaxWeight" (Some b) None 1 = Ok (Ready t args None) /\ map t_id args = [900; 950; 970]%Z)
  /\ (let s := fun i => if (i =? 900)%Z then 0%Z else if (i =? 950)%Z then 1%Z else 2%Z in
      wanted "SumSoftMaxWeight" None (F s) (Some (G s))
      = Some ("Max_SumShiftExpWeight_Reduction",
              Cat (Un UMinus (square_norm (Bin BSub (Var 0 3 0) (Var 1 3 1)))) (Cat (Int 1) (Var 2 2 1)), 4%Z)).
Proof.
  do 8 eexists. do 4 (split; [vm_compute; reflexivity|]). split; [reflexivity|]. split; [|split; [|split; [|split; [|split]]]].
  - eapply c_map; [|discriminate]. eapply c_sqdist.
    + eapply (c_array "float32" 900 [10; 3]%Z (Some 0%Z)); [vm_compute; reflexivity|repeat constructor; discriminate|reflexivity..].
    + eapply (c_array "float32" 950 [20; 3]%Z (Some 1%Z)); [vm_compute; reflexivity|repeat constructor; discriminate|reflexivity..].
    + vm_compute. reflexivity.
  - eapply (c_array "float32" 970 [20; 2]%Z (Some 1%Z)); [vm_compute; reflexivity|repeat constructor; discriminate|reflexivity..].
  - intros s. cbn. tauto.
  - intros s. cbn. tauto.
  - reflexivity.
  - split; [eexists; split; vm_compute; reflexivity|reflexivity].
Qed.

(** The names MinArgMin, MaxArgMax and KMinArgKMin, known to [postprocess] and to the half precision code and, for the
    last one, told by the documentation, have no class: the text is not a reduction. *)
Theorem C57_names_refuted : forall op f a x, In op ["MinArgMin"; "MaxArgMax"; "KMinArgKMin"] ->
  a = 0%Z \/ a = 1%Z -> well_named f -> forall k, red_text op (written f) k a "" = Ok x ->
  exists e, reads x e /\ forall names factorize r, get_reduction names factorize e <> Ok r.
Proof. exact no_class. Qed.
Print Assumptions C57_names_refuted.

Example C57_names_case :
  red_text "KMinArgKMin" (written (TVar 0 1 0)) (Some 3%Z) 1 "" = Ok "KMinArgKMin_Reduction(Var(0,1,0),3,0)"
  /\ forall v, exists out, postprocess "KMinArgKMin" 1 {| shape := [1; 2]%nat; flat := fun _ => v |} = Ok out.
Proof. split; [reflexivity|]. intros v. eexists. reflexivity. Qed.

(** The number 0 is not written: [KMin] with [K = 0] is a call with one argument less, and an error. *)
Theorem C57_zero_refuted : forall f a x, a = 0%Z \/ a = 1%Z -> well_named f ->
  red_text "KMin" (written f) (Some 0%Z) a "" = Ok x ->
  exists e, reads x e /\ forall names factorize r, get_reduction names factorize e <> Ok r.
Proof. exact zero_fails. Qed.
Print Assumptions C57_zero_refuted.

Example C57_zero_case :
  red_text "KMin" (written (TVar 0 1 0)) (Some 0%Z) 1 "" = Ok "KMin_Reduction(Var(0,1,0),0)"
  /\ red_text "KMin" (written (TVar 0 1 0)) (Some 3%Z) 1 "" = Ok "KMin_Reduction(Var(0,1,0),3,0)".
Proof. split; reflexivity. Qed.

(** With the option that factorizes, the child of the reduction is replaced but what is compiled stays the formula
    before: the option has no effect on the code. *)
Theorem C57_factorized_refuted : forall names a e, match get_reduction names None e with
  | Ok (o, k) => exists o', get_reduction names (Some a) e = Ok (o', k) /\ compiled o' = compiled o
                            /\ ro_child o' = a (ro_child o)
  | _ => forall r, get_reduction names (Some a) e <> Ok r
  end.
Proof. exact factorized. Qed.
Print Assumptions C57_factorized_refuted.

Example C57_factorized_case :
  match get_reduction (fun _ => None) (Some (fun _ => Zero 3))
          (PCall (PName "Sum_Reduction") [tree (TVar 0 3 0); PNum 1]) with
  | Ok (o, _) => compiled o = Var 0 3 0 /\ ro_child o = Zero 3
  | _ => False
  end.
Proof. vm_compute. split; reflexivity. Qed.
