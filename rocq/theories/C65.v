(** * C65: symbolic tensors in the R interface.

    The claim (an operation on symbolic tensors is the operation on what they stand for, whatever matrices are shared
    between them; a reduction gives to the engine the formula and the matrices of the program, in this order; the
    announced dimension is the one of the formula; grad is the gradient for the given variable) holds for the names,
    declarations and order of the matrices of all programs ([C65_text]), for the texts of reductions, also with a
    number or a weight ([C65_plain], [C65_number], [C65_weight]), for their arrays ([C65_data]), for what the engine
    makes of them ([C65_reduction_partial], [C65_weighted_partial]) and, for the usual operations, for the dimension
    ([C65_usual_partial], [C65_usual_weighted_partial]).
    Otherwise it is false: the gradient is for the first matrix of the formula, whatever variable is given
    ([C65_gradient_refuted]); concat announces the dimension of the matrix inside its argument
    ([C65_concat_refuted]); min keeps the dimension of its argument ([C65_min_refuted]).
    Restricted to real tensors; two objects have two addresses. *)

From Coq Require Import ZArith Reals List Ascii String.
From Verif Require Import Result BackText Keys KeySpec Aliases AliasSpec Formula Simplify Build Methods MethodsSpec PyRead PyReadSpec
  GenericOps GenericOpsSpec RKeops RKeopsSpec RLazy RLazySpec C65Names C65Args C65Read C65Proofs C65Cases.
Import ListNotations.
Local Open Scope nat_scope.
Open Scope string_scope.

(** Each matrix has one place; its name in the formula and its declaration are those of its place. *)
Theorem C65_text : forall is_opt e z, objects e -> operations e -> run e = Ok z ->
  exists place ss, placed e place (z_data z) /\
    fix_variables is_opt z = Ok (shown (fun a x => (if is_opt then "OptV" else "V") ++ str_int (Z.of_nat (place a x))) e, ss) /\
    declared_at is_opt e place ss /\ List.length ss = List.length (z_data z).
Proof. exact fixed_text. Qed.
Print Assumptions C65_text.

Example C65_text_case : exists z, run kernel = Ok z /\
  fix_variables false z = Ok ("Mult(Exp(Minus(SqDist(V0,V1))),(V1|V0))", ["V0=Vi(3)"; "V1=Vj(3)"]) /\
  exists place ss, placed kernel place (z_data z) /\ declared_at false kernel place ss.
Proof.
  destruct kernel_runs as (z & R & _). exists z. split; [exact R|]. split; [exact (text_case z R)|].
  destruct (C65_text false kernel z kernel_objects kernel_operations R) as (place & ss & P & _ & D & _). exists place, ss. split; assumption.
Qed.

(** Reductions: operation, formula, axis and declarations. *)
Theorem C65_plain : forall e z op index o, objects e -> operations e -> run e = Ok z -> reduction_name op ->
  preprocess_reduction z op index NoArg = Ok o ->
  exists place, placed e place (z_data z) /\ declared_at false e place (o_args o) /\ List.length (o_args o) = List.length (z_data z) /\
    get_pykeops_formula (o_formula o) =
      Ok {| d_op := op; d_main := shown (fun a x => "V" ++ str_int (Z.of_nat (place a x))) e; d_axis := Some (axis_of index);
            d_opt := NoOption |}.
Proof. exact plain_described. Qed.
Print Assumptions C65_plain.

Example C65_plain_case : exists z o d, run kernel = Ok z /\ preprocess_reduction z "Sum" Rj NoArg = Ok o /\
  get_pykeops_formula (o_formula o) = Ok d /\ d_axis d = Some 1%Z.
Proof.
  destruct kernel_runs as (z & R & _). exists z. eexists. eexists. split; [exact R|]. injection R as <-.
  split; [vm_compute; reflexivity|]. split; vm_compute; reflexivity.
Qed.

(** With a number, as the K of K smallest values. *)
Theorem C65_number : forall e z op index k o, objects e -> operations e -> run e = Ok z -> reduction_name op ->
  op <> "LogSumExpWeight" -> op <> "SumSoftMaxWeight" -> (0 <= k)%Z ->
  preprocess_reduction z op index (IntArg k) = Ok o ->
  exists place, placed e place (z_data z) /\ declared_at false e place (o_args o) /\ List.length (o_args o) = List.length (z_data z) /\
    get_pykeops_formula (o_formula o) =
      Ok {| d_op := op; d_main := shown (fun a x => "V" ++ str_int (Z.of_nat (place a x))) e; d_axis := Some (axis_of index);
            d_opt := Number (Some k) |}.
Proof. exact number_described. Qed.
Print Assumptions C65_number.

Example C65_number_case : exists z o place, run kernel = Ok z /\ preprocess_reduction z "KMin" Ri (IntArg 2) = Ok o /\
  get_pykeops_formula (o_formula o) =
    Ok {| d_op := "KMin"; d_main := shown (fun a x => "V" ++ str_int (Z.of_nat (place a x))) kernel; d_axis := Some 0%Z; d_opt := Number (Some 2%Z) |}.
Proof.
  destruct number_case as (z & o & R & P & N).
  destruct (C65_number kernel z "KMin" Ri 2 o kernel_objects kernel_operations R N ltac:(discriminate) ltac:(discriminate) ltac:(discriminate) P)
    as (place & _ & _ & _ & G). exists z, o, place. split; [exact R|]. split; [exact P|exact G].
Qed.

(** With a weight, whose matrices come after those of the formula and have other names. *)
Theorem C65_weight : forall e z w y op index o, objects e -> operations e -> run e = Ok z ->
  objects w -> operations w -> run w = Ok y -> op = "LogSumExpWeight" \/ op = "SumSoftMaxWeight" ->
  preprocess_reduction z op index (TensorArg y) = Ok o ->
  exists place place' ss ss', placed e place (z_data z) /\ placed w place' (z_data y) /\
    declared_at false e place ss /\ declared_at true w place' ss' /\ o_args o = (ss ++ ss')%list /\
    List.length ss = List.length (z_data z) /\ List.length ss' = List.length (z_data y) /\
    get_pykeops_formula (o_formula o) =
      Ok {| d_op := op; d_main := shown (fun a x => "V" ++ str_int (Z.of_nat (place a x))) e; d_axis := Some (axis_of index);
            d_opt := Weight (shown (fun a x => "OptV" ++ str_int (Z.of_nat (place' a x))) w) |}.
Proof. exact weight_described. Qed.
Print Assumptions C65_weight.

Example C65_weight_case : exists z y o ss ss', run kernel = Ok z /\ run b_j = Ok y /\
  preprocess_reduction z "LogSumExpWeight" Rj (TensorArg y) = Ok o /\
  o_args o = ["V0=Vi(3)"; "V1=Vj(3)"; "OptV0=Vj(1)"] /\ o_args o = (ss ++ ss')%list /\ List.length ss' = 1.
Proof.
  destruct weight_case as (z & y & o & R & R' & P & _ & A).
  destruct (C65_weight kernel z b_j y _ Rj o kernel_objects kernel_operations R weight_objects I R' (or_introl eq_refl) P)
    as (place & place' & ss & ss' & _ & _ & _ & _ & E & _ & L & _). exists z, y, o, ss, ss'. repeat (split; [assumption|]).
  rewrite L. injection R' as <-. reflexivity.
Qed.

(** The arrays of a reduction are those of the formula, then those of the weight, in the order of the data. *)
Theorem C65_data : forall z op index opt o l, reduction z op index opt = Ok (o, l) ->
  List.length l = List.length (z_data z ++ match opt with TensorArg w => z_data w | _ => [] end) /\
  forall k v, nth_error (z_data z ++ match opt with TensorArg w => z_data w | _ => [] end) k = Some v ->
    exists m, nth_error l k = Some m /\ points "col" v m.
Proof. exact data_claim. Qed.
Print Assumptions C65_data.

Example C65_data_case : exists z o l, run kernel = Ok z /\ reduction z "Sum" Rj NoArg = Ok (o, l) /\ List.length l = 2.
Proof.
  destruct sum_case as (z & o & l & R & S & _). exists z, o, l. split; [exact R|]. split; [exact S|].
  destruct (C65_data z "Sum" Rj NoArg o l S) as [L _]. rewrite L. injection R as <-. reflexivity.
Qed.

(** The engine makes the reduction of the formula of the program; each matrix is the array of its variable. *)
Theorem C65_reduction_partial : forall e z op index opt o l, objects e -> operations e -> run e = Ok z -> reduction z op index opt = Ok (o, l) ->
  exists place, placed e place (z_data z) /\
    forall F k one cls phi d, as_formula (term_of place e) = Some F -> wf F -> engine_term (term_of place e) ->
    r_reduction F op opt k one cls phi d ->
    (forall a x v, In (a, x, v) (leaves e) -> exists m, nth_error l (place a x) = Some m /\ points "col" v m) /\
    exists p al, operator_text o = Ok p /\ engine_aliases 0 None None (p_aliases p) = Ok al /\
      engine_makes al (p_formula p) k one (1 - axis_of index) F cls phi d.
Proof. exact reduction_claim. Qed.
Print Assumptions C65_reduction_partial.

Example C65_reduction_case : exists z o l place, run kernel = Ok z /\ reduction z "Sum" Rj NoArg = Ok (o, l) /\
  placed kernel place (z_data z) /\ forall F, r_reduction F "Sum" NoArg None false "Sum_Reduction" F (Z.of_nat (dim F)).
Proof.
  destruct sum_case as (z & o & l & R & S & _).
  destruct (C65_reduction_partial kernel z "Sum" Rj NoArg o l kernel_objects kernel_operations R S) as (place & P & _).
  exists z, o, l, place. repeat (split; [assumption|]). intros F. apply (rr_one F "Sum"). now left.
Qed.

(** With a weight: the matrices of the weight are the variables after those of the formula. *)
Theorem C65_weighted_partial : forall e z w y op index o l,
  objects e -> operations e -> run e = Ok z -> objects w -> operations w -> run w = Ok y ->
  reduction z op index (TensorArg y) = Ok (o, l) ->
  exists place place', placed e place (z_data z) /\ placed w place' (z_data y) /\
    (forall a x v, In (a, x, v) (leaves e) -> exists m, nth_error l (place a x) = Some m /\ points "col" v m) /\
    (forall a x v, In (a, x, v) (leaves w) -> exists m, nth_error l (List.length (z_data z) + place' a x) = Some m /\ points "col" v m) /\
    forall F G K, as_formula (term_of place e) = Some F -> wf F -> engine_term (term_of place e) ->
    let after := fun a x => List.length (z_data z) + place' a x in
    as_formula (term_of after w) = Some G -> wf G -> engine_term (term_of after w) -> weighted_by op G K ->
    exists p al, operator_text o = Ok p /\ engine_aliases 0 None None (p_aliases p) = Ok al /\
      engine_makes al (p_formula p) None true (1 - axis_of index) F "Max_SumShiftExpWeight_Reduction" (Cat F K) (Z.of_nat (dim F + dim K)).
Proof. exact weighted_claim. Qed.
Print Assumptions C65_weighted_partial.

Example C65_weighted_case : exists z y o l place place', run kernel = Ok z /\ run b_j = Ok y /\
  reduction z "SumSoftMaxWeight" Rj (TensorArg y) = Ok (o, l) /\ placed kernel place (z_data z) /\ placed b_j place' (z_data y).
Proof.
  destruct softmax_case as (z & y & o & l & R & R' & S & _).
  destruct (C65_weighted_partial kernel z b_j y _ Rj o l kernel_objects kernel_operations R weight_objects I R' S) as (place & place' & P & P' & _).
  exists z, y, o, l, place, place'. repeat (split; [assumption|]). exact P'.
Qed.

(** The usual operations: what R accepts is a formula of the engine, of the announced dimension. *)
Theorem C65_usual_partial : forall e z op index opt o l, objects e -> operations e -> usual e -> run e = Ok z ->
  reduction z op index opt = Ok (o, l) ->
  exists place F, as_formula (term_of place e) = Some F /\ wf F /\ Z.of_nat (dim F) = z_dim z /\
    forall k one cls phi d, r_reduction F op opt k one cls phi d ->
    (forall a x v, In (a, x, v) (leaves e) -> exists m, nth_error l (place a x) = Some m /\ points "col" v m) /\
    exists p al, operator_text o = Ok p /\ engine_aliases 0 None None (p_aliases p) = Ok al /\
      engine_makes al (p_formula p) k one (1 - axis_of index) F cls phi d.
Proof. exact usual_claim. Qed.
Print Assumptions C65_usual_partial.

Example C65_usual_case : exists z o l F p al, run kernel = Ok z /\ reduction z "ArgKMin" Rj (IntArg 4) = Ok (o, l) /\ dim F = 1 /\
  operator_text o = Ok p /\ engine_aliases 0 None None (p_aliases p) = Ok al /\
  engine_makes al (p_formula p) (Some 4%Z) false 0 F "ArgKMin_Reduction" F 4.
Proof.
  destruct smallest_case as (z & o & l & R & S & _).
  destruct (C65_usual_partial kernel z _ Rj _ o l kernel_objects kernel_operations kernel_usual R S) as (place & F & A & W & D & X).
  assert (D1 : dim F = 1).
  { destruct kernel_runs as (z' & R' & D' & _). rewrite R in R'. injection R' as <-. rewrite D' in D. apply Nat2Z.inj. exact D. }
  destruct (X _ _ _ _ _ (rr_k F "ArgKMin" 4 (or_intror (or_introl eq_refl)) eq_refl)) as (_ & p & al & T & L & M).
  rewrite D1 in M. exists z, o, l, F, p, al. repeat (split; [assumption|]). exact M.
Qed.

(** Also with a weight. *)
Theorem C65_usual_weighted_partial : forall e z w y op index o l, objects e -> operations e -> usual e -> run e = Ok z ->
  objects w -> operations w -> usual w -> run w = Ok y -> reduction z op index (TensorArg y) = Ok (o, l) ->
  exists place place' F G,
    (forall a x v, In (a, x, v) (leaves e) -> exists m, nth_error l (place a x) = Some m /\ points "col" v m) /\
    (forall a x v, In (a, x, v) (leaves w) -> exists m, nth_error l (List.length (z_data z) + place' a x) = Some m /\ points "col" v m) /\
    as_formula (term_of place e) = Some F /\ wf F /\ Z.of_nat (dim F) = z_dim z /\
    as_formula (term_of (fun a x => List.length (z_data z) + place' a x) w) = Some G /\ wf G /\ Z.of_nat (dim G) = z_dim y /\
    forall K, weighted_by op G K ->
    exists p al, operator_text o = Ok p /\ engine_aliases 0 None None (p_aliases p) = Ok al /\
      engine_makes al (p_formula p) None true (1 - axis_of index) F "Max_SumShiftExpWeight_Reduction" (Cat F K) (Z.of_nat (dim F + dim K)).
Proof. exact usual_weighted. Qed.
Print Assumptions C65_usual_weighted_partial.

Example C65_usual_weighted_case : exists z y o l p al F G, run kernel = Ok z /\ run b_j = Ok y /\
  reduction z "SumSoftMaxWeight" Rj (TensorArg y) = Ok (o, l) /\ operator_text o = Ok p /\ engine_aliases 0 None None (p_aliases p) = Ok al /\
  engine_makes al (p_formula p) None true 0 F "Max_SumShiftExpWeight_Reduction" (Cat F (Cat (Int 1) G)) (Z.of_nat (dim F + dim (Cat (Int 1) G))).
Proof.
  destruct softmax_case as (z & y & o & l & R & R' & S & _).
  destruct (C65_usual_weighted_partial kernel z b_j y _ Rj o l kernel_objects kernel_operations kernel_usual R weight_objects I I R' S)
    as (place & place' & F & G & _ & _ & _ & _ & _ & _ & _ & _ & X).
  destruct (X (Cat (Int 1) G) (or_intror (conj eq_refl eq_refl))) as (p & al & T & L & M).
  exists z, y, o, l, p, al, F, G. repeat (split; [assumption|]). exact M.
Qed.

(** The gradient of sum_j x_i y_j for y_j is the one for x_i. *)
Theorem C65_gradient_refuted : forall f g h, exists z x y s o l,
  run (product f g) = Ok z /\ run (one_i f) = Ok x /\ run (one_j g) = Ok y /\ run (seed_i h) = Ok s /\
  grad "eta" z s "Sum" y Rj = Ok (o, l) /\ grad "eta" z s "Sum" x Rj = Ok (o, l) /\
  o_formula o = "Grad(Sum_Reduction(Mult(V0,V1),1),V0,eta)" /\ o_args o = ["V0=Vi(1)"; "V1=Vj(1)"; "eta=Vi(1)"] /\
  exists a b c, l = [a; b; c] /\ points "col" (Matrix 4 1 (fun i _ => f i)) a /\ points "col" (Matrix 5 1 (fun i _ => g i)) b.
Proof. exact grad_refuted. Qed.
Print Assumptions C65_gradient_refuted.

(** concat of sum(x), of dimension 1, and y, of dimension 2, announces 5: R accepts to add it to a matrix with five
    columns and the engine refuses. *)
Theorem C65_concat_refuted : exists x y z w F, run (X1 "Sum" [] (Some 1%Z) x_i) = Ok x /\ run two_j = Ok y /\ concat x y = Ok z /\
  run joined = Ok z /\ z_dim z = 5%Z /\ run (X2 "Add" (Some SameOr1) None joined five_i) = Ok w /\
  z_formula w = "Add(Concat(Sum(A0x55d1i),A0x55f3j),A0x66a4i)" /\
  (forall place, place "0x55d1" Ri = 0 -> place "0x55f3" Rj = 1 -> place "0x66a4" Ri = 2 ->
     as_formula (term_of place (X2 "Add" (Some SameOr1) None joined five_i)) = Some F) /\
  build F = KErr.
Proof. exact concat_refuted. Qed.
Print Assumptions C65_concat_refuted.

(** min(x) has dimension 1 and announces 3: R refuses its sum with a matrix with two columns. *)
Theorem C65_min_refuted : exists x F, run (X1 "Min" [] None x_i) = Ok x /\ z_dim x = 3%Z /\
  run (X2 "Add" (Some SameOr1) None (X1 "Min" [] None x_i) two_j) = KErr /\
  (forall place, place "0x55d1" Ri = 0 -> place "0x55f3" Rj = 1 ->
     as_formula (term_of place (X2 "Add" (Some SameOr1) None (X1 "Min" [] None x_i) two_j)) = Some F) /\
  wf F /\ exists h, build F = Ok h /\ dim h = 2.
Proof. exact min_refuted. Qed.
Print Assumptions C65_min_refuted.
