(** * C64: the R interface.

    The claim (keops_kernel computes the reduction written in the text with the documented meaning of the axis,
    keops_grad its gradient for the variable given by name or position, on the data given for each argument) holds
    for the texts of reductions ([C64_kernel], [C64_axis_partial], [C64_grad_text]), for the gradients of sums of
    formulas of dimension 1 for a variable with the index of the result ([C64_gradient_partial]) and for matrices
    ([C64_data_partial]).
    Otherwise it is false: a derivative of a derivative is the first one ([C64_second_order_refuted]); for a
    variable with the summed index the incoming gradient has the wrong index ([C64_summed_index_refuted], the example
    of the documentation); the derivative of a log-sum-exp is a log-sum-exp of derivatives ([C64_lse_refuted]);
    for a formula of dimension 3 only 1 component is computed ([C64_vector_refuted]); declared positions are not used
    ([C64_position_refuted]); a vector is one point when points are columns ([C64_row_vector_refuted]).
    Restricted to texts, data and formulas: not the options, nor the results of the routine. *)

From Coq Require Import ZArith Reals List Ascii String.
From Verif Require Import Result Keys KeySpec Aliases AliasSpec Formula GradSpec KernelSum KernelSumSpec RedGradSpec PyRead PyReadSpec
  RedText BackText BackSpec C58Proofs GenericOps GenericOpsSpec RKeops RKeopsSpec C64Proofs C64Grad C64Cases.
Import ListNotations.
Local Open Scope nat_scope.
Open Scope string_scope.

(** Operation, formula, axis and third argument of the text of a reduction, with spaces anywhere. *)
Theorem C64_kernel : forall T X d, written X d -> spaced T X -> get_pykeops_formula T = Ok d.
Proof. exact kernel_claim. Qed.
Print Assumptions C64_kernel.

Example C64_kernel_case : get_pykeops_formula "LogSumExpWeight_Reduction(-SqDist(x, y), b * z, 1)" =
  Ok {| d_op := "LogSumExpWeight"; d_main := "-SqDist(x,y)"; d_axis := Some 1%Z; d_opt := Weight "b*z" |}.
Proof.
  apply (C64_kernel _ _ _ (W_weight "LogSumExpWeight" "-SqDist(x,y)" "b*z" 1 (or_introl eq_refl)
    ltac:(repeat split) ltac:(repeat split) ltac:(discriminate))). exact (case_spaced "LogSumExpWeight_Reduction(-SqDist(x, y), b * z, 1)").
Qed.

(** Axis 0 is a sum over i, the result having the index j, and axis 1 a sum over j. *)
Theorem C64_axis_partial : forall T Y ss ds o p r F ax e, r_arguments ss ds -> keops_kernel T ss = Ok o ->
  written Y {| d_op := "Sum"; d_main := F; d_axis := Some ax; d_opt := NoOption |} -> spaced T Y -> reads F e ->
  operator_text o = Ok p -> genred_makes p (RSum r) -> Z.of_nat (stagI r) = (1 - ax)%Z.
Proof. exact index_claim. Qed.
Print Assumptions C64_axis_partial.

Example C64_axis_case : Z.of_nat (stagI sum_red) = (1 - 1)%Z.
Proof. exact (C64_axis_partial _ _ _ _ _ _ _ _ _ _ xy_ok sum_kernel sum_written (case_spaced _) sum_reads sum_op_text sum_makes). Qed.

(** The text of a derivative: the reduction of the derivative of the formula. *)
Theorem C64_grad_text : forall T X d v e, written X d -> simple_name v -> simple_name e -> spaced T (grad_of X v e) ->
  get_pykeops_formula T = Ok (with_main d (grad_of (d_main d) v e)).
Proof. exact grad_claim. Qed.
Print Assumptions C64_grad_text.

Example C64_grad_text_case : get_pykeops_formula "Grad(Sum_Reduction(SqNorm2(x-y), 0), x, eta)" =
  Ok {| d_op := "Sum"; d_main := "Grad(SqNorm2(x-y),x,eta)"; d_axis := Some 0%Z; d_opt := NoOption |}.
Proof.
  apply (C64_grad_text _ _ _ "x" "eta" (W_plain "Sum" "SqNorm2(x-y)" 0 ltac:(repeat split; discriminate) ltac:(repeat split) ltac:(discriminate)));
    [repeat split; discriminate|repeat split; discriminate|].
  exact (case_spaced "Grad(Sum_Reduction(SqNorm2(x-y), 0), x, eta)").
Qed.

(** Derivatives of any order: all but the first are lost. *)
Theorem C64_second_order_refuted :
  (forall T X d v e l, written X d -> simple_names ((v, e) :: l) -> spaced T (derivatives X ((v, e) :: l)) ->
    get_pykeops_formula T = Ok (with_main d (grad_of (d_main d) v e))) /\
  exists T ss o g1 g2 eta1 eta2 d1 d2, keops_kernel T ss = Ok o /\ keops_grad eta1 o (Name "x") = Ok g1 /\
    keops_grad eta2 g1 (Name "x") = Ok g2 /\ get_pykeops_formula (o_formula g1) = Ok d1 /\ get_pykeops_formula (o_formula g2) = Ok d2 /\
    d1 = d2 /\ d_main d2 = "Grad(Square(x)*y,x,a1)".
Proof. exact (conj lost_claim second_lost). Qed.
Print Assumptions C64_second_order_refuted.

(** The gradient operator of a sum: the gradient for the argument at place i of the sum of the products with the incoming
    gradient, which is the last argument. *)
Theorem C64_gradient_partial : forall decl A M N, 0 < M -> 0 < N -> forall T Y ss ds o p r F ax e i n kd q m eta var og pg X,
  r_arguments ss ds -> keops_kernel T ss = Ok o ->
  written Y {| d_op := "Sum"; d_main := F; d_axis := Some ax; d_opt := NoOption |} -> spaced T Y -> reads F e ->
  operator_text o = Ok p -> genred_makes p (RSum r) ->
  nth_error ds i = Some (Named n kd q m) -> var = Name n \/ var = Position (Z.of_nat i) ->
  is_name eta -> ~ is_declared ds eta ->
  keops_grad eta o var = Ok og -> operator_text og = Ok pg -> genred_makes pg X ->
  r_declared decl ds kd -> regular decl A M N (sformula r) -> dim (sformula r) = 1 -> AliasSpec.category kd = Z.of_nat (stagI r) ->
  exists rg, X = RSum rg /\ stagI rg = stagI r /\
    gradient_of decl A M N r (Z.of_nat (List.length ds)) (Z.of_nat i) rg.
Proof. exact gradient_claim. Qed.
Print Assumptions C64_gradient_partial.

(** The sum over j of x_i^2 y_j, for x. *)
Example C64_gradient_case : exists rg, genred_makes grad_params (RSum rg) /\ stagI rg = 0 /\
  forall A M N, 0 < M -> 0 < N -> gradient_of case_decl A M N sum_red 2 0 rg.
Proof.
  destruct grad_makes as (rg & GM & T0). exists rg. split; [exact GM|]. split; [exact T0|]. intros A M N HM HN.
  destruct (C64_gradient_partial case_decl A M N HM HN _ _ _ _ _ _ _ _ _ _ 0 "x" KVi None 1%Z "varA1b2C" (Position 0) _ _ _
    xy_ok sum_kernel sum_written (case_spaced _) sum_reads sum_op_text sum_makes eq_refl (or_intror eq_refl)
    ltac:(exists "v"%char, "arA1b2C"; repeat split) sum_fresh (proj2 grad_kernel) grad_op_text GM sum_declared
    (sum_regular A M N) eq_refl eq_refl) as (rg' & E & _ & G). injection E as <-. exact G.
Qed.

(** The sum over i of x_i y_j, for x: the incoming gradient has the index i, of x, not the index j of the sums. *)
Theorem C64_summed_index_refuted : exists decl A M N T ss ds o p r i n kd q m eta og pg rg,
  r_arguments ss ds /\ keops_kernel T ss = Ok o /\ operator_text o = Ok p /\ genred_makes p (RSum r) /\
  nth_error ds i = Some (Named n kd q m) /\ ~ is_declared ds eta /\ keops_grad eta o (Name n) = Ok og /\
  operator_text og = Ok pg /\ genred_makes pg (RSum rg) /\ r_declared decl ds kd /\ regular decl A M N (sformula r) /\
  dim (sformula r) = 1 /\ 0 < M /\ 0 < N /\
  ~ gradient_of decl A M N r (Z.of_nat (List.length ds)) (Z.of_nat i) rg.
Proof. exact other_index. Qed.
Print Assumptions C64_summed_index_refuted.

(** The log-sum-exp over j of x_i + y_j, for x. *)
Theorem C64_lse_refuted : exists decl A M N T ss ds o p F G t i n kd q m eta og pg F' G' t',
  r_arguments ss ds /\ keops_kernel T ss = Ok o /\ operator_text o = Ok p /\ genred_makes p (RLse F G t) /\
  nth_error ds i = Some (Named n kd q m) /\ AliasSpec.category kd = Z.of_nat t /\
  ~ is_declared ds eta /\ keops_grad eta o (Name n) = Ok og /\
  operator_text og = Ok pg /\ genred_makes pg (RLse F' G' t') /\ r_declared decl ds kd /\ regular decl A M N F /\
  0 < M /\ 0 < N /\
  ~ lse_gradient_of decl A M N F G t (Z.of_nat (List.length ds)) (Z.of_nat i) (log_sum_exp decl A M N F' G' t').
Proof. exact lse_refuted. Qed.
Print Assumptions C64_lse_refuted.

(** The sum over j of x_i of dimension 3, for x: the gradient has 3 components, one is computed. *)
Theorem C64_vector_refuted : exists T ss o p r n eta og pg rg,
  keops_kernel T ss = Ok o /\ ss = ["x=Vi(3)"; "y=Vj(1)"] /\ operator_text o = Ok p /\ genred_makes p (RSum r) /\
  dim (sformula r) = 3 /\ n = "x" /\ keops_grad eta o (Name n) = Ok og /\ operator_text og = Ok pg /\ genred_makes pg (RSum rg) /\
  dim (sformula rg) = 1.
Proof. exact vector_refuted. Qed.
Print Assumptions C64_vector_refuted.

(** The array at place k is the one of the value given for the argument at place k, by its name if there are names. *)
Theorem C64_data_partial : forall o input inner_dim l, List.length (o_args o) = List.length (o_info o) ->
  operator_data o input inner_dim = Ok l -> forall k a, nth_error (o_info o) k = Some a ->
  exists v x, given input k a v /\ nth_error l k = Some x /\
    (points inner_dim v x \/ (inner_dim = "row" /\ exists n f, v = Vector n f)).
Proof. exact r_data. Qed.
Print Assumptions C64_data_partial.

(** Values named in another order. *)
Example C64_data_case : exists vx vy ax ay, vx = Matrix 3 1 (fun i _ => INR i) /\ vy = Matrix 1 2 (fun _ k => INR k) /\
  operator_data sum_op [(Some "y", vy); (Some "x", vx)] "row" = Ok [ax; ay] /\ m_rows ax = 1 /\ m_rows ay = 2 /\ points "row" vx ax.
Proof.
  do 4 eexists. split; [reflexivity|]. split; [reflexivity|]. split; [reflexivity|]. split; [reflexivity|]. split; [reflexivity|].
  right. repeat split.
Qed.

(** Positions are written: the formula is the argument 1, called x, but the array 1 is the one named y. *)
Theorem C64_position_refuted : exists o p r, keops_kernel "Sum_Reduction(x,1)" ["x=Vi(1,1)"; "y=Vj(0,1)"] = Ok o /\
  operator_text o = Ok p /\ genred_makes p (RSum r) /\ sformula r = Var 1 1 0 /\
  (forall eta, is_name eta -> keops_grad eta o (Position 0) = keops_grad eta o (Name "x")) /\
  forall nx fx ny fy, exists ax ay,
    operator_data o [(Some "x", Matrix nx 1 fx); (Some "y", Matrix ny 1 fy)] "col" = Ok [ax; ay] /\
    m_rows ay = ny /\ forall i, m_at ay i 0 = fy i 0.
Proof. exact position_refuted. Qed.
Print Assumptions C64_position_refuted.

(** A vector of 5 numbers, for an argument of dimension 1, with points in columns: 1 point of dimension 5. *)
Theorem C64_row_vector_refuted : exists o input l x n f, operator_data o input "row" = Ok l /\ o_args o = ["x=Vi(1)"] /\
  input = [(None, Vector n f)] /\ l = [x] /\ n = 5 /\ m_rows x = 1 /\ m_cols x = 5.
Proof. exact row_vector. Qed.
Print Assumptions C64_row_vector_refuted.
