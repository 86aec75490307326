(** C40 -- adjoints, traces, forward derivatives, divergences and Laplacians are the mathematical ones. *)

From Coq Require Import ZArith Reals List.
From Verif Require Import Result Formula Diff GradSpec LinOps LinOpsSpec LinOpsMain LinOpsCases C40More.
Local Open Scope nat_scope.

(** When the adjoint of a formula of degree one is accepted, it is the transpose:
    <adjoint(u), x> = <u, f(x)> for every vector x. *)
Theorem C40_adjoint : forall f i d c u h, AdjointOperator f (Var i d c) u = Ok h ->
  wf f -> wf u -> dim u = dim f -> degree i f <= 1 -> occurs i u = false ->
  wf h /\ dim h = d /\
  forall e, safe e f -> safe e u -> safe e h /\
    forall x, inner d (eval h e) x = inner (dim f) (eval u e) (eval f (upd i x e)).
Proof. exact adjoint_main. Qed.
Print Assumptions C40_adjoint.
Example C40_adjoint_case : exists h,
  AdjointOperator (Bin BMult (Var 1 2 1) (Lin LSum (Var 0 3 0))) (Var 0 3 0) (Var 2 2 1) = Ok h /\
  degree 0 (Bin BMult (Var 1 2 1) (Lin LSum (Var 0 3 0))) = 1.
Proof. eexists. split; lazy; reflexivity. Qed.

(** Formulas of degree one that is_linear accepts are linear. *)
Theorem C40_linear : forall i d c f, is_linear (Var i d c) f = true -> degree i f <= 1 -> linear_in i f.
Proof. exact linear_main. Qed.
Print Assumptions C40_linear.
Example C40_linear_case : is_linear (Var 0 3 0) (Bin BMult (Var 1 2 1) (Lin LSum (Var 0 3 0))) = true.
Proof. reflexivity. Qed.

(** Without the bound on the degree, is_linear accepts formulas that are not linear: x * exp(x). *)
Theorem C40_linear_refuted : exists f, is_linear (Var 0 1 0) f = true /\ ~ linear_in 0 f.
Proof. exact (ex_intro _ vexp not_linear). Qed.
Print Assumptions C40_linear_refuted.

(** The sum of all coefficients of a linear formula. *)
Theorem C40_sum : forall f i d c h, SumLinOperator f (Var i d c) One One = Ok h ->
  wf f -> degree i f <= 1 ->
  wf h /\ dim h = 1 /\ forall e, safe e f -> safe e h /\
    eval h e 0 = total (dim f) (fun k => total d (fun j => eval f (upd i (basis j) e) k)).
Proof. exact sum_main. Qed.
Print Assumptions C40_sum.
Example C40_sum_case : exists h,
  SumLinOperator (Bin BMult (Var 1 2 1) (Lin LSum (Var 0 3 0))) (Var 0 3 0) One One = Ok h.
Proof. eexists. lazy. reflexivity. Qed.

(** The same with weights on rows and columns.  Partial: formulas without sums over components of the variable,
    for which the code exchanges the two weights. *)
Theorem C40_weighted_sum_partial : forall f i d c wl wr h, SumLinOperator f (Var i d c) (Wt wl) (Wt wr) = Ok h ->
  wf f -> wf wl -> wf wr -> degree i f <= 1 -> sum_depth i f = 0 ->
  wf h /\ dim h = 1 /\ forall e, safe e f -> safe e wl -> safe e wr -> safe e h /\
    eval h e 0 = weighted_sum i d f wl wr e.
Proof. exact wsum_main. Qed.
Print Assumptions C40_weighted_sum_partial.
Example C40_weighted_sum_case : exists h,
  SumLinOperator (Bin BMult (Var 1 3 1) (Var 0 3 0)) (Var 0 3 0) (Wt (Var 2 3 1)) (Wt (Var 3 3 1)) = Ok h.
Proof. eexists. lazy. reflexivity. Qed.

(** The trace of a linear formula.  Partial: sums over components of the variable are not nested. *)
Theorem C40_trace_partial : forall f i d c h, TraceOperator f (Var i d c) One = Ok h ->
  wf f -> degree i f <= 1 -> sum_depth i f <= 1 ->
  wf h /\ dim h = 1 /\ forall e, safe e f -> safe e h /\
    eval h e 0 = total d (fun k => entry f (upd i (basis k) e) k).
Proof. exact trace_main. Qed.
Print Assumptions C40_trace_partial.
Example C40_trace_case : exists h,
  TraceOperator (Bin BMult (Var 1 3 1) (Lin LSum (Bin BMult (Var 2 3 1) (Var 0 3 0)))) (Var 0 3 0) One = Ok h /\
  sum_depth 0 (Bin BMult (Var 1 3 1) (Lin LSum (Bin BMult (Var 2 3 1) (Var 0 3 0)))) = 1.
Proof. eexists. split; lazy; reflexivity. Qed.

Theorem C40_weighted_trace_partial : forall f i d c w h, TraceOperator f (Var i d c) (Wt w) = Ok h ->
  wf f -> wf w -> degree i f <= 1 -> sum_depth i f <= 1 ->
  wf h /\ dim h = 1 /\ forall e, safe e f -> safe e w -> safe e h /\ eval h e 0 = weighted_trace i d f w e.
Proof. exact wtrace_main. Qed.
Print Assumptions C40_weighted_trace_partial.
Example C40_weighted_trace_case : exists h,
  TraceOperator (Bin BMult (Var 1 3 1) (Lin LSum (Bin BMult (Var 2 3 1) (Var 0 3 0)))) (Var 0 3 0) (Wt (Var 3 3 1))
  = Ok h.
Proof. eexists. lazy. reflexivity. Qed.

(** Diff(f, v, u), when accepted, is the derivative of f along u.  Partial: refused formulas, see below, and those on
    which the gradients are wrong (not unmixed, C03). *)
Theorem C40_diff_partial : forall f i d c u h, Diff f (Var i d c) u = Ok h -> 1 <= d ->
  wf f -> wf u -> dim u = d -> consistent i d c f -> unmixed f ->
  wf h /\ dim h = dim f /\
  forall e, smooth e f -> safe e u -> safe e h /\
    forall k, k < dim f -> directional f i (eval u e) e k (eval h e k).
Proof. exact diff_main. Qed.
Print Assumptions C40_diff_partial.

(** Divergence(f, v), when accepted, is the divergence.  Partial: the gradient has no nested sums over components of
    the incoming vector; see below for a formula with nested sums. *)
Theorem C40_divergence_partial : forall f i d c h, Divergence f (Var i d c) = Ok h -> 1 <= d ->
  wf f -> consistent i d c f -> unmixed f ->
  (forall Gf, DiffT f (Var i d c) (Var (new_index (indices f)) d 3) = Ok Gf ->
     sum_depth (new_index (indices f)) Gf <= 1) ->
  wf h /\ dim h = 1 /\ dim f = d /\
  forall e, smooth e f -> safe e h /\ is_divergence f i d e (eval h e 0).
Proof. exact divergence_main. Qed.
Print Assumptions C40_divergence_partial.

(** A vector field y |-> (x - y) exp(-|x - y|^2) meets the hypotheses of both. *)
Example C40_field_case :
  (exists h, Diff field2 (Var 0 2 0) (Var 2 2 1) = Ok h) /\ wf field2 /\ consistent 0 2 0 field2 /\ unmixed field2 /\
  (forall e, smooth e field2) /\
  (exists h, Divergence field2 (Var 0 2 0) = Ok h) /\
  (exists Gf, DiffT field2 (Var 0 2 0) (Var (new_index (indices field2)) 2 3) = Ok Gf /\
     sum_depth (new_index (indices field2)) Gf = 1).
Proof. exact gauss_case. Qed.

(** In the rule of SumLinOperator for Sum, the weight of the columns is passed as that of the rows: the divergence of
    y * Sum (Sum ((x|c) / b2) / b1) is wrong. *)
Theorem C40_divergence_refuted : exists f d e h,
  wf f /\ consistent 0 d 0 f /\ unmixed f /\ smooth e f /\
  Divergence f (Var 0 d 0) = Ok h /\ is_divergence f 0 d e 0%R /\ eval h e 0 = 2%R /\
  ~ is_divergence f 0 d e (eval h e 0).
Proof. exact divergence_wrong. Qed.
Print Assumptions C40_divergence_refuted.

(** Laplacian(f, v), when accepted, is the Laplacian, at the points around which f is smooth.  Partial: as for divergences,
    for the gradient of f. *)
Theorem C40_laplacian_partial : forall f i d c h, Laplacian f (Var i d c) = Ok h -> 1 <= d ->
  wf f -> consistent i d c f -> unmixed f ->
  (forall dFT Gf, DiffT f (Var i d c) (Int 1) = Ok dFT ->
     DiffT dFT (Var i d c) (Var (new_index (indices dFT)) d 3) = Ok Gf ->
     sum_depth (new_index (indices dFT)) Gf <= 1) ->
  forall e eps, (0 < eps)%R -> (forall k t, (Rabs t < eps)%R -> smooth (moved i (basis k) e t) f) ->
    wf h /\ dim h = 1 /\ safe e h /\ is_laplacian (fun e => eval f e 0) i d e (eval h e 0).
Proof. exact laplacian_smooth. Qed.
Print Assumptions C40_laplacian_partial.
Example C40_laplacian_case : exists h Gf, Laplacian gauss (Var 0 2 0) = Ok h /\ wf gauss /\ consistent 0 2 0 gauss /\
  unmixed gauss /\ DiffT gauss (Var 0 2 0) (Int 1) = Ok gauss_grad /\
  consistent 0 2 0 gauss_grad /\ unmixed gauss_grad /\
  DiffT gauss_grad (Var 0 2 0) (Var (new_index (indices gauss_grad)) 2 3) = Ok Gf /\
  sum_depth (new_index (indices gauss_grad)) Gf = 1 /\
  (forall e, smooth e gauss) /\ (forall e, smooth e gauss_grad).
Proof. exact laplacian_case. Qed.

(** Refusals: the divergence of a formula that does not contain the variable (which is 0), and the derivative of a
    matrix-vector product along a direction. *)
Theorem C40_constant_refuted : forall d, Divergence (Var 1 d 1) (Var 0 d 0) <> PyErr /\
  (1 <= d -> Divergence (Var 1 d 1) (Var 0 d 0) = KErr).
Proof. exact constant_refused. Qed.
Print Assumptions C40_constant_refuted.
Theorem C40_matrix_refuted : exists f, wf f /\ Diff f (Var 0 2 0) (Var 2 2 1) = KErr.
Proof. exact (ex_intro _ matf mat_refused). Qed.
Print Assumptions C40_matrix_refuted.

(** All these operations end. *)
Theorem C40_operators_terminate : forall f v u w wl wr,
  AdjointOperator f v u <> OutOfFuel /\ TraceOperator f v w <> OutOfFuel /\
  SumLinOperator f v wl wr <> OutOfFuel.
Proof. exact operators_terminate. Qed.
Print Assumptions C40_operators_terminate.
Theorem C40_derivatives_terminate : forall f v u,
  Diff f v u <> OutOfFuel /\ Divergence f v <> OutOfFuel /\ Laplacian f v <> OutOfFuel.
Proof. exact derivatives_terminate. Qed.
Print Assumptions C40_derivatives_terminate.
