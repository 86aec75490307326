(** C49 -- gradients of kernel linear systems. *)

From Coq Require Import ZArith Reals List.
From Verif Require Import Result Formula Diff GradSpec KernelSum KernelSumSpec RedGradSpec KernelSolve
  KernelSolveSpec C49Proofs C49Main.
Import ListNotations.
Local Open Scope R_scope.

(** The solution returned by the forward pass has the requested residual, for formulas that are linear in
    the unknown. *)
Theorem C49_residual : forall decl M N f tagI inv alpha ci,
  wf f -> declared decl f -> (tagI <= 1)%nat ->
  decl inv = (dim f, ci) -> rows ci M N = rows tagI M N ->
  forall A eps fuel X, linear_op (rows tagI M N) (dim f) (regularised decl A M N f tagI inv alpha) ->
  solve_forward fuel decl A M N
    {| spred := {| sformula := f; stagI := tagI |}; spinv := inv; spalpha := alpha; speps := eps |} = Ok X ->
  total (rows tagI M N) (fun r => total (dim f) (fun k =>
    (regularised decl A M N f tagI inv alpha X r k - A inv r k) ^ 2))
  < INR (rows tagI M N * dim f) * eps ^ 2.
Proof. exact forward_residual. Qed.
Print Assumptions C49_residual.

(** The operator being symmetric and positive definite at the given arguments, and linear in the unknown when
    one argument moves along H: if X is the solution and Z the solution for the incoming gradient E, the array
    G returned for this argument is the gradient.  For all a(t) that solve the systems near t = 0, the derivative
    of <E, a(t)> is <G, H>.  The argument may be the right-hand side, an i-variable, a j-variable or a parameter;
    the operator may lose its symmetry when the argument moves, as it does for one of two copies of the same
    points.

    Partial: the restriction [unmixed f] of C03; without batch dimensions and ranges; the gradient formula
    is accepted. *)
Theorem C49_exact_partial : forall decl M N f tagI inv alpha ci,
  wf f -> declared decl f -> (tagI <= 1)%nat ->
  decl inv = (dim f, ci) -> rows ci M N = rows tagI M N ->
  forall A nargs pos dp c H, decl pos = (dp, c) -> (1 <= dp)%nat -> (c <= 2)%nat -> unmixed f ->
  decl nargs = (dim f, tagI) -> (pos < nargs)%Z -> (inv < nargs)%Z -> without nargs f -> without (nargs + 1) f ->
  (forall U i j, (i < M)%nat -> (j < N)%nat -> smooth (point decl (at_unknown inv U A) i j) f) ->
  (pos = inv \/ exists h, DiffT f (Var pos dp c) (Var nargs (dim f) tagI) = Ok h) ->
  (forall t, linear_op (rows tagI M N) (dim f) (regularised decl (move_arg pos H A t) M N f tagI inv alpha)) ->
  symmetric_op (rows tagI M N) (dim f) (regularised decl A M N f tagI inv alpha) ->
  positive_op (rows tagI M N) (dim f) (regularised decl A M N f tagI inv alpha) ->
  forall eps E X Z G,
  same_array (rows tagI M N) (dim f) (regularised decl A M N f tagI inv alpha X) (A inv) ->
  same_array (rows tagI M N) (dim f) (regularised decl A M N f tagI inv alpha Z) E ->
  (if Z.eqb pos inv then Ok Z else solve_grad decl A M N
    {| spred := {| sformula := f; stagI := tagI |}; spinv := inv; spalpha := alpha; speps := eps |}
    nargs pos X Z) = Ok G ->
  forall (a : R -> array) rho, 0 < rho ->
  (forall t, Rabs t < rho -> same_array (rows tagI M N) (dim f)
     (regularised decl (move_arg pos H A t) M N f tagI inv alpha (a t)) (move_arg pos H A t inv)) ->
  derivable_pt_lim (fun t => pairing (rows tagI M N) (dim f) E (a t)) 0 (pairing (rows c M N) dp G H).
Proof. exact exact_gradient. Qed.
Print Assumptions C49_exact_partial.

(** The gradient that is really computed, with two approximate solves of tolerance eps: the systems have one
    solution near 0, this solution has a derivative D, and the passes end after at most as many steps as there are
    unknowns and return a gradient whose error is at most a constant times eps.

    Partial: as above, and arithmetic is exact. *)
Theorem C49_gradient_partial : forall decl M N f tagI inv alpha ci,
  wf f -> declared decl f -> (tagI <= 1)%nat ->
  decl inv = (dim f, ci) -> rows ci M N = rows tagI M N ->
  forall A nargs pos dp c H, decl pos = (dp, c) -> (1 <= dp)%nat -> (c <= 2)%nat -> unmixed f ->
  decl nargs = (dim f, tagI) -> (pos < nargs)%Z -> (inv < nargs)%Z -> without nargs f -> without (nargs + 1) f ->
  (forall U i j, (i < M)%nat -> (j < N)%nat -> smooth (point decl (at_unknown inv U A) i j) f) ->
  (pos = inv \/ exists h, DiffT f (Var pos dp c) (Var nargs (dim f) tagI) = Ok h) ->
  (forall t, linear_op (rows tagI M N) (dim f) (regularised decl (move_arg pos H A t) M N f tagI inv alpha)) ->
  symmetric_op (rows tagI M N) (dim f) (regularised decl A M N f tagI inv alpha) ->
  positive_op (rows tagI M N) (dim f) (regularised decl A M N f tagI inv alpha) ->
  (0 < rows tagI M N)%nat -> forall E,
  exists rho D C, 0 < rho /\
  (forall t, Rabs t < rho -> exists U, the_solution (rows tagI M N) (dim f)
     (regularised decl (move_arg pos H A t) M N f tagI inv alpha) (move_arg pos H A t inv) U) /\
  (forall a : R -> array,
    (forall t, Rabs t < rho -> same_array (rows tagI M N) (dim f)
       (regularised decl (move_arg pos H A t) M N f tagI inv alpha (a t)) (move_arg pos H A t inv)) ->
    derivable_pt_lim (fun t => pairing (rows tagI M N) (dim f) E (a t)) 0 D) /\
  forall eps fuel, 0 < eps <= 1 -> (rows tagI M N * dim f <= fuel)%nat ->
    let p := {| spred := {| sformula := f; stagI := tagI |}; spinv := inv; spalpha := alpha; speps := eps |} in
    exists X G, solve_forward fuel decl A M N p = Ok X /\
      solve_backward fuel decl A M N p nargs pos X E = Ok G /\
      Rabs (pairing (rows c M N) dp G H - D) <= C * eps.
Proof. exact approximate_gradient. Qed.
Print Assumptions C49_gradient_partial.

(** (Id + p x x^T) a = b with p = 2 and x = (1, 2): every hypothesis is met for each of the four arguments. *)
Example C49_case :
  wf ex_f /\ declared ex_decl ex_f /\ unmixed ex_f /\ without 4 ex_f /\ without 5 ex_f /\
  ex_decl 2%Z = (dim ex_f, 1%nat) /\ ex_decl 4%Z = (dim ex_f, 0%nat) /\
  (forall e, smooth e ex_f) /\
  (forall A, linear_op 2 1 (regularised ex_decl A 2 2 ex_f 0 2 1)) /\
  symmetric_op 2 1 (regularised ex_decl ex_args 2 2 ex_f 0 2 1) /\
  positive_op 2 1 (regularised ex_decl ex_args 2 2 ex_f 0 2 1) /\
  (forall pos, In pos [0; 1; 2; 3]%Z -> pos = 2%Z \/
     exists h, DiffT ex_f (Var pos (fst (ex_decl pos)) (snd (ex_decl pos))) (Var 4 1 0) = Ok h).
Proof.
  repeat split; try (cbn; congruence);
    [exact ex_linear|exact ex_symmetric|exact ex_positive|exact ex_accepted].
Qed.

(** The gradient of a parameter has the shape of the parameter. *)
Theorem C49_parameter_shape : forall M d, param_grad_shape [M; d] = Ok [d].
Proof. exact parameter_shape. Qed.
Print Assumptions C49_parameter_shape.

(** With one batch dimension, the sum over the rows is never an array of the shape of the parameter, of shape
    (B, d) or (d): an error is raised, or, when the batch is as large as the number of rows, the batch and the
    coordinates are merged.  The gradients of [Genred] do not have this defect (C41). *)
Theorem C49_batch_parameter_refuted : forall B M d, (2 <= B)%nat -> (1 <= d)%nat ->
  param_grad_shape [B; M; d] <> Ok [B; d] /\ param_grad_shape [B; M; d] <> Ok [d] /\
  (B <> M -> param_grad_shape [B; M; d] = PyErr).
Proof. exact batch_parameter_shape. Qed.
Print Assumptions C49_batch_parameter_refuted.
