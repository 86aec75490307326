(** C30: residual and number of steps of the conjugate gradient solvers. *)

From Coq Require Import Reals.
From Verif Require Import Result Solver SolverSpec C30Proofs C30Pre.
Local Open Scope R_scope.

(** Whatever is returned has the requested residual, for all linear operators, symmetric or not. *)
Theorem C30_residual : forall fuel n L b eps a, linear n L -> cg fuel n L b eps = Ok a ->
  squared_residual n L a b < INR n * eps ^ 2.
Proof. exact cg_residual. Qed.
Print Assumptions C30_residual.

(** The same for the operator of [KernelSolve], with no hypothesis. *)
Theorem C30_kernel_residual : forall fuel n K alpha b eps a,
  cg fuel n (kernel_op n K alpha) b eps = Ok a ->
  total n (fun i => (total n (fun j => K i j * a j) + alpha * a i - b i) ^ 2) < INR n * eps ^ 2.
Proof. exact kernel_residual. Qed.
Print Assumptions C30_kernel_residual.

(** The same for the preconditioned solver, where the tolerance is not multiplied by the size, for any
    preconditioner. *)
Theorem C30_preconditioned_residual : forall fuel n L P b eps a,
  linear n L -> pcg fuel n L P b eps = Ok a -> squared_residual n L a b < eps ^ 2.
Proof. exact pcg_residual. Qed.
Print Assumptions C30_preconditioned_residual.

(** At most [n] steps for a symmetric positive definite operator.
    Partial: the array is not empty and the tolerance is not zero, see the refutations;
    arithmetic is exact. *)
Theorem C30_terminates_partial : forall n L b eps, linear n L -> symmetric n L -> positive n L ->
  (0 < n)%nat -> eps <> 0 -> exists a, cg n n L b eps = Ok a.
Proof. exact cg_ends. Qed.
Print Assumptions C30_terminates_partial.

Example C30_case : linear 2 (kernel_op 2 ex_matrix 1) /\ symmetric 2 (kernel_op 2 ex_matrix 1)
  /\ positive 2 (kernel_op 2 ex_matrix 1)
  /\ dot 2 ex_rhs ex_rhs >= INR 2 * (/ 10) ^ 2
  /\ exists a, cg 2 2 (kernel_op 2 ex_matrix 1) ex_rhs (/ 10) = Ok a.
Proof. exact (conj (kernel_linear _ _ _) (conj ex_symmetric (conj ex_positive ex_solved))). Qed.

(** The same number of steps for the preconditioned solver, for all symmetric positive definite
    preconditioners.
    Partial: the right-hand side and the tolerance are not zero, see the refutations; arithmetic is
    exact. *)
Theorem C30_preconditioned_terminates_partial : forall n L P b eps,
  linear n L -> symmetric n L -> positive n L -> symmetric n P -> positive n P ->
  ~ (forall i, (i < n)%nat -> b i = 0) -> eps <> 0 -> exists a, pcg n n L P b eps = Ok a.
Proof. exact pcg_ends. Qed.
Print Assumptions C30_preconditioned_terminates_partial.

Example C30_preconditioned_case : symmetric 2 ex_prec /\ positive 2 ex_prec
  /\ exists a, pcg 2 2 (kernel_op 2 ex_matrix 1) ex_prec ex_rhs (/ 10) = Ok a.
Proof. exact (conj (proj1 ex_prec_ok) (conj (proj2 ex_prec_ok) ex_prec_solved)). Qed.

(** The loop does not end for an empty array, nor for a tolerance equal to zero, even if the exact
    solution is reached. *)
Theorem C30_empty_refuted : forall fuel n L b eps, n = O \/ eps = 0 -> cg fuel n L b eps = OutOfFuel.
Proof. exact cg_zero. Qed.
Print Assumptions C30_empty_refuted.

(** The preconditioned loop does not end for the right-hand side zero. *)
Theorem C30_preconditioned_null_refuted : forall fuel n L P eps, linear n L -> linear n P ->
  pcg fuel n L P (fun _ => 0) eps = OutOfFuel.
Proof. exact pcg_null. Qed.
Print Assumptions C30_preconditioned_null_refuted.
