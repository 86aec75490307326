(** * Kernel linear systems and their gradients.

    Models pykeops/pykeops/torch/operations.py, class [KernelSolveAutograd], lines 22-162, for sum
    reductions without batch dimensions and ranges.

    Simplifications: arithmetic is exact; the number of steps of the solver is bounded by [fuel], see
    Solver.v; the call of the compiled module in [linop] (lines 64-76) is the sum of KernelSum.v.  The
    selection of the gradients that are needed (lines 108-112) is left to the caller, who asks for one
    argument at a time. *)

From Coq Require Import ZArith Reals Arith Bool List.
From Verif Require Import Result Formula KernelSum Solver.
Import ListNotations.
Local Open Scope R_scope.

Definition array := nat -> nat -> R.

(** Rows of an array of category c. *)
Definition nrows (c M N : nat) : nat := match c with O => M | 1%nat => N | _ => 1%nat end.

(** The entries of an array with [d] columns, in memory order, and back. *)
Definition flatten (d : nat) (X : array) : vec := fun i => X (Nat.div i d) (Nat.modulo i d).
Definition unflatten (d : nat) (v : vec) : array := fun r k => v (r * d + k)%nat.

(** [args[:pos] + (X,) + args[pos + 1:]]. *)
Definition with_arg (pos : Z) (X : array) (A : arguments) : arguments :=
  fun a => if Z.eqb a pos then X else A a.

(** [params] of [KernelSolve.__call__]: the reduction, the position of the unknown, the regularisation,
    the tolerance. *)
Record solve_params := { spred : sum_reduction; spinv : Z; spalpha : R; speps : R }.

(** [linop], lines 62-78.  The test [if params.alpha] is not needed when arithmetic is exact. *)
Definition linop (decl : declaration) (A : arguments) (M N : nat) (p : solve_params) (u : vec) : vec :=
  let d := dim (sformula (spred p)) in
  fun i => flatten d (reduce_sum decl (with_arg (spinv p) (unflatten d u) A) M N (spred p)) i
           + spalpha p * u i.

(** The unknown has the shape of the output of the reduction.  Otherwise the sum of line 77 raises an
    error, or broadcasts its operand, which is not modelled. *)
Definition square (decl : declaration) (M N : nat) (p : solve_params) : bool :=
  let (d, c) := decl (spinv p) in
  Nat.eqb d (dim (sformula (spred p))) && Nat.eqb (nrows c M N) (nrows (stagI (spred p)) M N).

(** [forward], lines 27-87: the solution for the right-hand side found at the position of the unknown. *)
Definition solve_forward (fuel : nat) (decl : declaration) (A : arguments) (M N : nat)
    (p : solve_params) : res array :=
  if square decl M N p then
    let d := dim (sformula (spred p)) in
    let n := (nrows (stagI (spred p)) M N * d)%nat in
    do a <- cg fuel n (linop decl A M N p) (flatten d (A (spinv p))) (speps p) ;
    Ok (unflatten d a)
  else PyErr.

(** The gradient of an argument that is not the unknown, lines 116-158, given the solution and
    [KinvG]: the gradient formula is the one of [GenredAutograd], applied to the arguments with the
    solution in place of the unknown, the opposite of [KinvG] as incoming gradient, and the solution
    once more as saved result. *)
Definition solve_grad (decl : declaration) (A : arguments) (M N : nat) (p : solve_params)
    (nargs pos : Z) (result KinvG : array) : res array :=
  backward decl
    (with_arg (nargs + 1) result
      (with_arg nargs (fun r k => - KinvG r k)
        (with_arg (spinv p) result A)))
    M N (spred p) nargs pos.

(** [backward], lines 89-162, for the argument at position [pos] and the incoming gradient [G]; [result]
    is the output saved by [forward]. *)
Definition solve_backward (fuel : nat) (decl : declaration) (A : arguments) (M N : nat)
    (p : solve_params) (nargs pos : Z) (result G : array) : res array :=
  do KinvG <- solve_forward fuel decl (with_arg (spinv p) G A) M N p ;
  if Z.eqb pos (spinv p) then Ok KinvG
  else solve_grad decl A M N p nargs pos result KinvG.

(** ** Shape of the gradient of a parameter, lines 142-156

    [torch.matmul] of an array of shape (1, g) by an array of shape (..., m, d): the shape of the
    product is (..., 1, d), an error is raised if m is not g. *)
Definition ones_matmul (g : nat) (shape : list nat) : res (list nat) :=
  match rev shape with
  | d :: m :: batch => if Nat.eqb m g then Ok (rev batch ++ [1%nat; d]) else PyErr
  | _ => PyErr
  end.

(** [grad = torch.ones(1, grad.shape[0]) @ grad], then [grad.view(-1)]. *)
Definition param_grad_shape (shape : list nat) : res (list nat) :=
  match shape with
  | g :: _ => do s <- ones_matmul g shape ; Ok [fold_right Nat.mul 1%nat s]
  | [] => PyErr
  end.
