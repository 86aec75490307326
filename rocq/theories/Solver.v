(** * Conjugate gradient solvers.

    Models pykeops/pykeops/common/operations.py lines 88-115 ([ConjugateGradientSolver]) and 124-147
    ([PreconditionedConjugateGradientSolver]), and the operators of
    pykeops/pykeops/numpy/operations.py lines 263-275, pykeops/pykeops/torch/operations.py lines 62-81
    and [KernelLinOp] of common/operations.py.

    Simplifications: arrays are flattened, an array of size [n] is a function of which the values
    below [n] matter; arithmetic is exact.  When a denominator vanishes, the quotient is inf or nan
    in floating point, every entry of the residual is then inf or nan for ever, the test is false
    and the loop does not end: the model answers [OutOfFuel] for any number of steps. *)

From Coq Require Import Reals List.
From Verif Require Import Result.
Local Open Scope R_scope.

Definition vec := nat -> R.

(** [x.sum()]. *)
Fixpoint total (n : nat) (f : nat -> R) : R :=
  match n with O => 0 | S k => total k f + f k end.

(** [(u * v).sum()]. *)
Definition dot (n : nat) (u v : vec) : R := total n (fun i => u i * v i).

Definition axpy (u : vec) (c : R) (v : vec) : vec := fun i => u i + c * v i.

(** Lines 101-114. *)
Fixpoint cg_loop (fuel : nat) (n : nat) (linop : vec -> vec) (delta : R) (a r p : vec) (nr2 : R)
  : res vec :=
  match fuel with
  | O => OutOfFuel
  | S fuel' =>
      let Mp := linop p in
      let d := dot n p Mp in
      if Req_EM_T d 0 then OutOfFuel
      else
        let alp := nr2 / d in
        let a := axpy a alp p in
        let r := axpy r (- alp) Mp in
        let nr2new := dot n r r in
        if Rlt_dec nr2new delta then Ok a
        else
          if Req_EM_T nr2 0 then OutOfFuel
          else cg_loop fuel' n linop delta a r (axpy r (nr2new / nr2) p) nr2new
  end.

(** Lines 88-115; [fuel] bounds the number of steps. *)
Definition cg (fuel : nat) (n : nat) (linop : vec -> vec) (b : vec) (eps : R) : res vec :=
  let delta := INR n * (eps * eps) in
  let nr2 := dot n b b in
  if Rlt_dec nr2 delta then Ok (fun i => 0 * b i)
  else cg_loop fuel n linop delta (fun _ => 0) b b nr2.

(** Lines 134-146. *)
Fixpoint pcg_loop (fuel : nat) (n : nat) (linop prec : vec -> vec) (eps : R) (a r p : vec) (rz : R)
  : res vec :=
  match fuel with
  | O => OutOfFuel
  | S fuel' =>
      let d := dot n p (linop p) in
      if Req_EM_T d 0 then OutOfFuel
      else
        let alp := rz / d in
        let a := axpy a alp p in
        let r := axpy r (- alp) (linop p) in
        if Rlt_dec (dot n r r) (eps * eps) then Ok a
        else
          let z := prec r in
          let rznew := dot n r z in
          if Req_EM_T rz 0 then OutOfFuel
          else pcg_loop fuel' n linop prec eps a r (axpy z (rznew / rz) p) rznew
  end.

(** Lines 124-147. *)
Definition pcg (fuel : nat) (n : nat) (linop prec : vec -> vec) (b : vec) (eps : R) : res vec :=
  let z := prec b in
  pcg_loop fuel n linop prec eps (fun _ => 0) b z (dot n b z).

(** The operator of [KernelSolve] and [KernelLinOp]: the product by the kernel matrix, plus [alpha]
    times the argument. *)
Definition kernel_op (n : nat) (K : nat -> nat -> R) (alpha : R) (u : vec) : vec :=
  fun i => total n (fun j => K i j * u j) + alpha * u i.
