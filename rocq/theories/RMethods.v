(** Model of the functions on the symbolic tensors of the R interface: rkeops/R/lazytensor_operations.R (the functions
    for real tensors; lines are given below) and rkeops/R/lazytensor_preprocess.R lines 819-830 ([is.LazyParameter]),
    907-912 ([is.LazyVector]), 945-950 ([is.LazyMatrix]), 973-976 ([is.int]).

    Simplifications: real tensors; whether a number is an integer is given with it; a call that R sends to a function of
    the base package is an error; the regular expressions are replaced by searches of texts; [round] is not here; the functions [concat], [min], [grad] are in RLazy. *)

From Coq Require Import ZArith Reals List Bool Ascii String.
From Verif Require Import Result Keys KeySpec Aliases RKeops RLazy.
Import ListNotations.
Local Open Scope nat_scope.
Open Scope string_scope.

(** Functions of one tensor: lines 240-250, 614-750, 1125-1790, 1990-2225, 2532-2587, 3905-3925 (without index). *)
Inductive fun1 := Fneg | Fsquare | Fsqrt | Frsqrt | Fexp | Flog | Finv | Fcos | Fsin | Facos | Fasin | Fatan | Fabs | Fsign
  | Fxlogx | Fsinxdivx | Fstep | Frelu | Fnormalize | Fsqnorm2 | Fnorm2 | Fsum.
Definition fun1_op (f : fun1) : string * option Z :=
  match f with
  | Fneg => ("Minus", None) | Fsquare => ("Square", None) | Fsqrt => ("Sqrt", None) | Frsqrt => ("Rsqrt", None)
  | Fexp => ("Exp", None) | Flog => ("Log", None) | Finv => ("Inv", None) | Fcos => ("Cos", None) | Fsin => ("Sin", None)
  | Facos => ("Acos", None) | Fasin => ("Asin", None) | Fatan => ("Atan", None) | Fabs => ("Abs", None) | Fsign => ("Sign", None)
  | Fxlogx => ("XLogX", None) | Fsinxdivx => ("SinXDivX", None) | Fstep => ("Step", None) | Frelu => ("ReLU", None)
  | Fnormalize => ("Normalize", None)
  | Fsqnorm2 => ("SqNorm2", Some 1%Z) | Fnorm2 => ("Norm2", Some 1%Z) | Fsum => ("Sum", Some 1%Z)
  end.
(** The others are generic: numbers are for the base package. *)
Definition accepts_numbers (f : fun1) : bool := match f with Fnormalize | Fsqnorm2 | Fnorm2 => true | _ => false end.

(** Functions of two tensors: lines 109-120, 240-250, 380-384, 500-504, 845-870, 958-963, 1678-1680, 2618-2621, 2656-2661
    ([weightedsqnorm]; [weightedsqdist] is the [weightedsqnorm] of a difference, lines 2703-2705), 3664-3770. *)
Inductive fun2 := Fadd | Fsub | Fmul | Fdiv | Fpow | Fdot | Fatan2 | Fsqdist | Ftensorprod | Fmatvec | Fvecmat | Fwsqnorm.
(** Functions of three tensors: lines 2260-2275 and 2302-2316, 2390-2398, 2505-2507. *)
Inductive fun3 := Fclamp | Fifelse | Fmod.

(** What is written by the user; a vector of numbers that is used as it is is not one integer. *)
Inductive call :=
| CVar (address : string) (index : rindex) (v : rvalue)
| CInt (n : Z)
| CVec (address : string) (n : nat) (x : nat -> R)
| C1 (f : fun1) (c : call)
| C2 (f : fun2) (c d : call)
| C3 (f : fun3) (c d e : call)
| CElem (c : call) (m : Z)
| CExtract (c : call) (m d : Z)
| COneHot (c : call) (d : Z).
Definition is_number (c : call) : bool := match c with CInt _ | CVec _ _ _ => true | _ => false end.

Definition lazy_parameter (x : lazy_tensor) : bool :=
  match from_first "IntCst(" (z_formula x) with Some s => has ")" s | None => false end ||
  match z_args x with [a] => contains "=Pm(1)" a | _ => false end.
Definition lazy_vector (x : lazy_tensor) : bool := existsb (contains "=Pm(") (z_args x).
Definition lazy_matrix (x : lazy_tensor) : bool := existsb (fun a => contains "=Vi(" a || contains "=Vj(" a) (z_args x).

(** Lines 845-870; [p] is the tensor of the first argument, [d] the second argument, [q] its tensor. *)
Definition power (p : program) (d : call) (q : program) : program :=
  let powf := X2 "Powf" (Some SameOr1) None p q in
  match d with
  | CInt n => if (n =? 2)%Z then X1 "Square" [] None p else X1 "Pow" [n] None p
  | CVec _ n y =>
      if Nat.eqb n 1 then
        if Req_EM_T (y 0) (1 / 2) then X1 "Sqrt" [] None p
        else if Req_EM_T (y 0) (- (1 / 2)) then X1 "Rsqrt" [] None p
        else powf
      else powf
  | _ => powf
  end.
Definition method2 (f : fun2) (c d : call) (p q : program) : res program :=
  let base := is_number c && is_number d in
  match f with
  | Fadd => if base then PyErr else Ok (X2 "Add" (Some SameOr1) None p q)
  | Fsub => if base then PyErr else Ok (X2 "Subtract" (Some SameOr1) None p q)
  | Fmul => if base then PyErr else Ok (X2 "Mult" (Some SameOr1) None p q)
  | Fdiv => if base then PyErr else Ok (X2 "Divide" (Some SameOr1) None p q)
  | Fpow => if base then PyErr else Ok (power p d q)
  | Fdot => if base then PyErr else Ok (XScal p q)
  | Fatan2 => if base then PyErr else Ok (X2 "Atan2" (Some Same) None p q)
  | Fwsqnorm => Ok (X2 "WeightedSqNorm" None (Some 1%Z) q p)
  | Fsqdist => Ok (X2 "SqDist" (Some SameOr1) (Some 1%Z) p q)
  | Ftensorprod =>
      if is_number c || is_number d then PyErr else
      do x <- run p ; do y <- run q ;
      Ok (X2 "TensorProd" None (Some (z_dim x * z_dim y)%Z) p q)
  | Fmatvec =>
      if is_number c || is_number d then KErr else
      do x <- run p ; do y <- run q ;
      if lazy_matrix x && lazy_vector y && ((z_dim x =? z_dim y)%Z || (z_dim y =? 1)%Z) then
        Ok (X2 "MatVecMult" (Some SameOr1) (Some (if (z_dim y =? 1)%Z then z_dim x else 1%Z)) p q)
      else KErr
  | Fvecmat =>
      if is_number c || is_number d then KErr else
      do x <- run p ; do y <- run q ;
      if lazy_vector x && lazy_matrix y && ((z_dim y =? z_dim x)%Z || (z_dim x =? 1)%Z) then
        Ok (X2 "VecMatMult" (Some SameOr1) (Some (if (z_dim x =? 1)%Z then z_dim y else 1%Z)) p q)
      else KErr
  end.
Definition method3 (f : fun3) (c d e : call) (p q r : program) : res program :=
  match f with
  | Fclamp =>
      match d, e with
      | CInt a, CInt b => Ok (X1 "ClampInt" [a; b] None p)
      | _, _ => Ok (X3 "Clamp" SameOr1 None p q r)
      end
  | Fifelse => if is_number c then PyErr else Ok (X3 "IfElse" SameOr1 None p q r)
  | Fmod => if is_number c then PyErr else Ok (X3 "Mod" SameOr1 None p q r)
  end.

(** The operations that are called. *)
Fixpoint program_of (c : call) : res program :=
  match c with
  | CVar a x v => Ok (XTensor a x v)
  | CInt n => Ok (XInt n)
  | CVec a n x => Ok (XTensor a RNA (Vector n x))
  | C1 f c =>
      do p <- program_of c ;
      if is_number c && negb (accepts_numbers f) then PyErr else Ok (X1 (fst (fun1_op f)) [] (snd (fun1_op f)) p)
  | C2 f c d => do p <- program_of c ; do q <- program_of d ; method2 f c d p q
  | C3 f c d e => do p <- program_of c ; do q <- program_of d ; do r <- program_of e ; method3 f c d e p q r
  | CElem c m =>
      if is_number c then PyErr else
      do p <- program_of c ; do x <- run p ;
      if (m <? 0)%Z || (z_dim x <=? m)%Z then KErr else Ok (X1 "Elem" [m] (Some 1%Z) p)
  | CExtract c m d =>
      if is_number c then PyErr else
      do p <- program_of c ; do x <- run p ;
      if (m <? 0)%Z || (z_dim x <=? m)%Z then KErr
      else if (d <? 0)%Z || (z_dim x <? m + d)%Z then KErr
      else Ok (X1 "Extract" [m; d] (Some d) p)
  | COneHot c d =>
      if is_number c then KErr else
      do p <- program_of c ; do x <- run p ;
      if negb (z_dim x =? 1)%Z || negb (lazy_parameter x) then KErr else Ok (X1 "OneHot" [d] (Some d) p)
  end.

(** ** [elemT] and [extractT]: lines 3329-3348 and 3535-3565 *)

Definition elemT (x : lazy_tensor) (m n : Z) : res lazy_tensor :=
  if negb (lazy_parameter x) then KErr
  else if (m <? 0)%Z || (n <=? m)%Z then KErr
  else Ok (unaryop x "ElemT" [n; m] None).
Definition extractT (x : lazy_tensor) (m d : Z) : res lazy_tensor :=
  if (d <? z_dim x)%Z then KErr
  else if (m <? 0)%Z || (d <=? m)%Z then KErr
  else if (d <? m + z_dim x - 1)%Z then KErr
  else Ok (unaryop x "ExtractT" [m; d] None).
