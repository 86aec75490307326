(** Linear operators and forward derivatives.

    Models
    - keopscore/keopscore/formulas/Operation.py lines 14-25, variables/Zero.py lines 10-11,
      variables/Var.py lines 22-23 ([is_linear]; the attribute linearity_type of each class);
    - formulas/LinearOperators/LinearOperator.py lines 29-50, AdjointOperator.py, TraceOperator.py,
      SumLinOperator.py;
    - formulas/autodiff/Diff.py, Divergence.py, Laplacian.py.

    Simplifications: formulas only (not reductions); one variable at a time (not the tuples of Diff); the
    category -1 of the temporary variable is represented by 3, which differs from 0, 1 and 2.  The Python methods call
    each other; the model takes a bound on the depth of the calls, and the proofs show that the bound
    given here is never reached. *)

From Coq Require Import ZArith List Bool.
From Verif Require Import Result Formula Simplify Diff.
Import ListNotations.

(** [f.is_linear(v)]. *)
Fixpoint is_linear (v f : fm) : bool :=
  match f with
  | Var _ _ _ => feqb f v
  | Zero _ => true
  | Int _ | Rat _ _ => false
  | Un UMinus a => is_linear v a                                     (* "all" *)
  | Un _ _ => false
  | Bin BAdd a b | Bin BSub a b => is_linear v a && is_linear v b    (* "all" *)
  | Bin BMult a b => xorb (is_linear v a) (is_linear v b)            (* "one" *)
  | Bin BDiv a _ => is_linear v a                                    (* "first" *)
  | Bin _ _ _ => false
  | Ter _ _ _ _ => false
  | Lin _ a => is_linear v a                                         (* "all" *)
  | Bil _ a b => xorb (is_linear v a) (is_linear v b)                (* "one" *)
  | Cat a b => is_linear v a && is_linear v b                        (* "all" *)
  | Sel _ _ => false
  end.

(** LinearOperator_class.__call__; [args] are the other arguments, [self] the recursive call, and
    [call] the method of the derived class, which returns None when no case applies. *)
Definition operator {W : Type} (self : fm -> W -> res fm) (call : fm -> W -> option (res fm)) (v f : fm) (args : W)
    : res fm :=
  if is_linear v f then
    match f with
    | Bin ((BAdd | BSub) as op) a b =>
        do a' <- Broadcast a (dim f) ; do x <- self a' args ;
        do b' <- Broadcast b (dim f) ; do y <- self b' args ;
        mk (Bin op x y)
    | Un UMinus a => do a' <- Broadcast a (dim f) ; do x <- self a' args ; mk (Un UMinus x)
    | Bil KScal a b => do p <- Mult a b ; self (Lin LSum p) args
    | _ => match call f args with Some r => r | None => KErr end
    end
  else KErr.

(** AdjointOperator_class.call. *)
Definition adjoint_call (self : fm -> fm -> res fm) (v f u : fm) : option (res fm) :=
  match f with
  | Bin BMult a b =>
      if is_linear v a then Some (do a' <- Broadcast a (dim f) ; do w <- Mult b u ; self a' w)
      else if is_linear v b then Some (do b' <- Broadcast b (dim f) ; do w <- Mult a u ; self b' w)
      else None
  | Bin BDiv a b => Some (do a' <- Broadcast a (dim f) ; do w <- Divide u b ; self a' w)
  | Var _ _ _ => Some (Ok u)
  | Lin (LSumT _) a => Some (do w <- Sum u ; self a w)
  | Lin LSum a => Some (do w <- SumT u (dim a) ; self a w)
  | Zero _ => Some (mk (Zero (dim v)))
  | Lin (LExtract s _) a => Some (do w <- mk (Lin (LExtractT s (dim a)) u) ; self a w)
  | Lin (LExtractT s _) a => Some (do w <- mk (Lin (LExtract s (dim a)) u) ; self a w)
  | Lin (LElem m) a => Some (do w <- mk (Lin (LElemT (dim a) m) u) ; self a w)
  | Lin (LElemT _ m) a => Some (do w <- mk (Lin (LElem m) u) ; self a w)
  | _ => None
  end.
Fixpoint AdjointN (n : nat) (v f u : fm) : res fm :=
  match n with
  | O => OutOfFuel
  | S n => operator (AdjointN n v) (adjoint_call (AdjointN n v) v) v f u
  end.

(** Weights: the Python integer 1, or a formula. *)
Inductive wgt := One | Wt (f : fm).
Definition wdim (w : wgt) : nat := match w with One => 1 | Wt f => dim f end.
(** The operand that the operators of Operation.py build for it (int2Op). *)
Definition wfm (w : wgt) : fm := match w with One => IntCst 1 | Wt f => f end.
(** [w / f]: __rtruediv__ for the integer. *)
Definition wdiv (w : wgt) (f : fm) : res fm := match w with One => Inv f | Wt g => Divide g f end.

(** SumLinOperator_class.call, with the weights wl and wr; a failed assertion is an exception of Python. *)
Definition sumlin_call (self : fm -> wgt * wgt -> res fm) (v f : fm) (ws : wgt * wgt) : option (res fm) :=
  let (wl, wr) := ws in
  if ((wdim wl =? 1)%nat || (wdim wl =? dim f)%nat) && ((wdim wr =? 1)%nat || (wdim wr =? dim v)%nat) then
    match f with
    | Bin BMult a b =>
        if is_linear v a then
          Some (do a' <- Broadcast a (dim f) ; do p <- Mult b (wfm wl) ; self a' (Wt p, wr))
        else if is_linear v b then
          Some (do b' <- Broadcast b (dim f) ; do p <- Mult a (wfm wl) ; self b' (Wt p, wr))
        else None
    | Bin BDiv a b => Some (do a' <- Broadcast a (dim f) ; do p <- wdiv wl b ; self a' (Wt p, wr))
    | Var _ _ _ =>
        if (wdim wl =? 1)%nat && (wdim wr =? 1)%nat then
          Some (do x <- Mult (Int (Z.of_nat (dim v))) (wfm wl) ; Mult x (wfm wr))
        else Some (do x <- Mult (wfm wl) (wfm wr) ; Sum x)
    | Lin (LSumT _) a =>
        Some (do l <- (if (wdim wl =? 1)%nat
                       then match wl with
                            | One => Ok (IntCst (Z.of_nat (dim f)))
                            | Wt g => Mult g (IntCst (Z.of_nat (dim f)))
                            end
                       else Sum (wfm wl)) ;
              do r <- self a (One, wr) ; Mult l r)
    | Lin LSum a => Some (do r <- self a (wr, One) ; Mult (wfm wl) r)
    | _ => None
    end
  else Some PyErr.
Fixpoint SumLinN (n : nat) (v f : fm) (ws : wgt * wgt) : res fm :=
  match n with
  | O => OutOfFuel
  | S n => operator (SumLinN n v) (sumlin_call (SumLinN n v) v) v f ws
  end.

(** TraceOperator_class.call; [sumlin] is SumLinOperator. *)
Definition trace_call (sumlin : fm -> wgt * wgt -> res fm) (self : fm -> wgt -> res fm) (v f : fm) (w : wgt)
    : option (res fm) :=
  if negb ((wdim w =? 1)%nat || (wdim w =? dim v)%nat) then Some KErr
  else if negb ((dim f =? 1)%nat || (dim f =? dim v)%nat) then Some KErr
  else
    match f with
    | Bin BMult a b =>
        if is_linear v a then
          if (dim b =? 1)%nat then Some (do x <- self a w ; Mult x b)
          else Some (do p <- Mult b (wfm w) ; self a (Wt p))
        else if is_linear v b then Some (do p <- Mult a (wfm w) ; self b (Wt p))
        else None
    | Bin BDiv a b => Some (do p <- wdiv w b ; self a (Wt p))
    | Var _ _ _ => Some (if (wdim w =? 1)%nat then Mult (Int (Z.of_nat (dim v))) (wfm w) else Sum (wfm w))
    | Lin (LSumT _) a => Some (self a w)
    | Lin LSum a => Some (sumlin a (One, w))
    | _ => None
    end.

(** Bound on the depth of the calls. *)
Fixpoint bound (f : fm) : nat :=
  match f with
  | Var _ _ _ | Zero _ | Int _ | Rat _ _ => 1
  | Un _ a => S (bound a)
  | Bin _ a b => S (bound a + bound b)
  | Ter _ a b c => S (bound a + bound b + bound c)
  | Lin _ a => S (bound a)
  | Bil _ a b => 3 + bound a + bound b
  | Cat a b => S (bound a + bound b)
  | Sel _ a => S (bound a)
  end.

Fixpoint TraceN (n : nat) (v f : fm) (w : wgt) : res fm :=
  match n with
  | O => OutOfFuel
  | S n => operator (TraceN n v) (trace_call (fun a ws => SumLinN (bound a) v a ws) (TraceN n v) v) v f w
  end.

Definition AdjointOperator (f v u : fm) : res fm := AdjointN (bound f) v f u.
Definition SumLinOperator (f v : fm) (wl wr : wgt) : res fm := SumLinN (bound f) v f (wl, wr).
Definition TraceOperator (f v : fm) (w : wgt) : res fm := TraceN (bound f) v f w.

(** GetInds(f.Vars_) and [1 + max(inds) if len(inds) > 0 else 0]. *)
Fixpoint indices (f : fm) : list Z :=
  match f with
  | Var i _ _ => [i]
  | Zero _ | Int _ | Rat _ _ => []
  | Un _ a => indices a
  | Bin _ a b => indices a ++ indices b
  | Ter _ a b c => indices a ++ indices b ++ indices c
  | Lin _ a => indices a
  | Bil _ a b => indices a ++ indices b
  | Cat a b => indices a ++ indices b
  | Sel _ a => indices a
  end.
Definition new_index (l : list Z) : Z :=
  match l with [] => 0%Z | i :: l => (1 + fold_left Z.max l i)%Z end.

(** Diff.py. *)
Definition Diff (f v u : fm) : res fm :=
  let gradin := Var (new_index (indices f ++ indices v ++ indices u)) (dim f) 3 in
  do dFT <- DiffT f v gradin ;
  AdjointOperator dFT gradin u.

(** Divergence.py. *)
Definition Divergence (f v : fm) : res fm :=
  if (dim f =? dim v)%nat then
    let gradin := Var (new_index (indices f)) (dim v) 3 in
    do Gf <- DiffT f v gradin ;
    TraceOperator Gf gradin One
  else KErr.

(** Laplacian.py. *)
Definition Laplacian (f v : fm) : res fm :=
  if (dim f =? 1)%nat then do dFT <- DiffT f v (IntCst 1) ; Divergence dFT v else KErr.
