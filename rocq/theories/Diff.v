(** Symbolic differentiation: the DiffT methods of KeOps formulas.

    [f.DiffT(v, gradin)] is the formula of the adjoint derivative of f with respect to
    the variable v applied to gradin.  The Python methods recurse on children, except
    Clamp and Mod which differentiate an equivalent formula built on the fly; the model
    therefore takes a fuel argument, shown sufficient in DiffTermination.v. *)

From Coq Require Import ZArith List Bool Lia.
From Verif Require Import Result Formula Simplify.
Import ListNotations.
Local Open Scope nat_scope.

(** Operation.__rtruediv__ (Operation.py 136-142): 1/f is Inv(f). *)
Definition Inv (f : fm) : res fm := mk (Un UInv f).

(** The Derivative methods of the one-argument vectorized operations (None: the class
    overrides DiffT instead). *)
Definition unDer (u : unop) (f : fm) : option (res fm) :=
  match u with
  | UMinus => None                                               (* Minus.py 25-27 *)
  | USquare => Some (Mult (IntCst 2) f)                          (* Square.py 20-22 *)
  | UExp => Some (Exp f)                                         (* Exp.py 17-19 *)
  | ULog => Some (Inv f)                                         (* Log.py 12-14 *)
  | UInv => Some (do s <- Square f; Divide (IntCst (-1)) s)      (* Inv.py 18-20 *)
  | USin => Some (mk (Un UCos f))                                (* Sin.py 12-16 *)
  | UCos => Some (Minus (Un USin f))                             (* Cos.py 12-16 *)
  | USqrt => Some (do r <- RatCst 1 2; Mult r (Un URsqrt f))     (* Sqrt.py 19-21 *)
  | URsqrt => Some (do r <- RatCst 1 (-2);
                    do p <- Pow (Un URsqrt f) 3; Mult r p)       (* Rsqrt.py 22-24 *)
  | UAbs => Some (mk (Un USign f))                               (* Abs.py 13-15 *)
  | USign => None                                                (* Sign.py 18-19 *)
  | UStep => None                                                (* Step.py 13-14 *)
  | UReLU => Some (mk (Un UStep f))                              (* ReLU.py 13-15 *)
  | UXLogX => Some (Add (Un ULog f) (IntCst 1))                  (* XLogX.py 13-15 *)
  | USinXDivX => Some (do a <- Divide (Un UCos f) f;
                       do s <- Square f;
                       do b <- Divide (Un USin f) s;
                       Subtract a b)                             (* SinXDivX.py 16-18 *)
  | UAsin => Some (do s <- Square f;
                   do a <- Subtract (IntCst 1) s;
                   mk (Un URsqrt a))                             (* Asin.py 13-15 *)
  | UAcos => Some (do s <- Square f;
                   do a <- Subtract (IntCst 1) s;
                   Minus (Un URsqrt a))                          (* Acos.py 13-15 *)
  | UAtan => Some (do s <- Square f;
                   do a <- Add (IntCst 1) s; Inv a)              (* Atan.py 12-14 *)
  | UFloor => None                                               (* Floor.py 13-14 *)
  | UPow m => Some (do p <- Pow f (m - 1); Mult (IntCst m) p)    (* Pow.py 21-25 *)
  | UClampInt a b => Some (mk (Un (UDiffClampInt a b) f))        (* ClampInt.py 25-27 *)
  | UDiffClampInt _ _ => None                                    (* DiffClampInt.py 26-29 *)
  end.

(** One term of the sum in VectorizedScalarOp.DiffT (VectorizedScalarOp.py 34-41). *)
Definition vecterm (D : fm -> fm -> res fm) (f df g : fm) : res fm :=
  if dim df =? 1 then do x <- D f g; Mult x df
  else do y <- Mult g df; D f y.

(** DiffT, one level; [D f g] stands for f.DiffT(v, g).  [v] has dimension [dim v]. *)
Definition diff_body (D : fm -> fm -> res fm) (v f g : fm) : res fm :=
  match f with
  | Var _ _ _ => if feqb v f then Ok g else mk (Zero (dim v))    (* Var.py 57-60 *)
  | Zero _ => mk (Zero (dim v))                                  (* Zero.py 26-27 *)
  | Int _ => mk (Zero (dim v))                                   (* IntCst.py 24-25 *)
  | Rat _ _ => mk (Zero (dim v))                                 (* RatCst.py 25-26 *)
  | Un UMinus a => do x <- D a g; Minus x                        (* Minus.py 25-27 *)
  | Un u a =>
      match unDer u a with
      | Some r => do df <- r;
                  do x <- vecterm D a df g;
                  Add (IntCst 0) x                               (* sum(...) starts from 0 *)
      | None => mk (Zero (dim v))
      end
  | Bin BAdd a b =>                                              (* Add.py 28-35 *)
      if (dim a =? 1) && (1 <? dim b) then
        do s <- Sum g; do x <- D a s; do y <- D b g; Add x y
      else if (dim b =? 1) && (1 <? dim a) then
        do x <- D a g; do s <- Sum g; do y <- D b s; Add x y
      else do x <- D a g; do y <- D b g; Add x y
  | Bin BSub a b =>                                              (* Subtract.py 26-33 *)
      if (dim a =? 1) && (1 <? dim b) then
        do s <- Sum g; do x <- D a s; do y <- D b g; Subtract x y
      else if (dim b =? 1) && (1 <? dim a) then
        do x <- D a g; do s <- Sum g; do y <- D b s; Subtract x y
      else do x <- D a g; do y <- D b g; Subtract x y
  | Bin BMult a b =>                                             (* Mult.py 28-39 *)
      match as_exp b with
      | Some u =>
          if dim b =? 1 then
            do x <- D a g; do s <- Scalprod g a; do y <- D u s;
            do z <- Add x y; Mult z b
          else if (dim a =? 1) && (1 <? dim b) then
            do s <- Scalprod g b; do x <- D a s;
            do p <- Mult a g; do y <- D b p; Add x y
          else
            do p <- Mult b g; do x <- D a p;
            do q <- Mult a g; do y <- D b q; Add x y
      | None =>
          if (dim a =? 1) && (1 <? dim b) then
            do s <- Scalprod g b; do x <- D a s;
            do p <- Mult a g; do y <- D b p; Add x y
          else if (dim b =? 1) && (1 <? dim a) then
            do p <- Mult b g; do x <- D a p;
            do s <- Scalprod g a; do y <- D b s; Add x y
          else
            do p <- Mult b g; do x <- D a p;
            do q <- Mult a g; do y <- D b q; Add x y
      end
  | Bin BDiv a b =>                                              (* Divide.py 28-37 *)
      if (dim a =? 1) && (1 <? dim b) then
        do p <- Divide g b; do s <- Sum p; do x <- D a s;
        do q <- Mult a g; do b2 <- Square b; do r <- Divide q b2; do y <- D b r;
        Subtract x y
      else if (dim b =? 1) && (1 <? dim a) then
        do p <- Mult b g; do x <- D a p;
        do s <- Scalprod g a; do y <- D b s;
        do z <- Subtract x y; do b2 <- Square b; Divide z b2
      else
        do p <- Divide g b; do x <- D a p;
        do q <- Mult a g; do b2 <- Square b; do r <- Divide q b2; do y <- D b r;
        Subtract x y
  | Bin BAtan2 a b =>                                            (* Atan2.py 15-18 *)
      do a2 <- Square a; do b2 <- Square b; do r2 <- Add a2 b2;
      do da <- Divide b r2;
      do ma <- Minus a; do db <- Divide ma r2;
      do x <- vecterm D a da g; do x0 <- Add (IntCst 0) x;
      do y <- vecterm D b db g; Add x0 y
  | Bin BPowf a b =>                                             (* Powf.py 12-16 *)
      do b1 <- Subtract b (IntCst 1); do pw1 <- mk (Bin BPowf a b1); do da <- Mult b pw1;
      do pw <- mk (Bin BPowf a b); do db <- Mult (Un ULog a) pw;
      do x <- vecterm D a da g; do x0 <- Add (IntCst 0) x;
      do y <- vecterm D b db g; Add x0 y
  | Bin _ _ _ => mk (Zero (dim v))       (* Equal.py, NotEqual.py, LessThan.py, LessOrEqual.py 16-17 *)
  | Ter TIfElse c a b =>                                         (* IfElse.py 14-16 *)
      do x <- D a g; do y <- D b g; mk (Ter TIfElse c x y)
  | Ter TClamp x a b =>                                          (* Clamp.py 13-19 *)
      do n <- Subtract x a; do w <- Subtract b a; do q <- Divide n w;
      do c <- mk (Un (UClampInt 0 1) q);
      do p <- Mult c w; do alt <- Add p a;
      D alt g
  | Ter TMod x n d =>                                            (* Mod.py 14-20 *)
      do s <- Subtract x d; do q <- Divide s n; do fl <- mk (Un UFloor q);
      do p <- Mult n fl; do alt <- Subtract x p;
      D alt g
  | Lin LSum a => do s <- SumT g (dim a); D a s                  (* Sum.py 26-30 *)
  | Lin (LSumT _) a => do s <- Sum g; D a s                      (* SumT.py 28-32 *)
  | Lin (LElem m) a => do s <- mk (Lin (LElemT (dim a) m) g); D a s   (* Elem.py 29-33 *)
  | Lin (LElemT _ m) a => do s <- mk (Lin (LElem m) g); D a s    (* ElemT.py 35-39 *)
  | Lin (LExtract st _) a => do s <- mk (Lin (LExtractT st (dim a)) g); D a s
                                                                 (* Extract.py 31-35 *)
  | Lin (LExtractT st _) a => do s <- mk (Lin (LExtract st (dim a)) g); D a s
                                                                 (* ExtractT.py 40-44 *)
  | Bil KScal a b =>                                             (* Scalprod.py 38-40 *)
      do x <- D a b; do y <- D b a; do s <- Add x y; Mult g s
  | Bil KMatVec a b =>                                           (* MatVecMult.py 44-48 *)
      do p <- mk (Bil KTensorProd g b); do x <- D a p;
      do q <- mk (Bil KVecMat g a); do y <- D b q; Add x y
  | Bil KVecMat b a =>                                           (* VecMatMult.py 45-50 *)
      do p <- mk (Bil KTensorProd b g); do x <- D a p;
      do q <- mk (Bil KMatVec a g); do y <- D b q; Add x y
  | Bil KTensorProd a b =>                                       (* TensorProd.py 39-43 *)
      do p <- mk (Bil KMatVec g b); do x <- D a p;
      do q <- mk (Bil KVecMat a g); do y <- D b q; Add x y
  | Cat a b =>                                                   (* Concat.py 28-33 *)
      do p <- mk (Lin (LExtract 0 (dim a)) g); do x <- D a p;
      do q <- mk (Lin (LExtract (dim a) (dim b)) g); do y <- D b q; Add x y
  | Sel SMax a =>                                                (* Max.py 40-42 *)
      do o <- mk (Sel (SOneHot (dim a)) (Sel SArgMax a)); do p <- Mult o g; D a p
  | Sel SMin a =>                                                (* Min.py 40-42 *)
      do o <- mk (Sel (SOneHot (dim a)) (Sel SArgMin a)); do p <- Mult o g; D a p
  | Sel _ _ => mk (Zero (dim v))           (* ArgMax.py 49-50, ArgMin.py 48-49, OneHot.py 39-42 *)
  end.

Fixpoint DiffTn (n : nat) (v f g : fm) : res fm :=
  match n with
  | O => OutOfFuel
  | S n => diff_body (DiffTn n v) v f g
  end.

(** Recursion depth that suffices: nodes, with Clamp and Mod counted with the size of the
    formula that replaces them. *)
Fixpoint weight (f : fm) : nat :=
  match f with
  | Var _ _ _ | Zero _ | Int _ | Rat _ _ => 1
  | Un _ f => S (weight f)
  | Bin _ f g => S (weight f + weight g)
  | Ter TIfElse f g h => S (weight f + weight g + weight h)
  | Ter TClamp f g h => weight f + 4 * weight g + 2 * weight h + 8
  | Ter TMod f g h => 2 * weight f + 2 * weight g + weight h + 8
  | Lin _ f => S (weight f)
  | Bil _ f g => S (weight f + weight g)
  | Cat f g => S (weight f + weight g)
  | Sel _ f => S (weight f)
  end.

(** [f.DiffT(v, gradin)], which is [Grad(f, v, gradin)] of autodiff/Grad.py 14-27. *)
Definition DiffT (f v g : fm) : res fm := DiffTn (weight f) v f g.
