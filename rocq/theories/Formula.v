(** Deep embedding of KeOps formulas: abstract syntax, output dimensions, well-formedness
    (the checks made by the class constructors) and evaluation over the reals.

    Models keopscore/keopscore/formulas/Operation.py (class Operation, lines 13-245),
    VectorizedScalarOp.py (lines 6-50) and the classes of formulas/maths and
    formulas/variables, one constructor (or operator code) per class.

    Simplifications: the generated C++ is replaced by its meaning over exact reals
    (no rounding, no overflow); half2 code paths are not modelled. *)

From Coq Require Import ZArith Reals List Bool Lia Lra.
From Verif Require Import Result.
Import ListNotations.
Local Open Scope nat_scope.

(** ** Operator codes *)

(** Classes deriving from VectorizedScalarOp with one child.
    maths/Minus.py, Square.py, Exp.py, Log.py, Inv.py, Sin.py, Cos.py, Sqrt.py, Rsqrt.py,
    Abs.py, Sign.py, Step.py, ReLU.py, XLogX.py, SinXDivX.py, Asin.py, Acos.py, Atan.py,
    Floor.py, Pow.py, ClampInt.py, DiffClampInt.py. *)
Inductive unop :=
| UMinus | USquare | UExp | ULog | UInv | USin | UCos | USqrt | URsqrt
| UAbs | USign | UStep | UReLU | UXLogX | USinXDivX | UAsin | UAcos | UAtan | UFloor
| UPow (m : Z) | UClampInt (a b : Z) | UDiffClampInt (a b : Z).

(** Classes deriving from VectorizedScalarOp with two children.
    maths/Add.py, Subtract.py, Mult.py, Divide.py, Atan2.py, Powf.py, Equal.py,
    NotEqual.py, LessThan.py, LessOrEqual.py. *)
Inductive binop :=
| BAdd | BSub | BMult | BDiv | BAtan2 | BPowf
| BEqual | BNotEqual | BLess | BLessEq.

(** Classes deriving from VectorizedScalarOp with three children:
    maths/IfElse.py, Clamp.py, Mod.py. *)
Inductive terop := TIfElse | TClamp | TMod.

(** Linear one-argument operations: maths/Sum.py, SumT.py, Elem.py, ElemT.py, Extract.py,
    ExtractT.py. *)
Inductive linop :=
| LSum | LSumT (d : nat) | LElem (m : nat) | LElemT (n m : nat)
| LExtract (s d : nat) | LExtractT (s d : nat).

(** Bilinear operations: maths/Scalprod.py, MatVecMult.py, VecMatMult.py, TensorProd.py. *)
Inductive bilop := KScal | KMatVec | KVecMat | KTensorProd.

(** One-argument operations that select entries: maths/Max.py, Min.py, ArgMax.py,
    ArgMin.py, OneHot.py. *)
Inductive selop := SMax | SMin | SArgMax | SArgMin | SOneHot (d : nat).

(** Formulas.  [Var ind dim cat]: variables/Var.py; [Zero d]: variables/Zero.py;
    [Int z], [Rat p q]: the classes IntCst_Impl, RatCst_Impl of variables/IntCst.py,
    variables/RatCst.py; [Bin BAdd] is the class Add_Impl, and so on. *)
Inductive fm :=
| Var (i : Z) (d : nat) (c : nat)
| Zero (d : nat)
| Int (z : Z)
| Rat (p q : Z)
| Un (u : unop) (f : fm)
| Bin (b : binop) (f g : fm)
| Ter (t : terop) (f g h : fm)
| Lin (l : linop) (f : fm)
| Bil (b : bilop) (f g : fm)
| Cat (f g : fm)
| Sel (s : selop) (f : fm).

(** Structural equality: Operation.__eq__ (Operation.py 193-198), Var.__eq__ (Var.py
    43-49), Zero.__eq__ (Zero.py 20-21). *)
Definition fm_eq_dec : forall f g : fm, {f = g} + {f <> g}.
Proof. repeat decide equality. Defined.

Definition feqb (f g : fm) : bool := if fm_eq_dec f g then true else false.

Lemma feqb_eq : forall f g, feqb f g = true -> f = g.
Proof. unfold feqb; intros f g; destruct fm_eq_dec; congruence. Qed.

(** ** Dimensions: the [dim] attribute of each class. *)
Fixpoint dim (f : fm) : nat :=
  match f with
  | Var _ d _ => d
  | Zero d => d
  | Int _ => 1
  | Rat _ _ => 1
  | Un _ f => dim f
  | Bin _ f g => max (dim f) (dim g)                   (* VectorizedScalarOp.py 19-22 *)
  | Ter _ f g h => max (max (dim f) (dim g)) (dim h)
  | Lin l f =>
      match l with
      | LSum => 1 | LSumT d => d | LElem _ => 1 | LElemT n _ => n
      | LExtract _ d => d | LExtractT _ d => d
      end
  | Bil b f g =>
      match b with
      | KScal => 1
      | KMatVec => dim f / dim g                       (* MatVecMult.py: dim = A.dim // B.dim *)
      | KVecMat => dim g / dim f                       (* VecMatMult.py *)
      | KTensorProd => dim f * dim g
      end
  | Cat f g => dim f + dim g
  | Sel s _ => match s with SOneHot d => d | _ => 1 end
  end.

(** Compatibility of dimensions for vectorized operations: VectorizedScalarOp.__init__,
    lines 11-15: at most two distinct dimensions, one of them 1 if there are two. *)
Definition vcompat2 (a b : nat) : bool := (a =? b) || (min a b =? 1).
Definition vcompat3 (a b c : nat) : bool :=
  let d := max (max a b) c in
  ((a =? d) || (a =? 1)) && ((b =? d) || (b =? 1)) && ((c =? d) || (c =? 1)).

(** The checks made when the root node is built (the [__init__] methods). *)
Definition node_ok (f : fm) : bool :=
  match f with
  | Var _ d _ => 1 <=? d
  | Zero d => 1 <=? d
  | Int _ => true
  | Rat _ q => (0 <? q)%Z
  | Un _ _ => true
  | Bin _ f g => vcompat2 (dim f) (dim g)
  | Ter _ f g h => vcompat3 (dim f) (dim g) (dim h)
  | Lin l f =>
      match l with
      | LSum => true
      | LSumT d => (dim f =? 1) && (1 <=? d)           (* SumT.py: argument of dimension 1 *)
      | LElem m => m <? dim f                          (* Elem.py: index out of bound *)
      | LElemT n m => (dim f =? 1) && (m <? n)         (* ElemT.py: scalar input *)
      | LExtract s d => (s + d <=? dim f) && (1 <=? d)
      | LExtractT s d => s + dim f <=? d
      end
  | Bil b f g =>
      match b with
      | KScal => dim f =? dim g
      | KMatVec => dim f mod dim g =? 0
      | KVecMat => dim g mod dim f =? 0
      | KTensorProd => true
      end
  | Cat _ _ => true
  | Sel s f => match s with SOneHot d => (dim f =? 1) && (1 <=? d) | _ => 1 <=? dim f end
  end.

(** Hereditary well-formedness.  Beyond the checks of the constructors it asks that
    declared dimensions are positive, that denominators of rational constants are
    positive (Fraction guarantees it) and that [ElemT(f,n,m)] has m < n. *)
Fixpoint wf (f : fm) : Prop :=
  node_ok f = true /\
  match f with
  | Var _ _ _ | Zero _ | Int _ | Rat _ _ => True
  | Un _ f => wf f
  | Bin _ f g => wf f /\ wf g
  | Ter _ f g h => wf f /\ wf g /\ wf h
  | Lin _ f => wf f
  | Bil _ f g => wf f /\ wf g
  | Cat f g => wf f /\ wf g
  | Sel _ f => wf f
  end.

(** Checked constructors: [Ok] when the [__init__] of the class accepts. *)
Definition mk (f : fm) : res fm := if node_ok f then Ok f else KErr.

(** ** Evaluation *)

Definition env := Z -> nat -> R.

Local Open Scope R_scope.

(** Scalar functions, keopscore/utils/math_functions.py (cpu_code column). *)

Definition Rsign (x : R) : R :=
  if Rlt_dec 0 x then 1 else if Rlt_dec x 0 then -1 else 0.
Definition Rstep (x : R) : R := if Rlt_dec x 0 then 0 else 1.
Definition Rrelu (x : R) : R := if Rlt_dec x 0 then 0 else x.
Definition Rrsqrt (x : R) : R := if Req_EM_T x 0 then 0 else 1 / sqrt x.
Definition Rxlogx (x : R) : R := if Req_EM_T x 0 then 0 else x * ln x.
Definition Rsinxdivx (x : R) : R := if Req_EM_T x 0 then 1 else sin x / x.
Definition Rfloor (x : R) : R := IZR (Int_part x).
Definition Rclamp (x a b : R) : R :=
  if Rlt_dec x a then a else if Rlt_dec b x then b else x.
Definition Rdiffclamp (x a b : R) : R :=
  if Rlt_dec x a then 0 else if Rlt_dec b x then 0 else 1.
(** atan2(y,x), the C library function: angle of the point (x,y). *)
Definition Ratan2 (y x : R) : R :=
  if Rlt_dec 0 x then atan (y / x)
  else if Rlt_dec x 0 then
    (if Rlt_dec y 0 then atan (y / x) - PI else atan (y / x) + PI)
  else if Rlt_dec 0 y then PI / 2
  else if Rlt_dec y 0 then - (PI / 2)
  else 0.

Definition unR (u : unop) (x : R) : R :=
  match u with
  | UMinus => - x
  | USquare => x * x
  | UExp => exp x
  | ULog => ln x
  | UInv => 1 / x
  | USin => sin x
  | UCos => cos x
  | USqrt => sqrt x
  | URsqrt => Rrsqrt x
  | UAbs => Rabs x
  | USign => Rsign x
  | UStep => Rstep x
  | UReLU => Rrelu x
  | UXLogX => Rxlogx x
  | USinXDivX => Rsinxdivx x
  | UAsin => asin x
  | UAcos => acos x
  | UAtan => atan x
  | UFloor => Rfloor x
  | UPow m => powerRZ x m
  | UClampInt a b => Rclamp x (IZR a) (IZR b)
  | UDiffClampInt a b => Rdiffclamp x (IZR a) (IZR b)
  end.

(** Domain on which the scalar function is defined (elsewhere C++ gives nan/inf). *)
Definition unDom (u : unop) (x : R) : Prop :=
  match u with
  | ULog => 0 < x
  | UInv => x <> 0
  | USqrt => 0 <= x
  | URsqrt => 0 <= x
  | UXLogX => 0 <= x
  | UAsin | UAcos => -1 <= x <= 1
  | UPow m => (0 <= m)%Z \/ x <> 0
  | _ => True
  end.

Definition b2r (b : bool) : R := if b then 1 else 0.
Definition Reqb (x y : R) : bool := if Req_EM_T x y then true else false.
Definition Rltb (x y : R) : bool := if Rlt_dec x y then true else false.

Definition binR (b : binop) (x y : R) : R :=
  match b with
  | BAdd => x + y
  | BSub => x - y
  | BMult => x * y
  | BDiv => x / y
  | BAtan2 => Ratan2 x y
  | BPowf => Rpower x y
  | BEqual => b2r (Reqb x y)
  | BNotEqual => b2r (negb (Reqb x y))
  | BLess => b2r (Rltb x y)
  | BLessEq => b2r (negb (Rltb y x))
  end.

Definition binDom (b : binop) (x y : R) : Prop :=
  match b with
  | BDiv => y <> 0
  | BPowf => 0 < x
  | _ => True
  end.

Definition terR (t : terop) (x a b : R) : R :=
  match t with
  | TIfElse => if Rlt_dec x 0 then b else a          (* (x>=0) ? a : b *)
  | TClamp => Rclamp x a b
  | TMod => x - a * Rfloor ((x - b) / a)
  end.

Definition terDom (t : terop) (x a b : R) : Prop :=
  match t with TMod => a <> 0 | _ => True end.

(** Sum of the first n entries. *)
Fixpoint rsum (n : nat) (v : nat -> R) : R :=
  match n with O => 0 | S m => rsum m v + v m end.

(** Running maximum / minimum loops of maths/Max.py, ArgMax.py, Min.py, ArgMin.py:
    start with entry 0, replace on strict improvement. *)
Fixpoint argsel (lt : R -> R -> bool) (v : nat -> R) (n : nat) : nat :=
  match n with
  | O => O
  | S m => let b := argsel lt v m in
           match m with O => O | _ => if lt (v b) (v m) then m else b end
  end.

Definition Rgtb (x y : R) : bool := Rltb y x.

(** Index written by OneHot on the CPU: (int)(x + .5), the truncation of x + 1/2. *)
Definition Rtrunc (x : R) : Z :=
  if Rlt_dec x 0 then (- Int_part (- x))%Z else Int_part x.

(** [bcv d v k]: entry k of the vector v of dimension d under the broadcasting rule of
    VectApply (utils/code_gen_utils.py 390-431): dimension-1 arrays are read at 0. *)
Definition bcv (d : nat) (v : nat -> R) (k : nat) : R :=
  v (if Nat.eqb d 1 then O else k).

Definition linR (l : linop) (d : nat) (v : nat -> R) (k : nat) : R :=
  match l with
  | LSum => rsum d v
  | LSumT _ => v O
  | LElem m => v m
  | LElemT _ m => if Nat.eqb k m then v O else 0
  | LExtract s _ => v (s + k)%nat
  | LExtractT s _ =>
      if (Nat.leb s k && Nat.ltb k (s + d))%bool then v (k - s)%nat else 0
  end.

Definition bilR (b : bilop) (df dg : nat) (u v : nat -> R) (k : nat) : R :=
  match b with
  | KScal => rsum df (fun i => u i * v i)
  | KMatVec => rsum dg (fun j => u (k * dg + j)%nat * v j)          (* row major *)
  | KVecMat => rsum df (fun j => v (j * (dg / df) + k)%nat * u j)
  | KTensorProd => u (k / dg)%nat * v (k mod dg)%nat
  end.

Definition selR (s : selop) (d : nat) (v : nat -> R) (k : nat) : R :=
  match s with
  | SMax => v (argsel Rltb v d)
  | SMin => v (argsel Rgtb v d)
  | SArgMax => INR (argsel Rltb v d)
  | SArgMin => INR (argsel Rgtb v d)
  | SOneHot _ => if Z.eqb (Z.of_nat k) (Rtrunc (v O + / 2)) then 1 else 0
  end.

(** Value of a formula: the array filled by Operation.__call__ (Operation.py 65-125). *)
Fixpoint eval (f : fm) (e : env) (k : nat) : R :=
  match f with
  | Var i _ _ => e i k
  | Zero _ => 0
  | Int z => IZR z
  | Rat p q => IZR p / IZR q
  | Un u f => unR u (eval f e k)
  | Bin b f g => binR b (bcv (dim f) (eval f e) k) (bcv (dim g) (eval g e) k)
  | Ter t f g h => terR t (bcv (dim f) (eval f e) k) (bcv (dim g) (eval g e) k)
                          (bcv (dim h) (eval h e) k)
  | Lin l f => linR l (dim f) (eval f e) k
  | Bil b f g => bilR b (dim f) (dim g) (eval f e) (eval g e) k
  | Cat f g => if Nat.ltb k (dim f) then eval f e k else eval g e (k - dim f)%nat
  | Sel s f => selR s (dim f) (eval f e) k
  end.

(** A choice of domains for the operations that are not defined (or not smooth)
    everywhere. *)
Record doms := {
  dun : unop -> R -> Prop;
  dbin : binop -> R -> R -> Prop;
  dter : terop -> R -> R -> R -> Prop;
  dsel : selop -> nat -> (nat -> R) -> Prop
}.

(** [inside D e f]: at the point e every sub-formula of f is evaluated inside the domain
    prescribed by D. *)
Fixpoint inside (D : doms) (e : env) (f : fm) : Prop :=
  match f with
  | Var _ _ _ | Zero _ | Int _ | Rat _ _ => True
  | Un u f => inside D e f /\ forall k, (k < dim f)%nat -> dun D u (eval f e k)
  | Bin b f g => inside D e f /\ inside D e g /\
      forall k, (k < max (dim f) (dim g))%nat ->
        dbin D b (bcv (dim f) (eval f e) k) (bcv (dim g) (eval g e) k)
  | Ter t f g h => inside D e f /\ inside D e g /\ inside D e h /\
      forall k, (k < max (max (dim f) (dim g)) (dim h))%nat ->
        dter D t (bcv (dim f) (eval f e) k) (bcv (dim g) (eval g e) k)
                 (bcv (dim h) (eval h e) k)
  | Lin _ f => inside D e f
  | Bil _ f g => inside D e f /\ inside D e g
  | Cat f g => inside D e f /\ inside D e g
  | Sel s f => inside D e f /\ dsel D s (dim f) (eval f e)
  end.

Definition selDom (s : selop) (d : nat) (v : nat -> R) : Prop :=
  match s with
  | SOneHot n => (0 <= Rtrunc (v O + / 2) < Z.of_nat n)%Z
  | _ => True
  end.

(** Domains of definition: no nan or inf is produced. *)
Definition safe_doms : doms :=
  {| dun := unDom; dbin := binDom; dter := terDom; dsel := selDom |}.

Definition safe (e : env) (f : fm) : Prop := inside safe_doms e f.

(** Number of nodes. *)
Fixpoint size (f : fm) : nat :=
  match f with
  | Var _ _ _ | Zero _ | Int _ | Rat _ _ => 1%nat
  | Un _ f => S (size f)
  | Bin _ f g => S (size f + size g)
  | Ter _ f g h => S (size f + size g + size h)
  | Lin _ f => S (size f)
  | Bil _ f g => S (size f + size g)
  | Cat f g => S (size f + size g)
  | Sel _ f => S (size f)
  end.
