(** Specification of announced dimensions: tensors made by methods, with the formulas that they stand for. *)

From Coq Require Import ZArith List Bool Ascii String.
From Verif Require Import Result Keys Formula LazyTensors Methods.
Import ListNotations.
Open Scope string_scope.

(** How a formula is written. *)
Fixpoint written (t : term) : string :=
  match t with
  | TVar i d c => "Var(" ++ str_int i ++ "," ++ str_int d ++ "," ++ str_int c ++ ")"
  | TSym i d c => "VarSymb(" ++ str_int i ++ "," ++ str_int d ++ "," ++ str_int c ++ ")"
  | TInt n => "IntCst(" ++ str_int n ++ ")"
  | T1 op t ps => op ++ "(" ++ written t ++ String.concat "" (map (fun p => "," ++ str_int p) ps) ++ ")"
  | TOp op t u => "(" ++ written t ++ " " ++ op ++ " " ++ written u ++ ")"
  | T2 op t u ps =>
      op ++ "(" ++ written t ++ ", " ++ written u ++ String.concat "" (map (fun p => ", " ++ str_int p) ps) ++ ")"
  | TDot op t u ps =>
      op ++ "(" ++ written t ++ ", " ++ written u ++ String.concat "" (map (fun p => ", " ++ ints_text p) ps) ++ ")"
  | T3 op t u v => op ++ "(" ++ written t ++ ", " ++ written u ++ ", " ++ written v ++ ")"
  end.

(** Symbolic tensors made of arrays and numbers with at least one coordinate, by any sequence of methods. *)
Inductive made : lazy -> term -> Prop :=
| made_symbolic : forall i d c, (1 <= d)%Z -> made (lt_symbolic i d c) (TSym i d c)
| made_int : forall n, made (lt_int n) (TInt n)
| made_floats : forall id n, (1 <= n)%Z -> made (lt_floats id n) (TVar id n 2)
| made_array : forall dt id sh ax l d c, lt_array dt id sh ax = Ok l -> Forall (fun s => (1 <= s)%Z) sh ->
    last sh 1%Z = d -> axis l = Some c -> made l (TVar id d c)
| made_map : forall m l t, made l t -> made (m_map m l) (T1 (map1_op m) t [])
| made_pow : forall k l t, made l t ->
    made (m_pow k l) (if (k =? 2)%Z then T1 "Square" t [] else T1 "Pow" t [k])
| made_round : forall k l t, made l t -> made (m_round k l) (T1 "Round" t [k])
| made_clamp_int : forall a b l t, made l t -> made (m_clamp_int a b l) (T1 "ClampInt" t [a; b])
| made_scal : forall m l t, made l t -> made (m_scal m l) (T1 (scal1_op m) t [])
| made_elem : forall i l t r, made l t -> m_elem i l = Ok r -> made r (T1 "Elem" t [i])
| made_extract : forall i d l t r, made l t -> m_extract i d l = Ok r -> made r (T1 "Extract" t [i; d])
| made_slice : forall a b l t r, made l t -> m_slice (Some a) (Some b) l = Ok r ->
    made r (T1 "Extract" t [a; (b - a)%Z])
| made_slice_to : forall b l t r, made l t -> m_slice None (Some b) l = Ok r -> made r (T1 "Extract" t [0%Z; b])
| made_slice_from : forall a l t r, made l t -> m_slice (Some a) None l = Ok r ->
    made r (T1 "Extract" t [a; (ndim l - a)%Z])
| made_one_hot : forall d l t r, made l t -> m_one_hot d l = Ok r -> made r (T1 "OneHot" t [d])
| made_arith : forall m l t l' t' r, made l t -> made l' t' -> m_arith m false l l' = Ok r ->
    made r (TOp (arith_op m) t t')
| made_arith_rev : forall m l t l' t' r, made l t -> made l' t' -> m_arith m true l l' = Ok r ->
    made r (TOp (arith_op m) t' t)
| made_or : forall l t l' t' r, made l t -> made l' t' -> m_or false l l' = Ok r -> made r (TOp "|" t t')
| made_or_rev : forall l t l' t' r, made l t -> made l' t' -> m_or true l l' = Ok r -> made r (TOp "|" t' t)
| made_fun2 : forall m l t l' t' r, made l t -> made l' t' -> m_fun2 m l l' = Ok r ->
    made r (T2 (fun2_op m) t t' [])
| made_powf : forall l t l' t' r, made l t -> made l' t' -> m_powf l l' = Ok r -> made r (T2 "Powf" t t' [])
| made_sqdist : forall l t l' t' r, made l t -> made l' t' -> m_sqdist l l' = Ok r -> made r (T2 "SqDist" t t' [])
| made_weightedsqnorm : forall l t l' t' r, made l t -> made l' t' -> m_weightedsqnorm l l' = Ok r ->
    made r (T2 "WeightedSqNorm" t' t [])
| made_difference_matrix : forall l t l' t' r, made l t -> made l' t' -> m_difference_matrix l l' = Ok r ->
    made r (T2 "DifferenceMatrix" t t' [])
| made_concat : forall l t l' t' r, made l t -> made l' t' -> m_concat l l' = Ok r -> made r (T2 "Concat" t t' [])
| made_bspline : forall k l t l' t' r, made l t -> made l' t' -> m_bspline k l l' = Ok r ->
    made r (T2 "BSpline" t t' [k])
| made_matvec : forall l t l' t' r, made l t -> made l' t' -> m_matvec l l' = Ok r ->
    made r (T2 "MatVecMult" t t' [])
| made_vecmat : forall l t l' t' r, made l t -> made l' t' -> m_vecmat l l' = Ok r ->
    made r (T2 "VecMatMult" t t' [])
| made_tensorprod : forall l t l' t' r, made l t -> made l' t' -> m_tensorprod l l' = Ok r ->
    made r (T2 "TensorProd" t t' [])
| made_tensordot : forall da db ca cb l t l' t' r, made l t -> made l' t' -> m_tensordot da db ca cb None l l' = Ok r ->
    made r (TDot "TensorDot" t t' [map Z.of_nat da; map Z.of_nat db; ca; cb])
| made_tensordot_permuted : forall da db ca cb p l t l' t' r, made l t -> made l' t' ->
    m_tensordot da db ca cb (Some p) l l' = Ok r ->
    made r (TDot "TensorDot" t t' [map Z.of_nat da; map Z.of_nat db; ca; cb; p])
| made_kron : forall da db l t l' t' r, made l t -> made l' t' -> m_kron da db l l' = Ok r ->
    made r (TDot "Kron" t t' [map Z.of_nat da; map Z.of_nat db])
| made_factorize : forall l t l' t' r, made l t -> made l' t' -> m_factorize l l' = Ok r ->
    made r (T2 "Factorize" t t' [])
| made_fun3 : forall m l t l' t' l'' t'' r, made l t -> made l' t' -> made l'' t'' -> m_fun3 m l l' l'' = Ok r ->
    made r (T3 (fun3_op m) t t' t'')
| made_softdtw : forall l t l' t' l'' t'' r, made l t -> made l' t' -> made l'' t'' -> m_softdtw l l' l'' = Ok r ->
    made r (T3 "SoftDTW_SqDist" t t' t'').

(** Without the operations whose arguments are checked by the engine only. *)
Fixpoint checked (t : term) : bool :=
  match t with
  | TVar _ _ _ | TSym _ _ _ | TInt _ => true
  | T1 op t _ => negb (String.eqb op "OneHot") && checked t
  | TOp _ t u => checked t && checked u
  | T2 op t u _ =>
      negb (among op ["BSpline"; "MatVecMult"; "VecMatMult"; "DifferenceMatrix"]) && checked t && checked u
  | TDot _ _ _ _ => false
  | T3 op t u v => negb (String.eqb op "SoftDTW_SqDist") && checked t && checked u && checked v
  end.

(** The shape: batch dimensions, numbers of rows, and the dimension of the formula, which is dropped when it is 1. *)
Definition shape_of (batch : list Z) (m n d : Z) : list Z :=
  (batch ++ [m; n] ++ if (d =? 1)%Z then [] else [d])%list.
Definition rows (n : option Z) : Z := match n with Some n => n | None => 1 end.

(** The formulas of Formula: None for the operations that it does not have. *)
Definition unop_of (op : string) : option unop :=
  if String.eqb op "Abs" then Some UAbs else if String.eqb op "Minus" then Some UMinus
  else if String.eqb op "Inv" then Some UInv else if String.eqb op "Exp" then Some UExp
  else if String.eqb op "Log" then Some ULog else if String.eqb op "XLogX" then Some UXLogX
  else if String.eqb op "Cos" then Some UCos else if String.eqb op "Sin" then Some USin
  else if String.eqb op "SinXDivX" then Some USinXDivX else if String.eqb op "Asin" then Some UAsin
  else if String.eqb op "Acos" then Some UAcos else if String.eqb op "Atan" then Some UAtan
  else if String.eqb op "Sqrt" then Some USqrt else if String.eqb op "Rsqrt" then Some URsqrt
  else if String.eqb op "Square" then Some USquare else if String.eqb op "Sign" then Some USign
  else if String.eqb op "Step" then Some UStep else if String.eqb op "ReLU" then Some UReLU else None.
Definition sqnorm (f : fm) : fm := Lin LSum (Un USquare f).
Definition formula1 (op : string) (ps : list Z) (f : fm) : option fm :=
  match ps with
  | [] =>
      match unop_of op with
      | Some u => Some (Un u f)
      | None =>
          if String.eqb op "Normalize" then Some (Bin BMult (Un URsqrt (sqnorm f)) f)
          else if String.eqb op "SqNorm2" then Some (sqnorm f)
          else if String.eqb op "Norm2" then Some (Un USqrt (Bil KScal f f))
          else if String.eqb op "Sum" then Some (Lin LSum f)
          else if String.eqb op "Min" then Some (Sel SMin f)
          else if String.eqb op "ArgMin" then Some (Sel SArgMin f)
          else if String.eqb op "Max" then Some (Sel SMax f)
          else if String.eqb op "ArgMax" then Some (Sel SArgMax f)
          else None
      end
  | [k] =>
      if String.eqb op "Pow" then Some (Un (UPow k) f)
      else if String.eqb op "Elem" then Some (Lin (LElem (Z.to_nat k)) f)
      else if String.eqb op "OneHot" then Some (Sel (SOneHot (Z.to_nat k)) f)
      else None
  | [a; b] =>
      if String.eqb op "ClampInt" then Some (Un (UClampInt a b) f)
      else if String.eqb op "Extract" then Some (Lin (LExtract (Z.to_nat a) (Z.to_nat b)) f)
      else None
  | _ => None
  end.
Definition formula_op (op : string) (f g : fm) : option fm :=
  if String.eqb op "+" then Some (Bin BAdd f g) else if String.eqb op "-" then Some (Bin BSub f g)
  else if String.eqb op "*" then Some (Bin BMult f g) else if String.eqb op "/" then Some (Bin BDiv f g)
  else if String.eqb op "<" then Some (Bin BLess f g) else if String.eqb op ">" then Some (Bin BLess g f)
  else if String.eqb op "<=" then Some (Bin BLessEq f g) else if String.eqb op ">=" then Some (Bin BLessEq g f)
  else if String.eqb op "|" then Some (Bil KScal f g) else None.
Definition formula2 (op : string) (ps : list Z) (f g : fm) : option fm :=
  match ps with
  | [] =>
      if String.eqb op "Atan2" then Some (Bin BAtan2 f g) else if String.eqb op "Equal" then Some (Bin BEqual f g)
      else if String.eqb op "NotEqual" then Some (Bin BNotEqual f g)
      else if String.eqb op "Powf" then Some (Bin BPowf f g)
      else if String.eqb op "SqDist" then Some (sqnorm (Bin BSub f g))
      else if String.eqb op "WeightedSqNorm" then
        Some (if Nat.eqb (dim f) 1 then Bin BMult f (sqnorm g)
              else if Nat.eqb (dim f) (dim g) then Lin LSum (Bin BMult f (Un USquare g))
              else Lin LSum (Bin BMult f (Bil KTensorProd g g)))
      else if String.eqb op "Concat" then Some (Cat f g)
      else if String.eqb op "MatVecMult" then Some (Bil KMatVec f g)
      else if String.eqb op "VecMatMult" then Some (Bil KVecMat f g)
      else if String.eqb op "TensorProd" then Some (Bil KTensorProd f g) else None
  | _ => None
  end.
Definition formula3 (op : string) (f g h : fm) : option fm :=
  if String.eqb op "IfElse" then Some (Ter TIfElse f g h) else if String.eqb op "Clamp" then Some (Ter TClamp f g h)
  else if String.eqb op "Mod" then Some (Ter TMod f g h) else None.

Fixpoint as_formula (t : term) : option fm :=
  match t with
  | TVar i d c => Some (Var i (Z.to_nat d) (Z.to_nat c))
  | TSym i d c => Some (Var i (Z.to_nat d) (Z.to_nat c))
  | TInt n => Some (Int n)
  | T1 op t ps => match as_formula t with Some f => formula1 op ps f | None => None end
  | TOp op t u =>
      match as_formula t, as_formula u with Some f, Some g => formula_op op f g | _, _ => None end
  | T2 op t u ps =>
      match as_formula t, as_formula u with Some f, Some g => formula2 op ps f g | _, _ => None end
  | TDot _ _ _ _ => None
  | T3 op t u v =>
      match as_formula t, as_formula u, as_formula v with
      | Some f, Some g, Some h => formula3 op f g h
      | _, _, _ => None
      end
  end.
