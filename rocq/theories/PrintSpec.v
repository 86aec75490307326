(** Specification of the reading of printed formulas. *)

From Coq Require Import ZArith List Bool String.
From Verif Require Import Formula PyRead PyReadSpec.
Import ListNotations.
Open Scope string_scope.

(** The expression of Python with the structure of a formula. *)
Definition apply1 (name : string) (a : py) (ps : list Z) : py := PCall (PName name) (a :: map literal ps).
Definition apply2 (name : string) (a b : py) : py := PCall (PName name) [a; b].
Fixpoint structure (f : fm) : py :=
  match f with
  | Var i d c => PCall (PName "Var") (map literal [i; Z.of_nat d; Z.of_nat c])
  | Zero d => PCall (PName "Zero") [literal (Z.of_nat d)]
  | Int z => literal z
  | Rat p q => PBin SSlash (literal p) (literal q)
  | Un u f =>
      match u with
      | UMinus => PNeg (structure f)
      | USquare => PPow (structure f) (PNum 2)
      | UInv => PBin SSlash (PNum 1) (structure f)
      | UExp => apply1 "Exp" (structure f) [] | ULog => apply1 "Log" (structure f) []
      | USin => apply1 "Sin" (structure f) [] | UCos => apply1 "Cos" (structure f) []
      | USqrt => apply1 "Sqrt" (structure f) [] | URsqrt => apply1 "Rsqrt" (structure f) []
      | UAbs => apply1 "Abs" (structure f) [] | USign => apply1 "Sign" (structure f) []
      | UStep => apply1 "Step" (structure f) [] | UReLU => apply1 "ReLU" (structure f) []
      | UXLogX => apply1 "XLogX" (structure f) [] | USinXDivX => apply1 "SinXDivX" (structure f) []
      | UAsin => apply1 "Asin" (structure f) [] | UAcos => apply1 "Acos" (structure f) []
      | UAtan => apply1 "Atan" (structure f) [] | UFloor => apply1 "Floor" (structure f) []
      | UPow m => apply1 "Pow" (structure f) [m]
      | UClampInt a b => apply1 "ClampInt" (structure f) [a; b]
      | UDiffClampInt a b => apply1 "DiffClampInt" (structure f) [a; b]
      end
  | Bin b f g =>
      match b with
      | BAdd => PBin SPlus (structure f) (structure g)
      | BSub => PBin SDash (structure f) (structure g)
      | BMult => PBin SStar (structure f) (structure g)
      | BDiv => PBin SSlash (structure f) (structure g)
      | BLess => PCmp (structure f) [(SLt, structure g)]
      | BLessEq => PCmp (structure f) [(SLe, structure g)]
      | BEqual => PCmp (structure f) [(SEq, structure g)]
      | BNotEqual => PCmp (structure f) [(SNe, structure g)]
      | BAtan2 => apply2 "Atan2" (structure f) (structure g)
      | BPowf => apply2 "Powf" (structure f) (structure g)
      end
  | Ter t f g h =>
      PCall (PName (match t with TIfElse => "IfElse" | TClamp => "Clamp" | TMod => "Mod" end))
        [structure f; structure g; structure h]
  | Lin l f =>
      match l with
      | LSum => apply1 "Sum" (structure f) []
      | LSumT d => apply1 "SumT" (structure f) [Z.of_nat d]
      | LElem m => PItem (structure f) (literal (Z.of_nat m))
      | LElemT n m => apply1 "ElemT" (structure f) [Z.of_nat n; Z.of_nat m]
      | LExtract s d => apply1 "Extract" (structure f) [Z.of_nat s; Z.of_nat d]
      | LExtractT s d => apply1 "ExtractT" (structure f) [Z.of_nat s; Z.of_nat d]
      end
  | Bil b f g =>
      match b with
      | KScal => PBin SBar (structure f) (structure g)
      | KMatVec => apply2 "MatVecMult" (structure f) (structure g)
      | KVecMat => apply2 "VecMatMult" (structure f) (structure g)
      | KTensorProd => apply2 "TensorProd" (structure f) (structure g)
      end
  | Cat f g => PList [structure f; structure g]
  | Sel s f =>
      match s with
      | SMax => apply1 "Max" (structure f) [] | SMin => apply1 "Min" (structure f) []
      | SArgMax => apply1 "ArgMax" (structure f) [] | SArgMin => apply1 "ArgMin" (structure f) []
      | SOneHot d => apply1 "OneHot" (structure f) [Z.of_nat d]
      end
  end.

(** Formulas whose text keeps the structure: no rational constant; no scalar product or comparison directly under a sum
    or a difference; no negative constant directly under a square or a selection of a coordinate. *)
Definition loose (f : fm) : Prop :=
  match f with
  | Bil KScal _ _ | Bin BLess _ _ | Bin BLessEq _ _ | Bin BEqual _ _ | Bin BNotEqual _ _ => True
  | _ => False
  end.
Definition negative (f : fm) : Prop := match f with Int z => (z < 0)%Z | _ => False end.
Fixpoint faithful (f : fm) : Prop :=
  match f with
  | Var _ _ _ | Zero _ | Int _ => True
  | Rat _ _ => False
  | Un USquare f => ~ negative f /\ faithful f
  | Lin (LElem _) f => ~ negative f /\ faithful f
  | Bin (BAdd | BSub) f g => ~ loose f /\ ~ loose g /\ faithful f /\ faithful g
  | Un _ f | Lin _ f | Sel _ f => faithful f
  | Bin _ f g | Bil _ f g | Cat f g => faithful f /\ faithful g
  | Ter _ f g h => faithful f /\ faithful g /\ faithful h
  end.

(** Formulas whose text is evaluated to a formula: constants are operands of an operator whose other operand is not
    constant, and not the numerator 1; no equality, concatenation or selection of a coordinate. *)
Definition constant (f : fm) : Prop := match f with Int _ => True | _ => False end.
Fixpoint evaluable (f : fm) : Prop :=
  match f with
  | Var _ _ _ | Zero _ | Int _ => True
  | Rat _ _ | Lin (LElem _) _ | Cat _ _ | Bin (BEqual | BNotEqual) _ _ => False
  | Un _ f | Lin _ f | Sel _ f => ~ constant f /\ evaluable f
  | Bin (BAtan2 | BPowf) f g | Bil _ f g => ~ constant f /\ ~ constant g /\ evaluable f /\ evaluable g
  | Bin BDiv f g => f <> Int 1 /\ ~ (constant f /\ constant g) /\ evaluable f /\ evaluable g
  | Bin _ f g => ~ (constant f /\ constant g) /\ evaluable f /\ evaluable g
  | Ter _ f g h => ~ constant f /\ ~ constant g /\ ~ constant h /\ evaluable f /\ evaluable g /\ evaluable h
  end.
