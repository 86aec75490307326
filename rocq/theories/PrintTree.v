(** Printing of formulas.

    Models keopscore/keopscore/utils/Tree.py lines 8-50 (Tree.recursive_str, which is also __str__ and __repr__) with the
    attributes [print_spec] and [string_id] of the classes of formulas/maths and formulas/variables, and
    RatCst_Impl.recursive_str (variables/RatCst.py line 12).

    A node is given by its [print_spec], its [string_id], its children (with the level of their [print_spec]) and its
    parameters, which are integers. *)

From Coq Require Import ZArith List Bool Arith String.
From Verif Require Import Keys Formula.
Import ListNotations.
Open Scope string_scope.

(** [print_spec]: text, mode, level. *)
Inductive mode := Pre (s : string) | Mid (s : string) | Post (s : string) | Brackets (a b : string) | Item (a b : string).

Definition print_spec (f : fm) : option (mode * nat) :=
  match f with
  | Int _ => Some (Pre "", 0)                       (* variables/IntCst.py 9 *)
  | Un USquare _ => Some (Post "**2", 1)            (* maths/Square.py 15 *)
  | Lin (LElem _) _ => Some (Item "[" "]", 1)       (* maths/Elem.py 12 *)
  | Un UMinus _ => Some (Pre "-", 2)                (* maths/Minus.py 17 *)
  | Un UInv _ => Some (Pre "1/", 3)                 (* maths/Inv.py 14 *)
  | Bin BMult _ _ => Some (Mid "*", 3)              (* maths/Mult.py 22 *)
  | Bin BDiv _ _ => Some (Mid "/", 3)               (* maths/Divide.py 20 *)
  | Bin BLess _ _ => Some (Mid "<", 3)              (* maths/LessThan.py 12 *)
  | Bin BLessEq _ _ => Some (Mid "<=", 3)           (* maths/LessOrEqual.py 12 *)
  | Bin BEqual _ _ => Some (Mid "==", 3)            (* maths/Equal.py 12 *)
  | Bin BNotEqual _ _ => Some (Mid "!=", 3)         (* maths/NotEqual.py 12 *)
  | Bil KScal _ _ => Some (Mid "|", 3)              (* maths/Scalprod.py 17 *)
  | Bin BAdd _ _ => Some (Mid "+", 4)               (* maths/Add.py 20 *)
  | Bin BSub _ _ => Some (Mid "-", 4)               (* maths/Subtract.py 18 *)
  | Cat _ _ => Some (Brackets "[" "]", 9)           (* maths/Concat.py 14 *)
  | _ => None
  end.

(** [string_id]. *)
Definition un_id (u : unop) : string :=
  match u with
  | UMinus => "Minus" | USquare => "Square" | UExp => "Exp" | ULog => "Log" | UInv => "Inv" | USin => "Sin"
  | UCos => "Cos" | USqrt => "Sqrt" | URsqrt => "Rsqrt" | UAbs => "Abs" | USign => "Sign" | UStep => "Step"
  | UReLU => "ReLU" | UXLogX => "XLogX" | USinXDivX => "SinXDivX" | UAsin => "Asin" | UAcos => "Acos"
  | UAtan => "Atan" | UFloor => "Floor" | UPow _ => "Pow" | UClampInt _ _ => "ClampInt"
  | UDiffClampInt _ _ => "DiffClampInt"
  end.
Definition bin_id (b : binop) : string :=
  match b with
  | BAdd => "Add" | BSub => "Subtract" | BMult => "Mult" | BDiv => "Divide" | BAtan2 => "Atan2" | BPowf => "Powf"
  | BEqual => "Equal" | BNotEqual => "NotEqual" | BLess => "LessThan" | BLessEq => "LessOrEqual"
  end.
Definition ter_id (t : terop) : string := match t with TIfElse => "IfElse" | TClamp => "Clamp" | TMod => "Mod" end.
Definition lin_id (l : linop) : string :=
  match l with
  | LSum => "Sum" | LSumT _ => "SumT" | LElem _ => "Elem" | LElemT _ _ => "ElemT" | LExtract _ _ => "Extract"
  | LExtractT _ _ => "ExtractT"
  end.
Definition bil_id (b : bilop) : string :=
  match b with KScal => "Scalprod" | KMatVec => "MatVecMult" | KVecMat => "VecMatMult" | KTensorProd => "TensorProd" end.
Definition sel_id (s : selop) : string :=
  match s with SMax => "Max" | SMin => "Min" | SArgMax => "ArgMax" | SArgMin => "ArgMin" | SOneHot _ => "OneHot" end.

(** [params], the keyword of Operation.__init__. *)
Definition un_params (u : unop) : list Z :=
  match u with UPow m => [m] | UClampInt a b | UDiffClampInt a b => [a; b] | _ => [] end.
Definition lin_params (l : linop) : list Z :=
  match l with
  | LSum => [] | LSumT d => [Z.of_nat d] | LElem m => [Z.of_nat m]
  | LElemT a b | LExtract a b | LExtractT a b => [Z.of_nat a; Z.of_nat b]
  end.
Definition sel_params (s : selop) : list Z := match s with SOneHot d => [Z.of_nat d] | _ => [] end.

(** Lines 9-34: what comes before, between and after. *)
Definition around (sp : option (mode * nat)) (id : string) : string * string * string :=
  match sp with
  | Some (Pre s, _) => (s, ",", "")
  | Some (Mid s, _) => ("", s, "")
  | Some (Post s, _) => ("", ",", s)
  | Some (Brackets a b, _) => (a, ",", b)
  | Some (Item a b, _) => ("", a, b)
  | None => (id ++ "(", ",", ")")
  end.

(** Lines 36-44: a child is put between parentheses when both nodes have levels and its level is not below. *)
Definition wrapped (sp : option (mode * nat)) (child : option (mode * nat) * string) : string :=
  match fst child, sp with
  | Some (_, c), Some (_, p) => if Nat.leb p c then "(" ++ snd child ++ ")" else snd child
  | _, _ => snd child
  end.

(** Lines 35-50: the children, separated; then the parameters, each after a separator unless it comes first. *)
Definition layout (sp : option (mode * nat)) (id : string) (children : list (option (mode * nat) * string))
    (params : list Z) : string :=
  let '(pre, mid, post) := around sp id in
  pre ++ String.concat mid (map (wrapped sp) children)
  ++ match children with
     | [] => String.concat mid (map str_int params)
     | _ => String.concat "" (map (fun p => mid ++ str_int p) params)
     end
  ++ post.

Fixpoint printed (f : fm) : string :=
  let node := layout (print_spec f) in
  let child g := (print_spec g, printed g) in
  match f with
  | Var i d c => node "Var" [] [i; Z.of_nat d; Z.of_nat c]
  | Zero d => node "Zero" [] [Z.of_nat d]
  | Int z => node "IntCst" [] [z]
  | Rat p q => str_int p ++ "/" ++ str_int q
  | Un u g => node (un_id u) [child g] (un_params u)
  | Bin b g h => node (bin_id b) [child g; child h] []
  | Ter t g h k => node (ter_id t) [child g; child h; child k] []
  | Lin l g => node (lin_id l) [child g] (lin_params l)
  | Bil b g h => node (bil_id b) [child g; child h] []
  | Cat g h => node "Concat" [child g; child h] []
  | Sel s g => node (sel_id s) [child g] (sel_params s)
  end.
