(** Building a whole expression.

    A user writes an expression with the operators and functions of the formula language;
    Python evaluates it bottom-up, so that each node is produced by the corresponding
    function (with its simplification rules) or class constructor.  [build] performs this
    on the tree [f] of the expression as written.

    Models the operator overloads of keopscore/keopscore/formulas/Operation.py 106-190
    and [eval] of a formula string in formulas/GetReduction.py 11-34.  Operations without a
    simplifying function are class constructors: the result is the node itself, if the
    checks of __init__ pass ([mk]). *)

From Coq Require Import ZArith List Bool.
From Verif Require Import Result Formula Simplify.

Definition build_un (u : unop) (f : fm) : res fm :=
  match u with
  | UMinus => Minus f
  | USquare => Square f
  | UExp => Exp f
  | UPow m => Pow f m
  | _ => mk (Un u f)
  end.

Definition build_bin (b : binop) (f g : fm) : res fm :=
  match b with
  | BAdd => Add f g
  | BSub => Subtract f g
  | BMult => Mult f g
  | BDiv => Divide f g
  | _ => mk (Bin b f g)
  end.

Definition build_lin (l : linop) (f : fm) : res fm :=
  match l with
  | LSum => Sum f
  | LSumT d => SumT f d
  | _ => mk (Lin l f)
  end.

Definition build_bil (b : bilop) (f g : fm) : res fm :=
  match b with
  | KScal => Scalprod f g
  | _ => mk (Bil b f g)
  end.

Fixpoint build (f : fm) : res fm :=
  match f with
  | Var _ _ _ | Zero _ => mk f
  | Int z => Ok (IntCst z)
  | Rat p q => RatCst p q
  | Un u f => do x <- build f; build_un u x
  | Bin b f g => do x <- build f; do y <- build g; build_bin b x y
  | Ter t f g h => do x <- build f; do y <- build g; do z <- build h; mk (Ter t x y z)
  | Lin l f => do x <- build f; build_lin l x
  | Bil b f g => do x <- build f; do y <- build g; build_bil b x y
  | Cat f g => do x <- build f; do y <- build g; mk (Cat x y)
  | Sel s f => do x <- build f; mk (Sel s x)
  end.
