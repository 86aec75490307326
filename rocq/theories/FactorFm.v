(** Formulas of Formula.v as trees of Factor.v: what [Factorize] and [AutoFactorize] see.

    A value is an array with its dimension, as the c_array objects of the generated code
    (keopscore/keopscore/utils/code_gen_utils.py, class c_array). *)

From Coq Require Import ZArith Reals List Bool.
From Verif Require Import Formula Factor.
Import ListNotations.
Local Open Scope nat_scope.

(** The classes, with their parameters. *)
Inductive fop :=
| OZero (d : nat) | OInt (z : Z) | ORat (p q : Z)
| OUn (u : unop) | OBin (b : binop) | OTer (t : terop) | OLin (l : linop) | OBil (b : bilop)
| OCat | OSel (s : selop).

Definition fop_eq_dec : forall a b : fop, {a = b} + {a <> b}.
Proof. repeat decide equality. Defined.

(** The types that Factorize leaves alone, besides Var (Factorize.py line 96). *)
Definition flight (o : fop) : bool := match o with OZero _ | OInt _ => true | _ => false end.

(** The attribute [dim], as in [Formula.dim]. *)
Definition fodim (o : fop) (ds : list nat) : nat :=
  match o, ds with
  | OZero d, _ => d
  | OInt _, _ | ORat _ _, _ => 1
  | OUn _, [a] => a
  | OBin _, [a; b] => max a b
  | OTer _, [a; b; c] => max (max a b) c
  | OLin l, _ =>
      match l with
      | LSum => 1 | LSumT d => d | LElem _ => 1 | LElemT n _ => n | LExtract _ d => d | LExtractT _ d => d
      end
  | OBil b, [x; y] => match b with KScal => 1 | KMatVec => x / y | KVecMat => y / x | KTensorProd => x * y end
  | OCat, [a; b] => a + b
  | OSel s, _ => match s with SOneHot d => d | _ => 1 end
  | _, _ => 0
  end.

Definition arrayv := (nat * (nat -> R))%type.

(** The code of [Op] on arrays, as in [Formula.eval]. *)
Definition fosem (o : fop) (l : list arrayv) : arrayv :=
  (fodim o (map fst l),
   match o, map snd l, map fst l with
   | OZero _, _, _ => fun _ => 0%R
   | OInt z, _, _ => fun _ => IZR z
   | ORat p q, _, _ => fun _ => (IZR p / IZR q)%R
   | OUn u, [v], _ => fun k => unR u (v k)
   | OBin b, [v; w], [m; n] => fun k => binR b (bcv m v k) (bcv n w k)
   | OTer t, [v; w; x], [m; n; p] => fun k => terR t (bcv m v k) (bcv n w k) (bcv p x k)
   | OLin l, [v], [m] => fun k => linR l m v k
   | OBil b, [v; w], [m; n] => fun k => bilR b m n v w k
   | OCat, [v; w], [m; n] => fun k => if Nat.ltb k m then v k else w (k - m)
   | OSel s, [v], [m] => fun k => selR s m v k
   | _, _, _ => fun _ => 0%R
   end).

Fixpoint embed (f : fm) : tree fop :=
  match f with
  | Var i d c => Leaf fop (V i d c)
  | Zero d => Node fop (OZero d) []
  | Int z => Node fop (OInt z) []
  | Rat p q => Node fop (ORat p q) []
  | Un u f => Node fop (OUn u) [embed f]
  | Bin b f g => Node fop (OBin b) [embed f; embed g]
  | Ter t f g h => Node fop (OTer t) [embed f; embed g; embed h]
  | Lin l f => Node fop (OLin l) [embed f]
  | Bil b f g => Node fop (OBil b) [embed f; embed g]
  | Cat f g => Node fop OCat [embed f; embed g]
  | Sel s f => Node fop (OSel s) [embed f]
  end.

(** The calls, for formulas. *)
Definition factorize_fm := factorize fop fop_eq_dec fodim flight.
Definition auto_factorize_fm := auto_factorize fop fop_eq_dec fodim flight.
Definition call_fm := call fop fop_eq_dec arrayv fosem.

(** DiffT of Factorize_Impl (Factorize.py lines 75-79) differentiates this formula. *)
Definition unfactored (op : Type) (eqd : forall a b : op, {a = b} + {a <> b}) (t : tree op) : tree op :=
  match t with Fact _ f g v => replace op eqd f (Leaf op v) g | _ => t end.
