(** Specification of derivatives of formulas, independent of DiffT.

    [moved i H e t] is the point e with the variable of index i moved by t times the
    direction H.  [smooth e f] collects, for each operation occurring in f, the points
    where the scalar function is differentiable (and where the derivative formula written
    in the code is defined: SinXDivX at 0, and Clamp with equal bounds, are left out). *)

From Coq Require Import ZArith Reals.
From Verif Require Import Formula.
Local Open Scope R_scope.

Definition moved (i : Z) (H : nat -> R) (e : env) (t : R) : env :=
  fun j k => if Z.eqb j i then e j k + t * H k else e j k.

Definition is_integer (x : R) : Prop := exists z, x = IZR z.

Definition un_smooth (u : unop) (x : R) : Prop :=
  match u with
  | ULog | USqrt | URsqrt | UXLogX => 0 < x
  | UInv | UAbs | USign | UStep | UReLU | USinXDivX => x <> 0
  | UAsin | UAcos => -1 < x < 1
  | UFloor => ~ is_integer x
  | UPow m => (0 <= m)%Z \/ x <> 0
  | UClampInt a b | UDiffClampInt a b => x <> IZR a /\ x <> IZR b
  | UMinus | USquare | UExp | USin | UCos | UAtan => True
  end.

Definition bin_smooth (b : binop) (x y : R) : Prop :=
  match b with
  | BAdd | BSub | BMult => True
  | BDiv => y <> 0
  | BAtan2 => 0 < y \/ x <> 0
  | BPowf => 0 < x
  | BEqual | BNotEqual | BLess | BLessEq => x <> y
  end.

Definition ter_smooth (t : terop) (x a b : R) : Prop :=
  match t with
  | TIfElse => x <> 0
  | TClamp => a < b /\ x <> a /\ x <> b
  | TMod => a <> 0 /\ ~ is_integer ((x - b) / a)
  end.

(** Entry m is strictly better than all others. *)
Definition strict_best (lt : R -> R -> Prop) (d : nat) (v : nat -> R) : Prop :=
  exists m, (m < d)%nat /\ forall k, (k < d)%nat -> k <> m -> lt (v k) (v m).

Definition sel_smooth (s : selop) (d : nat) (v : nat -> R) : Prop :=
  match s with
  | SMax | SArgMax => strict_best Rlt d v
  | SMin | SArgMin => strict_best Rgt d v
  | SOneHot n => (0 <= Rtrunc (v O + / 2) < Z.of_nat n)%Z /\ ~ is_integer (v O + / 2)
  end.

Definition smooth_doms : doms :=
  {| dun := un_smooth; dbin := bin_smooth; dter := ter_smooth; dsel := sel_smooth |}.

Definition smooth (e : env) (f : fm) : Prop := inside smooth_doms e f.

(** Inner product of the first n entries. *)
Fixpoint inner (n : nat) (u v : nat -> R) : R :=
  match n with O => 0 | S m => inner m u v + u m * v m end.

(** [h] computes the adjoint derivative of [f] with respect to the variable v, applied to
    the vector computed by [g]:
    d/dt <g, f(v + t H)> at t = 0 equals <h, H>, for every direction H. *)
Definition adjoint_derivative (f : fm) (i : Z) (d : nat) (g h : fm) : Prop :=
  dim h = d /\
  forall e, smooth e f -> safe e g ->
    safe e h /\
    forall H : nat -> R,
      derivable_pt_lim (fun t => inner (dim f) (eval g e) (eval f (moved i H e t))) 0
        (inner d (eval h e) H).

(** All occurrences of the variable of index i have the same dimension and category. *)
Fixpoint consistent (i : Z) (d c : nat) (f : fm) : Prop :=
  match f with
  | Var j d' c' => j = i -> d' = d /\ c' = c
  | Zero _ | Int _ | Rat _ _ => True
  | Un _ f => consistent i d c f
  | Bin _ f g => consistent i d c f /\ consistent i d c g
  | Ter _ f g h => consistent i d c f /\ consistent i d c g /\ consistent i d c h
  | Lin _ f => consistent i d c f
  | Bil _ f g => consistent i d c f /\ consistent i d c g
  | Cat f g => consistent i d c f /\ consistent i d c g
  | Sel _ f => consistent i d c f
  end.

(** Shapes for which the derivative rules of the code are right: no scalar/vector mix in
    Atan2 and Powf, scalar condition and equal branches in IfElse. *)
Fixpoint unmixed (f : fm) : Prop :=
  match f with
  | Var _ _ _ | Zero _ | Int _ | Rat _ _ => True
  | Un _ f => unmixed f
  | Bin b f g => match b with BAtan2 | BPowf => dim f = dim g | _ => True end /\
                 unmixed f /\ unmixed g
  | Ter t f g h => match t with TIfElse => dim f = 1%nat /\ dim g = dim h | _ => True end /\
                   unmixed f /\ unmixed g /\ unmixed h
  | Lin _ f => unmixed f
  | Bil _ f g => unmixed f /\ unmixed g
  | Cat f g => unmixed f /\ unmixed g
  | Sel _ f => unmixed f
  end.
