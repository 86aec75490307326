(** Formulas whose gradients, of any order, are always built. *)

From Coq Require Import ZArith.
From Verif Require Import Formula KernelSum BackText.
Local Open Scope nat_scope.

(** Not the class Zero. *)
Definition nonzero (f : fm) : Prop := match f with Zero _ => False | _ => True end.
(** None of the classes Zero, IntCst_Impl, RatCst_Impl. *)
Definition varying (f : fm) : Prop := match f with Zero _ | Int _ | Rat _ _ => False | _ => True end.

(** No rational constant, no Sqrt, Rsqrt, Asin, Acos (whose derivatives bring the constant 1/2 at some order), no
    Clamp and Mod; the formula Zero is not a denominator, nor under a logarithm; denominators are not
    constants; Sum and SumT are not of dimension 1; Atan2, Powf and IfElse do not mix dimensions. *)
Fixpoint lasting (f : fm) : Prop :=
  match f with
  | Var _ _ _ | Zero _ | Int _ => True
  | Rat _ _ => False
  | Un u f => lasting f /\
      match u with
      | USqrt | URsqrt | UAsin | UAcos => False
      | UInv | ULog | UXLogX => nonzero f
      | USinXDivX => varying f
      | _ => True
      end
  | Bin b f g => lasting f /\ lasting g /\
      match b with
      | BDiv => varying g
      | BAtan2 => dim f = dim g
      | BPowf => dim f = dim g /\ nonzero f
      | _ => True
      end
  | Ter t f g h => lasting f /\ lasting g /\ lasting h /\
      match t with TIfElse => dim f = 1 /\ dim g = dim h | _ => False end
  | Lin l f => lasting f /\ match l with LSum => dim f <> 1 | LSumT d => d <> 1 | _ => True end
  | Bil _ f g | Cat f g => lasting f /\ lasting g
  | Sel _ f => lasting f
  end.

(** The same for reductions. *)
Definition lasting_red (R : red) : Prop :=
  match R with
  | RSum r => stagI r <= 1 /\ wf (sformula r) /\ lasting (sformula r)
  | RLse F G t => t <= 1 /\ dim F = 1 /\ wf F /\ lasting F /\ wf G /\ lasting G
  | RZero d t => 1 <= d /\ t <= 1
  | ROther _ _ => False
  end.
