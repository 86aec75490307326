(** Specification of forward derivatives, divergences and traces, independent of the operators of the code. *)

From Coq Require Import ZArith Reals.
From Verif Require Import Formula GradSpec.
Local Open Scope R_scope.

(** The point e with the variable of index i replaced by the vector x. *)
Definition upd (i : Z) (x : nat -> R) (e : env) : env := fun j => if Z.eqb j i then x else e j.

(** Basis vectors. *)
Definition basis (k : nat) : nat -> R := fun l => if Nat.eqb l k then 1 else 0.

(** Sum of the first n entries. *)
Fixpoint total (n : nat) (v : nat -> R) : R := match n with O => 0 | S m => total m v + v m end.

(** Entry k of the value of f, a formula of dimension 1 being read as a constant vector. *)
Definition entry (f : fm) (e : env) (k : nat) : R := eval f e (if Nat.eqb (dim f) 1 then O else k).

(** The value of f, as a function of the variable of index i, is linear. *)
Definition linear_in (i : Z) (f : fm) : Prop :=
  forall e a b x y k, (k < dim f)%nat ->
    eval f (upd i (fun l => a * x l + b * y l) e) k
    = a * eval f (upd i x e) k + b * eval f (upd i y e) k.

(** The trace of the linear map x |-> f(x), with weights w on the rows. *)
Definition weighted_trace (i : Z) (d : nat) (f w : fm) (e : env) : R :=
  total d (fun k => entry w e k * entry f (upd i (basis k) e) k).

(** The sum of all coefficients of the map, with weights on rows and columns. *)
Definition weighted_sum (i : Z) (d : nat) (f wl wr : fm) (e : env) : R :=
  total (dim f) (fun k => total d (fun j =>
    entry wl e k * entry f (upd i (basis j) e) k * entry wr e j)).

(** The variable of index i occurs in f. *)
Fixpoint occurs (i : Z) (f : fm) : bool :=
  match f with
  | Var j _ _ => Z.eqb j i
  | Zero _ | Int _ | Rat _ _ => false
  | Un _ a | Lin _ a | Sel _ a => occurs i a
  | Bin _ a b | Bil _ a b | Cat a b => (occurs i a || occurs i b)%bool
  | Ter _ a b c => (occurs i a || occurs i b || occurs i c)%bool
  end.

(** Degree of f in the variable of index i, when f is a polynomial in it; other operations count double, so
    that degree at most 1 means an affine dependency that can be read off the tree. *)
Fixpoint degree (i : Z) (f : fm) : nat :=
  match f with
  | Var j _ _ => if Z.eqb j i then 1 else 0
  | Zero _ | Int _ | Rat _ _ => 0
  | Un UMinus a => degree i a
  | Un _ a => 2 * degree i a
  | Bin (BAdd | BSub) a b => max (degree i a) (degree i b)
  | Bin BMult a b => degree i a + degree i b
  | Bin BDiv a b => degree i a + 2 * degree i b
  | Bin _ a b => 2 * (degree i a + degree i b)
  | Ter TIfElse c a b => 2 * degree i c + max (degree i a) (degree i b)
  | Ter _ a b c => 2 * (degree i a + degree i b + degree i c)
  | Lin _ a => degree i a
  | Bil _ a b => degree i a + degree i b
  | Cat a b => max (degree i a) (degree i b)
  | Sel _ a => 2 * degree i a
  end.

(** Number of sums over components (Sum, Scalprod) of terms containing the variable of index i that are
    nested in each other. *)
Fixpoint sum_depth (i : Z) (f : fm) : nat :=
  match f with
  | Var _ _ _ | Zero _ | Int _ | Rat _ _ => 0
  | Lin LSum a => if occurs i a then S (sum_depth i a) else O
  | Bil KScal a b => if (occurs i a || occurs i b)%bool then S (max (sum_depth i a) (sum_depth i b)) else O
  | Un _ a | Lin _ a | Sel _ a => sum_depth i a
  | Bin _ a b | Bil _ a b | Cat a b => max (sum_depth i a) (sum_depth i b)
  | Ter _ a b c => max (sum_depth i a) (max (sum_depth i b) (sum_depth i c))
  end.

(** [D] is the derivative at e of entry k of f along the direction H of the variable of index i. *)
Definition directional (f : fm) (i : Z) (H : nat -> R) (e : env) (k : nat) (D : R) : Prop :=
  derivable_pt_lim (fun t => eval f (moved i H e t) k) 0 D.

(** [D] is the divergence of f at e with respect to the variable of index i, of dimension d. *)
Definition is_divergence (f : fm) (i : Z) (d : nat) (e : env) (D : R) : Prop :=
  exists p : nat -> R, (forall k, (k < d)%nat -> directional f i (basis k) e k (p k)) /\ D = total d p.

(** [D] is the Laplacian at e of the function F of the point: the sum of the second derivatives of F along
    the basis directions; [G k t] is the first derivative along direction k, at distance t. *)
Definition is_laplacian (F : env -> R) (i : Z) (d : nat) (e : env) (D : R) : Prop :=
  exists (eps : R) (G : nat -> R -> R) (p : nat -> R), 0 < eps /\
    (forall k t, (k < d)%nat -> Rabs t < eps ->
       derivable_pt_lim (fun s => F (moved i (basis k) e s)) t (G k t)) /\
    (forall k, (k < d)%nat -> derivable_pt_lim (G k) 0 (p k)) /\
    D = total d p.
