(** Specification of the complex operations: complex numbers as pairs of reals, independent of the model. *)

From Coq Require Import ZArith Reals List Bool Arith.
From Verif Require Import Result Formula GradSpec Complex.
Import ListNotations.
Local Open Scope R_scope.

(** ** Complex numbers *)

Definition cx := (R * R)%type.
Definition c_add (x y : cx) : cx := (fst x + fst y, snd x + snd y).
Definition c_sub (x y : cx) : cx := (fst x - fst y, snd x - snd y).
Definition c_mul (x y : cx) : cx := (fst x * fst y - snd x * snd y, fst x * snd y + snd x * fst y).
Definition c_conj (x : cx) : cx := (fst x, - snd x).
Definition c_exp (x : cx) : cx := (exp (fst x) * cos (snd x), exp (fst x) * sin (snd x)).
Definition c_abs (x : cx) : R := sqrt (fst x ^ 2 + snd x ^ 2).
Definition c_sum (l : list cx) : cx := fold_right c_add (0, 0) l.
Definition c_i : cx := (0, 1).
Definition c_real (r : R) : cx := (r, 0).

(** ** What a LazyTensor shows to its user *)

(** Number of entries, and entry number q at a point. *)
Definition count (t : lt) : nat := if lcx t then Nat.div (cdim (lf t)) 2 else cdim (lf t).
Definition entry (t : lt) (e : env) (q : nat) : cx :=
  if lcx t then (ceval (lf t) e (2 * q)%nat, ceval (lf t) e (2 * q + 1)%nat) else c_real (ceval (lf t) e q).
(** Entry read by an operation with n entries: a single entry is repeated. *)
Definition spread (n : nat) (t : lt) (e : env) (q : nat) : cx :=
  entry t e (if Nat.eqb (count t) n then q else 0%nat).

(** Entries of what an operator returns; numbers have the same value everywhere. *)
Definition shown (o : operand) (e : env) (q : nat) : cx :=
  match o with OT t => entry t e q | ON r => c_real r | OC a b => (a, b) end.

(** ** Well-formed formulas *)

(** Each operation has passed the checks of its constructor. *)
Fixpoint cwf (f : cf) : Prop :=
  match f with
  | CVar _ _ | CZero _ | CCst _ | CPar _ => True
  | CUn o f => un_ok o (cdim f) = true /\ cwf f /\ match o with KSumT d => Nat.even d = true | _ => True end
  | CBin o f g => bin_ok o (cdim f) (cdim g) = true /\ cwf f /\ cwf g
  end.

(** A LazyTensor: its formula is well formed, it has an entry, and a complex one has an even dimension. *)
Definition lwf (t : lt) : Prop :=
  cwf (lf t) /\ (1 <= count t)%nat /\ (lcx t = true -> Nat.even (cdim (lf t)) = true).

(** [r] is a LazyTensor with n entries, complex or not, with these values. *)
Definition gives (r : res operand) (c : bool) (n : nat) (val : env -> nat -> cx) : Prop :=
  exists v, r = Ok (OT v) /\ lcx v = c /\ lwf v /\ count v = n /\ forall e q, (q < n)%nat -> entry v e q = val e q.

(** ** Derivatives *)

(** Operations on reals are used inside their domain; [P] says which. *)
Fixpoint c_inside (P : unop -> R -> Prop) (e : env) (f : cf) : Prop :=
  match f with
  | CVar _ _ | CZero _ | CCst _ | CPar _ => True
  | CUn o f => c_inside P e f /\
      match o with RUn u => forall k, (k < cdim f)%nat -> P u (ceval f e k) | _ => True end
  | CBin _ f g => c_inside P e f /\ c_inside P e g
  end.
Definition c_safe := c_inside unDom.
Definition c_smooth := c_inside un_smooth.

(** All occurrences of the variable i have dimension d. *)
Fixpoint c_consistent (i : Z) (d : nat) (f : cf) : Prop :=
  match f with
  | CVar j d' => j = i -> d' = d
  | CZero _ | CCst _ | CPar _ => True
  | CUn _ f => c_consistent i d f
  | CBin _ f g => c_consistent i d f /\ c_consistent i d g
  end.

(** d/dt <g, f(v + t H)> at 0 is <h, H> for every direction H; the inner product of vectors of complex numbers is
    the real part of the Hermitian one. *)
Definition c_adjoint (f : cf) (i : Z) (d : nat) (g h : cf) : Prop :=
  cdim h = d /\
  forall e, c_smooth e f -> c_safe e g ->
    c_safe e h /\
    forall H : nat -> R,
      derivable_pt_lim (fun t => inner (cdim f) (ceval g e) (ceval f (moved i H e t))) 0
        (inner d (ceval h e) H).

(** The formulas whose gradient the model covers: positive dimensions, real operations with a derivative in
    [cder], real sums and products of vectors of the same dimension. *)
Fixpoint covered (f : cf) : Prop :=
  match f with
  | CVar _ d | CZero d => (1 <= d)%nat
  | CCst _ => True
  | CPar l => (1 <= List.length l)%nat
  | CUn o f => covered f /\
      match o with
      | RUn u => match u with UMinus | USquare | UExp | USin | UCos | UInv | USqrt | URsqrt => True | _ => False end
      | KSumT d => (1 <= d)%nat
      | _ => True
      end
  | CBin o f g => covered f /\ covered g /\
      match o with RAdd | RMult => cdim f = cdim g | _ => True end
  end.

(** ** Lists of constants *)

(** The number read in a Python object. *)
Definition number_of (x : pynum) : option cx :=
  match x with PNone => None | PFloat r => Some (r, 0) | PComplex a b => Some (a, b) end.
(** The powers of two. *)
Definition power_of_two (n : nat) : Prop := exists k, n = Nat.pow 2 k.
(** The numbers encoded by a list of interleaved parts. *)
Fixpoint decoded (l : list pynum) : option (list cx) :=
  match l with
  | [] => Some []
  | PFloat a :: PFloat b :: l => option_map (cons (a, b)) (decoded l)
  | _ => None
  end.
