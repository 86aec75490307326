(** Specification of the functions of the R interface: the numbers that they stand for. *)

From Coq Require Import ZArith Reals List Bool String.
From Verif Require Import Formula RKeops RLazy RLazySpec RMethods.
Local Open Scope nat_scope.

(** The number of coordinates. *)
Definition cols (v : rvalue) : nat := match v with Vector n _ => n | Matrix _ m _ => m end.
Fixpoint size (c : call) : nat :=
  match c with
  | CVar _ _ v => cols v
  | CInt _ => 1
  | CVec _ n _ => n
  | C1 f c => match f with Fsqnorm2 | Fnorm2 | Fsum => 1 | _ => size c end
  | C2 f c d =>
      match f with
      | Fdot | Fsqdist | Fwsqnorm => 1
      | Ftensorprod => size c * size d
      | Fmatvec => if Nat.eqb (size d) 1 then size c else 1
      | Fvecmat => if Nat.eqb (size c) 1 then size d else 1
      | Fpow => match d with CInt _ => size c | _ => Nat.max (size c) (size d) end
      | _ => Nat.max (size c) (size d)
      end
  | C3 f c d e => Nat.max (size c) (Nat.max (size d) (size e))
  | CElem _ _ => 1
  | CExtract _ _ d | COneHot _ d => Z.to_nat d
  end.

Open Scope R_scope.

(** Sum of [v 0], ..., [v (n-1)]. *)
Fixpoint total (n : nat) (v : nat -> R) : R := match n with O => 0 | S m => total m v + v m end.
Definition floor (x : R) : R := IZR (Int_part x).
(** The angle of the point (x,y). *)
Definition angle (y x : R) : R :=
  if Rlt_dec 0 x then atan (y / x)
  else if Rlt_dec x 0 then (if Rlt_dec y 0 then atan (y / x) - PI else atan (y / x) + PI)
  else if Rlt_dec 0 y then PI / 2 else if Rlt_dec y 0 then - (PI / 2) else 0.

(** The coordinate [k] at the rows [i] and [j]. *)
Definition coordinate (x : rindex) (v : rvalue) (i j k : nat) : R :=
  match v with
  | Vector _ f => f k
  | Matrix _ _ f => f (match x with Rj => j | _ => i end) k
  end.
(** Tensors with one coordinate are used with any other. *)
Definition spread (n : nat) (v : nat -> R) (k : nat) : R := if Nat.eqb n 1 then v O else v k.

Definition math1 (f : fun1) (n : nat) (v : nat -> R) (k : nat) : R :=
  match f with
  | Fneg => - v k
  | Fsquare => (v k) ^ 2
  | Fsqrt => sqrt (v k)
  | Frsqrt => 1 / sqrt (v k)
  | Fexp => exp (v k)
  | Flog => ln (v k)
  | Finv => 1 / v k
  | Fcos => cos (v k)
  | Fsin => sin (v k)
  | Facos => acos (v k)
  | Fasin => asin (v k)
  | Fatan => atan (v k)
  | Fabs => Rabs (v k)
  | Fsign => if Rlt_dec (v k) 0 then -1 else if Rlt_dec 0 (v k) then 1 else 0
  | Fxlogx => if Req_EM_T (v k) 0 then 0 else v k * ln (v k)
  | Fsinxdivx => if Req_EM_T (v k) 0 then 1 else sin (v k) / v k
  | Fstep => if Rlt_dec (v k) 0 then 0 else 1
  | Frelu => Rmax 0 (v k)
  | Fnormalize => v k / sqrt (total n (fun i => (v i) ^ 2))
  | Fsqnorm2 => total n (fun i => (v i) ^ 2)
  | Fnorm2 => sqrt (total n (fun i => (v i) ^ 2))
  | Fsum => total n v
  end.
Definition math2 (f : fun2) (n m : nat) (u v : nat -> R) (k : nat) : R :=
  match f with
  | Fadd => spread n u k + spread m v k
  | Fsub => spread n u k - spread m v k
  | Fmul => spread n u k * spread m v k
  | Fdiv => spread n u k / spread m v k
  | Fpow => Rpower (spread n u k) (spread m v k)
  | Fdot => total n (fun i => u i * v i)
  | Fatan2 => angle (u k) (v k)
  | Fsqdist => total (Nat.max n m) (fun i => (spread n u i - spread m v i) ^ 2)
  | Fwsqnorm =>
      if Nat.eqb m 1 then v O * total n (fun i => (u i) ^ 2)
      else if Nat.eqb m n then total n (fun i => v i * (u i) ^ 2)
      else total (n * n)%nat (fun i => v i * (u (i / n)%nat * u (i mod n)%nat))
  | Ftensorprod => u (k / m)%nat * v (k mod m)%nat
  | Fmatvec => if Nat.eqb m 1 then u k * v O else total n (fun i => u i * v i)
  | Fvecmat => if Nat.eqb n 1 then u O * v k else total m (fun i => u i * v i)
  end.
Definition math3 (f : fun3) (x a b : R) : R :=
  match f with
  | Fclamp => if Rlt_dec x a then a else if Rlt_dec b x then b else x
  | Fifelse => if Rlt_dec x 0 then b else a
  | Fmod => x - a * floor ((x - b) / a)
  end.
Fixpoint value (c : call) (i j k : nat) : R :=
  match c with
  | CVar _ x v => coordinate x v i j k
  | CInt n => IZR n
  | CVec _ _ x => x k
  | C1 f c => math1 f (size c) (value c i j) k
  | C2 f c d =>
      match f, d with
      | Fpow, CInt n => powerRZ (value c i j k) n
      | _, _ => math2 f (size c) (size d) (value c i j) (value d i j) k
      end
  | C3 f c d e => math3 f (spread (size c) (value c i j) k) (spread (size d) (value d i j) k) (spread (size e) (value e i j) k)
  | CElem c m => value c i j (Z.to_nat m)
  | CExtract c m _ => value c i j (Z.to_nat m + k)
  | COneHot c _ => if Req_EM_T (value c i j 0) (INR k) then 1 else 0
  end.

(** Where the functions are defined. *)
Definition domain1 (f : fun1) (n : nat) (v : nat -> R) (k : nat) : Prop :=
  match f with
  | Fsqrt => 0 <= v k
  | Frsqrt | Flog => 0 < v k
  | Finv => v k <> 0
  | Facos | Fasin => -1 <= v k <= 1
  | Fxlogx => 0 <= v k
  | Fnormalize => 0 < total n (fun i => (v i) ^ 2)
  | _ => True
  end.
Fixpoint defined (c : call) (i j : nat) : Prop :=
  match c with
  | CVar _ _ _ | CInt _ | CVec _ _ _ => True
  | C1 f c => defined c i j /\ forall k, (k < size c)%nat -> domain1 f (size c) (value c i j) k
  | C2 f c d =>
      defined c i j /\ defined d i j /\
      match f, d with
      | Fdiv, _ => forall k, (k < size d)%nat -> value d i j k <> 0
      | Fpow, CInt n => (0 <= n)%Z \/ forall k, (k < size c)%nat -> value c i j k <> 0
      | Fpow, _ => forall k, (k < size c)%nat -> 0 < value c i j k
      | _, _ => True
      end
  | C3 f c d e =>
      defined c i j /\ defined d i j /\ defined e i j /\
      match f with Fmod => forall k, (k < size d)%nat -> value d i j k <> 0 | _ => True end
  | CElem c _ | CExtract c _ _ => defined c i j
  | COneHot c _ => defined c i j /\ exists n, value c i j 0 = INR n
  end.

(** Weights of a norm: one for all, one for each coordinate, or a matrix. *)
Definition weights (n m : nat) : Prop := m = 1%nat \/ m = n \/ m = (n * n)%nat.
(** Slices and encodings have a coordinate; there are as many weights as needed. *)
Fixpoint not_empty (c : call) : Prop :=
  match c with
  | CVar _ _ _ | CInt _ | CVec _ _ _ => True
  | C1 _ c | CElem c _ => not_empty c
  | C2 f c d => not_empty c /\ not_empty d /\ match f with Fwsqnorm => weights (size c) (size d) | _ => True end
  | C3 _ c d e => not_empty c /\ not_empty d /\ not_empty e
  | CExtract c _ d | COneHot c d => not_empty c /\ (0 < d)%Z
  end.

(** Each variable is row [i] or row [j] of its matrix. *)
Definition rows (place : string -> rindex -> nat) (p : program) (i j : nat) (e : Formula.env) : Prop :=
  forall a x v k, In (a, x, v) (leaves p) -> (k < cols v)%nat -> e (Z.of_nat (place a x)) k = coordinate x v i j k.

(** ** The calls whose arguments fit *)

Local Open Scope nat_scope.
Definition spreads (l : list nat) : Prop := exists m, forall n, In n l -> n = 1 \/ n = m.
Definition given (c : call) : Prop := match c with CInt _ | CVec _ _ _ => True | _ => False end.
(** A matrix or a vector is used in the call. *)
Definition matrix (v : rvalue) : Prop := match v with Matrix _ _ _ => True | Vector _ _ => False end.
Definition vector (v : rvalue) : Prop := match v with Vector _ _ => True | Matrix _ _ _ => False end.
Fixpoint uses (P : rvalue -> Prop) (c : call) : Prop :=
  match c with
  | CVar _ _ v => P v
  | CInt _ | CVec _ _ _ => False
  | C1 _ c | CElem c _ | CExtract c _ _ | COneHot c _ => uses P c
  | C2 _ c d => uses P c \/ uses P d
  | C3 _ c d e => uses P c \/ uses P d \/ uses P e
  end.
Fixpoint fitting (c : call) : Prop :=
  match c with
  | CVar _ x v => 1 <= cols v /\ match x, v with RNA, Vector _ _ | Ri, Matrix _ _ _ | Rj, Matrix _ _ _ => True | _, _ => False end
  | CInt _ => True
  | CVec _ n _ => 1 <= n
  | C1 f c => fitting c /\ (given c -> f = Fnormalize \/ f = Fsqnorm2 \/ f = Fnorm2)
  | C2 f c d =>
      fitting c /\ fitting d /\
      match f with
      | Fdot | Fatan2 => size c = size d /\ ~ (given c /\ given d)
      | Fsqdist => spreads (size c :: size d :: nil)
      | Ftensorprod => ~ given c /\ ~ given d
      | Fwsqnorm => weights (size c) (size d)
      | Fmatvec => uses matrix c /\ uses vector d /\ (size d = 1 \/ size d = size c)
      | Fvecmat => uses vector c /\ uses matrix d /\ (size c = 1 \/ size c = size d)
      | _ => spreads (size c :: size d :: nil) /\ ~ (given c /\ given d)
      end
  | C3 f c d e =>
      fitting c /\ fitting d /\ fitting e /\ spreads (size c :: size d :: size e :: nil) /\
      match f with Fclamp => True | _ => ~ given c end
  | CElem c m => fitting c /\ ~ given c /\ (0 <= m < Z.of_nat (size c))%Z
  | CExtract c m d => fitting c /\ ~ given c /\ (0 <= m)%Z /\ (0 < d)%Z /\ (m + d <= Z.of_nat (size c))%Z
  | COneHot c d => (0 < d)%Z /\ exists a f, c = CVar a RNA (Vector 1 f)
  end.
