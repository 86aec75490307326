(** * Meaning of the generated code.

    A memory is the stack of the variables in scope, innermost first; the cells of a new array are
    not initialised.  [None] is undefined behaviour: reading a cell that is not initialised, or
    reading or writing outside an array, or using a name that is not declared or not of the right
    kind.  It is also the result of an operation or of a function of the library applied outside its
    domain (division by 0, [log] of a number that is not positive, ...), where the code gives nan or
    inf.  Infinities, and nan, come from the constants of the reductions: sums, differences,
    products, comparisons and [exp] are defined for them.

    The indices of the loops of the kernel are in memory, as other variables; the value of a
    pointer [(p+x*d)] is given by the environment [rho], where only these loops put values. *)

From Coq Require Import ZArith Reals List Bool String.
From Verif Require Import Formula XReal CodeGen.
Import ListNotations.
Local Open Scope nat_scope.

Inductive obj := OArr (c : list (option xr)) | OInt (n : nat) | OFlt (x : option xr).
Definition mem := list (string * obj).

Fixpoint get (x : string) (m : mem) : option obj :=
  match m with
  | [] => None
  | (y, o) :: m => if String.eqb x y then Some o else get x m
  end.
Fixpoint put (x : string) (o : obj) (m : mem) : mem :=
  match m with
  | [] => []
  | (y, p) :: m => if String.eqb x y then (y, o) :: m else (y, p) :: put x o m
  end.

(** Leaving a block: what was declared in it disappears. *)
Definition leave (m m' : mem) : mem := skipn (List.length m' - List.length m) m'.

(** Values of the indices of the loops of the kernel. *)
Definition indices := string -> nat.
Definition set_index (rho : indices) (x : string) (i : nat) : indices :=
  fun y => if String.eqb y x then i else rho y.

Fixpoint base (p : ptr) : string := match p with PName x => x | PAdd p _ | PVar p _ _ => base p end.
Fixpoint off (rho : indices) (p : ptr) : nat :=
  match p with PName _ => 0 | PAdd p k => off rho p + k | PVar p x d => off rho p + rho x * d end.

Definition read (rho : indices) (m : mem) (p : ptr) (i : nat) : option xr :=
  match get (base p) m with
  | Some (OArr c) => match nth_error c (off rho p + i) with Some o => o | None => None end
  | _ => None
  end.

Fixpoint set_nth {A} (l : list A) (i : nat) (x : A) : list A :=
  match l, i with
  | [], _ => []
  | _ :: l, 0 => x :: l
  | y :: l, S i => y :: set_nth l i x
  end.
Definition write (rho : indices) (m : mem) (p : ptr) (i : nat) (v : xr) : option mem :=
  match get (base p) m with
  | Some (OArr c) =>
      if off rho p + i <? List.length c
      then Some (put (base p) (OArr (set_nth c (off rho p + i) (Some v))) m)
      else None
  | _ => None
  end.

Definition obind {A B} (o : option A) (k : A -> option B) : option B :=
  match o with Some x => k x | None => None end.
Notation "'let?' x := o 'in' k" := (obind o (fun x => k)) (at level 200, x name, o at level 100, k at level 200).

Fixpoint ieval (m : mem) (i : iexpr) : option nat :=
  match i with
  | IConst n => Some n
  | IVar x => match get x m with Some (OInt n) => Some n | _ => None end
  | IAdd a b => let? x := ieval m a in let? y := ieval m b in Some (x + y)
  | IMul a b => let? x := ieval m a in let? y := ieval m b in Some (x * y)
  | IMod a b => let? x := ieval m a in let? y := ieval m b in if y =? 0 then None else Some (x mod y)
  | ISqrt a => let? x := ieval m a in Some (Nat.sqrt x)
  | ICond a b u v =>
      let? x := ieval m a in let? y := ieval m b in if x <? y then ieval m u else ieval m v
  end.

Local Open Scope R_scope.

Definition prim1R (f : prim1) (x : R) : R :=
  match f with
  | Fexp => exp x | Flog => ln x | Fsin => sin x | Fcos => cos x | Fsqrt => sqrt x | Fabs => Rabs x
  | Fasin => asin x | Facos => acos x | Fatan => atan x | Ffloor => Rfloor x
  end.
Definition prim2R (f : prim2) (x y : R) : R :=
  match f with Fatan2 => Ratan2 x y | Fpowf => Rpower x y end.
(** Domains. *)
Definition dom1 (f : prim1) (x : R) : bool :=
  match f with
  | Flog => if Rlt_dec 0 x then true else false
  | Fsqrt => if Rle_dec 0 x then true else false
  | Fasin | Facos => if Rle_dec (-1) x then if Rle_dec x 1 then true else false else false
  | _ => true
  end.
Definition dom2 (f : prim2) (x y : R) : bool :=
  match f with Fatan2 => true | Fpowf => if Rlt_dec 0 x then true else false end.
(** Comparisons of C++, false when an operand is nan, except [!=]. *)
Definition xleb (x y : xr) : bool :=
  match x, y with
  | NaN, _ | _, NaN => false
  | Fin a, Fin b => if Rle_dec a b then true else false
  | NInf, _ | _, PInf => true
  | _, _ => false
  end.
Definition xeqb (x y : xr) : bool :=
  match x, y with
  | Fin a, Fin b => if Req_EM_T a b then true else false
  | PInf, PInf | NInf, NInf => true
  | _, _ => false
  end.
Definition compare (c : cmp) (x y : xr) : bool :=
  match c with
  | CLt => xltb x y
  | CGt => xltb y x
  | CLe => xleb x y
  | CGe => xleb y x
  | CEq => xeqb x y
  | CNe => negb (xeqb x y)
  end.

Definition fin1 (x : xr) (k : R -> option R) : option xr :=
  match x with Fin r => let? v := k r in Some (Fin v) | _ => None end.
Definition fin2 (x y : xr) (k : R -> R -> option R) : option xr :=
  match x, y with Fin r, Fin s => let? v := k r s in Some (Fin v) | _, _ => None end.

Fixpoint ceval (rho : indices) (m : mem) (e : cexpr) : option xr :=
  match e with
  | EZ z => Some (Fin (IZR z))
  | EQ p q => if (q =? 0)%Z then None else Some (Fin (IZR p / IZR q))
  | EInf neg => Some (if neg then NInf else PInf)
  | EVar x => match get x m with Some (OFlt v) => v | _ => None end
  | EInt i => let? n := ieval m i in Some (Fin (INR n))
  | EAt p i => let? n := ieval m i in read rho m p n
  | ENeg a => let? x := ceval rho m a in Some (xopp x)
  | EAdd a b => let? x := ceval rho m a in let? y := ceval rho m b in Some (xadd x y)
  | ESub a b => let? x := ceval rho m a in let? y := ceval rho m b in Some (xsub x y)
  | EMul a b => let? x := ceval rho m a in let? y := ceval rho m b in Some (xmul x y)
  | EDiv a b => let? x := ceval rho m a in let? y := ceval rho m b in
      fin2 x y (fun x y => if Req_EM_T y 0 then None else Some (x / y))
  | EFun1 Fexp a => let? x := ceval rho m a in Some (xexp x)
  | EFun1 f a => let? x := ceval rho m a in
      fin1 x (fun x => if dom1 f x then Some (prim1R f x) else None)
  | EFun2 f a b => let? x := ceval rho m a in let? y := ceval rho m b in
      fin2 x y (fun x y => if dom2 f x y then Some (prim2R f x y) else None)
  | EPow a k => let? x := ceval rho m a in
      fin1 x (fun x => if ((0 <=? k)%Z || (if Req_EM_T x 0 then false else true))%bool
                       then Some (powerRZ x k) else None)
  | EFma a b c =>
      let? x := ceval rho m a in let? y := ceval rho m b in let? z := ceval rho m c in
      Some (xadd (xmul x y) z)
  | ECond c a b u v =>
      let? x := ceval rho m a in let? y := ceval rho m b in
      if compare c x y then ceval rho m u else ceval rho m v
  end.

Local Open Scope nat_scope.

(** [for (int x = i; ...; x += 1)], [n] iterations. *)
Fixpoint loop (body : mem -> option mem) (x : string) (n i : nat) (m : mem) : option mem :=
  match n with
  | O => Some m
  | S n =>
      match body ((x, OInt i) :: m) with
      | Some m' => loop body x n (S i) (leave m m')
      | None => None
      end
  end.

(** A loop of the kernel; [l] lists the values of the index in the order of the iterations. *)
Fixpoint each (body : nat -> mem -> option mem) (x : string) (l : list nat) (m : mem) : option mem :=
  match l with
  | [] => Some m
  | i :: l =>
      match body i ((x, OInt i) :: m) with
      | Some m' => each body x l (leave m m')
      | None => None
      end
  end.

Fixpoint exec (rho : indices) (s : stmt) (m : mem) {struct s} : option mem :=
  match s with
  | SSkip => Some m
  | SSeq s t => let? m := exec rho s m in exec rho t m
  | SBlock s => let? m' := exec rho s m in Some (leave m m')
  | SArr x d => Some ((x, OArr (repeat None d)) :: m)
  | SInt x n => Some ((x, OInt n) :: m)
  | SIntE x e => let? n := ieval m e in Some ((x, OInt n) :: m)
  | SDecl x => Some ((x, OFlt None) :: m)
  | SFloat x a => let? v := ceval rho m a in Some ((x, OFlt (Some v)) :: m)
  | SSet p i a => let? v := ceval rho m a in let? n := ieval m i in write rho m p n v
  | SSetAt p i a =>
      let? v := ceval rho m a in let? r := ceval rho m i in
      match r with
      | Fin r => let z := Rtrunc r in
          if (z <? 0)%Z then None else write rho m p (Z.to_nat z) v
      | _ => None
      end
  | SAdd p i a =>
      let? v := ceval rho m a in let? n := ieval m i in let? old := read rho m p n in
      write rho m p n (xadd old v)
  | SVar x a =>
      let? v := ceval rho m a in
      match get x m with Some (OFlt _) => Some (put x (OFlt (Some v)) m) | _ => None end
  | SIncr x n => match get x m with Some (OInt k) => Some (put x (OInt (k + n)) m) | _ => None end
  | SFor x a b s => loop (exec rho s) x (b - a) a m
  | SForVar x y s =>
      match get y m with
      | Some (OInt n) => each (fun i => exec (set_index rho x i) s) x (seq 0 n) m
      | _ => None
      end
  | SIf c a b s =>
      let? x := ceval rho m a in let? y := ceval rho m b in
      if compare c x y then let? m' := exec rho s m in Some (leave m m') else Some m
  | SIfElse c a b s t =>
      let? x := ceval rho m a in let? y := ceval rho m b in
      let? m' := (if compare c x y then exec rho s m else exec rho t m) in Some (leave m m')
  end.
