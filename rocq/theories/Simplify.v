(** The formula-building functions of KeOps with their simplification rules.

    Every function is transcribed rule by rule, in the order of the source.  The Python
    functions Add, Subtract, Mult and Minus call each other recursively without a
    structural argument; the model adds a fuel argument (suffix F) and returns
    [OutOfFuel] when it runs out.  Termination.v shows that the fuel used by the
    top-level definitions at the end of this file is always sufficient. *)

From Coq Require Import ZArith List Bool Lia.
From Verif Require Import Result Formula.
Import ListNotations.
Local Open Scope nat_scope.

(** ** isinstance tests *)

Definition as_zero f := match f with Zero d => Some d | _ => None end.
Definition as_int f := match f with Int z => Some z | _ => None end.
Definition as_rat f := match f with Rat p q => Some (p, q) | _ => None end.
Definition as_mult f := match f with Bin BMult a b => Some (a, b) | _ => None end.
Definition as_add f := match f with Bin BAdd a b => Some (a, b) | _ => None end.
Definition as_sub f := match f with Bin BSub a b => Some (a, b) | _ => None end.
Definition as_minus f := match f with Un UMinus a => Some a | _ => None end.
Definition as_exp f := match f with Un UExp a => Some a | _ => None end.
Definition as_sumT f := match f with Lin (LSumT d) a => Some (a, d) | _ => None end.

Definition is_int f := match as_int f with Some _ => true | None => false end.
Definition is_rat f := match as_rat f with Some _ => true | None => false end.
(** isinstance(f, (IntCst_Impl, RatCst_Impl)) *)
Definition is_cst f := is_int f || is_rat f.
Definition is_exp f := match as_exp f with Some _ => true | None => false end.

(** [rule ?? rest]: take the branch if the test succeeded, else go on. *)
Definition orelse (o : option (res fm)) (r : res fm) : res fm :=
  match o with Some x => x | None => r end.
Notation "a '??' b" := (orelse a b) (at level 90, right associativity).

(** Branch guards. *)
Definition when (c : bool) (r : res fm) : option (res fm) := if c then Some r else None.
Definition on {A} (o : option A) (k : A -> res fm) : option (res fm) :=
  match o with Some a => Some (k a) | None => None end.
Definition on' {A} (o : option A) (k : A -> option (res fm)) : option (res fm) :=
  match o with Some a => k a | None => None end.

Definition when' {A} (c : bool) (o : option A) (k : A -> option (res fm)) : option (res fm) :=
  if c then on' o k else None.

(** ** Constants and non-recursive constructors *)

(** variables/IntCst.py 30-34 *)
Definition IntCst (z : Z) : fm := if (z =? 0)%Z then Zero 1 else Int z.

(** variables/RatCst.py 31-39.  [Fraction(a,b)] normalises to lowest terms with positive
    denominator, and raises ZeroDivisionError for b = 0. *)
Definition RatCst (a b : Z) : res fm :=
  if (b =? 0)%Z then PyErr
  else
    let g := Z.gcd a b in
    let p := if (b <? 0)%Z then (- (a / g))%Z else (a / g)%Z in
    let q := if (b <? 0)%Z then (- (b / g))%Z else (b / g)%Z in
    if (p =? 0)%Z then Ok (Zero 1)
    else if (q =? 1)%Z then Ok (IntCst p)
    else Ok (Rat p q).

(** maths/SumT.py 37-43 *)
Definition SumT (f : fm) (d : nat) : res fm :=
  if negb (dim f =? 1) then KErr
  else
    on (as_zero f) (fun _ => mk (Zero d)) ??
    mk (Lin (LSumT d) f).

(** Operation.py 270-279 *)
Definition Broadcast (f : fm) (d : nat) : res fm :=
  if (dim f =? d) || (d =? 1) then Ok f
  else if dim f =? 1 then SumT f d
  else KErr.

(** maths/Square.py 27-31 *)
Definition Square (f : fm) : res fm :=
  on (as_zero f) (fun _ => Ok f) ??
  mk (Un USquare f).

(** class Exp, maths/Exp.py (no simplification) *)
Definition Exp (f : fm) : res fm := mk (Un UExp f).

(** maths/Pow.py 42-46 *)
Definition Pow (f : fm) (m : Z) : res fm :=
  if (m =? 1)%Z then Ok f else mk (Un (UPow m) f).

(** ** Add, Subtract, Mult, Minus *)

(** The recursive calls available inside a rule list. *)
Record recs := {
  rminus : fm -> res fm;
  radd : fm -> fm -> res fm;
  rsub : fm -> fm -> res fm;
  rmult : fm -> fm -> res fm
}.

Definition minus_body (rc : recs) (f : fm) : res fm :=
    (* maths/Minus.py 42-61 *)
    on (as_zero f) (fun _ => Ok f) ??
    on (as_minus f) (fun g => Ok g) ??
    on (as_int f) (fun z => Ok (IntCst (- z))) ??
    on (as_rat f) (fun '(p, q) => RatCst (- p) q) ??
    on' (as_mult f) (fun '(r, g) =>
      when (is_cst r) (do mr <- rminus rc r; rmult rc mr g)) ??
    mk (Un UMinus f).

Definition add_body (rc : recs) (f g : fm) : res fm :=
    (* maths/Add.py 56-61 *)
    on (as_zero f) (fun d => Broadcast g d) ??
    on (as_zero g) (fun d => Broadcast f d) ??
    when (feqb f g) (rmult rc (IntCst 2) f) ??
    (* 64-70: m+n, m+p/q *)
    on' (as_int f) (fun z =>
      on' (as_int g) (fun w => Some (Ok (IntCst (z + w))))) ??
    on' (as_int f) (fun z =>
      on' (as_rat g) (fun '(p, q) => Some (RatCst (z * q + p) q))) ??
    (* 71-74: [arg1.q] on an IntCst_Impl, which has no attribute q: AttributeError *)
    on' (as_rat f) (fun _ => on' (as_int g) (fun _ => Some PyErr)) ??
    (* 75-77 *)
    on' (as_rat f) (fun '(p, q) =>
      on' (as_rat g) (fun '(p', q') => Some (RatCst (p * q' + q * p') (q * q')))) ??
    (* 80-90: gathering constants *)
    when' (is_cst f) (as_add g) (fun '(r, x) =>
      when (is_cst r) (do c <- radd rc f r; radd rc c x)) ??
    when' (is_cst f) (as_sub g) (fun '(r, x) =>
      when (is_cst r) (do c <- radd rc f r; rsub rc c x)) ??
    (* 91-101 *)
    when' (is_cst g) (as_add f) (fun '(r, x) =>
      when (is_cst r) (do c <- radd rc g r; radd rc c x)) ??
    when' (is_cst g) (as_sub f) (fun '(r, x) =>
      when (is_cst r) (do c <- radd rc g r; rsub rc c x)) ??
    (* 104-114: factorisation *)
    on' (as_mult f) (fun '(a, b) => on' (as_mult g) (fun '(c, d) =>
      when (feqb a c) (do s <- radd rc b d; rmult rc a s))) ??
    on' (as_mult f) (fun '(a, b) => on' (as_mult g) (fun '(c, d) =>
      when (feqb a d) (do s <- radd rc b c; rmult rc a s))) ??
    on' (as_mult f) (fun '(a, b) => on' (as_mult g) (fun '(c, d) =>
      when (feqb b c) (do s <- radd rc a d; rmult rc b s))) ??
    on' (as_mult f) (fun '(a, b) => on' (as_mult g) (fun '(c, d) =>
      when (feqb b d) (do s <- radd rc a c; rmult rc b s))) ??
    (* 115-128: n*x + x *)
    on' (as_mult f) (fun '(a, b) => on' (as_int a) (fun z =>
      when (feqb b g) (rmult rc (IntCst (z + 1)) g))) ??
    on' (as_mult g) (fun '(a, b) => on' (as_int a) (fun z =>
      when (feqb b f) (rmult rc (IntCst (z + 1)) f))) ??
    (* 129-133 *)
    on' (as_minus f) (fun x => on' (as_minus g) (fun y =>
      Some (do s <- radd rc x y; rminus rc s))) ??
    on (as_minus g) (fun y => rsub rc f y) ??
    mk (Bin BAdd f g).

Definition sub_body (rc : recs) (f g : fm) : res fm :=
    (* maths/Subtract.py 54-59 *)
    on (as_zero f) (fun d => do b <- Broadcast g d; rminus rc b) ??
    on (as_zero g) (fun d => Broadcast f d) ??
    when (feqb f g) (mk (Zero (dim f))) ??
    (* 62-68 *)
    on' (as_int f) (fun z =>
      on' (as_int g) (fun w => Some (Ok (IntCst (z - w))))) ??
    on' (as_int f) (fun z =>
      on' (as_rat g) (fun '(p, q) => Some (RatCst (z * q - p) q))) ??
    (* 69-72: AttributeError, as in Add *)
    on' (as_rat f) (fun _ => on' (as_int g) (fun _ => Some PyErr)) ??
    (* 73-75 *)
    on' (as_rat f) (fun '(p, q) =>
      on' (as_rat g) (fun '(p', q') => Some (RatCst (p * q' - q * p') (q * q')))) ??
    (* 78-88 *)
    when' (is_cst f) (as_add g) (fun '(r, x) =>
      when (is_cst r) (do c <- rsub rc f r; rsub rc c x)) ??
    when' (is_cst f) (as_sub g) (fun '(r, x) =>
      when (is_cst r) (do c <- rsub rc f r; radd rc c x)) ??
    (* 89-99 *)
    when' (is_cst g) (as_add f) (fun '(r, x) =>
      when (is_cst r) (do c <- rsub rc r g; radd rc c x)) ??
    when' (is_cst g) (as_sub f) (fun '(r, x) =>
      when (is_cst r) (do c <- rsub rc r g; rsub rc c x)) ??
    (* 102-112 *)
    on' (as_mult f) (fun '(a, b) => on' (as_mult g) (fun '(c, d) =>
      when (feqb a c) (do s <- rsub rc b d; rmult rc a s))) ??
    on' (as_mult f) (fun '(a, b) => on' (as_mult g) (fun '(c, d) =>
      when (feqb a d) (do s <- rsub rc b c; rmult rc a s))) ??
    on' (as_mult f) (fun '(a, b) => on' (as_mult g) (fun '(c, d) =>
      when (feqb b c) (do s <- rsub rc a d; rmult rc b s))) ??
    on' (as_mult f) (fun '(a, b) => on' (as_mult g) (fun '(c, d) =>
      when (feqb b d) (do s <- rsub rc a c; rmult rc b s))) ??
    (* 113-126 *)
    on' (as_mult f) (fun '(a, b) => on' (as_int a) (fun z =>
      when (feqb b g) (rmult rc (IntCst (z - 1)) g))) ??
    on' (as_mult g) (fun '(a, b) => on' (as_int a) (fun z =>
      when (feqb b f) (rmult rc (IntCst (1 - z)) f))) ??
    mk (Bin BSub f g).

Definition mult_body (rc : recs) (f g : fm) : res fm :=
    (* maths/Mult.py 56-59 *)
    on (as_zero f) (fun _ => Broadcast f (dim g)) ??
    on (as_zero g) (fun _ => Broadcast g (dim f)) ??
    (* 60-72 *)
    on' (as_int f) (fun z => when (z =? 1)%Z (Ok g)) ??
    on' (as_int f) (fun z => when (z =? -1)%Z (rminus rc g)) ??
    on' (as_int f) (fun z =>
      on' (as_int g) (fun w => Some (mk (Int (z * w))))) ??
    on' (as_int f) (fun z =>
      on' (as_rat g) (fun '(p, q) => Some (RatCst (z * p) q))) ??
    (* 73-75 *)
    on (as_int g) (fun _ => rmult rc g f) ??
    (* 76-78 *)
    on' (as_rat f) (fun '(p, q) =>
      on' (as_rat g) (fun '(p', q') => Some (RatCst (p * p') (q * q')))) ??
    (* 79-86 *)
    on' (as_mult g) (fun '(r, x) => on' (as_int r) (fun w =>
      on' (as_int f) (fun z => Some (rmult rc (IntCst (z * w)) x)))) ??
    on' (as_mult g) (fun '(r, x) => on' (as_int r) (fun _ =>
      Some (do y <- rmult rc f x; rmult rc r y))) ??
    (* 87-93 *)
    on' (as_mult g) (fun '(r, x) => when (is_rat r && is_cst f)
      (do c <- rmult rc f r; rmult rc c x)) ??
    on' (as_mult g) (fun '(r, x) => when (is_rat r)
      (do y <- rmult rc f x; rmult rc r y)) ??
    (* 94-99; when arg1 is an Exp no rule applies and 157 is reached *)
    on' (as_mult f) (fun '(r, x) => when (is_cst r)
      (if negb (is_exp g) then do y <- rmult rc x g; rmult rc r y
       else mk (Bin BMult f g))) ??
    (* 100-108 *)
    on' (as_minus f) (fun x => on' (as_minus g) (fun y => Some (rmult rc x y))) ??
    on (as_minus f) (fun x => do y <- rmult rc x g; rminus rc y) ??
    on (as_minus g) (fun y => do x <- rmult rc f y; rminus rc x) ??
    (* 109-111 *)
    when (feqb f g) (Square f) ??
    (* 112-126 *)
    on (as_sumT g) (fun '(y, dg) =>
      on (as_sumT f) (fun '(x, df) =>
        if negb (df =? dg) then KErr
        else do z <- rmult rc x y; SumT z df) ??
      when (dim f =? 1) (do z <- rmult rc f y; SumT z dg) ??
      when (dg =? dim f) (rmult rc f y) ??
      KErr) ??
    (* 127-129 *)
    on (as_sumT f) (fun _ => rmult rc g f) ??
    (* 130-136 *)
    on' (as_exp f) (fun a => on' (as_exp g) (fun b =>
      Some (do s <- radd rc a b; Exp s))) ??
    on' (as_exp f) (fun _ => when (dim g <=? dim f) (rmult rc g f)) ??
    (* 137-149; every other case of this branch reaches 157 *)
    on (as_mult f) (fun '(u, v) =>
      on' (as_exp v) (fun a => on' (as_exp g) (fun b =>
        Some (do s <- radd rc a b; do es <- Exp s; rmult rc u es))) ??
      on' (as_exp v) (fun a => when (dim g <=? dim a)
        (do x <- rmult rc u g; rmult rc x v)) ??
      mk (Bin BMult f g)) ??
    (* 150-156 *)
    on' (as_mult g) (fun '(u, v) => when (is_exp v && negb (is_int f))
      (do x <- rmult rc f u; rmult rc x v)) ??
    (* 157 *)
    mk (Bin BMult f g).

(** Recursion depth n: the calls made by a rule list have depth n-1. *)
Fixpoint calls (n : nat) : recs :=
  match n with
  | O => {| rminus := fun _ => OutOfFuel; radd := fun _ _ => OutOfFuel;
            rsub := fun _ _ => OutOfFuel; rmult := fun _ _ => OutOfFuel |}
  | S n => {| rminus := minus_body (calls n); radd := add_body (calls n);
              rsub := sub_body (calls n); rmult := mult_body (calls n) |}
  end.

Definition minusF n := rminus (calls n).
Definition addF n := radd (calls n).
Definition subF n := rsub (calls n).
Definition multF n := rmult (calls n).

(** ** Top-level functions

    [fuel_for k] with k the total size of the operands is shown sufficient in
    Termination.v. *)
Definition fuel_for (k : nat) : nat := 16 * k + 16.

Definition Minus (f : fm) : res fm := minusF (fuel_for (size f)) f.
Definition Add (f g : fm) : res fm := addF (fuel_for (size f + size g)) f g.
Definition Subtract (f g : fm) : res fm := subF (fuel_for (size f + size g)) f g.
Definition Mult (f g : fm) : res fm := multF (fuel_for (size f + size g)) f g.

(** maths/Divide.py 52-64.  [KeOps_Error] for a zero denominator. *)
Definition Divide (f g : fm) : res fm :=
  on (as_zero f) (fun _ => Broadcast f (dim g)) ??
  on (as_zero g) (fun _ => KErr) ??
  on (as_int g) (fun z => do r <- RatCst 1 z; Mult r f) ??
  on (as_rat g) (fun '(p, q) => do r <- RatCst q p; Mult r f) ??
  mk (Bin BDiv f g).

(** maths/Sum.py 48-63 and maths/Scalprod.py 49-72, mutually recursive; the recursion
    descends in the operands, and Termination.v shows the fuel below sufficient. *)
Definition Sum_body (rsum : fm -> res fm) (rscal : fm -> fm -> res fm) (f : fm) : res fm :=
    when (dim f =? 1) (Ok f) ??
    on (as_zero f) (fun _ => mk (Zero 1)) ??
    on' (as_mult f) (fun '(a, b) => when (dim a =? 1)
      (do s <- rsum b; Mult a s)) ??
    on' (as_mult f) (fun '(a, b) => when (dim b =? 1)
      (do s <- rsum a; Mult s b)) ??
    on (as_mult f) (fun '(a, b) => rscal a b) ??
    mk (Lin LSum f).

Definition Scalprod_body (rsum : fm -> res fm) (rscal : fm -> fm -> res fm) (f g : fm)
  : res fm :=
    when (dim f =? 1) (do s <- rsum g; Mult f s) ??
    when (dim g =? 1) (do s <- rsum f; Mult s g) ??
    when (feqb f g) (do s <- Square f; rsum s) ??
    on' (as_mult f) (fun '(u, v) => when (dim u =? 1)
      (do s <- rscal v g; Mult u s)) ??
    on' (as_mult f) (fun '(u, v) => when (dim v =? 1)
      (do s <- rscal u g; Mult v s)) ??
    on' (as_mult g) (fun '(u, v) => when (dim u =? 1)
      (do s <- rscal v f; Mult u s)) ??
    on' (as_mult g) (fun '(u, v) => when (dim v =? 1)
      (do s <- rscal u f; Mult v s)) ??
    mk (Bil KScal f g).

Fixpoint sum_calls (n : nat) : (fm -> res fm) * (fm -> fm -> res fm) :=
  match n with
  | O => (fun _ => OutOfFuel, fun _ _ => OutOfFuel)
  | S n => let '(s, p) := sum_calls n in (Sum_body s p, Scalprod_body s p)
  end.

Definition Sum (f : fm) : res fm := fst (sum_calls (2 * size f + 1)) f.
Definition Scalprod (f g : fm) : res fm := snd (sum_calls (2 * (size f + size g) + 2)) f g.
