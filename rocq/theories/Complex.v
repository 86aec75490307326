(** * Operations on complex vectors.

    Models keopscore/keopscore/formulas/complex/*.py (all operations of that directory except ComplexAngle),
    VectorizedComplexScalarOp.py (lines 6-26), ComplexVectApply of utils/code_gen_utils.py (lines 434-456),
    and the real operations that their gradients use: Add, Mult and the operations with one
    argument (VectorizedScalarOp.py lines 34-41, Formula.v, Diff.v).

    A complex vector is an array of reals, real and imaginary parts alternating.  The generated code, a loop with
    step 2 that writes out[i] and out[i+1], is modelled by the value of out[k] according to the parity of k.
    The real operations are built without the simplification rules of Formula.v (C01: they keep the values),
    and only those with operands of equal dimensions, or with an operand of dimension one that
    is the derivative of a scalar function, are differentiated.  The reals are exact. *)

From Coq Require Import ZArith Reals List Bool Arith.
From Verif Require Import Result Formula.
Import ListNotations.
Local Open Scope nat_scope.

Inductive cun :=
  | KConj | KExp | KExp1j | KReal | KImag | KR2C | KI2C | KSqAbs | KSum | KSumT (d : nat)
  | RUn (u : unop).
Inductive cbin := KAdd | KSub | KMult | KRealScal | RAdd | RMult.

Inductive cf :=
  | CVar (i : Z) (d : nat)
  | CZero (d : nat)
  | CCst (c : R)             (* IntCst, RatCst *)
  | CPar (l : list R)        (* a parameter holding constants of the user *)
  | CUn (o : cun) (f : cf)
  | CBin (o : cbin) (f g : cf).

Fixpoint cdim (f : cf) : nat :=
  match f with
  | CVar _ d | CZero d => d
  | CCst _ => 1
  | CPar l => List.length l
  | CUn o f =>
      match o with
      | KConj | KExp | RUn _ => cdim f
      | KExp1j | KR2C | KI2C => 2 * cdim f
      | KReal | KImag | KSqAbs => cdim f / 2
      | KSum => 2
      | KSumT d => d
      end
  | CBin o f g =>
      match o with
      | KRealScal => cdim g
      | _ => Nat.max (cdim f) (cdim g)
      end
  end.

(** ** Constructors, with their checks *)

(** VectorizedComplexScalarOp.__init__ *)
Definition complex_dims (a b : nat) : bool :=
  (Nat.max a b mod 2 =? 0) && ((a =? b) || (Nat.min a b =? 2)).
(** VectorizedScalarOp.__init__ *)
Definition real_dims (a b : nat) : bool := (a =? b) || (Nat.min a b =? 1).

Definition un_ok (o : cun) (d : nat) : bool :=
  match o with
  | KConj | KExp | KReal | KImag | KSqAbs | KSum => d mod 2 =? 0
  | KExp1j | KR2C | KI2C | RUn _ => true
  | KSumT _ => d =? 2
  end.
Definition bin_ok (o : cbin) (a b : nat) : bool :=
  match o with
  | KAdd | KSub | KMult => complex_dims a b
  | KRealScal => (a =? 1) && (b mod 2 =? 0)
  | RAdd | RMult => real_dims a b
  end.

Definition mkU (o : cun) (f : cf) : res cf := if un_ok o (cdim f) then Ok (CUn o f) else KErr.
Definition mkB (o : cbin) (f g : cf) : res cf := if bin_ok o (cdim f) (cdim g) then Ok (CBin o f g) else KErr.

(** ComplexRealScal.py lines 44-45 *)
Definition ComplexRealScal (f g : cf) : res cf := if cdim f =? 1 then mkB KRealScal f g else mkB KRealScal g f.
(** ComplexDivide.py *)
Definition ComplexDivide (f g : cf) : res cf :=
  do a <- mkU KSqAbs g ; do i <- mkU (RUn UInv) a ; do r <- mkU KR2C i ;
  do c <- mkU KConj g ; do m <- mkB KMult f c ;
  mkB KMult r m.
(** ComplexAbs.py *)
Definition ComplexAbs (f : cf) : res cf := do a <- mkU KSqAbs f ; mkU (RUn USqrt) a.

(** ** Values *)

Local Open Scope R_scope.

(** Position read in an operand of dimension d by a loop over n entries. *)
Definition cpos (d n k : nat) : nat := if Nat.eqb d n then k else Nat.modulo k 2.
Definition rpos (d n k : nat) : nat := if Nat.eqb d n then k else 0%nat.

Definition cunV (o : cun) (d : nat) (x : nat -> R) (k : nat) : R :=
  let q := Nat.div k 2 in
  let re := Nat.even k in
  match o with
  | KConj => if re then x k else - x k
  | KExp => let r := exp (x (2 * q)%nat) in
            if re then r * cos (x (2 * q + 1)%nat) else r * sin (x (2 * q + 1)%nat)
  | KExp1j => if re then cos (x q) else sin (x q)
  | KReal => x (2 * k)%nat
  | KImag => x (2 * k + 1)%nat
  | KR2C => if re then x q else 0
  | KI2C => if re then 0 else x q
  | KSqAbs => x (2 * k)%nat * x (2 * k)%nat + x (2 * k + 1)%nat * x (2 * k + 1)%nat
  | KSum => rsum (Nat.div d 2) (fun i => x (2 * i + k)%nat)
  | KSumT _ => x (Nat.modulo k 2)
  | RUn u => unR u (x k)
  end.

Definition cbinV (o : cbin) (da db : nat) (x y : nat -> R) (k : nat) : R :=
  let n := Nat.max da db in
  let q := (2 * Nat.div k 2)%nat in
  let a j := x (cpos da n j) in
  let b j := y (cpos db n j) in
  match o with
  | KAdd => a k + b k
  | KSub => a k - b k
  | KMult => if Nat.even k then a q * b q - a (q + 1)%nat * b (q + 1)%nat
             else a q * b (q + 1)%nat + a (q + 1)%nat * b q
  | KRealScal => x 0%nat * y k
  | RAdd => x (rpos da n k) + y (rpos db n k)
  | RMult => x (rpos da n k) * y (rpos db n k)
  end.

Fixpoint ceval (f : cf) (e : env) (k : nat) : R :=
  match f with
  | CVar i _ => e i k
  | CZero _ => 0
  | CCst c => c
  | CPar l => nth k l 0
  | CUn o f => cunV o (cdim f) (ceval f e) k
  | CBin o f g => cbinV o (cdim f) (cdim g) (ceval f e) (ceval g e) k
  end.

Local Close Scope R_scope.

(** ** Gradients: the DiffT methods *)

(** The Derivative methods of the real operations with one argument, as in Diff.v. *)
Definition cder (u : unop) (f : cf) : res cf :=
  match u with
  | USquare => mkB RMult (CCst 2) f
  | UExp => mkU (RUn UExp) f
  | USin => mkU (RUn UCos) f
  | UCos => do s <- mkU (RUn USin) f ; mkU (RUn UMinus) s
  | UInv => do s <- mkU (RUn USquare) f ; do r <- mkU (RUn UInv) s ; mkB RMult (CCst (-1)) r
  | USqrt => do r <- mkU (RUn URsqrt) f ; mkB RMult (CCst (/ 2)) r
  | URsqrt => do r <- mkU (RUn URsqrt) f ; do p <- mkU (RUn (UPow 3)) r ; mkB RMult (CCst (- / 2)) p
  | _ => KErr                                   (* not modelled *)
  end.

(** One term of VectorizedScalarOp.DiffT. *)
Definition cterm (D : cf -> cf -> res cf) (f df g : cf) : res cf :=
  if cdim df =? 1 then do x <- D f g ; mkB RMult x df
  else do y <- mkB RMult g df ; D f y.

(** ComplexExp.py lines 37-44, ComplexExp1j.py 32-36, ComplexSquareAbs.py 34-37, ComplexRealScal.py 38-41:
    the formulas that are differentiated instead. *)
Definition alt_exp (f : cf) : res cf :=
  do re <- mkU KReal f ; do ab <- mkU (RUn UExp) re ;
  do im <- mkU KImag f ; do c <- mkU (RUn UCos) im ; do ar <- mkB RMult ab c ;
  do s <- mkU (RUn USin) im ; do ai <- mkB RMult ab s ;
  do r <- mkU KR2C ar ; do i <- mkU KI2C ai ; mkB RAdd r i.
Definition alt_exp1j (f : cf) : res cf :=
  do c <- mkU (RUn UCos) f ; do r <- mkU KR2C c ; do s <- mkU (RUn USin) f ; do i <- mkU KI2C s ; mkB RAdd r i.
Definition alt_sqabs (f : cf) : res cf :=
  do c <- mkU KConj f ; do m <- mkB KMult f c ; mkU KReal m.
Definition alt_realscal (f g : cf) : res cf := do r <- mkU KR2C f ; mkB KMult r g.

(** [D f g] stands for f.DiffT(v, g); the variable v has index i and dimension d. *)
Definition cdiff_body (D : cf -> cf -> res cf) (i : Z) (d : nat) (f g : cf) : res cf :=
  match f with
  | CVar j d' => if (j =? i)%Z && (d' =? d) then Ok g else Ok (CZero d)
  | CZero _ | CCst _ | CPar _ => Ok (CZero d)
  | CUn KConj a => do x <- mkU KConj g ; D a x
  | CUn KExp a => do alt <- alt_exp a ; D alt g
  | CUn KExp1j a => do alt <- alt_exp1j a ; D alt g
  | CUn KReal a => do x <- mkU KR2C g ; D a x
  | CUn KImag a => do x <- mkU KI2C g ; D a x
  | CUn KR2C a => do x <- mkU KReal g ; D a x
  | CUn KI2C a => do x <- mkU KImag g ; D a x
  | CUn KSqAbs a => do alt <- alt_sqabs a ; D alt g
  | CUn KSum a => do x <- mkU (KSumT (cdim a)) g ; D a x
  | CUn (KSumT _) a => do x <- mkU KSum g ; D a x
  | CUn (RUn UMinus) a => do x <- D a g ; mkU (RUn UMinus) x
  | CUn (RUn u) a => do df <- cder u a ; cterm D a df g
  | CBin KAdd a b =>
      if (cdim a =? 2) && (2 <? cdim b) then
        do s <- mkU KSum g ; do x <- D a s ; do y <- D b g ; mkB KAdd x y
      else if (cdim b =? 2) && (2 <? cdim a) then
        do x <- D a g ; do s <- mkU KSum g ; do y <- D b s ; mkB KAdd x y
      else do x <- D a g ; do y <- D b g ; mkB KAdd x y
  | CBin KSub a b =>
      if (cdim a =? 2) && (2 <? cdim b) then
        do s <- mkU KSum g ; do x <- D a s ; do y <- D b g ; mkB KSub x y
      else if (cdim b =? 2) && (2 <? cdim a) then
        do x <- D a g ; do s <- mkU KSum g ; do y <- D b s ; mkB KSub x y
      else do x <- D a g ; do y <- D b g ; mkB KSub x y
  | CBin KMult a b =>
      do cb <- mkU KConj b ; do ca <- mkU KConj a ;
      do p <- mkB KMult cb g ; do q <- mkB KMult ca g ;
      if (cdim a =? 2) && (2 <? cdim b) then
        do s <- mkU KSum p ; do x <- D a s ; do y <- D b q ; mkB KAdd x y
      else if (cdim b =? 2) && (2 <? cdim a) then
        do x <- D a p ; do s <- mkU KSum q ; do y <- D b s ; mkB KAdd x y
      else do x <- D a p ; do y <- D b q ; mkB KAdd x y
  | CBin KRealScal a b => do alt <- alt_realscal a b ; D alt g
  | CBin RAdd a b =>                                           (* Add.py 28-35 *)
      if cdim a =? cdim b then do x <- D a g ; do y <- D b g ; mkB RAdd x y
      else KErr                                                (* not modelled *)
  | CBin RMult a b =>                                          (* Mult.py 28-39 *)
      if cdim a =? cdim b then
        do p <- mkB RMult b g ; do x <- D a p ; do q <- mkB RMult a g ; do y <- D b q ; mkB RAdd x y
      else KErr                                                (* not modelled *)
  end.

Fixpoint cDiffTn (n : nat) (i : Z) (d : nat) (f g : cf) : res cf :=
  match n with O => OutOfFuel | S n => cdiff_body (cDiffTn n i d) i d f g end.

(** Depth of the recursion, with the formulas that are differentiated instead. *)
Fixpoint cweight (f : cf) : nat :=
  match f with
  | CVar _ _ | CZero _ | CCst _ | CPar _ => 1
  | CUn KExp f => 14 + 4 * cweight f
  | CUn KExp1j f => 6 + 2 * cweight f
  | CUn KSqAbs f => 4 + 2 * cweight f
  | CUn _ f => S (cweight f)
  | CBin KRealScal f g => 3 + cweight f + cweight g
  | CBin _ f g => S (cweight f + cweight g)
  end.

Definition cDiffT (f : cf) (i : Z) (d : nat) (g : cf) : res cf := cDiffTn (cweight f) i d f g.

(** ** Complex LazyTensors

    Models pykeops/pykeops/common/lazy_tensor.py, lines 18-27, 430-570 (unary, binary), 1030-1210 (operators) and
    2669-2823 (ComplexGenericLazyTensor).  Only the formula and the flag are kept: batch dimensions and
    axes are those of LazyTensors.v.  Numbers of the user become parameters.  The checks of the constructors
    of formulas, which the code makes when the formula is used, are made at once. *)

Record lt := { lf : cf; lcx : bool }.

(** What an operator receives and returns: a LazyTensor, a real number, a complex number. *)
Inductive operand := OT (t : lt) | ON (r : R) | OC (a b : R).

(** is_scalar_and_equals *)
Definition scalar_is (o : operand) (v : R) : bool :=
  match o with
  | OT _ => false
  | ON r => if Req_EM_T r v then true else false
  | OC a b => if Req_EM_T a v then if Req_EM_T b 0 then true else false else false
  end.

(** lt_constructor *)
Definition to_lt (o : operand) : lt :=
  match o with
  | OT t => t
  | ON r => {| lf := CPar [r]; lcx := false |}
  | OC a b => {| lf := CPar [a; b]; lcx := true |}
  end.

Definition unary (o : cf -> res cf) (t : lt) (cx : bool) : res operand :=
  do f <- o (lf t) ; Ok (OT {| lf := f; lcx := cx |}).

(** dimcheck="sameor1" or None *)
Definition binary (o : cf -> cf -> res cf) (check rversion : bool) (cx : option bool) (t : lt) (other : operand)
    : res operand :=
  let u := to_lt other in
  let a := cdim (lf t) in let b := cdim (lf u) in
  if check && negb (a =? b) && negb (a =? 1) && negb (b =? 1) then KErr
  else
    do f <- (if rversion then o (lf u) (lf t) else o (lf t) (lf u)) ;
    Ok (OT {| lf := f; lcx := match cx with Some c => c | None => lcx t || lcx u end |}).

Definition real2complex (t : lt) : res lt :=
  if lcx t then KErr else do f <- mkU KR2C (lf t) ; Ok {| lf := f; lcx := true |}.

(** Subtraction and division of reals are not among the formulas of this file. *)
Definition real_sub (f g : cf) : res cf := do m <- mkU (RUn UMinus) g ; mkB RAdd f m.
Definition real_div (f g : cf) : res cf := do m <- mkU (RUn UInv) g ; mkB RMult f m.

(** addop, subop, divop of ComplexGenericLazyTensor (lines 2784-2808); numbers have no method real2complex. *)
Definition complex_op (o : cf -> cf -> res cf) (rversion : bool) (t : lt) (other : operand) : res operand :=
  match other with
  | OT u =>
      if lcx u then binary o false rversion (Some true) t other
      else do c <- real2complex u ; binary o false false (Some true) t (OT c)
  | _ => PyErr
  end.

Definition addop (rversion : bool) (t : lt) (other : operand) : res operand :=
  if lcx t then complex_op (mkB KAdd) rversion t other else binary (mkB RAdd) true rversion None t other.
Definition subop (rversion : bool) (t : lt) (other : operand) : res operand :=
  if lcx t then complex_op (mkB KSub) rversion t other else binary real_sub true rversion None t other.
Definition divop (rversion : bool) (t : lt) (other : operand) : res operand :=
  if lcx t then complex_op ComplexDivide rversion t other else binary real_div true rversion None t other.

(** mulop, lines 2775-2783 *)
Definition mulop (rversion : bool) (t : lt) (other : operand) : res operand :=
  if lcx t then
    match other with
    | OT u =>
        if cdim (lf u) =? 1 then binary ComplexRealScal true rversion (Some true) u (OT t)
        else if lcx u then binary (mkB KMult) false rversion (Some true) t other
        else do c <- real2complex u ;
             if cdim (lf c) =? 1 then binary ComplexRealScal true false (Some true) c (OT t)
             else binary (mkB KMult) false false (Some true) t (OT c)
    | _ => PyErr
    end
  else binary (mkB RMult) true rversion None t other.

Definition complex_lt (o : operand) : bool := match o with OT u => lcx u | _ => false end.
(** detect_complex *)
Definition complex_number (o : operand) : bool := match o with OC _ _ => true | _ => false end.

Definition minus (t : lt) : res operand := unary (mkU (RUn UMinus)) t (lcx t).

Definition add (t : lt) (o : operand) : res operand :=
  if scalar_is o 0 then Ok (OT t)
  else if complex_lt o && negb (lcx t) then do c <- real2complex t ; addop false c o
  else addop false t o.
Definition radd (t : lt) (o : operand) : res operand :=
  if scalar_is o 0 then Ok (OT t) else addop true t o.

Definition sub (t : lt) (o : operand) : res operand :=
  if scalar_is o 0 then Ok (OT t)
  else if complex_lt o && negb (lcx t) then do c <- real2complex t ; subop false c o
  else subop false t o.
Definition rsub (t : lt) (o : operand) : res operand :=
  if scalar_is o 0 then minus t else subop true t o.

Definition mul (t : lt) (o : operand) : res operand :=
  if scalar_is o 0 then Ok (ON 0)
  else if scalar_is o 1 then Ok (OT t)
  else if scalar_is o (-1) then minus t
  else if (complex_lt o || complex_number o) && negb (lcx t) then mulop false (to_lt o) (OT t)
  else mulop false t o.
Definition rmul (t : lt) (o : operand) : res operand :=
  if scalar_is o 0 then Ok (ON 0)
  else if scalar_is o 1 then Ok (OT t)
  else if scalar_is o (-1) then minus t
  else if complex_number o && negb (lcx t) then do c <- real2complex t ; mulop false c (OT (to_lt o))
  else mulop true t o.

Definition div (t : lt) (o : operand) : res operand :=
  if scalar_is o 1 then Ok (OT t)
  else if complex_lt o && negb (lcx t) then do c <- real2complex t ; divop false c o
  else divop false t o.
Definition rdiv (t : lt) (o : operand) : res operand :=
  if scalar_is o 0 then Ok (ON 0)
  else if scalar_is o 1 then unary (mkU (RUn UInv)) t (lcx t)
  else divop true t o.

(** t ** 2 *)
Definition square (t : lt) : res operand := unary (mkU (RUn USquare)) t (lcx t).

(** Methods of complex LazyTensors. *)
Definition l_conj (t : lt) : res operand := unary (mkU KConj) t true.
Definition l_exp (t : lt) : res operand := unary (mkU KExp) t true.
Definition l_abs (t : lt) : res operand := unary ComplexAbs t false.
Definition l_real (t : lt) : res operand := unary (mkU KReal) t false.
Definition l_imag (t : lt) : res operand := unary (mkU KImag) t false.
Definition l_sum (t : lt) : res operand := unary (mkU KSum) t true.
(** exp1j of a real LazyTensor, line 2659 *)
Definition l_exp1j (t : lt) : res operand := if lcx t then KErr else unary (mkU KExp1j) t true.

(** ** Lists of constants: ComplexGenericLazyTensor.__init__, lines 2675-2684 *)

(** Values in the lists: None, and numbers. *)
Inductive pynum := PNone | PFloat (r : R) | PComplex (a b : R).
Definition py_real (x : pynum) : res pynum :=
  match x with PNone => PyErr | PFloat r => Ok (PFloat r) | PComplex a _ => Ok (PFloat a) end.
Definition py_imag (x : pynum) : res pynum :=
  match x with PNone => PyErr | PFloat _ => Ok (PFloat 0) | PComplex _ b => Ok (PFloat b) end.
Fixpoint set_nth (l : list pynum) (k : nat) (v : pynum) : list pynum :=
  match l, k with
  | [], _ => []
  | _ :: l, O => v :: l
  | x :: l, S k => x :: set_nth l k v
  end.
Definition get (l : list pynum) (k : nat) : res pynum :=
  match nth_error l k with Some x => Ok x | None => PyErr end.

(** The loop, from i: [x] and [x_] are the two variables of the code; the last line of the body makes them the
    same list. *)
Fixpoint list_loop (n i : nat) (x x_ : list pynum) : res (list pynum) :=
  match n with
  | O => Ok x
  | S n =>
      do a <- get x i ; do r <- py_real a ;
      let x_1 := set_nth x_ (2 * i) r in
      let x' := if i =? 0 then x else x_1 in      (* the same list as x_ after the first turn *)
      do a <- get x' i ; do m <- py_imag a ;
      let x_2 := set_nth x_1 (2 * i + 1) m in
      list_loop n (i + 1) x_2 x_2
  end.
Definition list_init (x : list pynum) : res (list pynum) :=
  list_loop (List.length x) 0 x (repeat PNone (2 * List.length x)).
