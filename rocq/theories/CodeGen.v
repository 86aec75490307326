(** * The code generated for a formula.

    Models keopscore/keopscore/formulas/Operation.py lines 66-125 ([__call__]),
    VectorizedScalarOp.py lines 23-31, the methods [Op] and [ScalarOp] of formulas/maths and
    formulas/variables, keopscore/utils/math_functions.py (column cpu_code) and
    keopscore/utils/code_gen_utils.py: [new_c_varname] (lines 35-54), [c_variable], [c_for_loop],
    [c_array], [VectApply] (lines 390-431), [VectCopy] and [c_if].

    The text of the generated code is replaced by its syntax tree.  Simplifications: one floating
    point type (no half2), whose values are exact reals; integers are unbounded; the functions of
    the C library are the real functions; the branch C_CONTIGUOUS (MapReduce.py line 46) of the
    preprocessor, and the CPU branch; in a loop [for (int k=a; k<b; k+=1)] the bounds are constants
    and the body does not assign [k]. *)

From Coq Require Import ZArith Reals List Bool String Ascii.
From Verif Require Import Result Formula Keys.
Import ListNotations.
Open Scope string_scope.

(** ** Syntax of the generated code *)

(** Text of a pointer: the name of an array, or [(p+k)], or [(p+x*d)] where [x] is the index of a
    loop of the kernel. *)
Inductive ptr := PName (x : string) | PAdd (p : ptr) (k : nat) | PVar (p : ptr) (x : string) (d : nat).

(** [ICond a b u v] is [a<b ? u : v]; [ISqrt] is [sqrt] converted to an integer. *)
Inductive iexpr :=
| IConst (n : nat) | IVar (x : string) | IAdd (a b : iexpr) | IMul (a b : iexpr)
| IMod (a b : iexpr) | ISqrt (a : iexpr) | ICond (a b u v : iexpr).

(** Functions of the C library. *)
Inductive prim1 := Fexp | Flog | Fsin | Fcos | Fsqrt | Fabs | Fasin | Facos | Fatan | Ffloor.
Inductive prim2 := Fatan2 | Fpowf.
Inductive cmp := CLt | CGt | CLe | CGe | CEq | CNe.

(** [EAt p i] is [p[i]], and [*p] when [i] is 0. *)
Inductive cexpr :=
| EZ (z : Z)
| EQ (p q : Z)
| EInf (neg : bool)                                    (* ( 1.0f/0.0f ), and its opposite *)
| EVar (x : string)
| EInt (i : iexpr)
| EAt (p : ptr) (i : iexpr)
| ENeg (a : cexpr)
| EAdd (a b : cexpr)
| ESub (a b : cexpr)
| EMul (a b : cexpr)
| EDiv (a b : cexpr)
| EFun1 (f : prim1) (a : cexpr)
| EFun2 (f : prim2) (a b : cexpr)
| EPow (a : cexpr) (m : Z)
| EFma (a b c : cexpr)
| ECond (c : cmp) (a b : cexpr) (x y : cexpr).

Inductive stmt :=
| SSkip
| SSeq (s t : stmt)
| SBlock (s : stmt)
| SArr (x : string) (d : nat)                          (* float x[d]; *)
| SInt (x : string) (n : nat)                          (* int x = n; *)
| SIntE (x : string) (e : iexpr)                       (* int x = e; *)
| SDecl (x : string)                                   (* float x; *)
| SFloat (x : string) (a : cexpr)                      (* float x = a; *)
| SSet (p : ptr) (i : iexpr) (a : cexpr)               (* p[i] = a; *)
| SSetAt (p : ptr) (i : cexpr) (a : cexpr)             (* p[(int)(i)] = a; *)
| SAdd (p : ptr) (i : iexpr) (a : cexpr)               (* p[i] += a; *)
| SVar (x : string) (a : cexpr)                        (* x = a; *)
| SIncr (x : string) (n : nat)                         (* x += n; *)
| SFor (x : string) (a b : nat) (s : stmt)
| SForVar (x y : string) (s : stmt)                    (* for (int x=0; x<y; x++) { s } *)
| SIf (c : cmp) (a b : cexpr) (s : stmt)
| SIfElse (c : cmp) (a b : cexpr) (s t : stmt).

(** ** Names: [new_c_varname] *)

(** How many names were made from every template. *)
Definition gen := string -> nat.
Definition name (t : string) (c : nat) : string := t ++ "_" ++ str_int (Z.of_nat c).
Definition next (g : gen) (t : string) : gen := fun u => if String.eqb u t then S (g u) else g u.

(** ** Arrays *)
Record c_array := Array { aptr : ptr; adim : nat }.

(** [c_array.split]. *)
Definition split2 (a : c_array) (m n : nat) : res (c_array * c_array) :=
  if Nat.eqb (m + n) (adim a)
  then Ok (Array (PAdd (aptr a) 0) m, Array (PAdd (aptr a) m) n)
  else KErr.
Definition split3 (a : c_array) (m n o : nat) : res (c_array * c_array * c_array) :=
  if Nat.eqb (m + n + o) (adim a)
  then Ok (Array (PAdd (aptr a) 0) m, Array (PAdd (aptr a) m) n, Array (PAdd (aptr a) (m + n)) o)
  else KErr.

(** [c_array.declare]. *)
Definition declare (x : string) (d : nat) : stmt := if Nat.ltb 0 d then SArr x d else SSkip.

(** [value(a)]. *)
Definition value (a : c_array) : cexpr := EAt (aptr a) (IConst 0).

(** [c_array.assign]. *)
Definition assign (out : c_array) (v : cexpr) (g : gen) : stmt * gen :=
  let k := name "k" (g "k") in
  (SFor k 0 (adim out) (SSet (aptr out) (IVar k) v), next g "k").

Definition VectCopy (out arg : c_array) (g : gen) : stmt * gen :=
  let k := name "k" (g "k") in
  (SFor k 0 (adim out) (SSet (aptr out) (IVar k) (EAt (aptr arg) (IVar k))), next g "k").

(** [VectApply]; [body] is given the entry of the output and those of the arguments, which are
    arrays or scalars. *)
Inductive varg := VArr (a : c_array) | VVal (e : cexpr).
Definition vdim (v : varg) : nat := match v with VArr a => adim a | VVal _ => 1 end.
Definition list_max (l : list nat) : nat := fold_right Nat.max 0%nat l.
Definition VectApplyV (body : ptr -> iexpr -> list cexpr -> stmt) (out : c_array) (args : list varg)
    (g : gen) : res (stmt * gen) :=
  let dims := adim out :: map vdim args in
  let dimloop := list_max dims in
  (* set(dims) is {dimloop} or {1, dimloop} *)
  if forallb (fun d => Nat.eqb d dimloop || Nat.eqb d 1) dims then
    let k := name "k" (g "k") in
    let at_ d := IMul (IVar k) (IConst (if Nat.eqb d dimloop then 1 else 0)) in
    Ok (SFor k 0 dimloop
          (body (aptr out) (at_ (adim out))
             (map (fun v => match v with VArr a => EAt (aptr a) (at_ (adim a)) | VVal e => e end) args)),
        next g "k")
  else KErr.
Definition VectApply (body : ptr -> iexpr -> list cexpr -> stmt) (out : c_array) (args : list c_array)
  : gen -> res (stmt * gen) := VectApplyV body out (map VArr args).

(** ** Scalar operations: math_functions.py, and the [ScalarOp] of Minus, Square, Add, Subtract,
    Divide. *)
Definition un_code (u : unop) (x : cexpr) : cexpr :=
  match u with
  | UMinus => ENeg x
  | USquare => EMul x x
  | UExp => EFun1 Fexp x
  | ULog => EFun1 Flog x
  | UInv => EDiv (EZ 1) x
  | USin => EFun1 Fsin x
  | UCos => EFun1 Fcos x
  | USqrt => EFun1 Fsqrt x
  | URsqrt => ECond CEq x (EZ 0) (EZ 0) (EDiv (EZ 1) (EFun1 Fsqrt x))
  | UAbs => EFun1 Fabs x
  | USign => ECond CGt x (EZ 0) (EZ 1) (ECond CLt x (EZ 0) (EZ (-1)) (EZ 0))
  | UStep => ECond CLt x (EZ 0) (EZ 0) (EZ 1)
  | UReLU => ECond CLt x (EZ 0) (EZ 0) x
  | UXLogX => ECond CNe x (EZ 0) (EMul x (EFun1 Flog x)) (EZ 0)
  | USinXDivX => ECond CNe x (EZ 0) (EDiv (EFun1 Fsin x) x) (EZ 1)
  | UAsin => EFun1 Fasin x
  | UAcos => EFun1 Facos x
  | UAtan => EFun1 Fatan x
  | UFloor => EFun1 Ffloor x
  | UPow m => EPow x m
  | UClampInt a b => ECond CLt x (EZ a) (EZ a) (ECond CGt x (EZ b) (EZ b) x)
  | UDiffClampInt a b => ECond CLt x (EZ a) (EZ 0) (ECond CGt x (EZ b) (EZ 0) (EZ 1))
  end.

Definition bin_code (b : binop) (x y : cexpr) : cexpr :=
  match b with
  | BAdd => EAdd x y
  | BSub => ESub x y
  | BMult => EMul x y
  | BDiv => EDiv x y
  | BAtan2 => EFun2 Fatan2 x y
  | BPowf => EFun2 Fpowf x y
  | BEqual => ECond CEq x y (EZ 1) (EZ 0)
  | BNotEqual => ECond CNe x y (EZ 1) (EZ 0)
  | BLess => ECond CLt x y (EZ 1) (EZ 0)
  | BLessEq => ECond CLe x y (EZ 1) (EZ 0)
  end.

Definition ter_code (t : terop) (x a b : cexpr) : cexpr :=
  match t with
  | TIfElse => ECond CGe x (EZ 0) a b
  | TClamp => ECond CLt x a a (ECond CGt x b b x)
  | TMod => ESub x (EMul a (EFun1 Ffloor (EDiv (ESub x b) a)))
  end.

(** ** The methods [Op] *)

Definition vect (code : list cexpr -> cexpr) : ptr -> iexpr -> list cexpr -> stmt :=
  fun p i args => SSet p i (code args).

(** Two statements one after the other. *)
Definition seq2 (a : stmt * gen) (k : gen -> res (stmt * gen)) : res (stmt * gen) :=
  do b <- k (snd a) ; Ok (SSeq (fst a) (fst b), snd b).

Definition code1 (f : cexpr -> cexpr) (l : list cexpr) : cexpr :=
  match l with [x] => f x | _ => EZ 0 end.
Definition code2 (f : cexpr -> cexpr -> cexpr) (l : list cexpr) : cexpr :=
  match l with [x; y] => f x y | _ => EZ 0 end.
Definition code3 (f : cexpr -> cexpr -> cexpr -> cexpr) (l : list cexpr) : cexpr :=
  match l with [x; y; z] => f x y z | _ => EZ 0 end.

Definition lin_op (l : linop) (out arg : c_array) (g : gen) : res (stmt * gen) :=
  match l with
  | LSum =>                                                                 (* Sum.py 20-24 *)
      seq2 (assign out (EZ 0) g)
        (VectApply (fun p i args => SAdd p i (code1 (fun x => x) args)) out [arg])
  | LSumT _ => Ok (assign out (value arg) g)                                (* SumT.py 25-26 *)
  | LElem m => Ok (SSet (aptr out) (IConst 0) (EAt (aptr arg) (IConst m)), g)  (* Elem.py 26-27 *)
  | LElemT n m =>                                                           (* ElemT.py 26-33 *)
      let k := name "k" (g "k") in
      let g := next g "k" in
      let s1 := SFor k 0 m (SSet (aptr out) (IVar k) (EZ 0)) in
      let s2 := SSet (aptr out) (IConst m) (value arg) in
      let k := name "k" (g "k") in
      let s3 := SFor k (m + 1) n (SSet (aptr out) (IVar k) (EZ 0)) in
      Ok (SSeq s1 (SSeq s2 s3), next g "k")
  | LExtract s _ =>                                                         (* Extract.py 25-29 *)
      Ok (VectCopy out (Array (PAdd (aptr arg) s) (adim out)) g)
  | LExtractT s d =>                                                        (* ExtractT.py 26-38 *)
      do o <- split3 out s (adim arg) (d - s - adim arg) ;
      let '(a, b, c) := o in
      seq2 (assign a (EZ 0) g) (fun g => seq2 (VectCopy b arg g) (fun g => Ok (assign c (EZ 0) g)))
  end.

Definition bil_op (b : bilop) (d : nat) (out x y : c_array) (g : gen) : res (stmt * gen) :=
  match b with
  | KScal =>                                                                (* Scalprod.py 32-36 *)
      seq2 (assign out (EZ 0) g)
        (VectApply (fun p i args => SSet p i (code2 (fun u v => EFma u v (EAt p i)) args)) out [x; y])
  | KMatVec =>                                                              (* MatVecMult.py 31-42 *)
      let q := name "var" (g "var") in let g := next g "var" in
      let i := name "k" (g "k") in let g := next g "k" in
      let k := name "k" (g "k") in let g := next g "k" in
      Ok (SSeq (SInt q 0)
            (SFor i 0 d
               (SSeq (SSet (aptr out) (IVar i) (EZ 0))
                  (SFor k 0 (adim y)
                     (SSeq (SAdd (aptr out) (IVar i) (EMul (EAt (aptr x) (IVar q)) (EAt (aptr y) (IVar k))))
                           (SIncr q 1))))), g)
  | KVecMat =>                                                              (* VecMatMult.py 31-43 *)
      let q := name "var" (g "var") in let g := next g "var" in
      let i := name "k" (g "k") in let g := next g "k" in
      let k := name "k" (g "k") in let g := next g "k" in
      Ok (SSeq (SInt q 0)
            (SFor i 0 d
               (SSeq (SSet (aptr out) (IVar i) (EZ 0))
                  (SFor k 0 (adim x)
                     (SAdd (aptr out) (IVar i)
                        (EMul (EAt (aptr y) (IAdd (IMul (IVar k) (IConst d)) (IVar i)))
                              (EAt (aptr x) (IVar k))))))), g)
  | KTensorProd =>                                                          (* TensorProd.py 25-37 *)
      let q := name "var" (g "var") in let g := next g "var" in
      let k := name "k" (g "k") in let g := next g "k" in
      let l := name "k" (g "k") in let g := next g "k" in
      Ok (SSeq (SInt q 0)
            (SFor k 0 (adim x)
               (SFor l 0 (adim y)
                  (SSeq (SSet (aptr out) (IVar q) (EMul (EAt (aptr x) (IVar k)) (EAt (aptr y) (IVar l))))
                        (SIncr q 1)))), g)
  end.

(** Max.py 25-37, Min.py 24-37, ArgMax.py 29-47, ArgMin.py 29-47, OneHot.py 25-37. *)
Definition extremum (c : cmp) (bound : nat) (out arg : c_array) (g : gen) : stmt * gen :=
  let k := name "k" (g "k") in
  (SSeq (SSet (aptr out) (IConst 0) (EAt (aptr arg) (IConst 0)))
     (SFor k 1 bound
        (SIf c (EAt (aptr arg) (IVar k)) (value out)
           (SSet (aptr out) (IConst 0) (EAt (aptr arg) (IVar k))))), next g "k").
Definition arg_extremum (c : cmp) (out arg : c_array) (g : gen) : stmt * gen :=
  let tmp := name "var" (g "var") in let g := next g "var" in
  let k := name "k" (g "k") in
  (SSeq (SSet (aptr out) (IConst 0) (EZ 0))
     (SSeq (SFloat tmp (EAt (aptr arg) (IConst 0)))
        (SFor k 1 (adim arg)
           (SIf c (EAt (aptr arg) (IVar k)) (EVar tmp)
              (SSeq (SVar tmp (EAt (aptr arg) (IVar k)))
                    (SSet (aptr out) (IConst 0) (EInt (IVar k))))))), next g "k").
Definition sel_op (s : selop) (d : nat) (out arg : c_array) (g : gen) : res (stmt * gen) :=
  match s with
  | SMax => Ok (extremum CGt (adim arg) out arg g)
  | SMin => Ok (extremum CLt d out arg g)      (* the bound is the dimension of the child *)
  | SArgMax => Ok (arg_extremum CGt out arg g)
  | SArgMin => Ok (arg_extremum CLt out arg g)
  | SOneHot _ =>
      seq2 (assign out (EZ 0) g)
        (fun g => Ok (SSetAt (aptr out) (EAdd (value arg) (EQ 1 2)) (EZ 1), g))
  end.

(** Concat.py 24-26. *)
Definition cat_op (out x y : c_array) (g : gen) : res (stmt * gen) :=
  do o <- split2 out (adim x) (adim y) ;
  let (a, b) := o in
  seq2 (VectCopy a x g) (fun g => Ok (VectCopy b y g)).

(** ** [Operation.__call__] *)

Definition string_id (f : fm) : string :=
  match f with
  | Var _ _ _ => "Var" | Zero _ => "Zero" | Int _ => "IntCst" | Rat _ _ => "RatCst"
  | Un u _ =>
      match u with
      | UMinus => "Minus" | USquare => "Square" | UExp => "Exp" | ULog => "Log" | UInv => "Inv"
      | USin => "Sin" | UCos => "Cos" | USqrt => "Sqrt" | URsqrt => "Rsqrt" | UAbs => "Abs"
      | USign => "Sign" | UStep => "Step" | UReLU => "ReLU" | UXLogX => "XLogX"
      | USinXDivX => "SinXDivX" | UAsin => "Asin" | UAcos => "Acos" | UAtan => "Atan"
      | UFloor => "Floor" | UPow _ => "Pow" | UClampInt _ _ => "ClampInt"
      | UDiffClampInt _ _ => "DiffClampInt"
      end
  | Bin b _ _ =>
      match b with
      | BAdd => "Add" | BSub => "Subtract" | BMult => "Mult" | BDiv => "Divide" | BAtan2 => "Atan2"
      | BPowf => "Powf" | BEqual => "Equal" | BNotEqual => "NotEqual" | BLess => "LessThan"
      | BLessEq => "LessOrEqual"
      end
  | Ter t _ _ _ => match t with TIfElse => "IfElse" | TClamp => "Clamp" | TMod => "Mod" end
  | Lin l _ =>
      match l with
      | LSum => "Sum" | LSumT _ => "SumT" | LElem _ => "Elem" | LElemT _ _ => "ElemT"
      | LExtract _ _ => "Extract" | LExtractT _ _ => "ExtractT"
      end
  | Bil b _ _ =>
      match b with
      | KScal => "Scalprod" | KMatVec => "MatVecMult" | KVecMat => "VecMatMult"
      | KTensorProd => "TensorProd"
      end
  | Cat _ _ => "Concat"
  | Sel s _ =>
      match s with
      | SMax => "Max" | SMin => "Min" | SArgMax => "ArgMax" | SArgMin => "ArgMin" | SOneHot _ => "OneHot"
      end
  end.

Definition lower_char (c : ascii) : ascii :=
  let n := nat_of_ascii c in
  if (Nat.leb 65 n && Nat.leb n 90)%bool then ascii_of_nat (n + 32) else c.
Fixpoint lower (s : string) : string :=
  match s with EmptyString => EmptyString | String c s => String (lower_char c) (lower s) end.

(** [table[ind]] for an index of Python; an entry None has no attribute. *)
Definition table_get (table : list (option c_array)) (i : Z) : res c_array :=
  let n := Z.of_nat (List.length table) in
  let j := if (i <? 0)%Z then (i + n)%Z else i in
  if ((0 <=? j) && (j <? n))%Z then
    match nth_error table (Z.to_nat j) with Some (Some a) => Ok a | _ => PyErr end
  else PyErr.

(** Lines 83-103: the array of a child and the code that fills it. *)
Definition child (table : list (option c_array)) (f : fm)
    (call : c_array -> gen -> res (stmt * gen)) (g : gen) : res (c_array * stmt * gen) :=
  match f with
  | Var i _ _ => do a <- table_get table i ; Ok (a, SSkip, g)
  | _ =>
      let t := "out_" ++ lower (string_id f) in
      let x := name t (g t) in
      let arg := Array (PName x) (dim f) in
      do c <- call arg (next g t) ;
      Ok (arg, SSeq (declare x (dim f)) (fst c), snd c)
  end.

Fixpoint call (f : fm) (out : c_array) (table : list (option c_array)) (g : gen) {struct f}
  : res (stmt * gen) :=
  match f with
  | Var i _ _ => do a <- table_get table i ; let (s, g) := VectCopy out a g in Ok (SBlock s, g)
  | Zero _ => let (s, g) := assign out (EZ 0) g in Ok (SBlock s, g)
  | Int z => Ok (SBlock (SSet (aptr out) (IConst 0) (EZ z)), g)
  | Rat p q => Ok (SBlock (SSet (aptr out) (IConst 0) (EQ p q)), g)
  | Un u f1 =>
      do a <- child table f1 (fun o => call f1 o table) g ;
      let '(a, s1, g) := a in
      do r <- VectApply (vect (code1 (un_code u))) out [a] g ;
      Ok (SBlock (SSeq s1 (fst r)), snd r)
  | Bin b f1 f2 =>
      do a <- child table f1 (fun o => call f1 o table) g ;
      let '(a, s1, g) := a in
      do c <- child table f2 (fun o => call f2 o table) g ;
      let '(c, s2, g) := c in
      do r <- VectApply (vect (code2 (bin_code b))) out [a; c] g ;
      Ok (SBlock (SSeq s1 (SSeq s2 (fst r))), snd r)
  | Ter t f1 f2 f3 =>
      do a <- child table f1 (fun o => call f1 o table) g ;
      let '(a, s1, g) := a in
      do c <- child table f2 (fun o => call f2 o table) g ;
      let '(c, s2, g) := c in
      do d <- child table f3 (fun o => call f3 o table) g ;
      let '(d, s3, g) := d in
      do r <- VectApply (vect (code3 (ter_code t))) out [a; c; d] g ;
      Ok (SBlock (SSeq s1 (SSeq s2 (SSeq s3 (fst r)))), snd r)
  | Lin l f1 =>
      do a <- child table f1 (fun o => call f1 o table) g ;
      let '(a, s1, g) := a in
      do r <- lin_op l out a g ;
      Ok (SBlock (SSeq s1 (fst r)), snd r)
  | Bil b f1 f2 =>
      do a <- child table f1 (fun o => call f1 o table) g ;
      let '(a, s1, g) := a in
      do c <- child table f2 (fun o => call f2 o table) g ;
      let '(c, s2, g) := c in
      do r <- bil_op b (dim (Bil b f1 f2)) out a c g ;
      Ok (SBlock (SSeq s1 (SSeq s2 (fst r))), snd r)
  | Cat f1 f2 =>
      do a <- child table f1 (fun o => call f1 o table) g ;
      let '(a, s1, g) := a in
      do c <- child table f2 (fun o => call f2 o table) g ;
      let '(c, s2, g) := c in
      do r <- cat_op out a c g ;
      Ok (SBlock (SSeq s1 (SSeq s2 (fst r))), snd r)
  | Sel s f1 =>
      do a <- child table f1 (fun o => call f1 o table) g ;
      let '(a, s1, g) := a in
      do r <- sel_op s (dim f1) out a g ;
      Ok (SBlock (SSeq s1 (fst r)), snd r)
  end.
