(** * How the text of a formula is read.

    Models [eval] of a formula text, keopscore/keopscore/formulas/GetReduction.py lines 24-31 (and
    utils/TestFormula.py lines 16-27), for the expressions that formulas are made of: names, integers, calls, lists,
    items, the operators + - * / | ** and the comparisons, with the precedences of the Python language; then the operators
    on formulas, formulas/Operation.py lines 120-257 ([__add__], ..., [int2Op]), and the functions and classes of
    formulas/maths that have a counterpart in Formula.v.

    Simplifications: other characters and constructions of Python (strings, attributes, keywords, decimal points,
    trailing commas, numbers with leading zeros) are refused by the reader here, and nothing is said about them.
    Floating point numbers are represented without their value, comparing them is refused.  A function
    given the wrong number or kind of arguments raises ([PyErr]); so does a name that is not in the table below, though
    the engine may know it.  Negative dimensions and positions are refused. *)

From Coq Require Import ZArith List Bool Ascii String.
From Verif Require Import Result Keys KeySpec Aliases Formula Simplify Build.
Import ListNotations.
Open Scope string_scope.

(** ** Tokens *)

Inductive sym :=
| SLPar | SRPar | SLBra | SRBra | SComma | SPlus | SDash | SStar | SSlash | SBar | SPower
| SLt | SLe | SGt | SGe | SEq | SNe.
Definition sym_eq_dec : forall a b : sym, {a = b} + {a <> b}.
Proof. decide equality. Defined.
Definition sym_eqb (a b : sym) : bool := if sym_eq_dec a b then true else false.

Inductive token := KName (s : string) | KNum (z : Z) | K (s : sym).

(** Symbols of one and of two characters; the longest one is taken. *)
Definition sym1 (c : ascii) : option sym :=
  if (c =? "(")%char then Some SLPar else if (c =? ")")%char then Some SRPar
  else if (c =? "[")%char then Some SLBra else if (c =? "]")%char then Some SRBra
  else if (c =? ",")%char then Some SComma else if (c =? "+")%char then Some SPlus
  else if (c =? "-")%char then Some SDash else if (c =? "*")%char then Some SStar
  else if (c =? "/")%char then Some SSlash else if (c =? "|")%char then Some SBar
  else if (c =? "<")%char then Some SLt else if (c =? ">")%char then Some SGt else None.
Definition sym2 (c d : ascii) : option sym :=
  if (c =? "*")%char && (d =? "*")%char then Some SPower
  else if (c =? "<")%char && (d =? "=")%char then Some SLe
  else if (c =? ">")%char && (d =? "=")%char then Some SGe
  else if (c =? "=")%char && (d =? "=")%char then Some SEq
  else if (c =? "!")%char && (d =? "=")%char then Some SNe else None.

(** The word that has been read: nothing, an integer or a name. *)
Definition word (w : string) : option (list token) :=
  match w with
  | EmptyString => Some []
  | String c _ =>
      if name_start c then Some [KName w]
      else if String.eqb w (str_int (int_from 0 w)) then Some [KNum (int_from 0 w)] else None
  end.

Definition ocons {A} (x : A) (o : option (list A)) : option (list A) :=
  match o with Some l => Some (x :: l) | None => None end.

Fixpoint lex (w s : string) : option (list token) :=
  match s with
  | EmptyString => word w
  | String c r =>
      if name_char c then lex (w ++ one c) r
      else
        match word w with
        | None => None
        | Some t =>
            match
              (if (c =? " ")%char then lex "" r
               else
                 match r with
                 | String d r' =>
                     match sym2 c d with
                     | Some k => ocons (K k) (lex "" r')
                     | None => match sym1 c with Some k => ocons (K k) (lex "" r) | None => None end
                     end
                 | EmptyString => match sym1 c with Some k => ocons (K k) (lex "" r) | None => None end
                 end)
            with
            | Some l => Some (t ++ l)%list
            | None => None
            end
        end
  end.

(** ** Syntax *)

Inductive py :=
| PName (s : string)
| PNum (z : Z)
| PNeg (e : py)
| PPow (a b : py)
| PBin (op : sym) (a b : py)
| PCmp (a : py) (l : list (sym * py))
| PCall (f : py) (l : list py)
| PItem (a i : py)
| PList (l : list py).

Definition compares (s : sym) : bool :=
  match s with SLt | SLe | SGt | SGe | SEq | SNe => true | _ => false end.
(** Operators that associate to the left: level 1 is |, level 2 is + and -, level 3 is * and /. *)
Definition at_level (lev : nat) (s : sym) : bool :=
  match lev, s with
  | 1, SBar | 2, SPlus | 2, SDash | 3, SStar | 3, SSlash => true
  | _, _ => false
  end.

Definition parsed (A : Type) : Type := option (A * list token).
Definition pbind {A B} (o : parsed A) (k : A -> list token -> parsed B) : parsed B :=
  match o with Some (a, r) => k a r | None => None end.

(** Levels: 0 comparisons, 1 |, 2 + -, 3 * /, 4 the opposite, 5 powers, 6 calls, items and atoms.  The first argument
    bounds the number of nested calls. *)
Fixpoint parse (n lev : nat) (ts : list token) : parsed py :=
  match n with
  | O => None
  | S n =>
      match lev with
      | 0 =>
          pbind (parse n 1 ts) (fun a r =>
          pbind (comparisons n r) (fun l r =>
          Some (match l with [] => a | _ => PCmp a l end, r)))
      | 1 | 2 | 3 => pbind (parse n (S lev) ts) (fun a r => chain n lev a r)
      | 4 =>
          match ts with
          | K SDash :: r => pbind (parse n 4 r) (fun a r => Some (PNeg a, r))
          | _ => parse n 5 ts
          end
      | 5 =>
          pbind (parse n 6 ts) (fun a r =>
          match r with
          | K SPower :: r => pbind (parse n 4 r) (fun b r => Some (PPow a b, r))
          | _ => Some (a, r)
          end)
      | _ => pbind (atom n ts) (fun a r => trailers n a r)
      end
  end
with comparisons (n : nat) (ts : list token) : parsed (list (sym * py)) :=
  match n with
  | O => None
  | S n =>
      match ts with
      | K s :: r =>
          if compares s then
            pbind (parse n 1 r) (fun b r => pbind (comparisons n r) (fun l r => Some ((s, b) :: l, r)))
          else Some ([], ts)
      | _ => Some ([], ts)
      end
  end
with chain (n lev : nat) (a : py) (ts : list token) : parsed py :=
  match n with
  | O => None
  | S n =>
      match ts with
      | K s :: r =>
          if at_level lev s then pbind (parse n (S lev) r) (fun b r => chain n lev (PBin s a b) r)
          else Some (a, ts)
      | _ => Some (a, ts)
      end
  end
with trailers (n : nat) (a : py) (ts : list token) : parsed py :=
  match n with
  | O => None
  | S n =>
      match ts with
      | K SLPar :: r => pbind (items n SRPar r) (fun l r => trailers n (PCall a l) r)
      | K SLBra :: r =>
          pbind (parse n 0 r) (fun i r => match r with K SRBra :: r => trailers n (PItem a i) r | _ => None end)
      | _ => Some (a, ts)
      end
  end
with atom (n : nat) (ts : list token) : parsed py :=
  match n with
  | O => None
  | S n =>
      match ts with
      | KName s :: r => Some (PName s, r)
      | KNum z :: r => Some (PNum z, r)
      | K SLPar :: r =>
          pbind (parse n 0 r) (fun a r => match r with K SRPar :: r => Some (a, r) | _ => None end)
      | K SLBra :: r => pbind (items n SRBra r) (fun l r => Some (PList l, r))
      | _ => None
      end
  end
with items (n : nat) (close : sym) (ts : list token) : parsed (list py) :=
  match n with
  | O => None
  | S n =>
      match ts with
      | K s :: r =>
          if sym_eqb s close then Some ([], r)
          else pbind (parse n 0 ts) (fun a r => pbind (more n close r) (fun l r => Some (a :: l, r)))
      | _ => pbind (parse n 0 ts) (fun a r => pbind (more n close r) (fun l r => Some (a :: l, r)))
      end
  end
with more (n : nat) (close : sym) (ts : list token) : parsed (list py) :=
  match n with
  | O => None
  | S n =>
      match ts with
      | K s :: r =>
          if sym_eqb s close then Some ([], r)
          else if sym_eqb s SComma then
            pbind (parse n 0 r) (fun a r => pbind (more n close r) (fun l r => Some (a :: l, r)))
          else None
      | _ => None
      end
  end.

(** The text [s] is read as the expression [e], whatever the bound if it is large enough. *)
Definition reads (s : string) (e : py) : Prop :=
  exists ts n, lex "" s = Some ts /\ forall m, n <= m -> parse m 0 ts = Some (e, []).

(** ** Values *)

Inductive pv := VF (f : fm) | VZ (z : Z) | VB (b : bool) | VD | VL (l : list pv).

Definition number (v : pv) : option Z :=
  match v with VZ z => Some z | VB b => Some (if b then 1 else 0)%Z | _ => None end.

(** Operation.py lines 260-269. *)
Definition int2Op (v : pv) : res fm :=
  match v with
  | VF f => Ok f
  | VZ z => Ok (IntCst z)
  | VB b => Ok (IntCst (if b then 1 else 0))
  | _ => KErr
  end.
Definition lift (r : res fm) : res pv := do f <- r ; Ok (VF f).

(** Operation.py lines 120-160. *)
Definition arith (op : fm -> fm -> res fm) (onint : Z -> Z -> res pv) (a b : pv) : res pv :=
  match a, b with
  | VF f, _ => do g <- int2Op b ; lift (op f g)
  | _, VF g => do f <- int2Op a ; lift (op f g)
  | _, _ =>
      match number a, number b with
      | Some x, Some y => onint x y
      | _, _ => match a, b with VL _, _ | _, VL _ => PyErr | _, _ => Ok VD end
      end
  end.

(** Lines 127-141: 1 divided by a formula is its inverse. *)
Definition divide (a b : pv) : res pv :=
  match a, b with
  | VF _, _ => arith Divide (fun _ _ => PyErr) a b
  | _, VF g =>
      match number a with
      | Some 1%Z => lift (build_un UInv g)
      | _ => arith Divide (fun _ _ => PyErr) a b
      end
  | _, _ => arith Divide (fun _ y => if (y =? 0)%Z then PyErr else Ok VD) a b
  end.

Definition binary_op (s : sym) (a b : pv) : res pv :=
  match s with
  | SPlus => match a, b with VL l, VL m => Ok (VL (l ++ m)) | _, _ => arith Add (fun x y => Ok (VZ (x + y))) a b end
  | SDash => arith Subtract (fun x y => Ok (VZ (x - y))) a b
  | SStar => arith Mult (fun x y => Ok (VZ (x * y))) a b
  | SSlash => divide a b
  | SBar =>
      match a, b with
      | VF f, VF g => lift (Scalprod f g)
      | _, _ => match number a, number b with Some x, Some y => Ok (VZ (Z.lor x y)) | _, _ => PyErr end
      end
  | _ => PyErr
  end.

(** Lines 171-187; the last branch raises something that is not an exception. *)
Definition power_op (a b : pv) : res pv :=
  match a with
  | VF f =>
      match number b with
      | Some 2%Z => lift (Square f)
      | Some m => lift (Pow f m)
      | None => PyErr
      end
  | _ =>
      match number a, number b with
      | Some x, Some y => if (y <? 0)%Z then (if (x =? 0)%Z then PyErr else Ok VD) else Ok (VZ (x ^ y))
      | _, _ => match b with VF _ | VL _ => PyErr | _ => match a with VL _ => PyErr | _ => Ok VD end end
      end
  end.

Definition negate (a : pv) : res pv :=
  match a with
  | VF f => lift (Minus f)
  | VD => Ok VD
  | VL _ => PyErr
  | _ => match number a with Some x => Ok (VZ (- x)) | None => PyErr end
  end.

(** Lines 195-233: order makes a formula, equality compares the formulas themselves. *)
Definition order (mk : fm -> fm -> res fm) (onint : Z -> Z -> bool) (a b : pv) : res pv :=
  match a, b with
  | VF _, _ | _, VF _ => do f <- int2Op a ; do g <- int2Op b ; lift (mk f g)
  | _, _ => match number a, number b with Some x, Some y => Ok (VB (onint x y)) | _, _ => PyErr end
  end.
Definition same (a b : pv) : res bool :=
  match a, b with
  | VF f, VF g => Ok (feqb f g)
  | VF _, _ | _, VF _ => Ok false
  | _, _ => match number a, number b with Some x, Some y => Ok (x =? y)%Z | _, _ => PyErr end
  end.
Definition compare_op (s : sym) (a b : pv) : res pv :=
  match s with
  | SLt => order (fun f g => mk (Bin BLess f g)) Z.ltb a b
  | SLe => order (fun f g => mk (Bin BLessEq f g)) Z.leb a b
  | SGt => order (fun f g => mk (Bin BLess g f)) Z.gtb a b
  | SGe => order (fun f g => mk (Bin BLessEq g f)) Z.geb a b
  | SEq => do x <- same a b ; Ok (VB x)
  | SNe => do x <- same a b ; Ok (VB (negb x))
  | _ => PyErr
  end.
Definition truthy (v : pv) : bool := match v with VB b => b | _ => true end.

(** ** Functions and classes *)

Definition unary_names : list (string * unop) :=
  [("Minus", UMinus); ("Square", USquare); ("Exp", UExp); ("Log", ULog); ("Inv", UInv); ("Sin", USin); ("Cos", UCos);
   ("Sqrt", USqrt); ("Rsqrt", URsqrt); ("Abs", UAbs); ("Sign", USign); ("Step", UStep); ("ReLU", UReLU);
   ("XLogX", UXLogX); ("SinXDivX", USinXDivX); ("Asin", UAsin); ("Acos", UAcos); ("Atan", UAtan); ("Floor", UFloor)].
Definition binary_names : list (string * binop) :=
  [("Add", BAdd); ("Subtract", BSub); ("Mult", BMult); ("Divide", BDiv); ("Atan2", BAtan2); ("Powf", BPowf);
   ("Equal", BEqual); ("NotEqual", BNotEqual); ("LessThan", BLess); ("LessOrEqual", BLessEq)].
Definition ternary_names : list (string * terop) := [("IfElse", TIfElse); ("Clamp", TClamp); ("Mod", TMod)].
Definition bilinear_names : list (string * bilop) :=
  [("Scalprod", KScal); ("MatVecMult", KMatVec); ("VecMatMult", KVecMat); ("TensorProd", KTensorProd)].
Definition select_names : list (string * selop) :=
  [("Max", SMax); ("Min", SMin); ("ArgMax", SArgMax); ("ArgMin", SArgMin)].
Fixpoint assoc {A} (s : string) (l : list (string * A)) : option A :=
  match l with [] => None | (k, a) :: l => if String.eqb s k then Some a else assoc s l end.

(** maths/SqNorm2.py, Norm2.py, Normalize.py, SqDist.py, WeightedSqNorm.py, SqNormIso.py, SqNormDiag.py, SymSqNorm.py *)
Definition SqNorm2 (f : fm) : res fm := do x <- Square f ; Sum x.
Definition Norm2 (f : fm) : res fm := do x <- Scalprod f f ; build_un USqrt x.
Definition Normalize (f : fm) : res fm := do x <- SqNorm2 f ; do y <- build_un URsqrt x ; Mult y f.
Definition SqDist (f g : fm) : res fm := do x <- Subtract f g ; SqNorm2 x.
Definition WeightedSqNorm (s f : fm) : res fm :=
  if Nat.eqb (dim s) 1 then do x <- SqNorm2 f ; Mult s x
  else if Nat.eqb (dim s) (dim f) then do x <- Square f ; do y <- Mult s x ; Sum y
  else do x <- build_bil KTensorProd f f ; do y <- Mult s x ; Sum y.

Definition call1 (name : string) (f : fm) : res fm :=
  match assoc name unary_names with
  | Some u => build_un u f
  | None =>
      match assoc name select_names with
      | Some s => mk (Sel s f)
      | None =>
          if String.eqb name "Sum" then Sum f
          else if String.eqb name "SqNorm2" then SqNorm2 f
          else if String.eqb name "Norm2" then Norm2 f
          else if String.eqb name "Normalize" then Normalize f
          else PyErr
      end
  end.
Definition call2 (name : string) (f g : fm) : res fm :=
  match assoc name binary_names with
  | Some b => build_bin b f g
  | None =>
      match assoc name bilinear_names with
      | Some b => build_bil b f g
      | None =>
          if String.eqb name "Concat" then mk (Cat f g)
          else if String.eqb name "SqDist" then SqDist f g
          else if String.eqb name "WeightedSqNorm" then WeightedSqNorm f g
          else PyErr
      end
  end.
Definition call3 (name : string) (f g h : fm) : res fm :=
  match assoc name ternary_names with Some t => mk (Ter t f g h) | None => PyErr end.
Definition nonneg (z : Z) (k : nat -> res fm) : res fm := if (z <? 0)%Z then PyErr else k (Z.to_nat z).
Definition call1_int (name : string) (f : fm) (k : Z) : res fm :=
  if String.eqb name "Pow" then Pow f k
  else nonneg k (fun k =>
    if String.eqb name "Elem" then build_lin (LElem k) f
    else if String.eqb name "SumT" then SumT f k
    else if String.eqb name "OneHot" then mk (Sel (SOneHot k) f)
    else PyErr).
Definition call1_ints (name : string) (f : fm) (a b : Z) : res fm :=
  if String.eqb name "ClampInt" then build_un (UClampInt a b) f
  else if String.eqb name "DiffClampInt" then build_un (UDiffClampInt a b) f
  else nonneg a (fun a => nonneg b (fun b =>
    if String.eqb name "Extract" then build_lin (LExtract a b) f
    else if String.eqb name "ExtractT" then build_lin (LExtractT a b) f
    else if String.eqb name "ElemT" then build_lin (LElemT a b) f
    else PyErr)).
(** variables/Var.py, Zero.py, IntCst.py, RatCst.py *)
Definition call_ints (name : string) (l : list Z) : res fm :=
  match l with
  | [a] => if String.eqb name "IntCst" then Ok (IntCst a)
           else if String.eqb name "Zero" then nonneg a (fun d => mk (Zero d)) else PyErr
  | [a; b] => if String.eqb name "RatCst" then RatCst a b else PyErr
  | [a; b; c] =>
      if String.eqb name "Var" then nonneg b (fun d => nonneg c (fun c => mk (Var a d c))) else PyErr
  | _ => PyErr
  end.

Fixpoint integers (l : list pv) : option (list Z) :=
  match l with
  | [] => Some []
  | VZ z :: l => ocons z (integers l)
  | _ => None
  end.
Definition call (name : string) (l : list pv) : res pv :=
  match l with
  | [VF f] => lift (call1 name f)
  | [VF f; VF g] => lift (call2 name f g)
  | [VF f; VF g; VF h] => lift (call3 name f g h)
  | [VF f; VZ k] => lift (call1_int name f k)
  | [VF f; VZ a; VZ b] => lift (call1_ints name f a b)
  | _ => match integers l with Some z => lift (call_ints name z) | None => PyErr end
  end.

Definition item (a i : pv) : res pv :=
  match a, i with
  | VL l, VZ k => if (k <? 0)%Z then PyErr else match nth_error l (Z.to_nat k) with Some v => Ok v | None => PyErr end
  | _, _ => PyErr
  end.

(** Evaluation, from left to right; [names] are the variables declared by the aliases. *)
Fixpoint evaluate (names : string -> option pv) (e : py) : res pv :=
  match e with
  | PName s => match names s with Some v => Ok v | None => PyErr end
  | PNum z => Ok (VZ z)
  | PNeg e => do v <- evaluate names e ; negate v
  | PPow a b => do x <- evaluate names a ; do y <- evaluate names b ; power_op x y
  | PBin s a b => do x <- evaluate names a ; do y <- evaluate names b ; binary_op s x y
  | PCmp a l =>
      do x <- evaluate names a ;
      (fix go (x : pv) (l : list (sym * py)) : res pv :=
         match l with
         | [] => Ok x
         | (s, b) :: l =>
             do y <- evaluate names b ;
             do r <- compare_op s x y ;
             match l with
             | [] => Ok r
             | _ => if truthy r then go y l else Ok r
             end
         end) x l
  | PCall f l =>
      match f with
      | PName s =>
          do v <- (fix go (l : list py) : res (list pv) :=
                     match l with
                     | [] => Ok []
                     | a :: l => do x <- evaluate names a ; do r <- go l ; Ok (x :: r)
                     end) l ;
          call s v
      | _ => PyErr
      end
  | PItem a i => do x <- evaluate names a ; do y <- evaluate names i ; item x y
  | PList l =>
      do v <- (fix go (l : list py) : res (list pv) :=
                 match l with
                 | [] => Ok []
                 | a :: l => do x <- evaluate names a ; do r <- go l ; Ok (x :: r)
                 end) l ;
      Ok (VL v)
  end.
