(** * Methods of symbolic tensors, and dimensions in the engine.

    Models pykeops/pykeops/common/lazy_tensor.py: lines 1018-1181 (arithmetic), 1182-1365 (functions, powers),
    1366-1475 (comparisons, clamp, ifelse, mod, round), 1490-1690 (norms, distances, indexing), 1691-1735 (one_hot,
    bspline, concat), 1771-1905 (products), 1907-2005 (grad, diff, factorize, auto_factorize, grad_matrix), the branches
    of sum, min, argmin, max, argmax for the last axis (2055-2370), 940-945 ([__str__]) and 992-1011 (shapes).

    Models the constructors of keopscore/keopscore/formulas (VectorizedScalarOp.py 11-22 and the classes of
    formulas/maths, each cited below) as far as dimensions are concerned.

    Simplifications: an array or a number given to a method is a symbolic tensor already
    (line 493 converts it); the shortcuts for the numbers 0, 1 and -1 in the arithmetic methods, which return the
    tensor itself, its opposite, its inverse or 0, are left out, and so are complex tensors (see Complex).
    [sinc], [weightedsqdist], [norm], [concatenate] and [cat] call the methods below.  Integers are unbounded and
    the division made by keops_tensordot in floating point is exact. *)

From Coq Require Import ZArith List Bool Ascii String.
From Verif Require Import Result Keys LazyTensors Tensordot.
Import ListNotations.
Open Scope string_scope.

(** ** Methods *)

(** Methods that apply a function to each coordinate; normalize and auto_factorize keep the dimension too. *)
Inductive map1 :=
| Mabs | Mminus | Minv | Mexp | Mlog | Mxlogx | Mcos | Msin | Msinxdivx | Masin | Macos | Matan | Msqrt | Mrsqrt
| Msquare | Msign | Mstep | Mrelu | Mnormalize | Mauto_factorize.
Definition map1_op (m : map1) : string :=
  match m with
  | Mabs => "Abs" | Mminus => "Minus" | Minv => "Inv" | Mexp => "Exp" | Mlog => "Log" | Mxlogx => "XLogX"
  | Mcos => "Cos" | Msin => "Sin" | Msinxdivx => "SinXDivX" | Masin => "Asin" | Macos => "Acos" | Matan => "Atan"
  | Msqrt => "Sqrt" | Mrsqrt => "Rsqrt" | Msquare => "Square" | Msign => "Sign" | Mstep => "Step" | Mrelu => "ReLU"
  | Mnormalize => "Normalize" | Mauto_factorize => "AutoFactorize"
  end.
Definition m_map (m : map1) (l : lazy) : lazy :=
  unary l (map1_op m) (match m with Mauto_factorize => Some (ndim l) | _ => None end) None None.

(** [x ** k] for an integer; [round]; [clamp] with two integers. *)
Definition m_pow (k : Z) (l : lazy) : lazy :=
  if (k =? 2)%Z then unary l "Square" None None None else unary l "Pow" None (Some (str_int k)) None.
Definition m_round (k : Z) (l : lazy) : lazy := unary l "Round" None (Some (str_int k)) None.
Definition m_clamp_int (a b : Z) (l : lazy) : lazy :=
  unary l "ClampInt" None (Some (str_int a)) (Some (str_int b)).

(** Methods with a scalar result. *)
Inductive scal1 := Msqnorm2 | Mnorm2 | Msum | Mmin | Margmin | Mmax | Margmax.
Definition scal1_op (m : scal1) : string :=
  match m with
  | Msqnorm2 => "SqNorm2" | Mnorm2 => "Norm2" | Msum => "Sum" | Mmin => "Min" | Margmin => "ArgMin"
  | Mmax => "Max" | Margmax => "ArgMax"
  end.
Definition m_scal (m : scal1) (l : lazy) : lazy := unary l (scal1_op m) (Some 1%Z) None None.

(** [elem], [extract], [__getitem__] for a slice along the last dimension, [one_hot]. *)
Definition m_elem (i : Z) (l : lazy) : res lazy :=
  if (i <? 0)%Z || (ndim l <=? i)%Z then KErr else Ok (unary l "Elem" (Some 1%Z) (Some (str_int i)) None).
Definition m_extract (i d : Z) (l : lazy) : res lazy :=
  if (i <? 0)%Z || (ndim l <=? i)%Z then KErr
  else if (d <? 1)%Z || (ndim l <? i + d)%Z then KErr
  else Ok (unary l "Extract" (Some d) (Some (str_int i)) (Some (str_int d))).
Definition m_slice (start stop : option Z) (l : lazy) : res lazy :=
  let a := match start with Some a => a | None => 0%Z end in
  let b := match stop with Some b => b | None => ndim l end in
  m_extract a (b - a) l.
Definition m_one_hot (d : Z) (l : lazy) : res lazy :=
  if negb (ndim l =? 1)%Z then KErr else Ok (unary l "OneHot" (Some d) (Some (str_int d)) None).

(** Operators; [reversed]: the methods __radd__, __rsub__, and so on. *)
Inductive arith := Aadd | Asub | Amul | Adiv | Alt | Agt | Ale | Age.
Definition arith_op (m : arith) : string :=
  match m with
  | Aadd => "+" | Asub => "-" | Amul => "*" | Adiv => "/" | Alt => "<" | Agt => ">" | Ale => "<=" | Age => ">="
  end.
Definition m_arith (m : arith) (reversed : bool) (l other : lazy) : res lazy :=
  binary l other (arith_op m) true None DSameOr1 None reversed.
Definition m_or (reversed : bool) (l other : lazy) : res lazy :=
  binary l other "|" true (Some 1%Z) DSame None reversed.

(** Functions of two tensors. *)
Inductive fun2 := Fatan2 | Feq | Fne.
Definition fun2_op (m : fun2) : string := match m with Fatan2 => "Atan2" | Feq => "Equal" | Fne => "NotEqual" end.
Definition m_fun2 (m : fun2) (l other : lazy) : res lazy :=
  binary l other (fun2_op m) false None DSameOr1 None false.
Definition m_powf (l other : lazy) : res lazy :=
  if (ndim other =? 1)%Z || (ndim other =? ndim l)%Z then binary l other "Powf" false None DNone None false
  else KErr.
Definition m_sqdist (l other : lazy) : res lazy := binary l other "SqDist" false (Some 1%Z) DSameOr1 None false.
Definition m_weightedsqnorm (l other : lazy) : res lazy :=
  if (ndim other =? 1)%Z || (ndim other =? ndim l)%Z || (ndim other =? ndim l * ndim l)%Z then
    binary l other "WeightedSqNorm" false (Some 1%Z) DNone None true
  else KErr.
Definition m_difference_matrix (l other : lazy) : res lazy :=
  binary l other "DifferenceMatrix" false (Some (ndim other * ndim l)%Z) DNone None false.
Definition m_concat (l other : lazy) : res lazy :=
  binary l other "Concat" false (Some (ndim l + ndim other)%Z) DNone None false.
Definition m_bspline (k : Z) (l other : lazy) : res lazy :=
  binary l other "BSpline" false (Some (ndim l - k - 1)%Z) DVecAnd1 (Some (EText (str_int k), false)) false.

(** Products; a division by zero raises. *)
Definition m_matvec (l other : lazy) : res lazy :=
  if (ndim other =? 0)%Z then PyErr
  else binary l other "MatVecMult" false (Some (ndim l / ndim other)%Z) DNone None false.
Definition m_vecmat (l other : lazy) : res lazy :=
  if (ndim l =? 0)%Z then PyErr
  else binary l other "VecMatMult" false (Some (ndim other / ndim l)%Z) DNone None false.
Definition m_tensorprod (l other : lazy) : res lazy :=
  binary l other "TensorProd" false (Some (ndim other * ndim l)%Z) DNone None false.

(** Lists of integers as they are written in formulas. *)
Definition ints_text (x : list Z) : string := "[" ++ String.concat "," (map str_int x) ++ "]".
Definition lists_text (x : list (list Z)) : string := String.concat ", " (map ints_text x).
Definition zs (x : list nat) : list Z := map Z.of_nat x.

Definition m_tensordot (da db : list nat) (ca cb : list Z) (perm : option (list Z)) (l other : lazy) : res lazy :=
  let opt := lists_text ([zs da; zs db; ca; cb] ++ match perm with Some p => [p] | None => [] end) in
  do d <- (match ca with
           | [] => Ok (product da * product db)
           | _ => do sa <- select da ca ;
                  if product sa =? 0 then PyErr
                  else Ok (product da * product db / (product sa * product sa))
           end)%nat ;
  binary l other "TensorDot" false (Some (Z.of_nat d)) DNone (Some (EText opt, false)) false.
Definition m_kron (da db : list nat) (l other : lazy) : res lazy :=
  binary l other "Kron" false (Some (ndim other * ndim l)%Z) DNone
    (Some (EText (lists_text [zs da; zs db]), false)) false.

Definition m_factorize (l other : lazy) : res lazy :=
  binary l other "Factorize" false (Some (ndim l)) DNone None false.

(** Functions of three tensors. *)
Inductive fun3 := Fclamp | Fifelse | Fmod.
Definition fun3_op (m : fun3) : string := match m with Fclamp => "Clamp" | Fifelse => "IfElse" | Fmod => "Mod" end.
Definition m_fun3 (m : fun3) (l o1 o2 : lazy) : res lazy := ternary l o1 o2 (fun3_op m) None DSameOr1 None.
Definition m_softdtw (l o1 o2 : lazy) : res lazy :=
  ternary l o1 o2 "SoftDTW_SqDist" (Some 1%Z) DNone None.

(** Derivatives. *)
Definition m_grad (l v gradin : lazy) : res lazy :=
  binary l gradin "Grad" false (Some (ndim v)) DSame (Some (ELazy v, true)) false.
Definition m_diff (l v diffin : lazy) : res lazy :=
  binary l diffin "Diff" false (Some (ndim l)) DNone (Some (ELazy v, true)) false.

(** Lines 940-988, what [format] writes for a symbolic tensor: this line, then the formula and [rest]. *)
Definition newline : ascii := ascii_of_nat 10.
Definition lt_str (rest : string) : string :=
  "KeOps LazyTensor" ++ String newline ("    formula: " ++ rest).
(** The optional argument is the tensor itself, not its formula, and [unary] formats it. *)
Definition m_grad_matrix (rest : string) (l v : lazy) : lazy :=
  unary l "GradMatrix" (Some (ndim l * ndim v)%Z) (Some (lt_str rest)) None.

(** ** Shapes *)

Definition inner_shape (l : lazy) : list Z :=
  ((match batchdims l with Some b => b | None => [] end)
   ++ [match ni l with Some n => n | None => 1 end; match nj l with Some n => n | None => 1 end; ndim l])%list%Z.
Definition lt_shape (l : lazy) : list Z :=
  let s := inner_shape l in
  if (ndim l =? 1)%Z then removelast s else s.

(** ** Formulas of the engine *)

Inductive term :=
| TVar (id d c : Z)
| TSym (ind d c : Z)
| TInt (n : Z)
| T1 (op : string) (t : term) (params : list Z)
| TOp (op : string) (t u : term)
| T2 (op : string) (t u : term) (params : list Z)
| TDot (op : string) (t u : term) (params : list (list Z))
| T3 (op : string) (t u v : term).

Definition among (op : string) (l : list string) : bool := existsb (String.eqb op) l.

(** VectorizedScalarOp.py lines 11-22. *)
Definition vectorized (dims : list Z) : res Z :=
  let s := nodup Z.eq_dec dims in
  match s with
  | [] => PyErr
  | a :: r =>
      if (2 <? List.length s)%nat || ((List.length s =? 2)%nat && negb (fold_left Z.min r a =? 1)%Z) then KErr
      else Ok (fold_left Z.max r a)
  end.

(** One argument.  Norm2.py, SqNorm2.py, Normalize.py, Sum.py, Min.py, ArgMin.py, Max.py, ArgMax.py, Pow.py, Round.py,
    Elem.py 24-26, OneHot.py 21-27, ClampInt.py, Extract.py 22-29; the factorization has the dimension of the formula
    (factorization/Factorize.py).  A name that is not defined raises. *)
Definition engine1 (op : string) (ps : list Z) (d : Z) : res Z :=
  match ps with
  | [] =>
      if among op ["Abs"; "Minus"; "Inv"; "Exp"; "Log"; "XLogX"; "Cos"; "Sin"; "SinXDivX"; "Asin"; "Acos"; "Atan";
                   "Sqrt"; "Rsqrt"; "Square"; "Sign"; "Step"; "ReLU"] then vectorized [d]
      else if String.eqb op "AutoFactorize" then Ok d
      else if String.eqb op "Normalize" then vectorized [1%Z; d]
      else if among op ["SqNorm2"; "Norm2"; "Sum"] then Ok 1%Z
      else if among op ["Min"; "ArgMin"; "Max"; "ArgMax"] then if (d <? 1)%Z then KErr else Ok 1%Z
      else PyErr
  | [k] =>
      if among op ["Pow"; "Round"] then vectorized [d]
      else if String.eqb op "Elem" then if (d <=? k)%Z then KErr else Ok 1%Z
      else if String.eqb op "OneHot" then
        if negb (d =? 1)%Z then KErr else if (k <? 1)%Z then KErr else Ok k
      else PyErr
  | [a; b] =>
      if String.eqb op "ClampInt" then vectorized [d]
      else if String.eqb op "Extract" then if (d <? a + b)%Z || (a <? 0)%Z then KErr else Ok b
      else PyErr
  | _ => PyErr
  end.

(** Operators: Operation.py, Scalprod.py. *)
Definition engine_op (op : string) (a b : Z) : res Z :=
  if among op ["+"; "-"; "*"; "/"; "<"; ">"; "<="; ">="] then vectorized [a; b]
  else if String.eqb op "|" then if (a =? b)%Z then Ok 1%Z else KErr
  else PyErr.

(** Two arguments: Atan2.py, Equal.py, NotEqual.py, Powf.py, SqDist.py, WeightedSqNorm.py 14-20 with SqNormIso.py,
    SqNormDiag.py and SymSqNorm.py, Concat.py 21, MatVecMult.py 27-34, VecMatMult.py 27-34, TensorProd.py 21,
    Factorize.py; BSpline.py 18-36 and 117-118. *)
Definition engine2 (op : string) (ps : list Z) (a b : Z) : res Z :=
  match ps with
  | [] =>
      if among op ["Atan2"; "Equal"; "NotEqual"; "Powf"] then vectorized [a; b]
      else if String.eqb op "SqDist" then do _ <- vectorized [a; b] ; Ok 1%Z
      else if String.eqb op "WeightedSqNorm" then
        if (a =? 1)%Z then vectorized [a; 1%Z]
        else if (a =? b)%Z then do _ <- vectorized [a; b] ; Ok 1%Z
        else do _ <- vectorized [a; (b * b)%Z] ; Ok 1%Z
      else if String.eqb op "Concat" then Ok (a + b)%Z
      else if String.eqb op "MatVecMult" then
        if (b =? 0)%Z then PyErr else if negb (a mod b =? 0)%Z then KErr else Ok (a / b)%Z
      else if String.eqb op "VecMatMult" then
        if (a =? 0)%Z then PyErr else if negb (b mod a =? 0)%Z then KErr else Ok (b / a)%Z
      else if String.eqb op "TensorProd" then Ok (a * b)%Z
      else if String.eqb op "Factorize" then Ok a
      else PyErr
  | [k] =>
      if String.eqb op "BSpline" then
        if (k <? 0)%Z then KErr else if negb (b =? 1)%Z then KErr else if (a <? k + 2)%Z then KErr
        else if (a - 1 <? a - k - 1)%Z then KErr else Ok (a - k - 1)%Z
      else PyErr
  | _ => PyErr
  end.

(** TensorDot.py and Kron.py, see Tensordot. *)
Definition engine_dot (op : string) (ps : list (list Z)) (a b : Z) : res Z :=
  let nats := map Z.to_nat in
  match ps with
  | [da; db] =>
      if String.eqb op "Kron" then
        do t <- kron (Z.to_nat a) (Z.to_nat b) (nats da) (nats db) ; Ok (Z.of_nat (td_dim t))
      else PyErr
  | [da; db; ca; cb] =>
      if String.eqb op "TensorDot" then
        do t <- tensordot (Z.to_nat a) (Z.to_nat b) (nats da) (nats db) ca cb None ; Ok (Z.of_nat (td_dim t))
      else PyErr
  | [da; db; ca; cb; p] =>
      if String.eqb op "TensorDot" then
        do t <- tensordot (Z.to_nat a) (Z.to_nat b) (nats da) (nats db) ca cb (Some p) ; Ok (Z.of_nat (td_dim t))
      else PyErr
  | _ => PyErr
  end.

(** IfElse.py, Clamp.py, Mod.py; SoftDTW_SqDist.py 22-29. *)
Definition engine3 (op : string) (a b c : Z) : res Z :=
  if among op ["IfElse"; "Clamp"; "Mod"] then vectorized [a; b; c]
  else if String.eqb op "SoftDTW_SqDist" then if negb (c =? 1)%Z then KErr else Ok 1%Z
  else PyErr.

(** The attribute [dim] of the formula that is made. *)
Fixpoint engine_dim (t : term) : res Z :=
  match t with
  | TVar _ d _ | TSym _ d _ => Ok d
  | TInt _ => Ok 1%Z
  | T1 op t ps => do d <- engine_dim t ; engine1 op ps d
  | TOp op t u => do a <- engine_dim t ; do b <- engine_dim u ; engine_op op a b
  | T2 op t u ps => do a <- engine_dim t ; do b <- engine_dim u ; engine2 op ps a b
  | TDot op t u ps => do a <- engine_dim t ; do b <- engine_dim u ; engine_dot op ps a b
  | T3 op t u v => do a <- engine_dim t ; do b <- engine_dim u ; do c <- engine_dim v ; engine3 op a b c
  end.
