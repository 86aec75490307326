(** Specification of the reading of the formulas written by symbolic tensors. *)

From Coq Require Import ZArith List Bool Ascii String.
From Verif Require Import Result Keys KeySpec Aliases Formula LazyTensors Methods MethodsSpec LazySpec PyRead.
Import ListNotations.
Open Scope string_scope.

(** An integer, as an expression of Python. *)
Definition literal (z : Z) : py := if (z <? 0)%Z then PNeg (PNum (- z)) else PNum z.

(** The operators. *)
Definition symbol (op : string) : option sym :=
  if String.eqb op "+" then Some SPlus else if String.eqb op "-" then Some SDash
  else if String.eqb op "*" then Some SStar else if String.eqb op "/" then Some SSlash
  else if String.eqb op "|" then Some SBar else if String.eqb op "<" then Some SLt
  else if String.eqb op ">" then Some SGt else if String.eqb op "<=" then Some SLe
  else if String.eqb op ">=" then Some SGe else None.
Definition ordering (s : sym) : bool := match s with SLt | SGt | SLe | SGe => true | _ => false end.

(** The expression that a term stands for: its root is the last method applied, its subterms are the operands. *)
Fixpoint tree (t : term) : py :=
  match t with
  | TVar i d c => PCall (PName "Var") [literal i; literal d; literal c]
  | TSym i d c => PCall (PName "VarSymb") [literal i; literal d; literal c]
  | TInt n => PCall (PName "IntCst") [literal n]
  | T1 op t ps => PCall (PName op) (tree t :: map literal ps)
  | TOp op t u =>
      match symbol op with
      | Some s => if ordering s then PCmp (tree t) [(s, tree u)] else PBin s (tree t) (tree u)
      | None => PName ""
      end
  | T2 op t u ps => PCall (PName op) (tree t :: tree u :: map literal ps)
  | TDot op t u ps => PCall (PName op) (tree t :: tree u :: map (fun p => PList (map literal p)) ps)
  | T3 op t u v => PCall (PName op) [tree t; tree u; tree v]
  end.

(** Functions have names, operators are among those above. *)
Definition identifier (s : string) : Prop :=
  match s with String c r => name_start c = true /\ (forall d, has d r = true -> name_char d = true) | _ => False end.
Fixpoint well_named (t : term) : Prop :=
  match t with
  | TVar _ _ _ | TSym _ _ _ | TInt _ => True
  | T1 op t _ => identifier op /\ well_named t
  | TOp op t u => symbol op <> None /\ well_named t /\ well_named u
  | T2 op t u _ => identifier op /\ well_named t /\ well_named u
  | TDot op t u _ => identifier op /\ well_named t /\ well_named u
  | T3 op t u v => identifier op /\ well_named t /\ well_named u /\ well_named v
  end.

(** Terms of the engine: no symbolic variable is left; dimensions, categories and positions are natural numbers. *)
Fixpoint engine_term (t : term) : Prop :=
  match t with
  | TVar _ d c => (0 <= d)%Z /\ (0 <= c)%Z
  | TSym _ _ _ => False
  | TInt _ => True
  | T1 op t ps =>
      (op = "Elem" \/ op = "OneHot" \/ op = "Extract" -> Forall (fun p => 0 <= p)%Z ps) /\ engine_term t
  | TOp _ t u | T2 _ t u _ | TDot _ t u _ => engine_term t /\ engine_term u
  | T3 _ t u v => engine_term t /\ engine_term u /\ engine_term v
  end.

(** Tensors get positions, symbolic variables become variables (C27). *)
Fixpoint numbered_term (s : Z -> Z) (t : term) : term :=
  match t with
  | TVar i d c => TVar (s i) d c
  | TSym i d c => TVar i d c
  | TInt n => TInt n
  | T1 op t ps => T1 op (numbered_term s t) ps
  | TOp op t u => TOp op (numbered_term s t) (numbered_term s u)
  | T2 op t u ps => T2 op (numbered_term s t) (numbered_term s u) ps
  | TDot op t u ps => TDot op (numbered_term s t) (numbered_term s u) ps
  | T3 op t u v => T3 op (numbered_term s t) (numbered_term s u) (numbered_term s v)
  end.

(** A term as an expression of LazySpec. *)
Definition after (sep : string) (l : list string) : string := String.concat "" (map (fun p => sep ++ p) l).
Fixpoint as_expr (t : term) : expr :=
  match t with
  | TVar i d c => EVar i d c
  | TSym i d c => ESym i d c
  | TInt n => ECst ("IntCst(" ++ str_int n ++ ")")
  | T1 op t ps => EUn (op ++ "(") (as_expr t) (after "," (map str_int ps) ++ ")")
  | TOp op t u => EBin "(" (as_expr t) (" " ++ op ++ " ") (as_expr u) ")"
  | T2 op t u ps => EBin (op ++ "(") (as_expr t) ", " (as_expr u) (after ", " (map str_int ps) ++ ")")
  | TDot op t u ps => EBin (op ++ "(") (as_expr t) ", " (as_expr u) (after ", " (map ints_text ps) ++ ")")
  | T3 op t u v => ETer (op ++ "(") (as_expr t) ", " (as_expr u) ", " (as_expr v) ")"
  end.

(** The formulas that the methods stand for, method by method; [s] gives the positions of the tensors
    (symbolic variables have their own). *)
Definition square_norm (f : fm) : fm := Lin LSum (Un USquare f).
Definition map1_fm (m : map1) (f : fm) : fm :=
  match m with
  | Mabs => Un UAbs f | Mminus => Un UMinus f | Minv => Un UInv f | Mexp => Un UExp f | Mlog => Un ULog f
  | Mxlogx => Un UXLogX f | Mcos => Un UCos f | Msin => Un USin f | Msinxdivx => Un USinXDivX f
  | Masin => Un UAsin f | Macos => Un UAcos f | Matan => Un UAtan f | Msqrt => Un USqrt f | Mrsqrt => Un URsqrt f
  | Msquare => Un USquare f | Msign => Un USign f | Mstep => Un UStep f | Mrelu => Un UReLU f
  | Mnormalize => Bin BMult (Un URsqrt (square_norm f)) f
  | Mauto_factorize => f
  end.
Definition scal1_fm (m : scal1) (f : fm) : fm :=
  match m with
  | Msqnorm2 => square_norm f | Mnorm2 => Un USqrt (Bil KScal f f) | Msum => Lin LSum f | Mmin => Sel SMin f
  | Margmin => Sel SArgMin f | Mmax => Sel SMax f | Margmax => Sel SArgMax f
  end.
Definition arith_fm (m : Methods.arith) (f g : fm) : fm :=
  match m with
  | Aadd => Bin BAdd f g | Asub => Bin BSub f g | Amul => Bin BMult f g | Adiv => Bin BDiv f g
  | Alt => Bin BLess f g | Agt => Bin BLess g f | Ale => Bin BLessEq f g | Age => Bin BLessEq g f
  end.
Definition fun2_fm (m : fun2) (f g : fm) : fm :=
  match m with Fatan2 => Bin BAtan2 f g | Feq => Bin BEqual f g | Fne => Bin BNotEqual f g end.
Definition fun3_fm (m : fun3) (f g h : fm) : fm :=
  match m with Fclamp => Ter TClamp f g h | Fifelse => Ter TIfElse f g h | Fmod => Ter TMod f g h end.
Definition weighted (s f : fm) : fm :=
  if Nat.eqb (dim s) 1 then Bin BMult s (square_norm f)
  else if Nat.eqb (dim s) (dim f) then Lin LSum (Bin BMult s (Un USquare f))
  else Lin LSum (Bin BMult s (Bil KTensorProd f f)).

Inductive computes : lazy -> ((Z -> Z) -> fm) -> Prop :=
| c_symbolic : forall i d c, (1 <= d)%Z -> category c ->
    computes (lt_symbolic i d c) (fun s => Var i (Z.to_nat d) (Z.to_nat c))
| c_int : forall n, computes (lt_int n) (fun s => Int n)
| c_floats : forall id n, (1 <= n)%Z -> computes (lt_floats id n) (fun s => Var (s id) (Z.to_nat n) 2)
| c_array : forall dt id sh ax l d c, lt_array dt id sh ax = Ok l -> Forall (fun s => (1 <= s)%Z) sh ->
    last sh 1%Z = d -> axis l = Some c -> computes l (fun s => Var (s id) (Z.to_nat d) (Z.to_nat c))
| c_map : forall m l f, computes l f -> m <> Mauto_factorize -> computes (m_map m l) (fun s => map1_fm m (f s))
| c_square : forall l f, computes l f -> computes (m_pow 2 l) (fun s => Un USquare (f s))
| c_pow : forall k l f, computes l f -> k <> 2%Z -> computes (m_pow k l) (fun s => Un (UPow k) (f s))
| c_clamp_int : forall a b l f, computes l f -> computes (m_clamp_int a b l) (fun s => Un (UClampInt a b) (f s))
| c_scal : forall m l f, computes l f -> computes (m_scal m l) (fun s => scal1_fm m (f s))
| c_elem : forall i l f r, computes l f -> m_elem i l = Ok r -> computes r (fun s => Lin (LElem (Z.to_nat i)) (f s))
| c_extract : forall i d l f r, computes l f -> m_extract i d l = Ok r ->
    computes r (fun s => Lin (LExtract (Z.to_nat i) (Z.to_nat d)) (f s))
| c_slice : forall a b l f r, computes l f -> m_slice (Some a) (Some b) l = Ok r ->
    computes r (fun s => Lin (LExtract (Z.to_nat a) (Z.to_nat (b - a))) (f s))
| c_one_hot : forall d l f r, computes l f -> m_one_hot d l = Ok r -> (0 <= d)%Z ->
    computes r (fun s => Sel (SOneHot (Z.to_nat d)) (f s))
| c_arith : forall m l f l' f' r, computes l f -> computes l' f' -> m_arith m false l l' = Ok r ->
    computes r (fun s => arith_fm m (f s) (f' s))
| c_arith_rev : forall m l f l' f' r, computes l f -> computes l' f' -> m_arith m true l l' = Ok r ->
    computes r (fun s => arith_fm m (f' s) (f s))
| c_or : forall l f l' f' r, computes l f -> computes l' f' -> m_or false l l' = Ok r -> computes r (fun s => Bil KScal (f s) (f' s))
| c_or_rev : forall l f l' f' r, computes l f -> computes l' f' -> m_or true l l' = Ok r -> computes r (fun s => Bil KScal (f' s) (f s))
| c_fun2 : forall m l f l' f' r, computes l f -> computes l' f' -> m_fun2 m l l' = Ok r -> computes r (fun s => fun2_fm m (f s) (f' s))
| c_powf : forall l f l' f' r, computes l f -> computes l' f' -> m_powf l l' = Ok r -> computes r (fun s => Bin BPowf (f s) (f' s))
| c_sqdist : forall l f l' f' r, computes l f -> computes l' f' -> m_sqdist l l' = Ok r ->
    computes r (fun s => square_norm (Bin BSub (f s) (f' s)))
| c_weightedsqnorm : forall l f l' f' r, computes l f -> computes l' f' -> m_weightedsqnorm l l' = Ok r ->
    computes r (fun s => weighted (f' s) (f s))
| c_concat : forall l f l' f' r, computes l f -> computes l' f' -> m_concat l l' = Ok r -> computes r (fun s => Cat (f s) (f' s))
| c_matvec : forall l f l' f' r, computes l f -> computes l' f' -> m_matvec l l' = Ok r -> computes r (fun s => Bil KMatVec (f s) (f' s))
| c_vecmat : forall l f l' f' r, computes l f -> computes l' f' -> m_vecmat l l' = Ok r -> computes r (fun s => Bil KVecMat (f s) (f' s))
| c_tensorprod : forall l f l' f' r, computes l f -> computes l' f' -> m_tensorprod l l' = Ok r ->
    computes r (fun s => Bil KTensorProd (f s) (f' s))
| c_fun3 : forall m l f l' f' l'' f'' r, computes l f -> computes l' f' -> computes l'' f'' ->
    m_fun3 m l l' l'' = Ok r -> computes r (fun s => fun3_fm m (f s) (f' s) (f'' s)).
