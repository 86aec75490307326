(** * The code of the dense CPU routine.

    Models keopscore/keopscore/mapreduce/MapReduce.py lines 41-80, mapreduce/cpu/CpuReduc.py lines
    22-88, formulas/reductions (Sum, Min, Max, Min_ArgMin, Max_ArgMax, ArgMin, ArgMax,
    Max_SumShiftExpWeight: methods InitializeReduction, ReducePair, ReducePairShort, KahanScheme,
    FinalizeOutput), sum_schemes.py, and keopscore/utils/code_gen_utils.py: Var_loader and
    direct_table (lines 618-630).

    As in CodeGen.v the text of the code is replaced by its syntax tree.  The functions
    ReducePair, ... return a result because building the code may raise.  Not modelled here: the
    KMin reductions, half2, the headers and the wrappers launch_keops_cpu.  The attribute [dim] of
    ArgMin and ArgMax is the dimension of the formula, that of Min_ArgMin and Max_ArgMax twice
    that. *)

From Coq Require Import ZArith List Bool String.
From Verif Require Import Result Formula Keys Loader CpuReduc CodeGen.
Import ListNotations.
Local Open Scope string_scope.

(** C++ types of the data and of the accumulators. *)
Inductive ftype := TFloat | TDouble.
Definition same_type (a b : ftype) : bool :=
  match a, b with TFloat, TFloat | TDouble, TDouble => true | _, _ => false end.
(** [c_variable.binary_op], lines 116-141: an operation between two types raises. *)
Definition check_types {A} (a b : ftype) (r : res A) : res A := if same_type a b then r else KErr.

(** [mx]: maximum; [both]: the output has values and indices. *)
Inductive red := CSum | COpt (mx : bool) | COptArg (mx both : bool) | CLse.

(** pykeops/pykeops/common/parse_type.py lines 150-160: the reductions for which the type of the
    accumulator may be chosen. *)
Definition dtype_acc_allowed (r : red) : bool := match r with CSum | CLse => true | _ => false end.

(** Attributes [dimred] and [dim]; [d] is the dimension of the formula. *)
Definition red_dimred (r : red) (d : nat) : nat := match r with COptArg _ _ => (2 * d)%nat | _ => d end.
Definition red_dim (r : red) (d : nat) : nat := match r with COptArg _ true => (2 * d)%nat | _ => d end.

Definition InitializeReduction (r : red) (d : nat) (acc : c_array) (g : gen) : res (stmt * gen) :=
  match r with
  | CSum => Ok (assign acc (EZ 0) g)
  | COpt mx => Ok (assign acc (EInf mx) g)
  | COptArg mx _ =>
      do o <- split2 acc d d ;
      let (a, b) := o in
      seq2 (assign a (EInf mx) g) (fun g => Ok (assign b (EZ 0) g))
  | CLse =>
      do o <- split2 acc 1 (d - 1) ;
      let (a, b) := o in
      seq2 (assign a (EInf true) g) (fun g => Ok (assign b (EZ 0) g))
  end.

(** [xi > acc] for a maximum, [xi < acc] for a minimum. *)
Definition best (mx : bool) : cmp := if mx then CGt else CLt.

(** ReducePairScalar of Sum, of Min and Max, and of Min_ArgMin and Max_ArgMax, whose arguments are
    the entries of the indices and of xi, and the index [ind]. *)
Definition sum_scalar (p : ptr) (i : iexpr) (l : list cexpr) : stmt := SAdd p i (code1 (fun x => x) l).
Definition opt_scalar (mx : bool) (p : ptr) (i : iexpr) (l : list cexpr) : stmt :=
  match l with
  | [x] => SIf (best mx) x (EAt p i) (SSet p i x)
  | _ => SSkip
  end.
Definition optarg_scalar (mx : bool) (p : ptr) (i : iexpr) (l : list cexpr) : stmt :=
  match l with
  | [EAt q k; x; ind] => SIf (best mx) x (EAt p i) (SSeq (SSet p i x) (SSet q k ind))
  | _ => SSkip
  end.

(** Max_SumShiftExpWeight_Reduction.py lines 40-63. *)
Definition lse_pair_code (acc xi : c_array) (g : gen) : stmt * gen :=
  let t := name "tmpexp" (g "tmpexp") in let g := next g "tmpexp" in
  let k := name "k" (g "k") in let g := next g "k" in
  let acc0 := EAt (aptr acc) (IConst 0) in let xi0 := EAt (aptr xi) (IConst 0) in
  let acck := EAt (aptr acc) (IVar k) in let xik := EAt (aptr xi) (IVar k) in
  (SSeq (SDecl t)
     (SIfElse CGt acc0 xi0
        (SSeq (SVar t (EFun1 Fexp (ESub xi0 acc0)))
              (SFor k 1 (adim acc) (SAdd (aptr acc) (IVar k) (EMul xik (EVar t)))))
        (SSeq (SVar t (EFun1 Fexp (ESub acc0 xi0)))
           (SSeq (SFor k 1 (adim acc) (SSet (aptr acc) (IVar k) (EAdd xik (EMul (EVar t) acck))))
                 (SSet (aptr acc) (IConst 0) xi0)))), g).

(** [ta] and [tx] are the types of [acc] and [xi]. *)
Definition ReducePairShort (r : red) (d : nat) (ta tx : ftype) (acc xi : c_array) (ind : cexpr) (g : gen)
  : res (stmt * gen) :=
  match r with
  | CSum => VectApply sum_scalar acc [xi] g
  | COpt mx => check_types tx ta (VectApply (opt_scalar mx) acc [xi] g)
  | COptArg mx _ =>
      do o <- split2 acc d d ;
      let (a, b) := o in
      check_types tx ta (VectApplyV (optarg_scalar mx) a [VArr b; VArr xi; VVal ind] g)
  | CLse => check_types tx ta (Ok (lse_pair_code acc xi g))
  end.

(** The ReducePair of Min_ArgMin and Max_ArgMax calls ReducePairScalar with an argument missing. *)
Definition ReducePair (r : red) (d : nat) (ta tx : ftype) (acc xi : c_array) (g : gen) : res (stmt * gen) :=
  match r with
  | CSum => VectApply sum_scalar acc [xi] g
  | COpt mx => check_types tx ta (VectApply (opt_scalar mx) acc [xi] g)
  | COptArg mx _ => PyErr
  | CLse => check_types tx ta (Ok (lse_pair_code acc xi g))
  end.

(** Sum_Reduction.py lines 31-41; for the others kahan_scheme.__init__ raises (no [dim_kahan]). *)
Definition KahanScheme (r : red) (d : nat) (acc xi tmp : c_array) (g : gen) : res (stmt * gen) :=
  match r with
  | CSum =>
      let k := name "k" (g "k") in let g := next g "k" in
      let a := name "a" (g "a") in let g := next g "a" in
      let b := name "b" (g "b") in let g := next g "b" in
      Ok (SFor k 0 d
            (SSeq (SFloat a (ESub (EAt (aptr xi) (IVar k)) (EAt (aptr tmp) (IVar k))))
            (SSeq (SFloat b (EAdd (EAt (aptr acc) (IVar k)) (EVar a)))
            (SSeq (SSet (aptr tmp) (IVar k) (ESub (ESub (EVar b) (EAt (aptr acc) (IVar k))) (EVar a)))
                  (SSet (aptr acc) (IVar k) (EVar b))))), g)
  | _ => PyErr
  end.

Definition FinalizeOutput (r : red) (d : nat) (acc out : c_array) (g : gen) : res (stmt * gen) :=
  match r with
  | COptArg _ false =>
      do o <- split2 acc d d ;
      let (_, b) := o in
      Ok (VectCopy out b g)
  | _ => Ok (VectCopy out acc g)
  end.

(** ** sum_schemes.py *)
Definition seq2r (a : res (stmt * gen)) (k : gen -> res (stmt * gen)) : res (stmt * gen) :=
  do a <- a ; seq2 a k.
Definition tmp_array (s : scheme) (r : red) (d : nat) : res c_array :=
  match s with
  | direct_sum => Ok (Array (PName "tmp") 0%nat)          (* not used *)
  | block_sum => Ok (Array (PName "tmp") (red_dimred r d))
  | kahan_scheme => match r with CSum => Ok (Array (PName "tmp") d) | _ => PyErr end
  end.
Definition declare_array (a : c_array) : stmt :=
  match aptr a with PName x => declare x (adim a) | _ => SSkip end.
Definition declare_temporary_accumulator (s : scheme) (tmp : c_array) : stmt :=
  match s with direct_sum => SSkip | _ => declare_array tmp end.

(** "signed long int period_accumulate = ny<10 ? 100 : sqrt(ny);" *)
Definition period_code : stmt :=
  SIntE "period_accumulate" (ICond (IVar "ny") (IConst 10%nat) (IConst 100%nat) (ISqrt (IVar "ny"))).

Definition initialize_temporary_accumulator (s : scheme) (r : red) (d : nat) (tmp : c_array) (g : gen)
  : res (stmt * gen) :=
  match s with
  | direct_sum => Ok (SSkip, g)
  | block_sum => do c <- InitializeReduction r d tmp g ; Ok (SSeq period_code (fst c), snd c)
  | kahan_scheme => Ok (assign tmp (EZ 0) g)
  end.
Definition accumulate_result (s : scheme) (r : red) (d : nat) (ta t : ftype) (acc fout tmp : c_array)
    (j : string) (g : gen) : res (stmt * gen) :=
  match s with
  | direct_sum => ReducePairShort r d ta t acc fout (EInt (IVar j)) g
  | block_sum => ReducePairShort r d t t tmp fout (EInt (IVar j)) g
  | kahan_scheme => KahanScheme r d acc fout tmp g
  end.
(** Condition [!((j+1)%period_accumulate)]. *)
Definition periodic_accumulate_temporary (s : scheme) (r : red) (d : nat) (ta t : ftype)
    (acc tmp : c_array) (j : string) (g : gen) : res (stmt * gen) :=
  match s with
  | block_sum =>
      do c <- seq2r (ReducePair r d ta t acc tmp g) (InitializeReduction r d tmp) ;
      Ok (SIf CEq (EInt (IMod (IAdd (IVar j) (IConst 1)) (IVar "period_accumulate"))) (EZ 0) (fst c), snd c)
  | _ => Ok (SSkip, g)
  end.
Definition final_operation (s : scheme) (r : red) (d : nat) (ta t : ftype) (acc tmp : c_array) (g : gen)
  : res (stmt * gen) :=
  match s with
  | block_sum => ReducePair r d ta t acc tmp g
  | _ => Ok (SSkip, g)
  end.

(** ** direct_table *)

(** [self.nminargs], lines 562-564. *)
Definition nminargs (f : fm) : nat :=
  match map vpos (vars f) with
  | [] => O
  | l => Z.to_nat (fold_right Z.max (-1)%Z l + 1)
  end.
(** [args[k]]: [nargs] texts. *)
Definition arg_name (arg : string) (k : nat) : string := arg ++ "[" ++ str_int (Z.of_nat k) ++ "]".

(** Indices of Python. *)
Definition py_index (n : nat) (i : Z) : res nat :=
  let j := if (i <? 0)%Z then (i + Z.of_nat n)%Z else i in
  if ((0 <=? j) && (j <? Z.of_nat n))%Z then Ok (Z.to_nat j) else PyErr.
Fixpoint list_set {A} (l : list A) (i : nat) (x : A) : list A :=
  match l, i with
  | [], _ => []
  | _ :: l, O => x :: l
  | y :: l, S i => y :: list_set l i x
  end.

(** The row index is a loop index, or the constant 0. *)
Definition row_ptr (p : ptr) (row : option string) (d : nat) : ptr :=
  match row with Some x => PVar p x d | None => PAdd p (0 * d) end.
Fixpoint fill_table (arg : string) (nargs : nat) (row : option string) (vs : list (Z * nat))
    (t : list (option c_array)) : res (list (option c_array)) :=
  match vs with
  | [] => Ok t
  | (i, d) :: vs =>
      do k <- py_index nargs i ;
      do n <- py_index (List.length t) i ;
      fill_table arg nargs row vs (list_set t n (Some (Array (row_ptr (PName (arg_name arg k)) row d) d)))
  end.
Definition direct_table_code (f : fm) (tagI : nat) (arg : string) (nargs : nat)
  : res (list (option c_array)) :=
  let L := loader f tagI in
  do t <- fill_table arg nargs (Some "i") (varsI L) (repeat None (nminargs f)) ;
  do t <- fill_table arg nargs (Some "j") (varsJ L) t ;
  fill_table arg nargs None (varsP L) t.

(** ** CpuReduc.get_code: the body of the loop on i *)
Definition row_code (r : red) (s : scheme) (f : fm) (tagI nargs : nat) (t ta : ftype) (g : gen)
  : res (stmt * gen) :=
  let d := dim f in
  do tmp <- tmp_array s r d ;
  let arg := name "arg" (g "arg") in let g := next g "arg" in
  let acc := Array (PName "acc") (red_dimred r d) in
  let fout := Array (PName "fout") d in
  let outi := Array (PVar (PName "out") "i" (red_dim r d)) (red_dim r d) in
  do table <- direct_table_code f tagI arg nargs ;
  do c1 <- InitializeReduction r d acc g ;
  do c2 <- initialize_temporary_accumulator s r d tmp (snd c1) ;
  do c3 <- call f fout table (snd c2) ;
  do c4 <- accumulate_result s r d ta t acc fout tmp "j" (snd c3) ;
  do c5 <- periodic_accumulate_temporary s r d ta t acc tmp "j" (snd c4) ;
  do c6 <- final_operation s r d ta t acc tmp (snd c5) ;
  do c7 <- FinalizeOutput r d acc outi (snd c6) ;
  Ok (SSeq (declare_array fout) (SSeq (declare_array acc) (SSeq (declare_temporary_accumulator s tmp)
     (SSeq (fst c1) (SSeq (fst c2)
     (SSeq (SForVar "j" "ny" (SSeq (fst c3) (SSeq (fst c4) (fst c5))))
     (SSeq (fst c6) (fst c7))))))), snd c7).
