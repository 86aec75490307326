(** * The text of a reduction, and the reduction that the engine makes of it.

    Models pykeops/pykeops/common/utils.py lines 11-22 ([axis2cat]), the text built by [Genred]
    (pykeops/pykeops/torch/generic/generic_red.py lines 517-535, pykeops/pykeops/numpy/generic/generic_red.py lines
    152-182) after [preprocess] (see Layout), [reduction] of symbolic tensors
    (pykeops/pykeops/common/lazy_tensor.py lines 718-786), the constructors of
    keopscore/keopscore/formulas/reductions and GetReduction.__new__ (keopscore/keopscore/formulas/GetReduction.py
    lines 20-40).

    Simplifications: formulas are real; arguments of [Genred] that do not go into the text (types, schemes, chunks)
    are left out, see Options; the library of reductions already made is in Keys; the tree walk of [check_formula]
    only prints.  Zero_Reduction is left out: its first argument is not a formula. *)

From Coq Require Import ZArith List Bool Ascii String.
From Verif Require Import Result Keys Layout LazyTensors Formula Simplify Build PyRead.
Import ListNotations.
Open Scope string_scope.

(** ** Texts *)

Definition axis2cat (axis : Z) : res Z :=
  if (axis =? 0)%Z || (axis =? 1)%Z then Ok ((axis + 1) mod 2)%Z else PyErr.

(** An empty text and the number zero are as good as nothing. *)
Definition red_text (op f : string) (opt_arg : option Z) (ax : Z) (f2 : string) : res string :=
  do p <- preprocess op (negb (String.eqb f2 "")) ;
  let '(internal, sec) := p in
  do c <- axis2cat ax ;
  let str_opt := match opt_arg with Some k => if (k =? 0)%Z then "" else "," ++ str_int k | None => "" end in
  let str_f2 :=
    match sec with NoSecond => "" | Given => "," ++ f2 | WithOne => "," ++ "Concat(IntCst(1)," ++ f2 ++ ")" end in
  Ok (internal ++ "_Reduction(" ++ f ++ str_opt ++ "," ++ str_int c ++ str_f2 ++ ")").

(** The result: the text, the arguments and the position of the variable of high dimension; a tensor without data,
    for which nothing is made yet; or the product described in LazyTensors ([sum_reduction]). *)
Inductive prepared := Ready (text : string) (args : list tensor) (hd : option Z) | NoData | Product.

Definition lt_reduction (l : lazy) (op : string) (other : option lazy) (opt_arg : option Z) (ax : Z) : res prepared :=
  let a := (ax - nbatchdims l)%Z in
  if (a =? 0)%Z || (a =? 1)%Z then
    do r <- (match other with
             | None => Ok (nbatchdims l, symbolic l, variables l, "", dtype l)
             | Some o =>
                 do r <- join l o (formula l) (ndim l) ;
                 Ok (nbatchdims r, symbolic r, variables r, formula o, dtype r)
             end) ;
    let '(nb, sv, vs, f2, dt) := r in
    let go hd :=
      match dt with
      | None => Ok NoData
      | Some _ =>
          do r <- fixvariables nb true sv vs (formula l) f2 hd ;
          let '(f', f2', args, hd') := r in
          do t <- red_text op f' opt_arg a f2' ;
          Ok (Ready t args hd')
      end in
    match (if String.eqb op "Sum" then rec_highdim l else None) with
    | Some (_, v) =>
        if match axis v with Some b => (a =? b)%Z | None => false end then
          match variables v with x :: _ => go (Some (t_id x)) | [] => PyErr end
        else Ok Product
    | None => go None
    end
  else KErr.

(** ** Reductions of the engine *)

Record redobj := {
  ro_id : string; (* the class *)
  ro_formula : fm; (* the attribute formula, that the schemes compile *)
  ro_child : fm; (* the only child in the tree *)
  ro_tag : Z;
  ro_dim : Z;
  ro_dimred : Z }.

Definition zdim (f : fm) : Z := Z.of_nat (dim f).
Definition simple (id : string) (f : fm) (tag dim dimred : Z) : redobj :=
  {| ro_id := id; ro_formula := f; ro_child := f; ro_tag := tag; ro_dim := dim; ro_dimred := dimred |}.

(** Sum_Reduction.py 17-21, Min_Reduction.py 13-16, Max_Reduction.py 13-16; ArgMin_Reduction.py, ArgMax_Reduction.py,
    Min_ArgMin_Reduction.py and Max_ArgMax_Reduction.py with their base classes. *)
Definition make2 (name : string) (f : fm) (c : Z) : res redobj :=
  let d := zdim f in
  if existsb (String.eqb name) ["Sum_Reduction"; "Min_Reduction"; "Max_Reduction"] then Ok (simple name f c d d)
  else if existsb (String.eqb name) ["ArgMin_Reduction"; "ArgMax_Reduction"] then Ok (simple name f c d (2 * d))
  else if existsb (String.eqb name) ["Min_ArgMin_Reduction"; "Max_ArgMax_Reduction"] then
    Ok (simple name f c (2 * d) (2 * d))
  else PyErr.
(** KMin_ArgKMin_Reduction.py 21-30, KMin_Reduction.py 20-22, ArgKMin_Reduction.py 17-19; [k] is also kept. *)
Definition make3 (name : string) (f : fm) (k c : Z) : res (redobj * Z) :=
  let d := zdim f in
  if existsb (String.eqb name) ["KMin_Reduction"; "ArgKMin_Reduction"] then
    Ok (simple name f c (k * d) (2 * k * d), k)
  else if String.eqb name "KMin_ArgKMin_Reduction" then Ok (simple name f c (2 * k * d) (2 * k * d), k)
  else PyErr.
(** Max_SumShiftExpWeight_Reduction.py 24-34 and the last line: two names of one class. *)
Definition make_lse (name : string) (f : fm) (c : Z) (g : fm) : res redobj :=
  if existsb (String.eqb name) ["Max_SumShiftExpWeight_Reduction"; "Max_SumShiftExp_Reduction"] then
    if negb (dim f =? 1)%nat then KErr
    else
      do h <- mk (Cat f g) ;
      Ok (simple "Max_SumShiftExpWeight_Reduction" h c (zdim f + zdim g) (zdim f + zdim g))
  else PyErr.

Definition is_lse (name : string) : bool :=
  existsb (String.eqb name) ["Max_SumShiftExpWeight_Reduction"; "Max_SumShiftExp_Reduction"].

(** The call of a class: the object, and [k] for those that have it. *)
Definition construct (name : string) (l : list pv) : res (redobj * option Z) :=
  match l with
  | [VF f; VZ c] =>
      if is_lse name then do r <- make_lse name f c (IntCst 1) ; Ok (r, None)
      else do r <- make2 name f c ; Ok (r, None)
  | [VF f; VZ k; VZ c] => do r <- make3 name f k c ; Ok (fst r, Some (snd r))
  | [VF f; VZ c; VF g] => do r <- make_lse name f c g ; Ok (r, None)
  | _ => PyErr
  end.

Fixpoint evaluate_all (names : string -> option pv) (l : list py) : res (list pv) :=
  match l with
  | [] => Ok []
  | a :: l => do x <- evaluate names a ; do r <- evaluate_all names l ; Ok (x :: r)
  end.

(** GetReduction.py lines 31-39; [factorize] is AutoFactorize, when the option is set. *)
Definition get_reduction (names : string -> option pv) (factorize : option (fm -> fm)) (e : py)
  : res (redobj * option Z) :=
  match e with
  | PCall (PName s) l =>
      do v <- evaluate_all names l ;
      do r <- construct s v ;
      match factorize with
      | None => Ok r
      | Some a =>
          let o := fst r in
          Ok ({| ro_id := ro_id o; ro_formula := ro_formula o; ro_child := a (ro_child o); ro_tag := ro_tag o;
                 ro_dim := ro_dim o; ro_dimred := ro_dimred o |}, snd r)
      end
  | _ => PyErr
  end.

(** MapReduce.py line 55: the formula that is compiled. *)
Definition compiled (o : redobj) : fm := ro_formula o.
