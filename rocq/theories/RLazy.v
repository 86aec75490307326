(** * The symbolic tensors of the R interface.

    Models rkeops/R/lazytensor_preprocess.R lines 96-206 ([LazyTensor]), 345-410 ([unaryop.LazyTensor]), 446-576
    ([binaryop.LazyTensor]), 621-723 ([ternaryop.LazyTensor]), 1009-1036 ([get_inner_dim]), 1058-1105
    ([check_inner_dim]), 1130-1140 ([index_to_int]), 1163-1171 ([identifier]), 1199-1232 ([fix_variables]), 1316-1360
    ([preprocess_reduction]), and rkeops/R/lazytensor_operations.R lines 958-963 (the scalar product), 3588-3593
    ([concat]), 3800-3822 ([reduction.LazyTensor]), 4866-4931 ([grad]).

    Simplifications: real tensors; the address of an object is given with it, as is the choice between an integer and a
    vector of one number; integers are written with digits; the names of operations, the checks of dimensions and the
    dimensions of results are the arguments of the three constructors, the methods that choose them (the rest of
    lazytensor_operations.R) being written by the theorems; the option formula_only is not set.  The regular expressions
    are replaced by scanners. *)

From Coq Require Import ZArith Reals List Bool Ascii String.
From Verif Require Import Result Keys KeySpec Aliases RKeops.
Import ListNotations.
Local Open Scope nat_scope.
Open Scope string_scope.

Record lazy_tensor := { z_formula : string; z_args : list string; z_data : list rvalue; z_dim : Z }.

Inductive rindex := Ri | Rj | RNA.
Definition index_text (x : rindex) : string := match x with Ri => "i" | Rj => "j" | RNA => "NA" end.

(** ** [LazyTensor] *)

(** Lines 127-150 and 198-205. *)
Definition new_tensor (address : string) (index : rindex) (v : rvalue) : res lazy_tensor :=
  do dc <- match v, index with
           | Matrix n m _, Ri => Ok (m, "Vi")
           | Matrix n m _, Rj => Ok (m, "Vj")
           | Vector n _, RNA => Ok (n, "Pm")
           | _, _ => KErr
           end ;
  let (d, c) := dc in
  let name := "A" ++ address ++ index_text index in
  Ok {| z_formula := name; z_args := [name ++ "=" ++ c ++ "(" ++ str_int (Z.of_nat d) ++ ")"]; z_data := [v];
        z_dim := Z.of_nat d |}.
(** Lines 118-125. *)
Definition new_int (n : Z) : lazy_tensor :=
  {| z_formula := "IntCst(" ++ str_int n ++ ")"; z_args := []; z_data := []; z_dim := 1 |}.

(** ** Operations *)

Definition unaryop (x : lazy_tensor) (op : string) (opts : list Z) (dim_res : option Z) : lazy_tensor :=
  {| z_formula := op ++ "(" ++ z_formula x ++ String.concat "" (map (fun k => "," ++ str_int k) opts) ++ ")";
     z_args := z_args x; z_data := z_data x;
     z_dim := match dim_res with Some d => d | None => z_dim x end |}.

Inductive dim_check := Same | SameOr1.
Definition check2 (c : dim_check) (a b : Z) : bool :=
  match c with Same => (a =? b)%Z | SameOr1 => (a =? b)%Z || ((a =? 1)%Z || (b =? 1)%Z) end.
Fixpoint unique_dims (l : list Z) : list Z :=
  match l with [] => [] | a :: l => if existsb (Z.eqb a) l then unique_dims l else a :: unique_dims l end.
Definition check3 (c : dim_check) (a b d : Z) : bool :=
  match c with
  | Same => forallb (fun x => (x =? a)%Z) [a; b; d]
  | SameOr1 => (List.length (unique_dims [a; b; d; 1%Z]) <=? 2)%nat
  end.

(** Lines 550-565: the positions [l] with an equal argument before, the data without them, the arguments once. *)
Definition repeated (args : list string) (l : nat) : bool :=
  existsb (fun k => String.eqb (nth k args "") (nth l args "")) (seq 0 l).
Definition data_once (args : list string) (data : list rvalue) : list rvalue :=
  map snd (filter (fun p => negb (repeated args (fst p))) (combine (seq 0 (List.length data)) data)).
Fixpoint unique_from (seen l : list string) : list string :=
  match l with
  | [] => []
  | a :: l => if existsb (String.eqb a) seen then unique_from seen l else a :: unique_from (a :: seen) l
  end.
Definition merged (formula : string) (args : list string) (data : list rvalue) (d : Z) : lazy_tensor :=
  {| z_formula := formula; z_args := unique_from [] args; z_data := data_once args data; z_dim := d |}.

Definition binaryop (x y : lazy_tensor) (op : string) (is_operator : bool) (check : option dim_check) (dim_res : option Z)
    : res lazy_tensor :=
  if match check with Some c => check2 c (z_dim x) (z_dim y) | None => true end then
    Ok (merged (if is_operator then z_formula x ++ op ++ z_formula y
                else op ++ "(" ++ z_formula x ++ "," ++ z_formula y ++ ")")
               (z_args x ++ z_args y) (z_data x ++ z_data y)
               match dim_res with Some d => d | None => Z.max (z_dim x) (z_dim y) end)
  else KErr.
Definition scalar_product (x y : lazy_tensor) : res lazy_tensor :=
  do r <- binaryop x y "|" true (Some Same) (Some 1%Z) ;
  Ok {| z_formula := "(" ++ z_formula r ++ ")"; z_args := z_args r; z_data := z_data r; z_dim := z_dim r |}.
Definition ternaryop (x y z : lazy_tensor) (op : string) (check : dim_check) (dim_res : option Z) : res lazy_tensor :=
  if check3 check (z_dim x) (z_dim y) (z_dim z) then
    Ok (merged (op ++ "(" ++ z_formula x ++ "," ++ z_formula y ++ "," ++ z_formula z ++ ")")
               (z_args x ++ z_args y ++ z_args z) (z_data x ++ z_data y ++ z_data z)
               match dim_res with Some d => d | None => Z.max (z_dim x) (Z.max (z_dim y) (z_dim z)) end)
  else KErr.

(** [get_inner_dim]: what is after the last opening parenthesis of the only argument, without its last character. *)
Fixpoint after_last (c : ascii) (s : string) : option string :=
  match s with
  | EmptyString => None
  | String d s => match after_last c s with Some r => Some r | None => if (d =? c)%char then Some s else None end
  end.
Definition get_inner_dim (x : lazy_tensor) : res Z :=
  match z_args x with
  | [a] => let r := match after_last "(" a with Some r => r | None => a end in
           match as_integer (String.substring 0 (String.length r - 1) r) with Some d => Ok d | None => PyErr end
  | _ => Ok (z_dim x)
  end.
Definition concat (x y : lazy_tensor) : res lazy_tensor :=
  do a <- get_inner_dim x ; do b <- get_inner_dim y ;
  binaryop x y "Concat" false None (Some (a + b)%Z).

(** ** Reductions *)

(** [str_replace_all] and [str_replace] for a pattern of letters and digits. *)
Fixpoint replace_from (skip : nat) (id tag s : string) : string :=
  match s with
  | EmptyString => ""
  | String c s' =>
      match skip with
      | S k => replace_from k id tag s'
      | O => if String.prefix id s then tag ++ replace_from (String.length id - 1) id tag s'
             else String c (replace_from 0 id tag s')
      end
  end.
Definition replace_all (id tag s : string) : string := replace_from 0 id tag s.
Fixpoint drop (n : nat) (s : string) : string :=
  match n, s with S n, String _ s => drop n s | _, _ => s end.
Fixpoint replace_first (id tag s : string) : string :=
  if String.prefix id s then tag ++ drop (String.length id) s
  else match s with EmptyString => "" | String c s => String c (replace_first id tag s) end.

(** [identifier]: from the first A0x to the last =. *)
Fixpoint from_first (sub s : string) : option string :=
  if String.prefix sub s then Some s else match s with EmptyString => None | String _ s => from_first sub s end.
Definition arg_identifier (arg : string) : option string :=
  match from_first "A0x" arg with Some s => upto_last "=" s | None => None end.

Definition tag_name (is_opt : bool) (i : nat) : string := (if is_opt then "OptV" else "V") ++ str_int (Z.of_nat i).
(** [n] arguments remain, from the place [i]. *)
Fixpoint fix_from (is_opt : bool) (n i : nat) (formula : string) (args : list string) : res (string * list string) :=
  match n with
  | O => Ok (formula, args)
  | S n =>
      match nth_error args i with
      | None => PyErr
      | Some a =>
          match arg_identifier a with
          | None => PyErr
          | Some id => fix_from is_opt n (S i) (replace_all id (tag_name is_opt i) formula)
                         (map (replace_first id (tag_name is_opt i)) args)
          end
      end
  end.
Definition fix_variables (is_opt : bool) (x : lazy_tensor) : res (string * list string) :=
  fix_from is_opt (List.length (z_args x)) 0 (z_formula x) (z_args x).

Inductive reduction_arg := NoArg | TensorArg (w : lazy_tensor) | IntArg (k : Z).

Definition index_to_int (index : rindex) : res Z := match index with Ri => Ok 0%Z | Rj => Ok 1%Z | RNA => KErr end.
Definition preprocess_reduction (x : lazy_tensor) (op : string) (index : rindex) (opt : reduction_arg) : res operator :=
  do tag <- index_to_int index ;
  do p <- fix_variables false x ;
  let (f, args) := p in
  match opt with
  | TensorArg w =>
      do q <- fix_variables true w ;
      keops_kernel (op ++ "_Reduction(" ++ f ++ "," ++ fst q ++ "," ++ str_int tag ++ ")") (args ++ snd q)
  | IntArg k => keops_kernel (op ++ "_Reduction(" ++ f ++ "," ++ str_int k ++ "," ++ str_int tag ++ ")") args
  | NoArg => keops_kernel (op ++ "_Reduction(" ++ f ++ "," ++ str_int tag ++ ")") args
  end.
(** The operator, and the arrays that its routine receives. *)
Definition unnamed (l : list rvalue) : rlist := map (fun v => (None, v)) l.
Definition reduction (x : lazy_tensor) (op : string) (index : rindex) (opt : reduction_arg) : res (operator * list matrix) :=
  do o <- preprocess_reduction x op index opt ;
  do l <- operator_data o (unnamed (z_data x ++ match opt with TensorArg w => z_data w | _ => [] end)) "col" ;
  Ok (o, l).

(** ** [grad] *)

(** [grep("A0x.*c", s)]. *)
Definition indexed_by (c : ascii) (s : string) : bool :=
  match from_first "A0x" s with Some r => has c (drop 3 r) | None => false end.
Definition rows_of (l : list rvalue) : option nat := match l with Matrix n _ _ :: _ => Some n | _ => None end.

(** [var] is a tensor, [eta] the name that is drawn for the incoming gradient. *)
Definition grad (eta : string) (f gradin : lazy_tensor) (op : string) (var : lazy_tensor) (index : rindex)
    : res (operator * list matrix) :=
  do v <- fix_variables false var ;
  match z_args f, z_args gradin with
  | a :: _, g :: _ =>
      if indexed_by "i" a && indexed_by "j" g || indexed_by "j" a && indexed_by "i" g ||
         indexed_by "i" a && match index with Ri => true | _ => false end ||
         indexed_by "j" a && match index with Rj => true | _ => false end ||
         negb (z_dim gradin =? 1)%Z ||
         negb match rows_of (z_data gradin), rows_of (z_data f) with Some n, Some m => Nat.eqb n m | _, _ => false end
      then KErr
      else
        do o <- preprocess_reduction f op index NoArg ;
        do og <- keops_grad eta o (Name (fst v)) ;
        do l <- operator_data og (unnamed (z_data f ++ z_data gradin)) "col" ;
        Ok (og, l)
  | _, _ => PyErr
  end.

(** ** Programs *)

(** What is written by the user: matrices and vectors with their addresses, integers, operations. *)
Inductive program :=
| XTensor (address : string) (index : rindex) (v : rvalue)
| XInt (n : Z)
| X1 (op : string) (opts : list Z) (dim_res : option Z) (e : program)
| X2 (op : string) (check : option dim_check) (dim_res : option Z) (e f : program)
| XScal (e f : program)
| X3 (op : string) (check : dim_check) (dim_res : option Z) (e f g : program).

Fixpoint run (e : program) : res lazy_tensor :=
  match e with
  | XTensor a x v => new_tensor a x v
  | XInt n => Ok (new_int n)
  | X1 op opts d e => do x <- run e ; Ok (unaryop x op opts d)
  | X2 op c d e f => do x <- run e ; do y <- run f ; binaryop x y op false c d
  | XScal e f => do x <- run e ; do y <- run f ; scalar_product x y
  | X3 op c d e f g => do x <- run e ; do y <- run f ; do z <- run g ; ternaryop x y z op c d
  end.
