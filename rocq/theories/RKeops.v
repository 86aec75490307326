(** * The operators of the R interface.

    Models rkeops/R/keops_kernel.R lines 139-265 ([keops_kernel] and the function that it returns),
    rkeops/R/keops_utils.R lines 43-155 ([get_pykeops_formula]), rkeops/R/formula_args.R lines 68-230 ([parse_args],
    [parse_extra_args]), rkeops/R/keops_grad.R lines 20-205 ([get_gradient_formula], [keops_grad]),
    rkeops/inst/python/generic_red_R.py, and keopscore/keopscore/formulas/autodiff/Grad.py lines 14-26 with the third
    argument given.

    Simplifications: texts have no ends of lines; the regular expressions are replaced by the equivalent scanners
    below; a text without parentheses, a missing part of a Grad and a number that is not written with digits are errors
    (they are NA in R); two arguments do not have the same name; options (precision, backend, scheme) are left out.  The
    random name of [random_varname] is a parameter. *)

From Coq Require Import ZArith Reals List Bool Ascii String.
From Verif Require Import Result Keys KeySpec Folder Aliases AliasSpec Formula Simplify Build Diff PyRead RedText BackText GenericOps.
Import ListNotations.
Local Open Scope nat_scope.
Open Scope string_scope.

(** ** Texts *)

(** The text between the first opening parenthesis and the last closing one (line 61). *)
Fixpoint after_first (c : ascii) (s : string) : option string :=
  match s with EmptyString => None | String d s => if (d =? c)%char then Some s else after_first c s end.
Fixpoint before_last (c : ascii) (s : string) : option string :=
  match s with
  | EmptyString => None
  | String d s =>
      match before_last c s with
      | Some p => Some (String d p)
      | None => if (d =? c)%char then Some "" else None
      end
  end.
Definition parenthesised (s : string) : option string :=
  match after_first "(" s with Some r => before_last ")" r | None => None end.

(** The commas between parentheses are replaced by dollars, and put back (lines 65-93). *)
Definition depth_after (n : Z) (c : ascii) : Z :=
  if (c =? "(")%char then n + 1 else if (c =? ")")%char then n - 1 else n.
Fixpoint hide (n : Z) (s : string) : string :=
  match s with
  | EmptyString => ""
  | String c s =>
      let n := depth_after n c in
      String (if (c =? ",")%char && (0 <? n)%Z then "$"%char else c) (hide n s)
  end.
Fixpoint show (s : string) : string :=
  match s with
  | EmptyString => ""
  | String c s => String (if (c =? "$")%char then ","%char else c) (show s)
  end.

(** What is before the last [sub] (line 115). *)
Fixpoint upto_last (sub s : string) : option string :=
  match s with
  | EmptyString => None
  | String c s' =>
      match upto_last sub s' with
      | Some p => Some (String c p)
      | None => if String.prefix sub s then Some "" else None
      end
  end.

(** [strsplit] at the commas: an empty last part is dropped. *)
Definition strsplit (s : string) : list string :=
  let l := split "," s in
  if String.eqb (last l "") "" then removelast l else l.

(** [as.integer]. *)
Definition as_integer (s : string) : option Z :=
  if negb (String.eqb s "") && every digit s then Some (int_from 0 s) else None.

(** ** [get_pykeops_formula] *)

Inductive option_arg := NoOption | Number (k : option Z) | Weight (g : string).
Record described := { d_op : string; d_main : string; d_axis : option Z; d_opt : option_arg }.

Definition weighted (op : string) : bool := String.eqb op "LogSumExpWeight" || String.eqb op "SumSoftMaxWeight".

(** Lines 114-155, the text being without spaces and [t] the inside of its parentheses. *)
Definition grad_text (f v e : string) : string := "Grad(" ++ f ++ "," ++ v ++ "," ++ e ++ ")".
Definition described_reduction (formula t : string) (grad : option (string * string)) : res described :=
  match upto_last "_Reduction" formula with
  | None | Some EmptyString => KErr
  | Some op =>
      let args := strsplit t in
      let n := List.length args in
      match args with
      | [] => PyErr
      | first :: _ =>
          let before := nth (n - 2) args "" in
          let main := show first in
          Ok {| d_op := op;
                d_main := match grad with Some (v, e) => grad_text main v e | None => main end;
                d_axis := as_integer (last args "");
                d_opt := if (2 <? n)%nat then if weighted op then Weight (show before) else Number (as_integer before)
                         else NoOption |}
      end
  end.
Fixpoint pykeops_formula (fuel : nat) (grad : option (string * string)) (formula : string) : res described :=
  match fuel with
  | O => OutOfFuel
  | S fuel =>
      if has "$" formula then KErr
      else
        let formula := no_spaces formula in
        match parenthesised formula with
        | None => PyErr
        | Some t =>
            let t := hide 0 t in
            if String.prefix "Grad" formula then
              match split "," t with
              | f :: v :: e :: _ => pykeops_formula fuel (Some (v, e)) (show f)
              | _ => PyErr
              end
            else described_reduction formula t grad
        end
  end.
(** The text inside parentheses is shorter. *)
Definition get_pykeops_formula (formula : string) : res described := pykeops_formula (S (String.length formula)) None formula.

(** [GenredR], that is [Genred]. *)
Definition genred_text (d : described) : res string :=
  match d_axis d with
  | None => PyErr
  | Some ax =>
      match d_opt d with
      | NoOption => red_text (d_op d) (d_main d) None ax ""
      | Number (Some k) => red_text (d_op d) (d_main d) (Some k) ax ""
      | Number None => PyErr
      | Weight g => red_text (d_op d) (d_main d) None ax g
      end
  end.

(** ** [parse_args] *)

Record rarg := { ra_name : string; ra_type : string; ra_pos : option Z; ra_dim : Z }.

Definition r_name_char (c : ascii) : bool := letter c || digit c || (c =? "_")%char || (c =? "-")%char.
Definition filled (p : ascii -> bool) (s : string) : bool := negb (String.eqb s "") && every p s.

(** The pattern of lines 104-108 and the groups of lines 129-151: a name of letters, digits, _ and -, the sign =, a type,
    one or two numbers in parentheses. *)
Definition parse_arg (s : string) : option rarg :=
  match split "=" (no_spaces s) with
  | [n; x] =>
      if filled r_name_char n then
        match split "(" x with
        | [t; r] =>
            if existsb (String.eqb t) ["Vi"; "Vj"; "Pm"] then
              match split ")" r with
              | [b; EmptyString] =>
                  match split "," b with
                  | [d] => if filled digit d
                           then Some {| ra_name := n; ra_type := t; ra_pos := None; ra_dim := int_from 0 d |} else None
                  | [p; d] => if filled digit p && filled digit d
                              then Some {| ra_name := n; ra_type := t; ra_pos := Some (int_from 0 p); ra_dim := int_from 0 d |}
                              else None
                  | _ => None
                  end
              | _ => None
              end
            else None
        | _ => None
        end
      else None
  | _ => None
  end.
Fixpoint parse_each (args : list string) : res (list rarg) :=
  match args with
  | [] => Ok []
  | a :: args => match parse_arg a with
                 | None => KErr
                 | Some x => do l <- parse_each args ; Ok (x :: l)
                 end
  end.
Definition has_pos (a : rarg) : bool := match ra_pos a with Some _ => true | None => false end.

(** [parse_extra_args]: one space is removed, then variables are looked for at each place. *)
Fixpoint one_space_less (s : string) : string :=
  match s with
  | EmptyString => ""
  | String c s => if (c =? " ")%char then s else String c (one_space_less s)
  end.
Fixpoint span_digits (s : string) : string * string :=
  match s with
  | String c s' => if digit c then let (a, b) := span_digits s' in (String c a, b) else ("", s)
  | EmptyString => ("", "")
  end.
(** [k + 1] numbers separated by commas, then a parenthesis. *)
Fixpoint numbers_close (k : nat) (s : string) : bool :=
  let (d, r) := span_digits s in
  negb (String.eqb d "") &&
  match k, r with
  | O, String c _ => (c =? ")")%char
  | S k, String c r => (c =? ",")%char && numbers_close k r
  | _, EmptyString => false
  end.
Definition variable_at (s : string) : bool :=
  existsb (fun kw => String.prefix (kw ++ "(") s &&
                     (numbers_close 0 (String.substring 3 (String.length s) s) ||
                      numbers_close 1 (String.substring 3 (String.length s) s))) ["Vi"; "Vj"; "Pm"] ||
  String.prefix "Var(" s && numbers_close 2 (String.substring 4 (String.length s) s).
Fixpoint variable_in (s : string) : bool :=
  variable_at s || match s with EmptyString => false | String _ s => variable_in s end.

(** ** Operators *)

Record operator := { o_formula : string; o_args : list string; o_info : list rarg }.

Definition keops_kernel (formula : string) (args : list string) : res operator :=
  match args with
  | [] => KErr
  | _ =>
      if variable_in (one_space_less formula) then KErr
      else
        do l <- parse_each args ;
        if forallb has_pos l || forallb (fun a => negb (has_pos a)) l
        then Ok {| o_formula := formula; o_args := args; o_info := l |} else KErr
  end.

(** What is given to [Genred] by a call. *)
Definition operator_text (o : operator) : res params :=
  do d <- get_pykeops_formula (o_formula o) ;
  do t <- genred_text d ;
  Ok {| p_formula := t; p_aliases := o_args o; p_highdim := FNone |}.

(** ** Data *)

Inductive rvalue := Vector (n : nat) (at_ : nat -> R) | Matrix (n m : nat) (at_ : nat -> nat -> R).
Record matrix := { m_rows : nat; m_cols : nat; m_at : nat -> nat -> R }.

Definition as_matrix (v : rvalue) : matrix :=
  match v with
  | Vector n x => {| m_rows := n; m_cols := 1; m_at := fun i _ => x i |}
  | Matrix n m x => {| m_rows := n; m_cols := m; m_at := x |}
  end.
Definition transposed (x : matrix) : matrix := {| m_rows := m_cols x; m_cols := m_rows x; m_at := fun i k => m_at x k i |}.

(** The elements of a list, with their names. *)
Definition rlist := list (option string * rvalue).
Fixpoint named_element (n : string) (l : rlist) : option rvalue :=
  match l with
  | [] => None
  | (Some m, v) :: l => if String.eqb m n then Some v else named_element n l
  | (None, _) :: l => named_element n l
  end.
Definition has_names (l : rlist) : bool := existsb (fun p => match fst p with Some _ => true | None => false end) l.
Fixpoint select (names : list string) (l : rlist) : res (list rvalue) :=
  match names with
  | [] => Ok []
  | n :: names => match named_element n l with
                  | None => KErr
                  | Some v => do r <- select names l ; Ok (v :: r)
                  end
  end.

(** The numpy arrays that the routine receives, in this order. *)
Definition operator_data (o : operator) (input : rlist) (inner_dim : string) : res (list matrix) :=
  if Nat.eqb (List.length input) (List.length (o_args o)) then
    do l <- (if has_names input then select (map ra_name (o_info o)) input else Ok (map snd input)) ;
    if String.eqb inner_dim "col" then Ok (map as_matrix l)
    else if String.eqb inner_dim "row" then Ok (map (fun v => transposed (as_matrix v)) l)
    else KErr
  else KErr.

(** ** Gradients *)

Inductive chosen := Position (z : Z) | Name (s : string).

Definition position (k : nat) (a : rarg) : Z := match ra_pos a with Some p => p | None => Z.of_nat k end.
Fixpoint max_position (k : nat) (l : list rarg) : Z :=
  match l with [] => -1 | a :: l => Z.max (position k a) (max_position (S k) l) end.
Fixpoint find_arg (n : string) (l : list rarg) : option rarg :=
  match l with [] => None | a :: l => if String.eqb (ra_name a) n then Some a else find_arg n l end.

(** [get_gradient_formula]: the formula and the arguments.  A number is the place in the list of arguments. *)
Definition gradient_formula (eta : string) (o : operator) (var : chosen) : res (string * list string) :=
  let last_pos := max_position 0 (o_info o) in
  do a <- match var with
          | Position z => if (0 <=? z)%Z && (z <=? last_pos)%Z
                          then match nth_error (o_info o) (Z.to_nat z) with Some a => Ok a | None => PyErr end
                          else KErr
          | Name n => match find_arg n (o_info o) with Some a => Ok a | None => KErr end
          end ;
  let arg := eta ++ "=" ++ ra_type a ++ "(" ++ (if has_pos a then str_int (last_pos + 1) ++ "," else "") ++ str_int 1 ++ ")" in
  Ok (grad_text (o_formula o) (ra_name a) eta, (o_args o ++ [arg])%list).
Definition keops_grad (eta : string) (o : operator) (var : chosen) : res operator :=
  do g <- gradient_formula eta o var ;
  keops_kernel (fst g) (snd g).

(** ** The engine *)

(** [Grad(formula, v, gradin)] inside a reduction. *)
Fixpoint formula_value (names : string -> option pv) (e : py) : res pv :=
  match e with
  | PCall (PName s) [f; v; g] =>
      if String.eqb s "Grad" then
        do f <- formula_value names f ; do v <- evaluate names v ; do g <- evaluate names g ;
        do f <- as_formula f ; do v <- as_formula v ; do g <- as_formula g ;
        lift (DiffT f v g)
      else evaluate names e
  | _ => evaluate names e
  end.
Definition reduction_value (names : string -> option pv) (e : py) : res red :=
  match e with
  | PCall (PName s) (f :: l) =>
      do f <- formula_value names f ;
      do l <- evaluate_all names l ;
      plain s (f :: l)
  | _ => PyErr
  end.
(** The names of GetReduction, as in GenericOps: declared names hide functions. *)
Definition reduction_of (d : list (string * pv)) (e : py) : res red :=
  if existsb (fun s => match found d s with Some _ => true | None => false end) (called e) then PyErr
  else reduction_value (found d) e.
Definition genred_makes (p : params) (X : red) : Prop :=
  exists al d e,
    engine_aliases 0 None None (p_aliases p) = Ok al /\ dictionary al d /\
    reads (p_formula p) e /\ reduction_of d e = Ok X.
