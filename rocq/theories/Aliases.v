(** * Declarations of arguments.

    Models
    - pykeops/pykeops/common/parse_type.py lines 9-45 ([complete_aliases]) and
      71-131 ([get_type]);
    - pykeops/pykeops/common/keops_io/LoadKeOps.py lines 47-64 (translation of
      the declarations for the engine).

    Simplifications: the regular expressions are modelled by the equivalent
    scanners given below.  [eval] is modelled on the decimal texts of integers
    (Folder.py_eval); it is an error on other texts.  The order of enumeration of
    a set of strings is a parameter. *)

From Coq Require Import ZArith List Bool Ascii String.
From Verif Require Import Result Keys KeySpec Folder.
Import ListNotations.
Open Scope string_scope.

(** ** Strings *)

(** [s.replace(" ", "")]. *)
Fixpoint no_spaces (s : string) : string :=
  match s with
  | EmptyString => ""
  | String c s' => if (c =? " ")%char then no_spaces s' else String c (no_spaces s')
  end.

(** [sub in s]. *)
Fixpoint contains (sub s : string) : bool :=
  String.prefix sub s ||
  match s with EmptyString => false | String _ s' => contains sub s' end.

(** [s.replace("V" + old, "V" + new)] for one character. *)
Fixpoint replace_type (old new : ascii) (s : string) : string :=
  match s with
  | EmptyString => ""
  | String a s' =>
      if (a =? "V")%char then
        match s' with
        | String c s'' =>
            if (c =? old)%char then String a (String new (replace_type old new s''))
            else String a (replace_type old new s')
        | EmptyString => String a ""
        end
      else String a (replace_type old new s')
  end.

(** Longest beginning made of characters that satisfy [p], and the rest. *)
Fixpoint take_while (p : ascii -> bool) (s : string) : string * string :=
  match s with
  | String c s' =>
      if p c then let (a, b) := take_while p s' in (String c a, b) else ("", s)
  | EmptyString => ("", "")
  end.

Fixpoint strip_prefix (pre s : string) : option string :=
  match pre, s with
  | EmptyString, _ => Some s
  | String a pre', String b s' => if (a =? b)%char then strip_prefix pre' s' else None
  | _, _ => None
  end.

Definition name_start (c : ascii) : bool := letter c || (c =? "_")%char.
Definition name_char (c : ascii) : bool := name_start c || digit c.

(** [int] of a group of digits. *)
Fixpoint int_from (z : Z) (s : string) : Z :=
  match s with
  | EmptyString => z
  | String c s' => int_from (10 * z + Z.of_nat (nat_of_ascii c - 48)) s'
  end.

Definition py_int (s : string) : res Z :=
  match s with EmptyString => PyErr | _ => Ok (int_from 0 s) end.

(** ** [get_type] *)

(** The end of the expression at lines 93 and 98: a lazy group of digits, an optional
    comma, a group of digits and a parenthesis. With two numbers the first group is the first one;
    with one number the first group is empty. *)
Definition two_groups (s : string) : option (string * string) :=
  let (a, r) := take_while digit s in
  match r with
  | String "," r' =>
      let (b, r'') := take_while digit r' in
      match r'' with String ")" _ => Some (a, b) | _ => None end
  | String ")" _ => Some ("", a)
  | _ => None
  end.

(** One of Vi, Vj, Pm, and a parenthesis. *)
Definition kind_of (s : string) : option (Z * string) :=
  match strip_prefix "Vi(" s with
  | Some r => Some (0%Z, r)
  | None =>
      match strip_prefix "Vj(" s with
      | Some r => Some (1%Z, r)
      | None => match strip_prefix "Pm(" s with Some r => Some (2%Z, r) | None => None end
      end
  end.

(** Lines 92-95: [name=Xy(pos,dim)] or [name=Xy(dim)]. *)
Definition match_named (s : string) : option (string * Z * string * string) :=
  match s with
  | String c _ =>
      if name_start c then
        let (name, r) := take_while name_char s in
        match r with
        | String "=" r' =>
            match kind_of r' with
            | Some (cat, r'') =>
                match two_groups r'' with Some (a, b) => Some (name, cat, a, b) | None => None end
            | None => None
            end
        | _ => None
        end
      else None
  | EmptyString => None
  end.

(** Line 98: [Xy(pos,dim)] or [Xy(dim)]. *)
Definition match_unnamed (s : string) : option (Z * string * string) :=
  match kind_of s with
  | Some (cat, r) =>
      match two_groups r with Some (a, b) => Some (cat, a, b) | None => None end
  | None => None
  end.

(** Lines 100-102: [Var] and three groups of digits, the commas being
    optional and the first group lazy.  With fewer than three
    numbers the first group is empty. *)
Definition match_var (s : string) : option (string * string * string) :=
  match strip_prefix "Var(" s with
  | None => None
  | Some r =>
      let (a, r1) := take_while digit r in
      match r1 with
      | String ")" _ => Some ("", a, "")
      | String "," r1' =>
          let (b, r2) := take_while digit r1' in
          match r2 with
          | String ")" _ => Some ("", a, b)
          | String "," r2' =>
              let (c, r3) := take_while digit r2' in
              match r3 with String ")" _ => Some (a, b, c) | _ => None end
          | _ => None
          end
      | _ => None
      end
  end.

Record argument := { ar_name : option string; ar_cat : Z; ar_dim : Z; ar_pos : option Z }.

(** Position given in the text, or place in the list. *)
Definition infer_position (a : string) (k : option Z) : res (option Z) :=
  match a with
  | EmptyString => Ok k
  | _ => do p <- py_int a ; Ok (Some p)
  end.

Definition get_type (type_str : string) (k : option Z) : res argument :=
  let s := no_spaces (replace_type "y" "j" (replace_type "x" "i" type_str)) in
  match match_named s with
  | Some (name, cat, a, b) =>
      do p <- infer_position a k ;
      do d <- py_int b ;
      Ok {| ar_name := Some name; ar_cat := cat; ar_dim := d; ar_pos := p |}
  | None =>
      match match_unnamed s with
      | Some (cat, a, b) =>
          do p <- infer_position a k ;
          do d <- py_int b ;
          Ok {| ar_name := None; ar_cat := cat; ar_dim := d; ar_pos := p |}
      | None =>
          match match_var s with
          | Some (a, b, c) =>
              do c <- py_int c ;
              do d <- py_int b ;
              do p <- py_int a ;
              Ok {| ar_name := None; ar_cat := c; ar_dim := d; ar_pos := Some p |}
          | None => PyErr
          end
      end
  end.

(** The declarations of a list, numbered from [k]. *)
Fixpoint get_types (k : Z) (aliases : list string) : res (list argument) :=
  match aliases with
  | [] => Ok []
  | s :: l => do a <- get_type s (Some k) ; do r <- get_types (k + 1) l ; Ok (a :: r)
  end.

(** ** Translation for the engine *)

(** [var[3:-1]]. *)
Fixpoint drop (n : nat) (s : string) : string :=
  match n, s with
  | O, _ => s
  | S n', String _ s' => drop n' s'
  | _, EmptyString => ""
  end.

Fixpoint drop_last (s : string) : string :=
  match s with
  | EmptyString => ""
  | String c EmptyString => ""
  | String c s' => String c (drop_last s')
  end.

(** LoadKeOps.py lines 52-57: [cat] keeps its previous value when nothing is
    recognised. *)
Definition engine_cat (var : string) (old : option Z) : option Z :=
  if contains "Vi" var then Some 0%Z
  else if contains "Vj" var then Some 1%Z
  else if contains "Pm" var then Some 2%Z
  else old.

(** Lines 58-62. *)
Definition engine_numbers (k : Z) (var : string) (old : option (Z * Z)) : res (option (Z * Z)) :=
  match split "," (drop_last (drop 3 var)) with
  | [a] => do d <- py_eval a ; Ok (Some (k, d))
  | [a; b] => do i <- py_eval a ; do d <- py_eval b ; Ok (Some (i, d))
  | _ => Ok old
  end.

Definition var_text (pos dim cat : Z) : string :=
  "Var(" ++ str_int pos ++ "," ++ str_int dim ++ "," ++ str_int cat ++ ")".

(** Lines 47-64: the values of [cat], [ind] and [dim] are those of the previous
    iterations when they are not set; using them unset is an error. *)
Fixpoint engine_aliases (k : Z) (cat : option Z) (nums : option (Z * Z))
  (aliases : list string) : res (list string) :=
  match aliases with
  | [] => Ok []
  | s :: l =>
      let s := no_spaces s in
      match split "=" s with
      | [_] => engine_aliases (k + 1) cat nums l
      | [name; var] =>
          let cat := engine_cat var cat in
          do nums <- engine_numbers k var nums ;
          match nums, cat with
          | Some (ind, dim), Some c =>
              do r <- engine_aliases (k + 1) cat nums l ;
              Ok ((name ++ "=" ++ var_text ind dim c) :: r)
          | _, _ => PyErr
          end
      | _ => PyErr
      end
  end.

(** ** [complete_aliases] *)

(** Line 16: one occurrence of [Var(a,b,c)] with three non-empty texts of digits,
    at the beginning of [s]: the three numbers and the rest. *)
Definition match_full_var (s : string) : option (string * string * string * string) :=
  match strip_prefix "Var(" s with
  | None => None
  | Some r =>
      let (a, r1) := take_while digit r in
      match a, r1 with
      | String _ _, String "," r1' =>
          let (b, r2) := take_while digit r1' in
          match b, r2 with
          | String _ _, String "," r2' =>
              let (c, r3) := take_while digit r2' in
              match c, r3 with
              | String _ _, String ")" r4 => Some (a, b, c, r4)
              | _, _ => None
              end
          | _, _ => None
          end
      | _, _ => None
      end
  end.

(** [re.findall]: the texts found, from left to right. *)
Fixpoint find_vars (fuel : nat) (s : string) : list (string * string) :=
  match fuel with
  | O => []
  | S fuel' =>
      match s with
      | EmptyString => []
      | String _ s' =>
          match match_full_var s with
          | Some (a, b, c, r) =>
              (a, "Var(" ++ a ++ "," ++ b ++ "," ++ c ++ ")") :: find_vars fuel' r
          | None => find_vars fuel' s'
          end
      end
  end.

(** Position (first number) and text of each occurrence. *)
Definition extra_vars (formula : string) : list (string * string) :=
  let s := no_spaces formula in find_vars (S (String.length s)) s.

(** [list(set(...))]: each text once, in some order. *)
Section Complete.
  Variable enumerate : list (string * string) -> list (string * string).

  Fixpoint set_nth (n : nat) (x : option string) (l : list (option string))
    : res (list (option string)) :=
    match l, n with
    | [], _ => PyErr
    | _ :: l', O => Ok (x :: l')
    | y :: l', S n' => do r <- set_nth n' x l' ; Ok (y :: r)
    end.

  Fixpoint fill (new : list (nat * string)) (l : list (option string))
    : res (list (option string)) :=
    match new with
    | [] => Ok l
    | (pos, v) :: new' => do l <- set_nth pos (Some v) l ; fill new' l
    end.

  Fixpoint positions (l : list (string * string)) : res (list (nat * string)) :=
    match l with
    | [] => Ok []
    | (a, v) :: l' => do p <- py_int a ; do r <- positions l' ; Ok ((Z.to_nat p, v) :: r)
    end.

  Definition complete_aliases (formula : string) (aliases : list (option string))
    : res (list (option string)) :=
    do pos <- positions (enumerate (extra_vars formula)) ;
    let new := filter (fun pv => Nat.leb (List.length aliases) (fst pv)) pos in
    fill new (aliases ++ repeat None (List.length new)).
End Complete.
