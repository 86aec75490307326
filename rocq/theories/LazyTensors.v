(** * Symbolic tensors: construction of formulas, numbering of the variables,
    transposition, reductions.

    Models pykeops/pykeops/common/lazy_tensor.py:
    - lines 103-260 ([__init__]), 270-328 ([new_variable_index], [fixvariables]),
      355-428 ([promote], [init], [join]), 432-643 ([unary], [binary], [ternary]),
      721-777 ([reduction]), 2529-2601 ([t]).

    Simplifications: a tensor is its identity (the value of [id]) and its shape, a list of
    floats its identity and its length; the identity of a new view is a parameter.
    An object on which a reduction has been called is a different type here, so
    the checks on the attribute [reduction_op] do not appear, and [t] is
    modelled when [formula2] is [None].  Regular expressions are modelled by the
    equivalent scanners below.  [tools], [Genred], [KernelSolve] and [backend] are left out, as are
    complex tensors (see Complex). *)

From Coq Require Import ZArith List Bool Ascii String.
From Verif Require Import Result Keys KeySpec Aliases Broadcast.
Import ListNotations.
Open Scope string_scope.

(** ** Strings *)

(** [re.sub], and [str.replace]: from left to right, where the matcher [m] succeeds, its
    replacement is written and the number of characters that it tells is skipped. *)
Fixpoint sub_from (m : string -> option (string * nat)) (skip : nat) (s : string) : string :=
  match s with
  | EmptyString => ""
  | String c s' =>
      match skip with
      | S k => sub_from m k s'
      | 0 =>
          match m s with
          | Some (new, n) => new ++ sub_from m (pred n) s'
          | None => String c (sub_from m 0 s')
          end
      end
  end.

(** [s.replace(old, new)], [old] being non-empty. *)
Definition py_replace (old new s : string) : string :=
  sub_from (fun s => if prefix old s then Some (new, String.length old) else None) 0 s.

(** ** Objects *)

Inductive data := Array (sh : list Z) | Floats (n : Z).
Record tensor := { t_id : Z; t_data : data }.

Inductive lazy := mkLazy {
  formula : string;
  variables : list tensor;
  symbolic : list (Z * Z * Z);
  ndim : Z;
  axis : option Z;
  ni : option Z;
  nj : option Z;
  batchdims : option (list Z);
  dtype : option string;
  ranges : option (list (list Z));
  rec_highdim : option (lazy * lazy)
}.

(** ** [__init__] *)

Definition var_text (kw : string) (a b c : Z) : string :=
  kw ++ "(" ++ str_int a ++ "," ++ str_int b ++ "," ++ str_int c ++ ")".

(** Lines 111-130. *)
Definition lt_symbolic (ind dim cat : Z) : lazy :=
  {| formula := var_text "VarSymb" ind dim cat; variables := []; symbolic := [(ind, dim, cat)];
     ndim := dim; axis := Some cat; ni := None; nj := None; batchdims := None; dtype := None;
     ranges := None; rec_highdim := None |}.

(** Lines 133-137. *)
Definition lt_int (n : Z) : lazy :=
  {| formula := "IntCst(" ++ str_int n ++ ")"; variables := []; symbolic := [];
     ndim := 1; axis := Some 2%Z; ni := None; nj := None; batchdims := None; dtype := None;
     ranges := None; rec_highdim := None |}.

(** Lines 147-159. *)
Definition lt_floats (id n : Z) : lazy :=
  {| formula := var_text "Var" id n 2; variables := [{| t_id := id; t_data := Floats n |}];
     symbolic := []; ndim := n; axis := Some 2%Z; ni := None; nj := None; batchdims := None;
     dtype := None; ranges := None; rec_highdim := None |}.

Definition last_dim (s : list Z) : res Z :=
  match rev s with d :: _ => Ok d | [] => PyErr end.
Definition last_but_one (s : list Z) : res Z :=
  match rev s with _ :: d :: _ => Ok d | _ => PyErr end.

(** Lines 185-212: axis and batch dimensions of an array with at least three dimensions, and its
    shape once squeezed. *)
Definition squeezed (sh : list Z) : res (list Z * Z * option (list Z)) :=
  match rev sh with
  | d :: n :: m :: rest =>
      let batch := if Nat.ltb 3 (List.length sh) then Some (rev rest) else None in
      if (m =? 1)%Z then
        if (n =? 1)%Z then Ok (rev rest ++ [d], 2%Z, batch)%list
        else Ok (rev rest ++ [n; d], 1%Z, batch)%list
      else if (n =? 1)%Z then Ok (rev rest ++ [m; d], 0%Z, batch)%list
      else KErr
  | _ => PyErr
  end.

(** Lines 160-260, for an array of type [dt]; [id] is the identity of
    the array that is kept, squeezed or viewed. *)
Definition lt_array (dt : string) (id : Z) (sh : list Z) (ax : option Z) : res lazy :=
  let sh := match sh with [] => [1%Z] | _ => sh end in
  do a <- (if Nat.leb 3 (List.length sh) then
             match ax with
             | Some _ => KErr
             | None => do q <- squeezed sh ; Ok (fst (fst q), Some (snd (fst q)), snd q)
             end
           else Ok (sh, ax, None)) ;
  let '(sh, ax, batch) := a in
  do d <- last_dim sh ;
  let v := {| t_id := id; t_data := Array sh |} in
  if (Nat.leb 2 (List.length sh)
      && negb (match ax with Some a => (a =? 2)%Z | None => false end))%bool then
    match ax with
    | Some a =>
        if (a =? 0)%Z || (a =? 1)%Z then
          do n <- last_but_one sh ;
          Ok {| formula := var_text "Var" id d a; variables := [v]; symbolic := []; ndim := d;
                axis := Some a; ni := if (a =? 0)%Z then Some n else None;
                nj := if (a =? 0)%Z then None else Some n; batchdims := batch;
                dtype := Some dt; ranges := None; rec_highdim := None |}
        else KErr
    | None => KErr
    end
  else
    match ax with
    | Some a =>
        if (a =? 2)%Z then
          Ok {| formula := var_text "Var" id d 2; variables := [v]; symbolic := []; ndim := d;
                axis := Some 2%Z; ni := None; nj := None; batchdims := batch;
                dtype := Some dt; ranges := None; rec_highdim := None |}
        else KErr
    | None =>
        Ok {| formula := var_text "Var" id d 2; variables := [v]; symbolic := []; ndim := d;
              axis := Some 2%Z; ni := None; nj := None; batchdims := batch;
              dtype := Some dt; ranges := None; rec_highdim := None |}
    end.

(** ** [promote], [init], [join] *)

(** Lines 355-383, for one attribute of [self] ([y]) and [other] ([x]). *)
Definition promote {A : Type} (eq : A -> A -> bool) (y x : option A) : res (option A) :=
  match x with
  | Some a =>
      match y with
      | Some b => if eq a b then Ok x else KErr
      | None => Ok x
      end
  | None => Ok y
  end.

Fixpoint eq_list {A : Type} (eq : A -> A -> bool) (l l' : list A) : bool :=
  match l, l' with
  | [], [] => true
  | a :: l1, b :: l2 => eq a b && eq_list eq l1 l2
  | _, _ => false
  end.

(** Lines 384-400, with the formula and the dimension that are set afterwards. *)
Definition init (l : lazy) (f : string) (d : Z) : lazy :=
  {| formula := f; variables := variables l; symbolic := symbolic l; ndim := d; axis := None;
     ni := ni l; nj := nj l; batchdims := batchdims l; dtype := dtype l; ranges := ranges l;
     rec_highdim := None |}.

(** Lines 402-428. *)
Definition join (l other : lazy) (f : string) (d : Z) : res lazy :=
  do dt <- promote String.eqb (dtype l) (dtype other) ;
  do n <- promote Z.eqb (ni l) (ni other) ;
  do m <- promote Z.eqb (nj l) (nj other) ;
  do r <- promote (eq_list (eq_list Z.eqb)) (ranges l) (ranges other) ;
  do b <- check_broadcasting (batchdims l) (batchdims other) ;
  Ok {| formula := f; variables := (variables l ++ variables other)%list;
        symbolic := (symbolic l ++ symbolic other)%list; ndim := d; axis := None;
        ni := n; nj := m; batchdims := b; dtype := dt; ranges := r; rec_highdim := None |}.

(** ** Operations *)

Definition or_default (d : option Z) (v : Z) : Z :=
  match d with Some z => if (z =? 0)%Z then v else z | None => v end.

(** Lines 432-463; optional arguments are given by their texts. *)
Definition unary (l : lazy) (op : string) (dimres : option Z) (opt_arg opt_arg2 : option string)
  : lazy :=
  let f :=
    match opt_arg2, opt_arg with
    | Some b, Some a => op ++ "(" ++ formula l ++ "," ++ a ++ "," ++ b ++ ")"
    | Some b, None => op ++ "(" ++ formula l ++ ",None," ++ b ++ ")"
    | None, Some a => op ++ "(" ++ formula l ++ "," ++ a ++ ")"
    | None, None => op ++ "(" ++ formula l ++ ")"
    end in
  init l f (or_default dimres (ndim l)).

Inductive dimcheck := DSame | DSameOr1 | DVecAnd1 | DNone.

Definition check_dims (c : dimcheck) (a b : Z) : bool :=
  match c with
  | DSame => (a =? b)%Z
  | DSameOr1 => (a =? b)%Z || (a =? 1)%Z || (b =? 1)%Z
  | DVecAnd1 => (b =? 1)%Z
  | DNone => true
  end.

(** An optional argument: a text, or a symbolic tensor that is replaced by its formula. *)
Inductive extra := EText (s : string) | ELazy (l : lazy).
Definition extra_text (x : extra) : string :=
  match x with EText s => s | ELazy l => formula l end.

(** Lines 465-567; [opt] is the optional argument and tells whether it is in the middle. *)
Definition binary (l other : lazy) (op : string) (is_operator : bool) (dimres : option Z)
  (dc : dimcheck) (opt : option (extra * bool)) (rversion : bool) : res lazy :=
  let d := or_default dimres (Z.max (ndim l) (ndim other)) in
  if check_dims dc (ndim l) (ndim other) then
    let '(lf, rf) := if rversion then (formula other, formula l) else (formula l, formula other) in
    let f :=
      if is_operator then "(" ++ lf ++ " " ++ op ++ " " ++ rf ++ ")"
      else match opt with
           | Some (x, false) => op ++ "(" ++ lf ++ ", " ++ rf ++ ", " ++ extra_text x ++ ")"
           | Some (x, true) => op ++ "(" ++ lf ++ ", " ++ extra_text x ++ ", " ++ rf ++ ")"
           | None => op ++ "(" ++ lf ++ ", " ++ rf ++ ")"
           end in
    do r <- join l other f d ;
    Ok {| formula := formula r; variables := variables r; symbolic := symbolic r; ndim := ndim r;
          axis := axis r; ni := ni r; nj := nj r; batchdims := batchdims r; dtype := dtype r;
          ranges := ranges r;
          rec_highdim :=
            if (String.eqb op "*" && prefix "Var" (formula other) && (100 <? ndim other)%Z)%bool
            then Some (l, other) else None |}
  else KErr.

(** Lines 12-14. *)
Definition same_or_one_test (a b c : Z) : bool :=
  Nat.leb (List.length (nodup Z.eq_dec [a; b; c; 1%Z])) 2.

(** Lines 569-643. *)
Definition ternary (l o1 o2 : lazy) (op : string) (dimres : option Z) (dc : dimcheck)
  (opt : option extra) : res lazy :=
  let d := or_default dimres (Z.max (ndim l) (Z.max (ndim o1) (ndim o2))) in
  let fine :=
    match dc with
    | DSame => (ndim l =? ndim o1)%Z && (ndim l =? ndim o2)%Z
    | DSameOr1 => same_or_one_test (ndim l) (ndim o1) (ndim o2)
    | DVecAnd1 => false
    | DNone => true
    end in
  if fine then
    let f :=
      match opt with
      | Some x => op ++ "(" ++ formula l ++ ", " ++ formula o1 ++ ", " ++ formula o2 ++ ", "
                     ++ extra_text x ++ ")"
      | None => op ++ "(" ++ formula l ++ ", " ++ formula o1 ++ ", " ++ formula o2 ++ ")"
      end in
    do o <- join o1 o2 "" 1 ; join l o f d
  else KErr.

(** ** Numbering of the variables *)

(** Lines 270-272. *)
Definition new_variable_index (sv : list (Z * Z * Z)) : Z :=
  match sv with
  | [] => 0
  | v :: sv' => 1 + fold_left Z.max (map (fun v => fst (fst v)) sv') (fst (fst v))
  end.

(** ["Var({},".format(n)]. *)
Definition tag (n : Z) : string := "Var(" ++ str_int n ++ ",".

(** Line 302: the expression [Var\(i,\d+,([012])\)], at the beginning of a text, and
    searched in a text. *)
Definition match_cat (i : Z) (s : string) : option string :=
  match strip_prefix (tag i) s with
  | Some r =>
      match take_while digit r with
      | (String _ _, String "," (String c (String ")" _))) =>
          if (c =? "0")%char || (c =? "1")%char || (c =? "2")%char then Some (String c "") else None
      | _ => None
      end
  | None => None
  end.

Fixpoint search_cat (i : Z) (s : string) : option string :=
  match match_cat i s with
  | Some c => Some c
  | None => match s with EmptyString => None | String _ s' => search_cat i s' end
  end.

(** Lines 300-308; [(1,) * n] is empty when [n] is negative. *)
Definition pad_batch (nbatchdims : Z) (cat : string) (sh : list Z) : list Z :=
  let is_variable := if String.eqb cat "0" || String.eqb cat "1" then 1%Z else 0%Z in
  (repeat 1%Z (Z.to_nat (nbatchdims + 1 + is_variable - Z.of_nat (List.length sh))) ++ sh)%list.

(** Lines 286-317. *)
Fixpoint relabel (nbatchdims : Z) (typed : bool) (vs : list tensor) (i : Z) (f f2 : string)
  (hd : option Z) : res (string * string * list tensor * option Z) :=
  match vs with
  | [] => Ok (f, f2, [], hd)
  | v :: vs' =>
      let d := match t_data v with
               | Floats n => if typed then Array [n] else Floats n
               | a => a
               end in
      if contains (tag (t_id v)) (f ++ f2) then
        let f' := py_replace (tag (t_id v)) (tag i) f in
        let f2' := py_replace (tag (t_id v)) (tag i) f2 in
        do p <- match d with
                | Array sh =>
                    match search_cat i (f' ++ f2') with
                    | Some c => Ok (Array (pad_batch nbatchdims c sh))
                    | None => PyErr
                    end
                | Floats n => Ok (Floats n)
                end ;
        let hd' := match hd with
                   | Some h => if (h =? t_id v)%Z then Some i else hd
                   | None => None
                   end in
        do r <- relabel nbatchdims typed vs' (i + 1) f' f2' hd' ;
        let '(f'', f2'', new, hd'') := r in
        Ok (f'', f2'', {| t_id := t_id v; t_data := p |} :: new, hd'')
      else relabel nbatchdims typed vs' i f f2 hd
  end.

(** Lines 274-328: formula, second formula (empty for [None]), arguments and
    position of the variable of high dimension. *)
Definition fixvariables (nbatchdims : Z) (typed : bool) (sv : list (Z * Z * Z)) (vs : list tensor)
  (f f2 : string) (hd : option Z) : res (string * string * list tensor * option Z) :=
  do r <- relabel nbatchdims typed vs (new_variable_index sv) f f2 hd ;
  let '(f', f2', new, hd') := r in
  Ok (py_replace "VarSymb(" "Var(" f', py_replace "VarSymb(" "Var(" f2', new, hd').

(** ** Reductions *)

(** The call that is prepared: formulas, reduction, axis, arguments. *)
Record call := {
  c_op : string; c_axis : Z; c_formula : string; c_formula2 : string;
  c_args : list tensor; c_highdim : option Z;
  c_ni : option Z; c_nj : option Z; c_ranges : option (list (list Z))
}.

(** The result: a call, or the product of a result and of the data of a variable. *)
Inductive outcome := Call (c : call) | Times (o : outcome) (v : tensor).

Definition nbatchdims (l : lazy) : Z :=
  match batchdims l with Some b => Z.of_nat (List.length b) | None => 0 end.

(** Lines 721-777, for a tensor with data and the reduction Sum without weights. *)
Fixpoint sum_reduction (l : lazy) (ax : Z) {struct l} : res outcome :=
  let a := (ax - nbatchdims l)%Z in
  if (a =? 0)%Z || (a =? 1)%Z then
    let go hd :=
      match dtype l with
      | Some _ =>
          do r <- fixvariables (nbatchdims l) true (symbolic l) (variables l) (formula l) "" hd ;
          let '(f, f2, new, hd') := r in
          Ok (Call {| c_op := "Sum"; c_axis := a; c_formula := f; c_formula2 := f2;
                      c_args := new; c_highdim := hd'; c_ni := ni l; c_nj := nj l;
                      c_ranges := ranges l |})
      | None => PyErr
      end in
    match l with
    | {| rec_highdim := Some (k, v) |} =>
        if negb (match axis v with Some b => (a =? b)%Z | None => false end) then
          do o <- sum_reduction k ax ;
          match variables v with
          | x :: _ => Ok (Times o x)
          | [] => PyErr
          end
        else
          match variables v with
          | x :: _ => go (Some (t_id x))
          | [] => PyErr
          end
    | _ => go None
    end
  else KErr.

(** ** Transposition *)

(** The expression [(Var|VarSymb)\((\d+),(\d+),cat\)] at the beginning of a
    text; the replacement has the category [new]. *)
Definition match_category (cat new : string) (s : string) : option (string * nat) :=
  let after kw :=
    match strip_prefix (kw ++ "(") s with
    | Some r =>
        match take_while digit r with
        | (String a0 a, String "," r1) =>
            match take_while digit r1 with
            | (String b0 b, r2) =>
                match strip_prefix ("," ++ cat ++ ")") r2 with
                | Some r3 =>
                    Some (kw ++ "(" ++ String a0 a ++ "," ++ String b0 b ++ "," ++ new ++ ")",
                          String.length s - String.length r3)
                | None => None
                end
            | _ => None
            end
        | _ => None
        end
    | None => None
    end in
  match after "Var" with Some x => Some x | None => after "VarSymb" end.

(** The expression [(Var|VarSymb)\(id,(\d+),(\d+)\)]; the replacement has the
    identity [new]. *)
Definition match_identity (id new : Z) (s : string) : option (string * nat) :=
  let after kw :=
    match strip_prefix (kw ++ "(" ++ str_int id ++ ",") s with
    | Some r =>
        match take_while digit r with
        | (String a0 a, String "," r1) =>
            match take_while digit r1 with
            | (String b0 b, String ")" r2) =>
                Some (kw ++ "(" ++ str_int new ++ "," ++ String a0 a ++ "," ++ String b0 b ++ ")",
                      String.length s - String.length r2)
            | _ => None
            end
        | _ => None
        end
    | None => None
    end in
  match after "Var" with Some x => Some x | None => after "VarSymb" end.

(** Lines 2557-2565. *)
Definition swap_categories (f : string) : string :=
  let f := sub_from (match_category "0" "i") 0 f in
  let f := sub_from (match_category "1" "0") 0 f in
  sub_from (match_category "i" "1") 0 f.

(** Lines 2579-2600; [views] are the identities of the views that are created. *)
Fixpoint new_views (vs : list tensor) (views : list Z) (f : string) : res (string * list tensor) :=
  match vs with
  | [] => Ok (f, [])
  | x :: vs' =>
      match t_data x with
      | Floats _ =>
          do r <- new_views vs' views f ; Ok (fst r, x :: snd r)
      | Array sh =>
          match views with
          | y :: views' =>
              let f' := sub_from (match_identity (t_id x) y) 0 f in
              do r <- new_views vs' views' f' ;
              Ok (fst r, {| t_id := y; t_data := Array sh |} :: snd r)
          | [] => OutOfFuel
          end
      end
  end.

(** numpy/cluster/utils.py lines 227-235: the last three arrays, then the first three. *)
Definition swap_axes (r : option (list (list Z))) : option (list (list Z)) :=
  match r with
  | None => None
  | Some l => Some (firstn 3 (skipn 3 l) ++ firstn 3 l)%list
  end.

(** Lines 2529-2601; the other attributes are copied. *)
Definition transpose (views : list Z) (l : lazy) : res lazy :=
  let f := swap_categories (formula l) in
  do r <- new_views (variables l) views f ;
  Ok {| formula := fst r; variables := snd r; symbolic := symbolic l; ndim := ndim l;
        axis := match axis l with
                | Some a => if (a =? 0)%Z then Some 1%Z else if (a =? 1)%Z then Some 0%Z else Some a
                | None => None
                end;
        ni := nj l; nj := ni l; batchdims := batchdims l; dtype := dtype l;
        ranges := swap_axes (ranges l); rec_highdim := rec_highdim l |}.
