(** * Factorisation of common sub-formulas.

    Models keopscore/keopscore/formulas/factorization/Factorize.py lines 10-124 ([Factorize_Impl],
    [Factorize_], [Factorize], [AutoFactorize]), [Operation.replace] and [replace_and_count]
    (keopscore/keopscore/formulas/Operation.py lines 52-64), the attribute [Vars_] (lines 36-39) and the
    evaluation of formulas on a table of variables ([Operation.__call__], lines 66-114, and
    [Factorize_Impl.__call__]).

    The operations are those of an arbitrary signature: [op] are the classes with their parameters,
    [osem] the value that the code of [Op] computes from the values of the children, [odim] the
    attribute [dim].  Var is [Leaf].  The lists of variables are not sorted and may hold repetitions:
    the code uses them as sets.  [replace] builds nodes again with the constructors of the classes, which
    only check dimensions: dimensions do not change (C35Proofs.v, [replace_dim]).
    The code that is generated is replaced by the values that it computes; the table is threaded, since
    [Factorize_Impl.__call__] appends to the list of its caller. *)

From Coq Require Import ZArith List Bool Arith.
From Verif Require Import Result.
Import ListNotations.

(** Var: index, dimension, category.  __eq__ compares the three (Var.py lines 43-49). *)
Record var := V { vind : Z; vdim : nat; vcat : nat }.
Definition var_eq_dec : forall u v : var, {u = v} + {u <> v}.
Proof. intros. decide equality; try apply Nat.eq_dec. apply Z.eq_dec. Defined.

Section Factor.
Variable op : Type.
Variable op_eq_dec : forall a b : op, {a = b} + {a <> b}.
(** Dimension of a node from those of its children. *)
Variable odim : op -> list nat -> nat.
(** The classes Zero and IntCst_Impl. *)
Variable light : op -> bool.
(** Values of formulas. *)
Variable val : Type.
Variable osem : op -> list val -> val.

Inductive tree :=
| Leaf (v : var)
| Node (o : op) (l : list tree)
| Fact (f g : tree) (v : var).  (* Factorize_Impl(f, g, aliasvar) *)

Fixpoint dim_of (t : tree) : nat :=
  match t with
  | Leaf v => vdim v
  | Node o l => odim o (map dim_of l)
  | Fact f _ _ => dim_of f
  end.

(** [Vars_]; for Factorize_Impl the variables of both children. *)
Fixpoint vars (t : tree) : list var :=
  match t with
  | Leaf v => [v]
  | Node _ l => flat_map vars l
  | Fact f g _ => vars f ++ vars g
  end.

Definition children (t : tree) : list tree :=
  match t with Leaf _ => [] | Node _ l => l | Fact f g _ => [f; g] end.

(** __eq__ *)
Fixpoint tree_eqb (s t : tree) : bool :=
  match s, t with
  | Leaf u, Leaf v => if var_eq_dec u v then true else false
  | Node o l, Node o' l' =>
      (if op_eq_dec o o' then true else false)
      && (fix all (l l' : list tree) : bool :=
            match l, l' with
            | [], [] => true
            | a :: l, b :: l' => tree_eqb a b && all l l'
            | _, _ => false
            end) l l'
  | Fact f g v, Fact f' g' v' =>
      tree_eqb f f' && tree_eqb g g' && (if var_eq_dec v v' then true else false)
  | _, _ => false
  end.

(** [replace_and_count]: the new formula and the number of replacements. *)
Fixpoint replace_count (t old new : tree) : tree * nat :=
  if tree_eqb t old then (new, 1)
  else match t with
  | Leaf v => (t, 0)
  | Node o l =>
      let r := map (fun c => replace_count c old new) l in
      (Node o (map fst r), list_sum (map snd r))
  | Fact f g v =>
      let rf := replace_count f old new in
      let rg := replace_count g old new in
      (Fact (fst rf) (fst rg) v, snd rf + snd rg)
  end.
Definition replace (t old new : tree) : tree := fst (replace_count t old new).

(** [defined_temp_Vars], lines 25-28. *)
Fixpoint temp_vars (t : tree) : list var :=
  match t with Fact f _ v => temp_vars f ++ [v] | _ => [] end.

Definition var_in (v : var) (l : list var) : bool :=
  existsb (fun u => if var_eq_dec u v then true else false) l.

(** [Factorize_], lines 85-92. *)
Fixpoint factorize_ (t g : tree) (v : var) : tree :=
  match t with
  | Fact f_inner g_inner v_inner =>
      if existsb (fun u => var_in u (vars g)) (temp_vars t)
      then Fact (factorize_ f_inner g v) g_inner v_inner
      else Fact t g v
  | _ => Fact t g v
  end.

(** lines 99-101 *)
Definition new_index (t : tree) : Z :=
  let inds := map vind (vars t) in
  let minind := match inds with [] => 0%Z | i :: l => fold_left Z.min l i end in
  if (0 <=? minind)%Z then (-1)%Z else (minind - 1)%Z.

(** [Factorize], lines 95-107. *)
Definition is_light (g : tree) : bool :=
  match g with Leaf _ => true | Node o _ => light o | Fact _ _ _ => false end.
Definition factorize (t g : tree) : tree :=
  if is_light g then t
  else
    let v := V (new_index t) (dim_of g) 3 in
    let r := replace_count t g (Leaf v) in
    if 1 <? snd r then factorize_ (fst r) g v else t.

(** [RecSearch], lines 111-119. *)
Fixpoint rec_search (t g : tree) : tree :=
  let n := factorize t g in
  if negb (tree_eqb n t) then n
  else
    match g with
    | Leaf _ => t
    | Node _ l =>
        (fix loop (l : list tree) : tree :=
           match l with
           | [] => t
           | c :: l => let n := rec_search t c in if negb (tree_eqb n t) then n else loop l
           end) l
    | Fact f g _ =>
        let n := rec_search t f in
        if negb (tree_eqb n t) then n
        else let n := rec_search t g in if negb (tree_eqb n t) then n else t
    end.

(** [AutoFactorize], lines 110-124. *)
Fixpoint auto_factorize (fuel : nat) (t : tree) : res tree :=
  match fuel with
  | O => OutOfFuel
  | S fuel =>
      let n := rec_search t t in
      if negb (tree_eqb n t) then auto_factorize fuel n else Ok t
  end.

(** ** Evaluation *)

(** table[i], a Python list: negative indices count from the end. *)
Definition py_get (table : list val) (i : Z) : res val :=
  let n := Z.of_nat (List.length table) in
  let j := if (i <? 0)%Z then (n + i)%Z else i in
  if (0 <=? j)%Z && (j <? n)%Z then
    match nth_error table (Z.to_nat j) with Some x => Ok x | None => PyErr end
  else PyErr.

(** __call__: the value and the table at the end. *)
Fixpoint call (fuel : nat) (t : tree) (table : list val) : res (val * list val) :=
  match fuel with
  | O => OutOfFuel
  | S fuel =>
      match t with
      | Leaf v => do x <- py_get table (vind v) ; Ok (x, table)
      | Node o l =>
          do r <- (fix args (l : list tree) (table : list val) : res (list val * list val) :=
                     match l with
                     | [] => Ok ([], table)
                     | c :: l =>
                         do a <- call fuel c table ;
                         do r <- args l (snd a) ;
                         Ok (fst a :: fst r, snd r)
                     end) l table ;
          Ok (osem o (fst r), snd r)
      | Fact f g v =>
          do a <- call fuel g table ;
          let table := snd a ++ [fst a] in
          let newvar := V (Z.of_nat (List.length table) - 1) (vdim v) (vcat v) in
          call fuel (replace f (Leaf v) (Leaf newvar)) table
      end
  end.
End Factor.
