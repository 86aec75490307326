(** Variables of a formula and the tables of pointers used to evaluate it.

    Models keopscore/keopscore/formulas/Operation.py lines 34-50 (Vars_ and Vars) and
    keopscore/keopscore/utils/code_gen_utils.py lines 521-716 (Var_loader, table,
    direct_table, load_vars). *)

From Coq Require Import ZArith Reals Arith List Bool.
From Verif Require Import Result Formula.
Import ListNotations.

(** A variable: position, dimension, category. *)
Definition fvar := (Z * nat * nat)%type.
Definition vpos (v : fvar) : Z := fst (fst v).
Definition vdim (v : fvar) : nat := snd (fst v).
Definition vcat (v : fvar) : nat := snd v.

Definition fvar_eqb (v w : fvar) : bool :=
  Z.eqb (vpos v) (vpos w) && Nat.eqb (vdim v) (vdim w) && Nat.eqb (vcat v) (vcat w).

(** Insertion in a list sorted by position, keeping one copy of each variable.
    Operation.py lines 34-38 sort a Python set by position; the order of different variables
    at the same position is that of the set, unspecified: here the last inserted comes first. *)
Fixpoint insert_var (v : fvar) (l : list fvar) : list fvar :=
  match l with
  | [] => [v]
  | w :: m => if Z.leb (vpos v) (vpos w) then v :: l else w :: insert_var v m
  end.
Definition add_var (v : fvar) (l : list fvar) : list fvar :=
  if existsb (fvar_eqb v) l then l else insert_var v l.

Definition union_vars (l m : list fvar) : list fvar := fold_right add_var m l.

Fixpoint vars (f : fm) : list fvar :=
  match f with
  | Var i d c => [(i, d, c)]
  | Zero _ | Int _ | Rat _ _ => []
  | Un _ f | Lin _ f | Sel _ f => vars f
  | Bin _ f g | Bil _ f g | Cat f g => union_vars (vars f) (vars g)
  | Ter _ f g h => union_vars (vars f) (union_vars (vars g) (vars h))
  end.

(** Operation.Vars(cat), lines 40-50, as (position, dimension). *)
Definition vars_cat (f : fm) (c : nat) : list (Z * nat) :=
  map fst (filter (fun v => Nat.eqb (vcat v) c) (vars f)).

(** Var_loader.__init__, lines 531-564. *)
Record var_loader := { varsI : list (Z * nat); varsJ : list (Z * nat); varsP : list (Z * nat) }.
Definition loader (f : fm) (tagI : nat) : var_loader :=
  {| varsI := vars_cat f tagI; varsJ := vars_cat f (1 - tagI); varsP := vars_cat f 2 |}.

Definition dims (vs : list (Z * nat)) : nat := fold_right (fun v n => snd v + n) 0 vs.

(** Flat memory of the arguments: [A a q] is args[a][q]. *)
Definition memory := Z -> nat -> R.
Definition rarray := nat -> R.
Definition rupd (a : rarray) (p : nat) (v : R) : rarray := fun q => if Nat.eqb q p then v else a q.

(** A table maps a position to an array (a pointer), None where nothing was put. *)
Definition table_t := Z -> option rarray.
Definition put (t : table_t) (i : Z) (a : rarray) : table_t :=
  fun j => if Z.eqb j i then Some a else t j.
Definition no_table : table_t := fun _ => None.

(** table, lines 604-615: res[ind] = xloc + (sum of the previous dimensions). *)
Fixpoint table_fill (vs : list (Z * nat)) (xloc : rarray) (k : nat) (t : table_t) : table_t :=
  match vs with
  | [] => t
  | (i, d) :: vs => table_fill vs xloc (k + d) (put t i (fun q => xloc (k + q)))
  end.
Definition table (L : var_loader) (xi yj pp : rarray) : table_t :=
  table_fill (varsP L) pp 0 (table_fill (varsJ L) yj 0 (table_fill (varsI L) xi 0 no_table)).

(** direct_table, lines 618-630: res[ind] = args[ind] + row*dim. *)
Fixpoint direct_fill (vs : list (Z * nat)) (A : memory) (r : nat) (t : table_t) : table_t :=
  match vs with
  | [] => t
  | (i, d) :: vs => direct_fill vs A r (put t i (fun q => A i (r * d + q)))
  end.
Definition direct_table (L : var_loader) (A : memory) (i j : nat) : table_t :=
  direct_fill (varsP L) A 0 (direct_fill (varsJ L) A j (direct_fill (varsI L) A i no_table)).

(** load_vars, lines 668-735: local copy of a row of each variable of the list.  [rows u] is the
    row read for the variable at position u of the list: row_index, plus offsets[u] when there
    are offsets. *)
Fixpoint for_upR (n : nat) (body : nat -> rarray -> rarray) (s : rarray) : rarray :=
  match n with O => s | S m => body m (for_upR m body s) end.
Fixpoint load_vars (vs : list (Z * nat)) (A : memory) (rows : nat -> nat) (u a : nat)
    (xloc : rarray) : rarray :=
  match vs with
  | [] => xloc
  | (i, d) :: vs =>
      load_vars vs A rows (S u) (a + d)
        (for_upR d (fun v x => rupd x (a + v) (A i (rows u * d + v))) xloc)
  end.

(** Evaluation of the formula on a table (Operation.__call__): the generated code reads
    table[ind] for every variable; generating it raises where the table holds None. *)
Definition table_ok (f : fm) (t : table_t) : bool :=
  forallb (fun v => match t (vpos v) with Some _ => true | None => false end) (vars f).
Definition table_env (t : table_t) : env :=
  fun i => match t i with Some a => a | None => fun _ => 0%R end.
