(** * Documented syntax of the declarations, and what they mean. *)

From Coq Require Import ZArith List Bool Ascii String.
From Verif Require Import Keys KeySpec.
Import ListNotations.
Open Scope string_scope.

Inductive kind := KVi | KVj | KPm.
Definition kind_text (k : kind) : string :=
  match k with KVi => "Vi" | KVj => "Vj" | KPm => "Pm" end.
Definition category (k : kind) : Z := match k with KVi => 0 | KVj => 1 | KPm => 2 end%Z.

(** [name = Xy(pos,dim)] or [name = Xy(dim)], the same without a name, and
    [Var(pos,dim,cat)]. *)
Inductive declaration :=
| Named (name : string) (k : kind) (pos : option Z) (dim : Z)
| Unnamed (k : kind) (pos : option Z) (dim : Z)
| Positional (pos dim cat : Z).

Definition numbers (pos : option Z) (dim : Z) : string :=
  match pos with
  | Some p => str_int p ++ "," ++ str_int dim
  | None => str_int dim
  end.

Definition text (d : declaration) : string :=
  match d with
  | Named n k p dim => n ++ "=" ++ kind_text k ++ "(" ++ numbers p dim ++ ")"
  | Unnamed k p dim => kind_text k ++ "(" ++ numbers p dim ++ ")"
  | Positional p dim c =>
      "Var(" ++ str_int p ++ "," ++ str_int dim ++ "," ++ str_int c ++ ")"
  end.

Definition name_letter (c : ascii) : bool := letter c || (c =? "_")%char.

Fixpoint every (p : ascii -> bool) (s : string) : bool :=
  match s with EmptyString => true | String c s' => p c && every p s' end.

Definition is_name (s : string) : Prop :=
  exists c t, s = String c t /\ name_letter c = true
    /\ every (fun c => name_letter c || digit c) t = true.

Definition natural (p : option Z) : Prop := match p with Some z => (0 <= z)%Z | None => True end.

Definition valid (d : declaration) : Prop :=
  match d with
  | Named n _ p dim => is_name n /\ natural p /\ (0 <= dim)%Z
  | Unnamed _ p dim => natural p /\ (0 <= dim)%Z
  | Positional p dim c => (0 <= p)%Z /\ (0 <= dim)%Z /\ (0 <= c)%Z
  end.

(** [s] is [t] with spaces anywhere. *)
Inductive spaced : string -> string -> Prop :=
| Sp_nil : spaced "" ""
| Sp_space : forall s t, spaced s t -> spaced (String " " s) t
| Sp_keep : forall c s t, spaced s t -> spaced (String c s) (String c t).

(** Category, dimension and position of the declaration at place [k]. *)
Definition triple (k : Z) (d : declaration) : Z * Z * Z :=
  match d with
  | Named _ kd p dim | Unnamed kd p dim =>
      (category kd, dim, match p with Some z => z | None => k end)
  | Positional p dim c => (c, dim, p)
  end.

Fixpoint triples (k : Z) (l : list declaration) : list (Z * Z * Z) :=
  match l with [] => [] | d :: l' => triple k d :: triples (k + 1) l' end.

(** What the engine must be told: the names, as variables. *)
Fixpoint meanings (k : Z) (l : list declaration) : list string :=
  match l with
  | [] => []
  | d :: l' =>
      match d with
      | Named n _ _ _ =>
          let '(c, dim, p) := triple k d in
          (n ++ "=" ++ text (Positional p dim c)) :: meanings (k + 1) l'
      | _ => meanings (k + 1) l'
      end
  end.

(** ** Variables written in the formula *)

Definition digits_text (s : string) : Prop := s <> "" /\ every digit s = true.

(** [v] is [Var(a,b,c)] with three numbers. *)
Definition variable_text (a v : string) : Prop :=
  exists b c, digits_text a /\ digits_text b /\ digits_text c
    /\ v = "Var(" ++ a ++ "," ++ b ++ "," ++ c ++ ")".

(** Value of a text of digits. *)
Definition digit_value (c : ascii) : nat := nat_of_ascii c - 48.
Fixpoint value_from (n : nat) (s : string) : nat :=
  match s with EmptyString => n | String c s' => value_from (10 * n + digit_value c) s' end.
Definition value (s : string) : nat := value_from 0 s.

(** The variable [v], with position [p], is written in the formula. *)
Definition occurs (f : string) (p : nat) (v : string) : Prop :=
  exists f' pre post a, spaced f f' /\ has " " f' = false /\ f' = pre ++ v ++ post
    /\ variable_text a v /\ value a = p.

(** An order of enumeration of a set of strings. *)
Definition enumerates (enumerate : list (string * string) -> list (string * string)) : Prop :=
  forall l, NoDup (enumerate l) /\ forall x, In x (enumerate l) <-> In x l.

(** The positions that are not declared, with their variables. *)
Definition undeclared (n : nat) (f : string) (vs : list string) : Prop :=
  forall p v, n <= p -> (occurs f p v <-> nth_error vs (p - n) = Some v).

