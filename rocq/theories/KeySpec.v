(** * What is asked of a request, for its key to be meaningful.

    These conditions describe the formulas and options that the front-ends
    produce; they do not mention keys. *)

From Coq Require Import ZArith List Bool Ascii String.
From Verif Require Import Keys.
Import ListNotations.
Open Scope string_scope.

Definition digit (c : ascii) : bool :=
  (Nat.leb 48 (nat_of_ascii c) && Nat.leb (nat_of_ascii c) 57)%bool.

Definition letter (c : ascii) : bool :=
  ((Nat.leb 65 (nat_of_ascii c) && Nat.leb (nat_of_ascii c) 90)
   || (Nat.leb 97 (nat_of_ascii c) && Nat.leb (nat_of_ascii c) 122))%bool.

(** The first character of a text. *)
Definition starts (P : ascii -> bool) (s : string) : bool :=
  match s with EmptyString => false | String c _ => P c end.

(** Depth of parentheses after reading a text from depth [n]; fails when a
    parenthesis is closed that was not open. *)
Fixpoint depth (n : nat) (s : string) : option nat :=
  match s with
  | EmptyString => Some n
  | String c s' =>
      if (c =? "(")%char then depth (S n) s'
      else if (c =? ")")%char then match n with 0 => None | S m => depth m s' end
      else depth n s'
  end.

Fixpoint plain (s : string) : bool :=
  match s with
  | EmptyString => true
  | String c s' =>
      negb ((c =? "(")%char || (c =? ")")%char || (c =? " ")%char) && plain s'
  end.

(** A formula is a name followed by balanced arguments between parentheses,
    without square brackets: [Sum_Reduction(Exp(Var(0,1,0)),1)]. *)
Definition formula_text (s : string) : Prop :=
  exists name body,
    s = name ++ "(" ++ body ++ ")" /\ plain name = true
    /\ starts letter name = true /\ depth 0 body = Some 0 /\ has "["%char s = false.

Definition tag (z : Z) : Prop := z = 0%Z \/ z = 1%Z.
Definition choice (z : Z) : Prop := z = (-1)%Z \/ z = 0%Z \/ z = 1%Z.

(** Options as the front-ends set them. *)
Definition admissible (r : request) : Prop :=
  formula_text (rq_formula r)
  /\ choice (rq_chunks r) /\ choice (rq_final r) /\ choice (rq_highdim r)
  /\ tag (rq_hostdevice r) /\ tag (rq_cpugpu r) /\ tag (rq_1d2d r)
  /\ tag (rq_fast r).

Definition admissible_load (l : load) : Prop :=
  formula_text (ld_formula l)
  /\ tag (ld_cpugpu l) /\ tag (ld_1d2d l) /\ tag (ld_hostdevice l).

(** Compilation flags start with a space or a dash, not with a digit. *)
Definition flags_ok (flags : string) : Prop := starts digit flags = false.

(** Text of a Python class, such as [<class 'keopscore.mapreduce.cpu.CpuReduc.CpuReduc'>]. *)
Definition class_text (s : string) : Prop := exists b, s = b ++ ">" /\ has ">"%char b = false.

(** Text of a reduction (Reduction.py lines 42-43, Tree.py lines 71-83): it ends with the description
    of a variable, or with the word [with] and a space. *)
Definition printed_text (s : string) : Prop := exists b, s = b ++ ")" \/ s = b ++ " ".
