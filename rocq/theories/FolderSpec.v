(** * Conditions on the files of a module, and the expected answer. *)

From Coq Require Import ZArith List Bool Ascii String.
From Verif Require Import Result Keys Folder.
Import ListNotations.
Open Scope string_scope.

(** A formula written on one line. *)
Definition one_line (f : string) : Prop :=
  has "010"%char f = false /\ has "013"%char f = false.

(** The names of the files are different, and none exists. *)
Definition distinct_files (m : module_files) : Prop :=
  NoDup [md_source m; md_low m; md_info m; md_wrapper m; md_dll m].

Definition absent (m : module_files) (d : disk) : Prop :=
  forall p, In p [md_source m; md_low m; md_info m; md_wrapper m; md_dll m] -> d p = None.

(** A text is written in non-empty pieces. *)
Fixpoint joined (l : list string) : string :=
  match l with [] => "" | s :: l' => s ++ joined l' end.

Definition proper_cut (cut : string -> list string) : Prop :=
  forall s, joined (cut s) = s /\ Forall (fun p => p <> "") (cut s).

(** Number of operations to write a text in a file. *)
Definition cost (cut : string -> list string) (s : string) : nat := S (List.length (cut s)).

(** The compiled code that a request must load. *)
Definition binary (compile_cpp : string -> string -> option string) (m : module_files)
  : option string :=
  if md_gpu m then Some (md_target m) else compile_cpp (md_code m) (md_binding m).

(** Successive requests on the same disk. *)
Fixpoint retries (req : disk -> res (meta * string) * disk) (k : nat) (d : disk)
  : list (res (meta * string)) :=
  match k with
  | O => []
  | S k' => fst (req d) :: retries req k' (snd (req d))
  end.
