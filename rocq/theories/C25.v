(** * C25: the information of a module survives the round trip through its file. *)

From Coq Require Import ZArith List Bool Ascii String.
From Verif Require Import Result Keys Folder FolderSpec C25Proofs.
Import ListNotations.
Open Scope string_scope.

(** All integers, and all formulas written on one line.  Missing for the full
    claim: formulas on several lines, refuted below. *)
Theorem C25_partial : forall f m, one_line f -> read_info (info_text f m) = Ok m.
Proof. exact round_trip. Qed.
Print Assumptions C25_partial.

(** A file that is not complete is never read as the right information. *)
Theorem C25_truncated : forall f m p r, one_line f ->
  p ++ r = info_text f m -> r <> "" -> read_info p <> Ok m.
Proof. exact prefix_not_read. Qed.
Print Assumptions C25_truncated.

(** With a line feed in the formula, the information cannot be read back. *)
Theorem C25_refuted : forall f m,
  has "010"%char f = true -> read_info (info_text f m) = KErr.
Proof. exact newline_fails. Qed.
Print Assumptions C25_refuted.

Example C25_case :
  let f := "Sum_Reduction((Exp(x) = y) * b,0)" in
  let m := {| mt_dim := 12; mt_tagI := 1; mt_dimy := -300 |} in
  one_line f
  /\ info_text f m = "red_formula=Sum_Reduction((Exp(x) = y) * b,0)
dim=12
tagI=1
dimy=-300"
  /\ read_info (info_text f m) = Ok m
  /\ has "010"%char "Sum_Reduction(Exp(x)
    * b,0)" = true
  /\ read_info "red_formula=Sum_Reduction((Exp(x) = y) * b,0)
dim=12
tagI=1
dimy=-3" = Ok {| mt_dim := 12; mt_tagI := 1; mt_dimy := -3 |}.
Proof. repeat split. Qed.
