(** C26: named and positional variables. *)

From Coq Require Import ZArith List Bool Ascii String.
From Verif Require Import Result Keys KeySpec Folder Aliases AliasSpec C26Proofs.
Import ListNotations.
Open Scope string_scope.

(** For declarations written in the documented syntax, with spaces anywhere: the front-end
    reads the category, dimension and position that they mean, and the engine is told
    the same ones for each name.  Partial: the old types Vx and Vy are excluded (see below),
    and so is "name = Var(pos,dim,cat)", which the front-end rejects. *)
Theorem C26_declarations_partial : forall ds ss,
  Forall2 (fun s d => valid d /\ spaced s (text d)) ss ds ->
  (exists l, get_types 0 ss = Ok l
     /\ map (fun a => (ar_cat a, ar_dim a, ar_pos a)) l
        = map (fun t => (fst t, Some (snd t))) (triples 0 ds))
  /\ engine_aliases 0 None None ss = Ok (meanings 0 ds).
Proof. exact declarations. Qed.
Print Assumptions C26_declarations_partial.

Example C26_declarations_case :
  Forall2 (fun s d => valid d /\ spaced s (text d))
    [" x = Vi( 3)"; "y_1=Vj(1 ,4)"; "Vx = Pm(2)"; "Vj(5)"]
    [Named "x" KVi None 3; Named "y_1" KVj (Some 1%Z) 4; Named "Vx" KPm None 2; Unnamed KVj None 5]
  /\ meanings 0 [Named "x" KVi None 3; Named "y_1" KVj (Some 1%Z) 4; Named "Vx" KPm None 2;
                 Unnamed KVj None 5]
     = ["x=Var(0,3,0)"; "y_1=Var(1,4,1)"; "Vx=Var(2,2,2)"].
Proof. exact (conj example_spaced eq_refl). Qed.

(** The undeclared positions of the formula are filled with its own variables, in order,
    whatever the order in which the set of variables is enumerated, and the front-end
    reads them as written in the formula. *)
Theorem C26_completion : forall enumerate f aliases vs, enumerates enumerate ->
  undeclared (List.length aliases) f vs ->
  complete_aliases enumerate f aliases = Ok (aliases ++ map Some vs)%list
  /\ forall i v k, nth_error vs i = Some v -> exists a b c,
       v = "Var(" ++ a ++ "," ++ b ++ "," ++ c ++ ")"
       /\ value a = List.length aliases + i
       /\ exists r, get_type v k = Ok r /\ ar_cat r = Z.of_nat (value c)
            /\ ar_dim r = Z.of_nat (value b) /\ ar_pos r = Some (Z.of_nat (value a)).
Proof. exact completion. Qed.
Print Assumptions C26_completion.

Example C26_completion_case :
  enumerates (nodup pair_dec)
  /\ undeclared 1 "SqNorm2(x - Var(1,3,1)) * Var( 2, 1, 1) + Var(1,3,1)"
       ["Var(1,3,1)"; "Var(2,1,1)"].
Proof. exact (conj nodup_enumerates example_undeclared). Qed.

(** The old types are read by the front-end but not by the engine: the engine reuses the
    category of the previous declaration, or fails. *)
Theorem C26_old_types_refuted :
  (exists l, get_types 0 ["x = Vi(3)"; "y = Vy(3)"] = Ok l /\ map ar_cat l = [0; 1]%Z)
  /\ engine_aliases 0 None None ["x = Vi(3)"; "y = Vy(3)"] = Ok ["x=Var(0,3,0)"; "y=Var(1,3,0)"]
  /\ (exists l, get_types 0 ["y = Vy(3)"] = Ok l)
  /\ engine_aliases 0 None None ["y = Vy(3)"] = PyErr.
Proof. exact old_types. Qed.
Print Assumptions C26_old_types_refuted.

(** The documented "name = Var(pos,dim,cat)" is rejected by the front-end. *)
Theorem C26_named_variable_refuted : forall k, get_type "x = Var(0,3,0)" k = PyErr.
Proof. exact named_variable. Qed.
Print Assumptions C26_named_variable_refuted.

(** A formula whose variables leave a position unused cannot be completed. *)
Theorem C26_gap_refuted :
  complete_aliases (nodup pair_dec) "Exp(x - Var(2,3,1))" [Some "x = Vi(3)"] = PyErr.
Proof. exact gap. Qed.
Print Assumptions C26_gap_refuted.

(** The numpy front-end completes the list of the caller in place: given again with a
    formula that uses the position differently, the list keeps the first variable. *)
Theorem C26_shared_list_refuted :
  let c := complete_aliases (nodup pair_dec) in
  exists l, c "x - Var(1,3,1)" [Some "x = Vi(3)"] = Ok l
    /\ c "x * Var(1,1,2)" l = Ok [Some "x = Vi(3)"; Some "Var(1,3,1)"]
    /\ c "x * Var(1,1,2)" [Some "x = Vi(3)"] = Ok [Some "x = Vi(3)"; Some "Var(1,1,2)"].
Proof. exact shared_list. Qed.
Print Assumptions C26_shared_list_refuted.
