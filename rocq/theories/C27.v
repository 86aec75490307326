(** C27: identities of tensors become positions of arguments. *)

From Coq Require Import ZArith List Bool Ascii String.
From Verif Require Import Result Keys Broadcast LazyTensors LazySpec C27Proofs.
Import ListNotations.
Open Scope string_scope.

(** The numbering is a simultaneous renaming [s] of the tensors that appear: the arguments [sel]
    are these tensors, each one once; the tensor at place [k] of the arguments becomes the variable
    of position [k] after the symbolic ones; and the value of the renamed formula on the
    arguments (those given for the symbolic variables first) is the one of the expression.
    Partial: no identity is one of the new positions (identities are addresses), and the
    variables of the expression are among those of the symbolic tensor (see C27_built). *)
Theorem C27_numbering_partial : forall nb sv vs e e2 hd,
  well_formed e -> (forall x, e2 = Some x -> well_formed x) ->
  (forall u, In u (all_tensors e e2) -> In (fst u) (map t_id vs)) ->
  (forall i, In i (all_symbols e e2) -> In i (map (fun s => fst (fst s)) sv)) ->
  (forall h, hd = Some h -> In h (map t_id vs)) ->
  (forall v, In v vs -> ~ (new_variable_index sv <= t_id v
                           < new_variable_index sv + Z.of_nat (List.length vs))%Z) ->
  exists sel s,
    incl sel vs /\ NoDup (map t_id sel)
    /\ (forall i, In i (map t_id sel) <-> In i (map fst (all_tensors e e2)))
    /\ (forall k v, nth_error sel k = Some v -> s (t_id v) = (new_variable_index sv + Z.of_nat k)%Z)
    /\ fixvariables nb true sv vs (text e) (text2 e2) hd
       = Ok (text (rename s e), text2 (option_map (rename s) e2),
             map (with_batch nb (all_tensors e e2)) sel, option_map s hd)
    /\ forall (V A : Type) (m : meaning V) (read : option A -> Z -> Z -> V) (mem : Z -> A)
              (given : list A) sym,
         Z.of_nat (List.length given) = new_variable_index sv ->
         forall x, x = e \/ e2 = Some x ->
         value m (fun p => read (argument (given ++ map (fun v => mem (t_id v)) sel)%list p)) sym
           (rename s x)
         = value m (fun i => read (Some (mem i))) (fun p => read (argument given p)) x.
Proof. exact numbering. Qed.
Print Assumptions C27_numbering_partial.

Example C27_numbering_case : well_formed example_expr
  /\ fixvariables 1 true [(1, 3, 1)%Z] example_vars (text example_expr) "" None
     = Ok ("(SqNorm2((Var(2,3,0) - Var(3,3,1))) * ((Var(2,3,0) | Var(1,3,1)) / Var(4,1,2)))", "",
           [array_at 900 [7; 10; 3]%Z; array_at 950 [1; 20; 3]%Z; array_at 970 [1; 1]%Z], None).
Proof. exact (conj example_well_formed example_fixed). Qed.

(** The operations give symbolic tensors that carry an expression all of whose variables they
    know, provided that an optional argument has no other variables. *)
Theorem C27_built : forall l, built l -> exists e, carries l e.
Proof. exact built_carries. Qed.
Print Assumptions C27_built.

Example C27_built_case : exists x y r,
  lt_array "float32" 900 [7; 10; 1; 3]%Z None = Ok x /\ lt_array "float32" 950 [1; 20; 3]%Z None = Ok y
  /\ binary x y "-" true None DSameOr1 None false = Ok r
  /\ formula r = "(Var(900,3,0) - Var(950,3,1))" /\ batchdims r = Some [7%Z]
  /\ ni r = Some 10%Z /\ nj r = Some 20%Z.
Proof. do 3 eexists. repeat split. Qed.

(** When an identity is equal to a position, two tensors are confused. *)
Theorem C27_clash_refuted :
  fixvariables 0 true [] [array_at 7 [10; 3]%Z; array_at 0 [20; 3]%Z]
    (text (EBin "(" (EVar 7 3 0) " - " (EVar 0 3 1) ")")) "" None
  = Ok ("(Var(1,3,0) - Var(1,3,1))", "", [array_at 7 [10; 3]%Z; array_at 0 [20; 3]%Z], None).
Proof. exact clash. Qed.
Print Assumptions C27_clash_refuted.

(** A gradient with respect to a tensor that the expression does not contain keeps the identity of
    this tensor as a position, and the tensor is not passed. *)
Theorem C27_absent_refuted : exists x y g r,
  lt_array "float32" 900 [10; 3]%Z (Some 0%Z) = Ok x /\ lt_array "float32" 950 [10; 3]%Z (Some 0%Z) = Ok y
  /\ lt_array "float32" 970 [10; 3]%Z (Some 0%Z) = Ok g
  /\ binary x g "Grad" false (Some 3%Z) DSame (Some (ELazy y, true)) false = Ok r
  /\ fixvariables 0 true (symbolic r) (variables r) (formula r) "" None
     = Ok ("Grad(Var(0,3,0), Var(950,3,0), Var(1,3,0))", "",
           [array_at 900 [10; 3]%Z; array_at 970 [10; 3]%Z], None).
Proof. exact absent. Qed.
Print Assumptions C27_absent_refuted.
