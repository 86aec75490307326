(** C61: generic operations on formulas with named arguments. *)

From Coq Require Import ZArith List Bool Ascii String.
From Verif Require Import Result Keys Aliases AliasSpec Formula FormulaSpec Build Methods MethodsSpec PyRead PyReadSpec RedText
  GenericOps GenericOpsSpec GenericRead C61Proofs.
Import ListNotations.
Open Scope string_scope.

(** A formula is written with names (any text that Python reads as the expression [e]), the arguments are declared in the
    documented syntax, and so is the output.  Then the engine makes the reduction of the operation, of the formula in which
    each name is the variable with the position, dimension and category of its declaration, indexed like the output;
    [generic_argkmin] keeps as many values as the dimension of the output.
    Partial: expressions in [stands]; each name is declared once and hides no function that is used (see below); arguments
    have at least one coordinate. *)
Theorem C61_generic_partial : forall ss ds f e t F out o run k one cls phi d,
  Forall2 (fun s d => valid d /\ spaced s (text d)) ss ds -> once ds -> Forall (fun d => 1 <= dimension d)%Z ds ->
  valid o -> spaced out (text o) -> kept o = 0%Z \/ kept o = 1%Z ->
  reads f e -> stands ds e t -> engine_term t -> as_formula t = Some F -> wf F ->
  (forall r, In r ["Sum_Reduction"; "ArgMin_Reduction"; "Max_SumShiftExp_Reduction"; "ArgKMin_Reduction"] -> ~ is_declared ds r) ->
  operation F (dimension o) run k one cls phi d ->
  exists x l, run f out = Ok x /\ engine_aliases 0 None None ss = Ok l
    /\ engine_makes l x k one (kept o) F cls phi d.
Proof. exact generic_meaning. Qed.
Print Assumptions C61_generic_partial.

(** The example of the documentation of [generic_logsumexp], with two of the names in another order. *)
Example C61_generic_case :
  let ds := [Named "x" KVi None 3; Named "b" KVj (Some 3%Z) 1; Named "g" KPm None 1; Named "y" KVj (Some 1%Z) 3] in
  let f := "(-(g * SqNorm2(x - y))) + b" in
  exists e t F h,
    Forall2 (fun s d => valid d /\ spaced s (text d)) ["x = Vi(3)"; "b = Vj(3, 1)"; "g = Pm(1)"; "y = Vj(1,3)"] ds
    /\ once ds /\ Forall (fun d => 1 <= dimension d)%Z ds
    /\ spaced "a = Vi(1)" (text (Named "a" KVi None 1)) /\ kept (Named "a" KVi None 1) = 0%Z
    /\ reads f e /\ stands ds e t /\ engine_term t /\ as_formula t = Some F /\ wf F /\ build (Cat F (Int 1)) = Ok h
    /\ dim F = 1%nat
    /\ F = Bin BAdd (Un UMinus (Bin BMult (Var 2 1 2) (Lin LSum (Un USquare (Bin BSub (Var 0 3 0) (Var 1 3 1)))))) (Var 3 1 1)
    /\ operation F 1 generic_logsumexp None true "Max_SumShiftExpWeight_Reduction" (Cat F (Int 1)) 2.
Proof.
  cbv zeta.
  exists (PBin SPlus (PNeg (PBin SStar (PName "g") (PCall (PName "SqNorm2") [PBin SDash (PName "x") (PName "y")]))) (PName "b")).
  exists (TOp "+" (T1 "Minus" (TOp "*" (TVar 2 1 2) (T1 "SqNorm2" (TOp "-" (TVar 0 3 0) (TVar 1 3 1)) [])) []) (TVar 3 1 1)).
  eexists. eexists. split; [|split; [|split; [|split; [|split; [|split; [|split; [|split; [|split; [|split; [|split; [|split; [|split]]]]]]]]]]]].
  - repeat match goal with |- Forall2 _ _ _ => constructor end; (split; [|repeat constructor]); cbn [valid natural];
      (split; [do 2 eexists; repeat split; reflexivity|split; [try exact I; discriminate|discriminate]]).
  - intros i j d d' n Hi Hj N N'.
    do 4 (destruct i as [|i]; [cbn in Hi; injection Hi as <-; cbn in N; injection N as <-;
      do 4 (destruct j as [|j]; [cbn in Hj; injection Hj as <-; (reflexivity || discriminate N')|]);
      destruct j; discriminate Hj|]). destruct i; discriminate Hi.
  - repeat constructor; discriminate.
  - repeat constructor.
  - reflexivity.
  - eexists. exists 40. split; [reflexivity|]. intros m L.
    do 40 (destruct m; [exfalso; repeat apply le_S_n in L; inversion L|]). reflexivity.
  - apply (st_op _ "+"); [reflexivity..| |].
    + apply st_neg. apply (st_op _ "*"); [reflexivity..| |].
      * apply st_name. exists 2, (Named "g" KPm None 1). repeat split.
      * apply (st_1 _ "SqNorm2" _ _ []).
        -- intros (d & I & N). cbn in I. repeat (destruct I as [<-|I]; [discriminate N|]). exact I.
        -- apply (st_op _ "-"); [reflexivity..| |]; apply st_name.
           ++ exists 0, (Named "x" KVi None 3). repeat split.
           ++ exists 3, (Named "y" KVj (Some 1%Z) 3). repeat split.
    + apply st_name. exists 1, (Named "b" KVj (Some 3%Z) 1). repeat split.
  - cbn. repeat split; try discriminate; intros [H|[H|H]]; discriminate H.
  - reflexivity.
  - cbn. repeat split; auto.
  - lazy. reflexivity.
  - reflexivity.
  - reflexivity.
  - apply op_logsumexp.
Qed.

(** An output that is neither indexed by [i] nor by [j] is refused. *)
Theorem C61_refused : forall op f out o, valid o -> spaced out (text o) -> kept o <> 0%Z -> kept o <> 1%Z ->
  generic op f out = PyErr.
Proof. exact generic_refused. Qed.
Print Assumptions C61_refused.

Example C61_refused_case : generic_sum "x" "a = Pm(3)" = PyErr /\ generic_sum "x" "a = Vj(3)" = Ok "Sum_Reduction(x,1)".
Proof. split; reflexivity. Qed.

(** "it should be compatible with the formula": the dimension of the output is not looked at, except by
    [generic_argkmin].  A sum declared with 1 value has 3. *)
Theorem C61_dimension_refuted :
  (forall op f n k p m m', op <> "ArgKMin" -> is_name n -> natural p -> (0 <= m)%Z -> (0 <= m')%Z ->
     generic op f (text (Named n k p m)) = generic op f (text (Named n k p m')))
  /\ exists x e a o, generic_sum "x" "a = Vi(1)" = Ok x /\ reads x e /\ dictionary ["x=Var(0,3,1)"] a
       /\ engine_aliases 0 None None ["x = Vj(3)"] = Ok ["x=Var(0,3,1)"]
       /\ reduction_in a e = Ok (o, None) /\ ro_dim o = 3%Z.
Proof. exact dimension_refuted. Qed.
Print Assumptions C61_dimension_refuted.

(** A name declared twice is not an error: the last declaration counts. *)
Theorem C61_twice_refuted : exists x l e a o,
  generic_sum "x" "a = Vi(3)" = Ok x /\ engine_aliases 0 None None ["x = Vi(3)"; "x = Vj(3)"] = Ok l
  /\ reads x e /\ dictionary l a /\ reduction_in a e = Ok (o, None) /\ ro_formula o = Var 1 3 1.
Proof. exact twice_refuted. Qed.
Print Assumptions C61_twice_refuted.

(** An argument that has the name of a function hides it: a formula that is right with another name is an error. *)
Theorem C61_hidden_refuted : exists x l e a x' l' e' a' o,
  generic_sum "Exp(Exp)" "a = Vi(3)" = Ok x /\ engine_aliases 0 None None ["Exp = Vj(3)"] = Ok l
  /\ reads x e /\ dictionary l a /\ reduction_in a e = PyErr
  /\ generic_sum "Exp(z)" "a = Vi(3)" = Ok x' /\ engine_aliases 0 None None ["z = Vj(3)"] = Ok l'
  /\ reads x' e' /\ dictionary l' a' /\ reduction_in a' e' = Ok (o, None) /\ ro_formula o = Un UExp (Var 0 3 1).
Proof. exact hidden_refuted. Qed.
Print Assumptions C61_hidden_refuted.

(** No value kept: the number is not written, the engine gets one argument less, and this is an error. *)
Theorem C61_zero_refuted : exists x l e a,
  generic_argkmin "SqDist(x, y)" "a = Vi(0)" = Ok x
  /\ engine_aliases 0 None None ["x = Vi(3)"; "y = Vj(3)"] = Ok l
  /\ reads x e /\ dictionary l a /\ reduction_in a e = PyErr.
Proof. exact zero_refuted. Qed.
Print Assumptions C61_zero_refuted.
