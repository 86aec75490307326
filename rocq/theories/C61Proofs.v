(** Generic operations. *)

From Coq Require Import ZArith Lia List Bool Ascii String.
From Verif Require Import Result Keys KeySpec Folder C25Proofs Aliases AliasSpec C22Proofs C26Proofs Formula FormulaSpec Simplify
  Build LazyTensors Methods MethodsSpec PyRead PyReadSpec PyReadProofs C55Proofs C55More RedText C57Proofs ReadArgs C01Proofs Layout
  ReadSaved GenericOps GenericOpsSpec GenericRead.
Import ListNotations.
Open Scope string_scope.

(** ** The output *)

Lemma infer_none : forall p, natural p -> exists q, infer_position (pos_text p) None = Ok q.
Proof.
  intros [z|] H; [|eexists; reflexivity]. cbn [pos_text natural] in *. unfold infer_position.
  destruct (str_int_digits z H) as [_ N]. destruct (str_int z) eqn:E; [congruence|].
  rewrite <- E, py_int_str by exact H. eexists. reflexivity.
Qed.

Lemma output_type : forall d s, valid d -> spaced s (text d) ->
  exists a, get_type s None = Ok a /\ ar_cat a = kept d /\ ar_dim a = dimension d.
Proof.
  intros d s V S.
  destruct d as [n kd p dim|kd p dim|p dim c].
  - destruct V as [Vn [Vp Vd]]. assert (N := text_space (Named n kd p dim) (conj Vn (conj Vp Vd))).
    apply scanned in S; [|exact N]. clear N. cbn [text] in S.
    apply sim_app in S. destruct S as [n' [t' [E [S1 S2]]]].
    apply sim_same in S2; [|apply tail_has; (reflexivity || discriminate)..].
    subst t'. apply sim_name in S1; [|exact Vn]. unfold get_type. rewrite E.
    rewrite <- (app_nil_r_s ")"). rewrite match_named_text by assumption.
    destruct (infer_none p Vp) as [q ->]. cbn [rbind]. rewrite py_int_str by assumption.
    eexists. split; [reflexivity|]. split; reflexivity.
  - destruct V as [Vp Vd]. assert (N := text_space (Unnamed kd p dim) (conj Vp Vd)).
    apply scanned in S; [|exact N]. clear N. cbn [text] in S.
    apply sim_same in S; [|apply tail_has; (reflexivity || discriminate)..].
    unfold get_type. rewrite S. rewrite match_named_kind. unfold match_unnamed.
    rewrite kind_of_text. rewrite <- (app_nil_r_s ")"). rewrite two_groups_text by assumption.
    destruct (infer_none p Vp) as [q ->]. cbn [rbind]. rewrite py_int_str by assumption.
    eexists. split; [reflexivity|]. split; reflexivity.
  - destruct V as [Vp [Vd Vc]]. cbn [text] in S. eexists. split.
    { apply (get_type_var _ _ _ s None (digits_of_str p Vp) (digits_of_str dim Vd) (digits_of_str c Vc) S). }
    cbn [ar_cat ar_dim kept dimension]. rewrite !value_str by assumption. auto.
Qed.

(** ** The text of the reduction *)

Lemma args_read : forall name f e z zs, identifier name -> reads f e ->
  reads (name ++ "(" ++ f ++ "," ++ str_int z ++ String.concat "" (map (fun p => "," ++ str_int p) zs) ++ ")")
    (PCall (PName name) (e :: map literal (z :: zs))).
Proof.
  intros name f e z zs I (ts & n & L & P).
  destruct (lexed_params "," zs ")" [K SRPar]) as [[N C] LP]; auto; [exact ends_rpar|exact lexed_rpar|].
  assert (L1 : lexed (str_int z ++ String.concat "" (map (fun p => "," ++ str_int p) zs) ++ ")")
                 (int_tokens z ++ ptokens zs ++ [K SRPar])%list)
    by (apply lexed_word_app; auto; apply lexed_int).
  eapply reads_ev; [apply lexed_all, lexed_call; [exact I|exact (lexed_arg f ts _ _ L L1)]|].
  apply (ev_from 6); [lia| |exact Logic.I|intros _; exact Logic.I]. apply call_tree; [exact Logic.I|].
  destruct (ev_arg ts e (int_tokens z ++ ptokens zs ++ [K SRPar])%list) as [E NC]; [exists n; exact P|].
  eapply ev_items; [now left|exact NC|exact E|].
  destruct (ev_params SRPar zs [] (or_introl eq_refl)) as [Q R].
  cbn [map]. eapply ev_more; [now left|apply ev_int0; exact R|exact Q].
Qed.

(** ** What is made of it *)

Section Made.
  Variable ds : list declaration.
  Hypothesis O : once ds.
  Hypothesis V : Forall valid ds.
  Hypothesis D : Forall (fun d => 1 <= dimension d)%Z ds.
  Variable (e : py) (t : term) (F : fm).
  Hypothesis S : stands ds e t.
  Hypothesis ET : engine_term t.
  Hypothesis AF : as_formula t = Some F.
  Hypothesis W : wf F.

  Lemma value_agrees : agrees (evaluate (found (table 0 ds)) e) (build F).
  Proof.
    destruct (stands_value ds O V D e t S) as [-> _]. now apply eval_tree.
  Qed.

  Lemma not_hidden : forall name zs, ~ is_declared ds name ->
    reduction_in (table 0 ds) (PCall (PName name) (e :: map literal zs))
    = get_reduction (found (table 0 ds)) None (PCall (PName name) (e :: map literal zs)).
  Proof.
    clear O V D ET AF W. intros name zs N. unfold reduction_in.
    destruct (existsb _ (called _)) eqn:X; auto. apply existsb_exists in X. destruct X as (s & I & X).
    cbn [called] in I. cbn [flat_map] in I. rewrite literals_called, app_nil_r in I. cbn [app] in I.
    rewrite found_undeclared in X; [discriminate|].
    destruct I as [<-|I]; [exact N|]. now apply (stands_called ds e t S).
  Qed.

End Made.

Section Reductions.
  Variable ds : list declaration.
  Hypothesis O : once ds.
  Hypothesis V : Forall valid ds.
  Hypothesis D : Forall (fun d => 1 <= dimension d)%Z ds.
  Variable (f : string) (e : py) (t : term) (F : fm).
  Hypothesis R : reads f e.
  Hypothesis S : stands ds e t.
  Hypothesis ET : engine_term t.
  Hypothesis AF : as_formula t = Some F.
  Hypothesis W : wf F.

  Lemma made_simple : forall name c d dr, ~ is_declared ds name -> identifier name -> is_lse name = false ->
    (forall g, zdim g = Z.of_nat (dim F) -> make2 name g c = Ok (simple name g c d dr)) ->
    engine_makes (meanings 0 ds) (name ++ "(" ++ f ++ "," ++ str_int c ++ ")") None false c F name F d.
  Proof.
    intros name c d dr N I L MK. exists (PCall (PName name) (e :: map literal [c])), (table 0 ds).
    split. { exact (args_read name f e c [] I R). }
    split; [now apply table_ok|]. rewrite (not_hidden ds e t S name [c] N).
    cbn [get_reduction]. rewrite eval_all, ev_list_cons, ev_literals.
    destruct (agrees_inv _ _ (value_agrees ds O V D e t F S ET AF W)) as [(x & E & B)|[B NV]].
    - rewrite E. cbn [rbind map construct]. rewrite L.
      assert (DX : zdim x = Z.of_nat (dim F)). { unfold zdim. f_equal. apply (build_value F x W B). }
      rewrite (MK x DX). cbn [rbind]. split.
      + intros o k' H. injection H as <- <-. cbn. assert (Q := build_value F x W B). repeat (split; [auto; fail|]). discriminate.
      + intros h H _. eexists. split; [reflexivity|]. cbn. congruence.
    - split.
      + intros o k' H. destruct (evaluate (found (table 0 ds)) e) as [v| | |]; [destruct (NV v eq_refl)|discriminate..].
      + intros h H. now rewrite H in B.
  Qed.

  Lemma made_k : forall name k c d dr, ~ is_declared ds name -> identifier name ->
    (forall g, zdim g = Z.of_nat (dim F) -> make3 name g k c = Ok (simple name g c d dr, k)) ->
    engine_makes (meanings 0 ds) (name ++ "(" ++ f ++ "," ++ str_int k ++ "," ++ str_int c ++ ")") (Some k) false c F name F d.
  Proof.
    intros name k c d dr N I MK. exists (PCall (PName name) (e :: map literal [k; c])), (table 0 ds).
    split. { exact (args_read name f e k [c] I R). }
    split; [now apply table_ok|]. rewrite (not_hidden ds e t S name [k; c] N).
    cbn [get_reduction]. rewrite eval_all, ev_list_cons, ev_literals.
    destruct (agrees_inv _ _ (value_agrees ds O V D e t F S ET AF W)) as [(x & E & B)|[B NV]].
    - rewrite E. cbn [rbind map construct].
      assert (DX : zdim x = Z.of_nat (dim F)). { unfold zdim. f_equal. apply (build_value F x W B). }
      rewrite (MK x DX). cbn [rbind fst snd]. split.
      + intros o k' H. injection H as <- <-. cbn. assert (Q := build_value F x W B). repeat (split; [auto; fail|]). discriminate.
      + intros h H _. eexists. split; [reflexivity|]. cbn. congruence.
    - split.
      + intros o k' H. destruct (evaluate (found (table 0 ds)) e) as [v| | |]; [destruct (NV v eq_refl)|discriminate..].
      + intros h H. now rewrite H in B.
  Qed.

  Lemma made_lse : forall c, ~ is_declared ds "Max_SumShiftExp_Reduction" ->
    engine_makes (meanings 0 ds) ("Max_SumShiftExp_Reduction" ++ "(" ++ f ++ "," ++ str_int c ++ ")") None true c F
      "Max_SumShiftExpWeight_Reduction" (Cat F (Int 1)) 2.
  Proof.
    intros c N. exists (PCall (PName "Max_SumShiftExp_Reduction") (e :: map literal [c])), (table 0 ds).
    split. { apply (args_read "Max_SumShiftExp_Reduction" f e c []); [ident|exact R]. }
    split; [now apply table_ok|]. rewrite (not_hidden ds e t S _ [c] N).
    cbn [get_reduction]. rewrite eval_all, ev_list_cons, ev_literals.
    destruct (agrees_inv _ _ (value_agrees ds O V D e t F S ET AF W)) as [(x & E & B)|[B NV]].
    - rewrite E. cbn [rbind map construct]. change (is_lse "Max_SumShiftExp_Reduction") with true. cbn iota.
      assert (DX := proj1 (proj2 (build_value F x W B))).
      unfold make_lse. change (existsb _ _) with true. cbn iota. cbn [build]. rewrite B. cbn [rbind].
      change (IntCst 1) with (Int 1). split.
      + intros o k' H. destruct (Nat.eqb_spec (dim x) 1) as [O1|]; [cbn [negb] in H|discriminate].
        destruct (mk (Cat x (Int 1))) as [h| | |] eqn:K; try discriminate. cbn [rbind] in H. injection H as <- <-.
        cbn [simple ro_id ro_formula ro_tag ro_dim]. repeat (split; [reflexivity|]). split.
        { apply build_value; [cbn [wf]; auto|]. cbn [build]. rewrite B. exact K. }
        repeat split; auto; [unfold zdim; cbn [dim]; lia|intros _; congruence].
      + intros h H O1. rewrite DX, (O1 eq_refl). cbn [Nat.eqb negb]. rewrite H. cbn [rbind].
        eexists. split; reflexivity.
    - split.
      + intros o k' H. destruct (evaluate (found (table 0 ds)) e) as [v| | |]; [destruct (NV v eq_refl)|discriminate..].
      + intros h H. cbn [build] in H. apply rbind_ok in H. destruct H as (x & H & _). now rewrite H in B.
  Qed.
End Reductions.

Lemma generic_meaning : forall ss ds f e t F out o run k one cls phi d,
  Forall2 (fun s d => valid d /\ spaced s (text d)) ss ds -> once ds -> Forall (fun d => 1 <= dimension d)%Z ds ->
  valid o -> spaced out (text o) -> kept o = 0%Z \/ kept o = 1%Z ->
  reads f e -> stands ds e t -> engine_term t -> as_formula t = Some F -> wf F ->
  (forall r, In r ["Sum_Reduction"; "ArgMin_Reduction"; "Max_SumShiftExp_Reduction"; "ArgKMin_Reduction"] -> ~ is_declared ds r) ->
  operation F (dimension o) run k one cls phi d ->
  exists x l, run f out = Ok x /\ engine_aliases 0 None None ss = Ok l
    /\ engine_makes l x k one (kept o) F cls phi d.
Proof.
  intros ss ds f e t F out o run k one cls phi d H2 O D VO SO KO R S ET AF W NR OP.
  assert (V : Forall valid ds). { clear -H2. induction H2 as [|s d ss ds [A B] _ IH]; constructor; auto. }
  destruct (output_type o out VO SO) as (a & G & C & M). 
  assert (GE : forall op, generic op f out = do axis <- cat2axis (kept o) ;
    red_text op f (if String.eqb op "ArgKMin" then Some (dimension o) else None) axis "").
  { intros op. unfold generic. rewrite G. cbn [rbind]. now rewrite C, M. }
  assert (AX : cat2axis (kept o) = Ok (1 - kept o)%Z) by (destruct KO as [-> | ->]; reflexivity). rewrite AX in GE. cbn [rbind] in GE.
  assert (AC : axis2cat (1 - kept o) = Ok (kept o)) by (destruct KO as [-> | ->]; reflexivity).
  assert (RT : forall op' f', red_text op' f' None (1 - kept o) "" =
     do p <- preprocess op' false ; let '(i, sec) := p in
     Ok (i ++ "_Reduction(" ++ f' ++ "" ++ "," ++ str_int (kept o) ++
       match sec with NoSecond => "" | Given => "," ++ "" | WithOne => "," ++ "Concat(IntCst(1)," ++ "" ++ ")" end ++ ")")).
  { intros op' f'. unfold red_text. cbn [String.eqb negb]. destruct (preprocess op' false) as [[i sec]| | |]; cbn [rbind]; auto.
    rewrite AC. reflexivity. }
  destruct OP.
  - exists ("Sum_Reduction" ++ "(" ++ f ++ "," ++ str_int (kept o) ++ ")"), (meanings 0 ds).
    split. { unfold generic_sum. rewrite GE. cbn [String.eqb Ascii.eqb Bool.eqb]. rewrite RT. reflexivity. }
    split; [now apply engine_text|].
    eapply (made_simple ds O V D f e t F R S ET AF W "Sum_Reduction"); [apply NR; cbn; auto|ident|reflexivity|].
    intros g DG. unfold make2. rewrite DG. reflexivity.
  - exists ("ArgMin_Reduction" ++ "(" ++ f ++ "," ++ str_int (kept o) ++ ")"), (meanings 0 ds).
    split. { unfold generic_argmin. rewrite GE. cbn [String.eqb Ascii.eqb Bool.eqb]. rewrite RT. reflexivity. }
    split; [now apply engine_text|].
    eapply (made_simple ds O V D f e t F R S ET AF W "ArgMin_Reduction"); [apply NR; cbn; auto|ident|reflexivity|].
    intros g DG. unfold make2. rewrite DG. reflexivity.
  - exists ("Max_SumShiftExp_Reduction" ++ "(" ++ f ++ "," ++ str_int (kept o) ++ ")"), (meanings 0 ds).
    split. { unfold generic_logsumexp. rewrite GE. cbn [String.eqb Ascii.eqb Bool.eqb]. rewrite RT. reflexivity. }
    split; [now apply engine_text|].
    apply (made_lse ds O V D f e t F R S ET AF W). apply NR; cbn; auto.
  - exists ("ArgKMin_Reduction" ++ "(" ++ f ++ "," ++ str_int (dimension o) ++ "," ++ str_int (kept o) ++ ")"), (meanings 0 ds).
    split.
    { unfold generic_argkmin. rewrite GE. cbn [String.eqb Ascii.eqb Bool.eqb]. unfold red_text. rewrite AC. destruct (Z.eqb_spec (dimension o) 0) as [|]; [contradiction|].
      cbn. now rewrite ?app_assoc_s. }
    split; [now apply engine_text|].
    eapply (made_k ds O V D f e t F R S ET AF W "ArgKMin_Reduction"); [apply NR; cbn; auto|ident|].
    intros g DG. unfold make3. rewrite DG. reflexivity.
Qed.

(** An output that is a parameter is refused. *)
Lemma generic_refused : forall op f out o, valid o -> spaced out (text o) -> kept o <> 0%Z -> kept o <> 1%Z ->
  generic op f out = PyErr.
Proof.
  intros op f out o VO SO N0 N1. destruct (output_type o out VO SO) as (a & G & C & M). unfold generic. rewrite G.
  cbn [rbind]. rewrite C. unfold cat2axis.
  destruct (Z.eqb_spec (kept o) 0); [contradiction|]. destruct (Z.eqb_spec (kept o) 1); [contradiction|]. reflexivity.
Qed.

(** The declared dimension of the output of a sum is not looked at. *)
Lemma dimension_ignored : forall op f n k p m m', op <> "ArgKMin" -> is_name n -> natural p -> (0 <= m)%Z -> (0 <= m')%Z ->
  generic op f (text (Named n k p m)) = generic op f (text (Named n k p m')).
Proof.
  assert (SP : forall s, has " " s = false -> spaced s s).
  { induction s as [|c s IH]; intros H; [constructor|]. cbn [has] in H. apply orb_false_iff in H. destruct H as [_ H].
    constructor. auto. }
  intros op f n k p m m' NO N P M M'.
  assert (V : valid (Named n k p m)) by (cbn; auto). assert (V' : valid (Named n k p m')) by (cbn; auto).
  destruct (output_type _ _ V (SP _ (text_space _ V))) as (a & G & C & _).
  destruct (output_type _ _ V' (SP _ (text_space _ V'))) as (a' & G' & C' & _).
  unfold generic. rewrite G, G'. cbn [rbind]. rewrite C, C'. cbn [kept].
  destruct (String.eqb_spec op "ArgKMin"); [contradiction|]. reflexivity.
Qed.

(** ** Cases *)

Ltac reading := eexists; exists 40; split; [reflexivity|]; let m := fresh in let L := fresh in intros m L;
  do 40 (destruct m; [exfalso; repeat apply le_S_n in L; inversion L|]); reflexivity.
Ltac entry e := eapply (dict_add _ _ _ _ _ e); [reflexivity|reflexivity|reading|lazy; reflexivity|].
Definition vt (p d c : Z) : py := PCall (PName "Var") [PNum p; PNum d; PNum c].

Lemma dimension_refuted :
  (forall op f n k p m m', op <> "ArgKMin" -> is_name n -> natural p -> (0 <= m)%Z -> (0 <= m')%Z ->
     generic op f (text (Named n k p m)) = generic op f (text (Named n k p m')))
  /\ exists x e a o, generic_sum "x" "a = Vi(1)" = Ok x /\ reads x e /\ dictionary ["x=Var(0,3,1)"] a
       /\ engine_aliases 0 None None ["x = Vj(3)"] = Ok ["x=Var(0,3,1)"]
       /\ reduction_in a e = Ok (o, None) /\ ro_dim o = 3%Z.
Proof.
  split; [exact dimension_ignored|].
  exists "Sum_Reduction(x,0)", (PCall (PName "Sum_Reduction") [PName "x"; PNum 0]), [("x", VF (Var 0 3 1))].
  eexists. split; [reflexivity|]. split; [reading|]. split; [entry (vt 0 3 1); constructor|].
  split; [reflexivity|]. split; [lazy; reflexivity|reflexivity].
Qed.

Lemma twice_refuted : exists x l e a o,
  generic_sum "x" "a = Vi(3)" = Ok x /\ engine_aliases 0 None None ["x = Vi(3)"; "x = Vj(3)"] = Ok l
  /\ reads x e /\ dictionary l a /\ reduction_in a e = Ok (o, None) /\ ro_formula o = Var 1 3 1.
Proof.
  exists "Sum_Reduction(x,0)", ["x=Var(0,3,0)"; "x=Var(1,3,1)"], (PCall (PName "Sum_Reduction") [PName "x"; PNum 0]),
    [("x", VF (Var 0 3 0)); ("x", VF (Var 1 3 1))].
  eexists. split; [reflexivity|]. split; [reflexivity|]. split; [reading|].
  split; [entry (vt 0 3 0); entry (vt 1 3 1); constructor|]. split; [lazy; reflexivity|reflexivity].
Qed.

Lemma hidden_refuted : exists x l e a x' l' e' a' o,
  generic_sum "Exp(Exp)" "a = Vi(3)" = Ok x /\ engine_aliases 0 None None ["Exp = Vj(3)"] = Ok l
  /\ reads x e /\ dictionary l a /\ reduction_in a e = PyErr
  /\ generic_sum "Exp(z)" "a = Vi(3)" = Ok x' /\ engine_aliases 0 None None ["z = Vj(3)"] = Ok l'
  /\ reads x' e' /\ dictionary l' a' /\ reduction_in a' e' = Ok (o, None) /\ ro_formula o = Un UExp (Var 0 3 1).
Proof.
  exists "Sum_Reduction(Exp(Exp),0)", ["Exp=Var(0,3,1)"],
    (PCall (PName "Sum_Reduction") [PCall (PName "Exp") [PName "Exp"]; PNum 0]), [("Exp", VF (Var 0 3 1))],
    "Sum_Reduction(Exp(z),0)", ["z=Var(0,3,1)"],
    (PCall (PName "Sum_Reduction") [PCall (PName "Exp") [PName "z"]; PNum 0]), [("z", VF (Var 0 3 1))].
  eexists. split; [reflexivity|]. split; [reflexivity|]. split; [reading|].
  split; [entry (vt 0 3 1); constructor|]. split; [lazy; reflexivity|].
  split; [reflexivity|]. split; [reflexivity|]. split; [reading|].
  split; [entry (vt 0 3 1); constructor|]. split; [lazy; reflexivity|reflexivity].
Qed.

Lemma zero_refuted : exists x l e a,
  generic_argkmin "SqDist(x, y)" "a = Vi(0)" = Ok x
  /\ engine_aliases 0 None None ["x = Vi(3)"; "y = Vj(3)"] = Ok l
  /\ reads x e /\ dictionary l a /\ reduction_in a e = PyErr.
Proof.
  exists "ArgKMin_Reduction(SqDist(x, y),0)", ["x=Var(0,3,0)"; "y=Var(1,3,1)"],
    (PCall (PName "ArgKMin_Reduction") [PCall (PName "SqDist") [PName "x"; PName "y"]; PNum 0]),
    [("x", VF (Var 0 3 0)); ("y", VF (Var 1 3 1))].
  split; [reflexivity|]. split; [reflexivity|]. split; [reading|].
  split; [entry (vt 0 3 0); entry (vt 1 3 1); constructor|]. lazy. reflexivity.
Qed.
