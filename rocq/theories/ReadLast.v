(** A text that is read can be written as the last argument of a call. *)

From Coq Require Import ZArith Lia List Bool Ascii String.
From Verif Require Import Result Keys KeySpec Aliases AliasSpec C22Proofs C26Proofs Formula PyRead PyReadSpec PyReadProofs C55Proofs ReadArgs ReadSaved.
Import ListNotations.
Open Scope string_scope.

(** ** Tokens *)

Lemma lex_rpar : forall n s w ts r, String.length s <= n -> lex w s = Some ts ->
  lex w (s ++ String ")" r) = option_map (app ts) (lex "" (String ")" r)).
Proof.
  induction n as [|n IH]; intros s w ts r L E.
  - destruct s; [|cbn in L; lia]. cbn [lex] in E.
    rewrite (lex_word "" w (String ")" r)) by reflexivity. rewrite app_nil_r_s, E. reflexivity.
  - destruct s as [|c s].
    { cbn [lex] in E.
      rewrite (lex_word "" w (String ")" r)) by reflexivity. rewrite app_nil_r_s, E. reflexivity. }
    cbn [String.length] in L. remember (lex "" (String ")" r)) as Y eqn:HY. cbn [append lex] in E |- *.
    destruct (name_char c) eqn:N; [rewrite HY; apply IH; auto; lia|].
    destruct (word w) as [t|]; [|discriminate].
    destruct (Ascii.eqb_spec c " ") as [->|B].
    + cbn [Ascii.eqb] in *. destruct (lex "" s) as [l|] eqn:X; [|discriminate].
      injection E as <-. rewrite (IH s "" l r) by (auto; lia). rewrite <- HY.
      destruct Y; cbn; [rewrite app_assoc|]; reflexivity.
    + destruct s as [|d s].
      * cbn [append]. assert (S2 : sym2 c ")" = None).
        { unfold sym2. rewrite !andb_false_r. reflexivity. }
        rewrite S2. destruct (sym1 c) as [k|]; [|discriminate]. cbn [lex word ocons] in E. assert (ET : ts = (t ++ [K k])%list) by congruence. subst ts.
        change (lex "" (String ")" r)) with (lex "" (String ")" r)). rewrite <- HY. destruct Y; cbn; [rewrite <- app_assoc|]; reflexivity.
      * cbn [append]. destruct (sym2 c d) as [k|].
        -- destruct (lex "" s) as [l|] eqn:X; [|discriminate]. cbn [ocons] in E. assert (ET : ts = (t ++ K k :: l)%list) by congruence. subst ts.
           rewrite (IH s "" l r) by (cbn [String.length] in L; auto; lia). rewrite <- HY.
           destruct Y; cbn; [rewrite <- app_assoc|]; reflexivity.
        -- destruct (sym1 c) as [k|]; [|discriminate]. destruct (lex "" (String d s)) as [l|] eqn:X; [|discriminate].
           cbn [ocons] in E. assert (ET : ts = (t ++ K k :: l)%list) by congruence. subst ts.
           assert (Q := IH (String d s) "" l r ltac:(cbn [String.length] in *; lia) X).
           change (String d s ++ String ")" r) with (String d (s ++ String ")" r)) in Q. rewrite Q, <- HY.
           destruct Y; cbn; [rewrite <- app_assoc|]; reflexivity.
Qed.

(** ** Expressions *)

Lemma no_empty : forall n lev, parse n lev [] = None.
Proof.
  induction n as [|n IH]; intros lev; [reflexivity|]. cbn [parse].
  assert (A : atom n [] = None) by (destruct n; reflexivity).
  destruct lev as [|[|[|[|[|[|lev]]]]]]; try (rewrite IH; reflexivity). rewrite A. reflexivity.
Qed.

Section Tail.
Variable r : list token.
Notation tl := (K SRPar :: r).

Ltac step :=
  match goal with
  | H : pbind _ _ = Some _ |- _ =>
      let a := fresh "a" in let q := fresh "q" in let X := fresh "X" in
      apply pbind_some in H; destruct H as (a & q & X & H)
  end.

Lemma extend_last : forall n,
  (forall lev ts a q, parse n lev ts = Some (a, q) -> parse n lev (ts ++ tl) = Some (a, q ++ tl)%list) /\
  (forall ts a q, comparisons n ts = Some (a, q) -> comparisons n (ts ++ tl) = Some (a, q ++ tl)%list) /\
  (forall lev b ts a q, chain n lev b ts = Some (a, q) -> chain n lev b (ts ++ tl) = Some (a, q ++ tl)%list) /\
  (forall b ts a q, trailers n b ts = Some (a, q) -> trailers n b (ts ++ tl) = Some (a, q ++ tl)%list) /\
  (forall ts a q, atom n ts = Some (a, q) -> atom n (ts ++ tl) = Some (a, q ++ tl)%list) /\
  (forall cl ts a q, items n cl ts = Some (a, q) -> items n cl (ts ++ tl) = Some (a, q ++ tl)%list) /\
  (forall cl ts a q, more n cl ts = Some (a, q) -> more n cl (ts ++ tl) = Some (a, q ++ tl)%list).
Proof.
  induction n as [|n (IP & IC & IH & IT & IA & II & IM)]; [repeat split; intros; discriminate|].
  repeat split.
  - intros lev ts a q H. cbn [parse] in H |- *.
    destruct lev as [|[|[|[|[|[|lev]]]]]]; repeat step.
    + apply IP in X. rewrite X. cbn [pbind]. apply IC in X0. rewrite X0. cbn [pbind]. congruence.
    + apply IP in X. rewrite X. cbn [pbind]. apply IH, H.
    + apply IP in X. rewrite X. cbn [pbind]. apply IH, H.
    + apply IP in X. rewrite X. cbn [pbind]. apply IH, H.
    + destruct ts as [|[nm|z|s] ts]; try exact (IP _ _ _ _ H).
      destruct s; try exact (IP _ _ _ _ H). cbn [app]. step. apply IP in X. rewrite X. cbn [pbind]. congruence.
    + apply IP in X. rewrite X. cbn [pbind]. destruct q0 as [|[nm|z|s] q0]; cbn [app]; try (injection H as <- <-; reflexivity).
      destruct s; cbn [app]; try (injection H as <- <-; reflexivity). step. apply IP in X0. rewrite X0. cbn [pbind]. congruence.
    + apply IA in X. rewrite X. cbn [pbind]. apply IT, H.
  - intros ts a q H. cbn [comparisons] in H |- *. destruct ts as [|[nm|z|s] ts]; cbn [app].
    + cbn [compares]. injection H as <- <-. reflexivity.
    + injection H as <- <-. reflexivity.
    + injection H as <- <-. reflexivity.
    + destruct (compares s); [|injection H as <- <-; reflexivity].
      repeat step. apply IP in X. rewrite X. cbn [pbind]. apply IC in X0. rewrite X0. cbn [pbind]. congruence.
  - intros lev b ts a q H. cbn [chain] in H |- *. destruct ts as [|[nm|z|s] ts]; cbn [app].
    + replace (at_level lev SRPar) with false by (destruct lev as [|[|[|[|]]]]; reflexivity).
      injection H as <- <-. reflexivity.
    + injection H as <- <-. reflexivity.
    + injection H as <- <-. reflexivity.
    + destruct (at_level lev s); [|injection H as <- <-; reflexivity].
      step. apply IP in X. rewrite X. cbn [pbind]. apply IH, H.
  - intros b ts a q H. cbn [trailers] in H |- *. destruct ts as [|[nm|z|s] ts]; cbn [app].
    + injection H as <- <-. reflexivity.
    + injection H as <- <-. reflexivity.
    + injection H as <- <-. reflexivity.
    + destruct s; try (injection H as <- <-; reflexivity).
      * step. apply II in X. rewrite X. cbn [pbind]. apply IT, H.
      * step. apply IP in X. rewrite X. cbn [pbind]. destruct q0 as [|[nm|z|s] q0]; try discriminate.
        destruct s; try discriminate. cbn [app]. apply IT, H.
  - intros ts a q H. cbn [atom] in H |- *. destruct ts as [|[nm|z|s] ts]; cbn [app]; try discriminate.
    + injection H as <- <-. reflexivity.
    + injection H as <- <-. reflexivity.
    + destruct s; try discriminate.
      * step. apply IP in X. rewrite X. cbn [pbind]. destruct q0 as [|[nm|z|s] q0]; try discriminate.
        destruct s; try discriminate. cbn [app]. injection H as <- <-. reflexivity.
      * step. apply II in X. rewrite X. cbn [pbind]. injection H as <- <-. reflexivity.
  - intros cl ts a q H. cbn [items] in H |- *. destruct ts as [|t ts].
    + rewrite no_empty in H. discriminate.
    + assert (P : pbind (parse n 0 (t :: ts)) (fun a r => pbind (more n cl r) (fun l r => Some (a :: l, r))) = Some (a, q) ->
                  pbind (parse n 0 ((t :: ts) ++ tl)) (fun a r => pbind (more n cl r) (fun l r => Some (a :: l, r))) = Some (a, q ++ tl)%list).
      { intros Q. repeat step. apply IP in X. rewrite X. cbn [pbind]. apply IM in X0. rewrite X0. cbn [pbind]. congruence. }
      destruct t as [nm|z|s]; try exact (P H). cbn [app]. destruct (sym_eqb s cl); [injection H as <- <-; reflexivity|exact (P H)].
  - intros cl ts a q H. cbn [more] in H |- *. destruct ts as [|[nm|z|s] ts]; try discriminate. cbn [app].
    destruct (sym_eqb s cl); [injection H as <- <-; reflexivity|]. destruct (sym_eqb s SComma); [|discriminate].
    repeat step. apply IP in X. rewrite X. cbn [pbind]. apply IM in X0. rewrite X0. cbn [pbind]. congruence.
Qed.
End Tail.


(** ** Calls with two formulas *)

Lemma lexed_last : forall x ts, lex "" x = Some ts -> lexed (x ++ ")") (ts ++ [K SRPar])%list.
Proof.
  intros x ts L s. rewrite app_assoc_s. change (")" ++ s) with (String ")" s).
  rewrite (lex_rpar (String.length x) x "" ts) by auto.
  change (String ")" s) with (")" ++ s). rewrite lexed_rpar.
  destruct (lex "" s); cbn; [rewrite <- app_assoc|]; reflexivity.
Qed.
Lemma ev_last : forall ts e r, (exists n, forall m, n <= m -> parse m 0 ts = Some (e, [])) ->
  Ev (fun n => parse n 0 (ts ++ K SRPar :: r)%list) e (K SRPar :: r).
Proof. intros ts e r [n H]. exists n. intros m Hm. specialize (H m Hm). apply (extend_last r) in H. exact H. Qed.

Lemma two_read : forall name F ef c G eg, identifier name -> reads F ef -> reads G eg ->
  reads (name ++ "(" ++ F ++ "," ++ str_int c ++ "," ++ G ++ ")") (PCall (PName name) [ef; literal c; eg]).
Proof.
  intros name F ef c G eg I (ts & n & L & P) (us & k & L' & P').
  assert (L2 : lexed (str_int c ++ "," ++ G ++ ")") (int_tokens c ++ K SComma :: us ++ [K SRPar])%list).
  { apply lexed_word_app; [apply lexed_int| |discriminate|reflexivity].
    exact (lexed_app "," _ [K SComma] _ lexed_comma (lexed_last G us L')). }
  eapply reads_ev; [apply lexed_all, lexed_call; [exact I|exact (lexed_arg F ts _ _ L L2)]|].
  apply (ev_from 6); [lia| |exact Logic.I|intros _; exact Logic.I]. apply call_tree; [exact Logic.I|].
  destruct (ev_arg ts ef (int_tokens c ++ K SComma :: us ++ [K SRPar])%list) as [E NC]; [exists n; exact P|].
  eapply ev_items; [now left|exact NC|exact E|].
  eapply ev_more; [now left|apply ev_int0; exact Logic.I|].
  eapply ev_more; [now left|apply ev_last; exists k; exact P'|apply ev_more_nil].
Qed.
Lemma concat_read : forall G eg, reads G eg ->
  reads ("Concat(IntCst(1)," ++ G ++ ")") (PCall (PName "Concat") [PCall (PName "IntCst") [PNum 1]; eg]).
Proof.
  intros G eg (us & k & L' & P').
  assert (RI : reads "IntCst(1)" (PCall (PName "IntCst") [PNum 1])).
  { eexists _, 20. split; [reflexivity|]. intros m Hm. do 20 (destruct m as [|m]; [lia|]). reflexivity. }
  destruct RI as (ts & n & L & P).
  assert (I : identifier "Concat") by (split; [reflexivity|]; intros x; cbn [has]; intros Y;
      repeat (apply orb_true_iff in Y; destruct Y as [Y|Y]; [apply Ascii.eqb_eq in Y; subst x; reflexivity|]); discriminate Y).
  change ("Concat(IntCst(1)," ++ G ++ ")") with ("Concat" ++ "(" ++ "IntCst(1)" ++ "," ++ G ++ ")").
  eapply reads_ev; [apply lexed_all, lexed_call; [exact I|exact (lexed_arg _ ts _ _ L (lexed_last G us L'))]|].
  apply (ev_from 6); [lia| |exact Logic.I|intros _; exact Logic.I]. apply call_tree; [exact Logic.I|].
  destruct (ev_arg ts (PCall (PName "IntCst") [PNum 1]) (us ++ [K SRPar])%list) as [E NC]; [exists n; exact P|].
  eapply ev_items; [now left|exact NC|exact E|].
  eapply ev_more; [now left|apply ev_last; exists k; exact P'|apply ev_more_nil].
Qed.
