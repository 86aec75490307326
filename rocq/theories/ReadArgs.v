(** A text that is read can be written as an argument of a call. *)

From Coq Require Import ZArith Lia List Bool Ascii String.
From Verif Require Import Result Keys KeySpec Aliases AliasSpec C22Proofs C26Proofs Formula PyRead PyReadProofs.
Import ListNotations.
Open Scope string_scope.

(** ** Tokens *)

Lemma lex_comma : forall n s w ts r, String.length s <= n -> lex w s = Some ts ->
  lex w (s ++ String "," r) = option_map (app ts) (lex "" (String "," r)).
Proof.
  induction n as [|n IH]; intros s w ts r L E.
  - destruct s; [|cbn in L; lia]. cbn [lex] in E.
    rewrite (lex_word "" w (String "," r)) by reflexivity. rewrite app_nil_r_s, E. reflexivity.
  - destruct s as [|c s].
    { cbn [lex] in E.
      rewrite (lex_word "" w (String "," r)) by reflexivity. rewrite app_nil_r_s, E. reflexivity. }
    cbn [String.length] in L. remember (lex "" (String "," r)) as Y eqn:HY. cbn [append lex] in E |- *.
    destruct (name_char c) eqn:N; [rewrite HY; apply IH; auto; lia|].
    destruct (word w) as [t|]; [|discriminate].
    destruct (Ascii.eqb_spec c " ") as [->|B].
    + cbn [Ascii.eqb] in *. destruct (lex "" s) as [l|] eqn:X; [|discriminate].
      injection E as <-. rewrite (IH s "" l r) by (auto; lia). rewrite <- HY.
      destruct Y; cbn; [rewrite app_assoc|]; reflexivity.
    + destruct s as [|d s].
      * cbn [append]. assert (S2 : sym2 c "," = None).
        { unfold sym2. rewrite !andb_false_r. reflexivity. }
        rewrite S2. destruct (sym1 c) as [k|]; [|discriminate]. cbn [lex word ocons] in E. assert (ET : ts = (t ++ [K k])%list) by congruence. subst ts.
        change (lex "" (String "," r)) with (lex "" (String "," r)). rewrite <- HY. destruct Y; cbn; [rewrite <- app_assoc|]; reflexivity.
      * cbn [append]. destruct (sym2 c d) as [k|].
        -- destruct (lex "" s) as [l|] eqn:X; [|discriminate]. cbn [ocons] in E. assert (ET : ts = (t ++ K k :: l)%list) by congruence. subst ts.
           rewrite (IH s "" l r) by (cbn [String.length] in L; auto; lia). rewrite <- HY.
           destruct Y; cbn; [rewrite <- app_assoc|]; reflexivity.
        -- destruct (sym1 c) as [k|]; [|discriminate]. destruct (lex "" (String d s)) as [l|] eqn:X; [|discriminate].
           cbn [ocons] in E. assert (ET : ts = (t ++ K k :: l)%list) by congruence. subst ts.
           assert (Q := IH (String d s) "" l r ltac:(cbn [String.length] in *; lia) X).
           change (String d s ++ String "," r) with (String d (s ++ String "," r)) in Q. rewrite Q, <- HY.
           destruct Y; cbn; [rewrite <- app_assoc|]; reflexivity.
Qed.

(** ** Expressions *)

Section Tail.
Variable r : list token.
Notation tl := (K SComma :: r).

Lemma pbind_some : forall A B (o : parsed A) (k : A -> list token -> parsed B) x,
  pbind o k = Some x -> exists a q, o = Some (a, q) /\ k a q = Some x.
Proof. intros A B [[a q]|] k x H; [exists a, q; auto|discriminate]. Qed.

Ltac step :=
  match goal with
  | H : pbind _ _ = Some _ |- _ =>
      let a := fresh "a" in let q := fresh "q" in let X := fresh "X" in
      apply pbind_some in H; destruct H as (a & q & X & H)
  end.

Lemma extend : forall n,
  (forall lev ts a q, parse n lev ts = Some (a, q) -> parse n lev (ts ++ tl) = Some (a, q ++ tl)%list) /\
  (forall ts a q, comparisons n ts = Some (a, q) -> comparisons n (ts ++ tl) = Some (a, q ++ tl)%list) /\
  (forall lev b ts a q, chain n lev b ts = Some (a, q) -> chain n lev b (ts ++ tl) = Some (a, q ++ tl)%list) /\
  (forall b ts a q, trailers n b ts = Some (a, q) -> trailers n b (ts ++ tl) = Some (a, q ++ tl)%list) /\
  (forall ts a q, atom n ts = Some (a, q) -> atom n (ts ++ tl) = Some (a, q ++ tl)%list) /\
  (forall cl ts a q, cl <> SComma -> items n cl ts = Some (a, q) -> items n cl (ts ++ tl) = Some (a, q ++ tl)%list) /\
  (forall cl ts a q, cl <> SComma -> more n cl ts = Some (a, q) -> more n cl (ts ++ tl) = Some (a, q ++ tl)%list).
Proof.
  induction n as [|n (IP & IC & IH & IT & IA & II & IM)]; [repeat split; intros; discriminate|].
  assert (CC : forall cl, cl <> SComma -> sym_eqb SComma cl = false).
  { intros cl H. unfold sym_eqb. destruct (sym_eq_dec SComma cl); congruence. }
  repeat split.
  - intros lev ts a q H. cbn [parse] in H |- *.
    destruct lev as [|[|[|[|[|[|lev]]]]]]; repeat step.
    + apply IP in X. rewrite X. cbn [pbind]. apply IC in X0. rewrite X0. cbn [pbind]. congruence.
    + apply IP in X. rewrite X. cbn [pbind]. apply IH, H.
    + apply IP in X. rewrite X. cbn [pbind]. apply IH, H.
    + apply IP in X. rewrite X. cbn [pbind]. apply IH, H.
    + destruct ts as [|[nm|z|s] ts]; try exact (IP _ _ _ _ H).
      destruct s; try exact (IP _ _ _ _ H). cbn [app]. step. apply IP in X. rewrite X. cbn [pbind]. congruence.
    + apply IP in X. rewrite X. cbn [pbind]. destruct q0 as [|[nm|z|s] q0]; cbn [app]; try (injection H as <- <-; reflexivity).
      destruct s; cbn [app]; try (injection H as <- <-; reflexivity). step. apply IP in X0. rewrite X0. cbn [pbind]. congruence.
    + apply IA in X. rewrite X. cbn [pbind]. apply IT, H.
  - intros ts a q H. cbn [comparisons] in H |- *. destruct ts as [|[nm|z|s] ts]; cbn [app].
    + cbn [compares]. injection H as <- <-. reflexivity.
    + injection H as <- <-. reflexivity.
    + injection H as <- <-. reflexivity.
    + destruct (compares s); [|injection H as <- <-; reflexivity].
      repeat step. apply IP in X. rewrite X. cbn [pbind]. apply IC in X0. rewrite X0. cbn [pbind]. congruence.
  - intros lev b ts a q H. cbn [chain] in H |- *. destruct ts as [|[nm|z|s] ts]; cbn [app].
    + replace (at_level lev SComma) with false by (destruct lev as [|[|[|[|]]]]; reflexivity).
      injection H as <- <-. reflexivity.
    + injection H as <- <-. reflexivity.
    + injection H as <- <-. reflexivity.
    + destruct (at_level lev s); [|injection H as <- <-; reflexivity].
      step. apply IP in X. rewrite X. cbn [pbind]. apply IH, H.
  - intros b ts a q H. cbn [trailers] in H |- *. destruct ts as [|[nm|z|s] ts]; cbn [app].
    + injection H as <- <-. reflexivity.
    + injection H as <- <-. reflexivity.
    + injection H as <- <-. reflexivity.
    + destruct s; try (injection H as <- <-; reflexivity).
      * step. apply II in X; [|discriminate]. rewrite X. cbn [pbind]. apply IT, H.
      * step. apply IP in X. rewrite X. cbn [pbind]. destruct q0 as [|[nm|z|s] q0]; try discriminate.
        destruct s; try discriminate. cbn [app]. apply IT, H.
  - intros ts a q H. cbn [atom] in H |- *. destruct ts as [|[nm|z|s] ts]; cbn [app]; try discriminate.
    + injection H as <- <-. reflexivity.
    + injection H as <- <-. reflexivity.
    + destruct s; try discriminate.
      * step. apply IP in X. rewrite X. cbn [pbind]. destruct q0 as [|[nm|z|s] q0]; try discriminate.
        destruct s; try discriminate. cbn [app]. injection H as <- <-. reflexivity.
      * step. apply II in X; [|discriminate]. rewrite X. cbn [pbind]. injection H as <- <-. reflexivity.
  - intros cl ts a q N H. cbn [items] in H |- *. destruct ts as [|t ts].
    + cbn [app]. rewrite CC by exact N. repeat step. apply IP in X. cbn [app] in X. rewrite X. cbn [pbind].
      apply IM in X0; [|exact N]. rewrite X0. cbn [pbind]. congruence.
    + assert (P : pbind (parse n 0 (t :: ts)) (fun a r => pbind (more n cl r) (fun l r => Some (a :: l, r))) = Some (a, q) ->
                  pbind (parse n 0 ((t :: ts) ++ tl)) (fun a r => pbind (more n cl r) (fun l r => Some (a :: l, r))) = Some (a, q ++ tl)%list).
      { intros Q. repeat step. apply IP in X. rewrite X. cbn [pbind]. apply IM in X0; [|exact N]. rewrite X0. cbn [pbind]. congruence. }
      destruct t as [nm|z|s]; try exact (P H). cbn [app]. destruct (sym_eqb s cl); [injection H as <- <-; reflexivity|exact (P H)].
  - intros cl ts a q N H. cbn [more] in H |- *. destruct ts as [|[nm|z|s] ts]; try discriminate. cbn [app].
    destruct (sym_eqb s cl); [injection H as <- <-; reflexivity|]. destruct (sym_eqb s SComma); [|discriminate].
    repeat step. apply IP in X. rewrite X. cbn [pbind]. apply IM in X0; [|exact N]. rewrite X0. cbn [pbind]. congruence.
Qed.
End Tail.

Lemma no_close : forall n lev r, parse n lev (K SRPar :: r) = None /\ parse n lev (K SRBra :: r) = None.
Proof.
  induction n as [|n IH]; intros lev r; [split; reflexivity|]. cbn [parse].
  assert (AT : atom n (K SRPar :: r) = None /\ atom n (K SRBra :: r) = None) by (destruct n; split; reflexivity).
  destruct AT as [A1 A2].
  destruct lev as [|[|[|[|[|[|lev]]]]]].
  - destruct (IH 1 r) as [-> ->]. split; reflexivity.
  - destruct (IH 2 r) as [-> ->]. split; reflexivity.
  - destruct (IH 3 r) as [-> ->]. split; reflexivity.
  - destruct (IH 4 r) as [-> ->]. split; reflexivity.
  - apply IH.
  - destruct (IH 6 r) as [-> ->]. split; reflexivity.
  - rewrite A1, A2. split; reflexivity.
Qed.
