(** Proofs for C65: how the engine reads the text of a program. *)

From Coq Require Import ZArith List Bool Ascii String Lia.
From Verif Require Import Result Keys KeySpec Folder Aliases AliasSpec Formula Simplify Build Methods MethodsSpec PyRead PyReadSpec PyReadProofs C22Proofs C26Proofs
  C55Proofs C55More C56Proofs RedText GenericOps GenericOpsSpec GenericRead C61Proofs RKeops RKeopsSpec C64Proofs C64Grad RLazy RLazySpec C65Names C65Args.
Import ListNotations.
Local Open Scope nat_scope.
Open Scope string_scope.

(** ** Tokens and expressions *)

Section Read.
  Variable nm : string -> rindex -> string.

  Fixpoint ptoks (e : program) : list token :=
    match e with
    | XTensor a x _ => [KName (nm a x)]
    | XInt n => ctokens "IntCst" (int_tokens n) [] []
    | X1 op opts _ e => ctokens op (ptoks e) [] opts
    | X2 op _ _ e f => ctokens op (ptoks e) [ptoks f] []
    | XScal e f => (K SLPar :: (ptoks e ++ K SBar :: ptoks f) ++ [K SRPar])%list
    | X3 op _ _ e f g => ctokens op (ptoks e) [ptoks f; ptoks g] []
    end.
  Fixpoint ptree (e : program) : py :=
    match e with
    | XTensor a x _ => PName (nm a x)
    | XInt n => PCall (PName "IntCst") [literal n]
    | X1 op opts _ e => PCall (PName op) (ptree e :: map literal opts)
    | X2 op _ _ e f => PCall (PName op) [ptree e; ptree f]
    | XScal e f => PBin SBar (ptree e) (ptree f)
    | X3 op _ _ e f g => PCall (PName op) [ptree e; ptree f; ptree g]
    end.

  Hypothesis NM : forall a x, identifier (nm a x).

  Lemma lexed_bar : lexed "|" [K SBar]. Proof. now apply (lexed_symbol "|"). Qed.

  Lemma lexed_shown : forall e, operations e -> lexed_word (shown nm e) (ptoks e).
  Proof.
    induction e as [a x v|n|op opts d e IH|op c d e IHe f IHf|e IHe f IHf|op c d e IHe f IHf g IHg]; intros W; cbn [operations shown ptoks] in *.
    - apply lexed_ident. apply NM.
    - assert (Q := lexed_ctokens "IntCst" (str_int n) (int_tokens n) [] [] ltac:(ident) (lexed_int n) ltac:(constructor)).
      exact Q.
    - destruct W as [[I _] W]. assert (Q := lexed_ctokens op (shown nm e) (ptoks e) [] opts I (IH W) ltac:(constructor)).
      rewrite app_assoc_s in Q. exact Q.
    - destruct W as ([I _] & We & Wf).
      assert (Q := lexed_ctokens op (shown nm e) (ptoks e) [(shown nm f, ptoks f)] [] I (IHe We) ltac:(constructor; [exact (IHf Wf)|constructor])).
      rewrite app_assoc_s, concat_sep in Q. cbn [map fst snd] in Q. rewrite concat_cons, !app_assoc_s in Q. exact Q.
    - destruct W as (We & Wf). apply lexed_weak. apply (lexed_cons "("); [exact lexed_lpar|]. rewrite <- app_assoc. cbn [app].
      apply lexed_word_app; [auto| |discriminate|reflexivity].
      apply (lexed_cons "|"); [exact lexed_bar|]. apply lexed_word_app; [auto|exact lexed_rpar|discriminate|reflexivity].
    - destruct W as ([I _] & We & Wf & Wg).
      assert (Q := lexed_ctokens op (shown nm e) (ptoks e) [(shown nm f, ptoks f); (shown nm g, ptoks g)] [] I (IHe We)
        ltac:(constructor; [exact (IHf Wf)|constructor; [exact (IHg Wg)|constructor]])).
      rewrite app_assoc_s, concat_sep in Q. cbn [map fst snd] in Q. rewrite !concat_cons, !app_assoc_s in Q. exact Q.
  Qed.

  Lemma ptoks_first : forall e, nd (ptoks e) /\ nc (ptoks e).
  Proof. intros e. destruct e; split; intros r; exact I. Qed.
  Lemma prim_at : forall lev e, lev <= 6 -> Prim (ptoks e) (ptree e) -> At lev (ptoks e) (ptree e).
  Proof. intros lev e L P. apply (at_down 6); [now apply at_prim|lia|]. intros _. apply ptoks_first. Qed.

  Lemma prim_shown : forall e, Prim (ptoks e) (ptree e).
  Proof.
    induction e as [a x v|n|op opts d e IH|op c d e IHe f IHf|e IHe f IHf|op c d e IHe f IHf g IHg]; cbn [ptoks ptree].
    - intros r b r' T. eapply ev_6; [apply ev_name|exact T].
    - apply (prim_call "IntCst" (int_tokens n) (literal n) [] [] []); [apply at_literal| |constructor]. intros r. apply notclose_int.
    - apply (prim_call op (ptoks e) (ptree e) [] [] opts); [apply prim_at; auto; lia|apply ptoks_first|constructor].
    - apply (prim_call op (ptoks e) (ptree e) [ptoks f] [ptree f] []); [apply prim_at; auto; lia|apply ptoks_first|].
      constructor; [apply prim_at; auto; lia|constructor].
    - apply prim_par. intros r S. apply (ev_from 1); [lia| |exact S|intros; lia].
      rewrite <- app_assoc. cbn [app]. eapply ev_left; [lia|apply (prim_at 2); [lia|exact IHe|]|].
      + cbn. lia.
      + eapply ev_chain; [reflexivity|apply (prim_at 2); [lia|exact IHf|apply (stops_le 0); [lia|exact S]]|].
        apply ev_chain_stop; [lia|]. apply (stops_le 0); [lia|exact S].
    - apply (prim_call op (ptoks e) (ptree e) [ptoks f; ptoks g] [ptree f; ptree g] []); [apply prim_at; auto; lia|apply ptoks_first|].
      constructor; [apply prim_at; auto; lia|constructor; [apply prim_at; auto; lia|constructor]].
  Qed.

  Lemma shown_read : forall e, operations e -> reads (shown nm e) (ptree e).
  Proof.
    intros e W. apply (reads_ev _ (ptoks e)); [apply lexed_word_all, lexed_shown, W|].
    assert (A := prim_at 0 e ltac:(lia) (prim_shown e) [] I). now rewrite app_nil_r in A.
  Qed.
End Read.

(** ** Parts *)

Section Parts.
  Variable nm : string -> rindex -> string.
  Hypothesis NM : forall a x, is_name (nm a x) /\ has "_" (nm a x) = false.

  Definition ident_char (c : ascii) : bool := name_char c.
  Lemma ident_has : forall s c, identifier s -> name_char c = false -> has c s = false.
  Proof.
    intros s c I N. destruct (has c s) eqn:E; [|reflexivity]. exfalso. destruct s as [|d s]; [discriminate|]. destruct I as [I1 I2].
    cbn [has] in E. apply orb_true_iff in E. destruct E as [E|E].
    - apply Ascii.eqb_eq in E. subst d. unfold name_char in N. rewrite I1 in N. discriminate.
    - rewrite (I2 c E) in N. discriminate.
  Qed.
  Lemma nm_ident : forall a x, identifier (nm a x).
  Proof. intros a x. apply name_identifier. apply NM. Qed.

  Lemma ptext_has : forall c opts, digit c = false -> c <> "-"%char -> c <> ","%char -> has c (ptext opts) = false.
  Proof.
    intros c opts D M C. induction opts as [|k opts IH]; [reflexivity|].
    rewrite <- (app_nil_r_s (ptext (k :: opts))), ptext_cons, app_nil_r_s. cbn [has]. rewrite has_app, str_int_has, IH by auto.
    destruct (Ascii.eqb_spec "," c); [congruence|reflexivity].
  Qed.

  Lemma shown_has : forall c e, c = "$"%char \/ c = " "%char -> operations e -> has c (shown nm e) = false.
  Proof.
    intros c e C.
    assert (N : name_char c = false) by (destruct C; subst; reflexivity).
    assert (T : forall opts, has c (ptext opts) = false) by (intros; apply ptext_has; destruct C; subst; (reflexivity || discriminate)).
    assert (Z : forall z, has c (str_int z) = false) by (intros; apply str_int_has; destruct C; subst; (reflexivity || discriminate)).
    assert (S : forall d, In d ["("; ")"; ","; "|"]%char -> has c (one d) = false).
    { intros d D. cbn in D. destruct C; subst c; intuition (subst; reflexivity). }
    assert (S1 := S "("%char ltac:(cbn; tauto)). assert (S2 := S ")"%char ltac:(cbn; tauto)). assert (S3 := S ","%char ltac:(cbn; tauto)). assert (S4 := S "|"%char ltac:(cbn; tauto)).
    unfold one in *.
    induction e as [a x v|n|op opts d e IH|op cc d e IHe f IHf|e IHe f IHf|op cc d e IHe f IHf g IHg]; intros W; cbn [operations shown] in *.
    - apply ident_has; [apply nm_ident|exact N].
    - rewrite !has_app, Z. destruct C; subst; reflexivity.
    - destruct W as [[I _] W]. fold (ptext opts). rewrite !has_app, (ident_has op c I N), S1, S2, T, IH by auto. reflexivity.
    - destruct W as ([I _] & We & Wf). rewrite !has_app, (ident_has op c I N), S1, S2, S3, IHe, IHf by auto. reflexivity.
    - destruct W as (We & Wf). rewrite !has_app, S1, S2, S4, IHe, IHf by auto. reflexivity.
    - destruct W as ([I _] & We & Wf & Wg). rewrite !has_app, (ident_has op c I N), S1, S2, S3, IHe, IHf, IHg by auto. reflexivity.
  Qed.

  Lemma closed_ident : forall s n r, identifier s -> closed n (s ++ r) = closed n r.
  Proof. intros s n r I. apply closed_name; apply ident_has; auto. Qed.
  Lemma closed_int : forall z n r, closed n (str_int z ++ r) = closed n r.
  Proof. intros z n r. apply closed_name; apply str_int_has; (reflexivity || discriminate). Qed.
  Lemma closed_ptext : forall opts r, closed 1 (ptext opts ++ r) = closed 1 r.
  Proof.
    induction opts as [|k opts IH]; intros r; [reflexivity|]. rewrite ptext_cons. cbn [closed].
    change ((","%char =? "(")%char) with false. change ((","%char =? ")")%char) with false. change ((","%char =? ",")%char) with true. cbn iota.
    rewrite closed_int. apply IH.
  Qed.
  Lemma shown_closed : forall e, operations e -> closed 0 (shown nm e) = true.
  Proof.
    assert (O : forall n r, closed n ("(" ++ r) = closed (S n) r) by reflexivity.
    assert (C : closed 1 ")" = true) by reflexivity.
    assert (M : forall r, closed 1 ("," ++ r) = closed 1 r) by reflexivity.
    assert (B : forall r, closed 1 ("|" ++ r) = closed 1 r) by reflexivity.
    induction e as [a x v|n|op opts d e IH|op cc d e IHe f IHf|e IHe f IHf|op cc d e IHe f IHf g IHg]; intros W; cbn [operations shown] in *.
    - rewrite <- (app_nil_r_s (nm a x)). now rewrite closed_ident by apply nm_ident.
    - change ("IntCst(" ++ str_int n ++ ")") with ("IntCst" ++ "(" ++ str_int n ++ ")"). rewrite closed_ident by ident. now rewrite O, closed_int.
    - destruct W as [[I _] W]. fold (ptext opts). rewrite closed_ident, O, closed_in, closed_ptext; auto.
    - destruct W as ([I _] & We & Wf). rewrite closed_ident, O, closed_in, M, closed_in; auto.
    - destruct W as (We & Wf). rewrite O, closed_in, B, closed_in; auto.
    - destruct W as ([I _] & We & Wf & Wg). rewrite closed_ident, O, closed_in, M, closed_in, M, closed_in; auto.
  Qed.

  Lemma shown_reduction : forall e, operations e -> contains "_Reduction" (shown nm e) = false.
  Proof.
    assert (D : forall c s t, In c ["("; ")"; ","; "|"]%char -> contains "_Reduction" s = false -> contains "_Reduction" t = false ->
      contains "_Reduction" (s ++ String c t) = false).
    { intros c s t C A B. apply contains_two; auto; [cbn in C; intuition (subst; reflexivity)|discriminate]. }
    assert (U : forall s, has "_" s = false -> contains "_Reduction" s = false) by (intros s H; apply (contains_has "_"); [reflexivity|exact H]).
    assert (E : contains "_Reduction" "" = false) by reflexivity.
    assert (Z : forall z, contains "_Reduction" (str_int z) = false) by (intros; apply U, str_int_has; (reflexivity || discriminate)).
    induction e as [a x v|n|op opts d e IH|op cc d e IHe f IHf|e IHe f IHf|op cc d e IHe f IHf g IHg]; intros W; cbn [operations shown] in *.
    - apply U, NM.
    - change ("IntCst(" ++ str_int n ++ ")") with ("IntCst" ++ String "(" (str_int n ++ String ")" "")). apply D; [cbn; tauto|reflexivity|].
      apply D; auto. cbn; tauto.
    - destruct W as [(I & _ & R & _) W]. fold (ptext opts). apply (D "("%char); [cbn; tauto|exact R|].
      assert (T : contains "_Reduction" (ptext opts ++ ")") = false).
      { apply U. rewrite has_app, ptext_has by (reflexivity || discriminate). reflexivity. }
      destruct (ptext_start opts "") as (c & t & S & IC). change (String ")" "") with ")" in S. rewrite S in *.
      assert (T' : contains "_Reduction" t = false) by (cbn [contains] in T; apply orb_false_iff in T; apply T).
      apply contains_two; auto; [cbn in IC; intuition (subst; reflexivity)|discriminate].
    - destruct W as ((I & _ & R & _) & We & Wf). apply (D "("%char); [cbn; tauto|exact R|].
      apply (D ","%char); [cbn; tauto|auto|]. apply (D ")"%char); [cbn; tauto|auto|exact E].
    - destruct W as (We & Wf). apply (D "("%char ""); [cbn; tauto|exact E|].
      apply (D "|"%char); [cbn; tauto|auto|]. apply (D ")"%char); [cbn; tauto|auto|exact E].
    - destruct W as ((I & _ & R & _) & We & Wf & Wg). apply (D "("%char); [cbn; tauto|exact R|].
      apply (D ","%char); [cbn; tauto|auto|]. apply (D ","%char); [cbn; tauto|auto|]. apply (D ")"%char); [cbn; tauto|auto|exact E].
  Qed.

  Lemma shown_part : forall e, operations e -> part (shown nm e).
  Proof.
    intros e W. split; [now apply shown_closed|]. split; [apply shown_has; auto|]. split; [apply shown_has; auto|now apply shown_reduction].
  Qed.
End Parts.
