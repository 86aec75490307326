(** * The formulas written by symbolic tensors are read as the expressions meant. *)

From Coq Require Import ZArith Lia List Bool Ascii String.
From Verif Require Import Result Keys KeySpec Aliases AliasSpec C22Proofs C26Proofs Formula Methods MethodsSpec LazySpec
  PyRead PyReadSpec PyReadProofs.
Import ListNotations.
Open Scope string_scope.

Lemma concat_cons : forall a l, String.concat "" (a :: l) = a ++ String.concat "" l.
Proof. intros a [|b l]; cbn; [now rewrite app_nil_r_s|reflexivity]. Qed.

(** ** Tokens *)

Definition par (l : list token) : list token := (l ++ [K SRPar])%list.
Definition ptokens (ps : list Z) : list token := flat_map (fun p => K SComma :: int_tokens p) ps.
Definition list_tokens (p : list Z) : list token :=
  match p with
  | [] => [K SLBra; K SRBra]
  | z :: p => K SLBra :: int_tokens z ++ ptokens p ++ [K SRBra]
  end%list.
Definition ltokens (ps : list (list Z)) : list token := flat_map (fun p => K SComma :: list_tokens p) ps.
Fixpoint tokens (t : term) : list token :=
  match t with
  | TVar i d c => KName "Var" :: K SLPar :: int_tokens i ++ ptokens [d; c] ++ [K SRPar]
  | TSym i d c => KName "VarSymb" :: K SLPar :: int_tokens i ++ ptokens [d; c] ++ [K SRPar]
  | TInt n => KName "IntCst" :: K SLPar :: int_tokens n ++ [K SRPar]
  | T1 op t ps => KName op :: K SLPar :: tokens t ++ ptokens ps ++ [K SRPar]
  | TOp op t u =>
      K SLPar :: tokens t ++ K (match symbol op with Some s => s | None => SComma end) :: tokens u ++ [K SRPar]
  | T2 op t u ps => KName op :: K SLPar :: tokens t ++ K SComma :: tokens u ++ ptokens ps ++ [K SRPar]
  | TDot op t u ps => KName op :: K SLPar :: tokens t ++ K SComma :: tokens u ++ ltokens ps ++ [K SRPar]
  | T3 op t u v => KName op :: K SLPar :: tokens t ++ K SComma :: tokens u ++ K SComma :: tokens v ++ [K SRPar]
  end%list.

Lemma lexed_lpar : lexed "(" [K SLPar]. Proof. now apply (lexed_symbol "("). Qed.
Lemma lexed_rpar : lexed ")" [K SRPar]. Proof. now apply (lexed_symbol ")"). Qed.
Lemma lexed_lbra : lexed "[" [K SLBra]. Proof. now apply (lexed_symbol "["). Qed.
Lemma lexed_rbra : lexed "]" [K SRBra]. Proof. now apply (lexed_symbol "]"). Qed.
Lemma lexed_comma : lexed "," [K SComma]. Proof. now apply (lexed_symbol ","). Qed.
Lemma lexed_comma_space : lexed ", " [K SComma].
Proof. exact (lexed_app "," " " [K SComma] [] lexed_comma lexed_space). Qed.

Lemma lexed_cons : forall c b k tb, lexed (one c) [k] -> lexed b tb -> lexed (String c b) (k :: tb).
Proof. intros c b k tb A B. exact (lexed_app (one c) b [k] tb A B). Qed.

Lemma every_has : forall p s, (forall c, has c s = true -> p c = true) -> every p s = true.
Proof.
  intros p. induction s as [|c s IH]; intros H; [reflexivity|]. cbn [every].
  rewrite (H c), IH; [reflexivity| |].
  - intros d D. apply H. cbn [has]. now rewrite D, orb_true_r.
  - cbn [has]. now rewrite Ascii.eqb_refl.
Qed.

Lemma lexed_ident : forall op, identifier op -> lexed_word op [KName op].
Proof. intros [|c r]; [contradiction|]. intros [N E]. apply lexed_name; auto. now apply every_has. Qed.

Lemma lexed_call : forall op b tb, identifier op -> lexed b tb -> lexed (op ++ "(" ++ b) (KName op :: K SLPar :: tb).
Proof.
  intros op b tb I B.
  apply (lexed_word_app op ("(" ++ b) [KName op] (K SLPar :: tb)).
  - now apply lexed_ident.
  - apply (lexed_cons "(" b); auto. exact lexed_lpar.
  - discriminate.
  - reflexivity.
Qed.

(** A list of integers, each after a comma. *)
Definition ends (b : string) : Prop := b <> "" /\ clean b.
Lemma lexed_params : forall sep ps b tb, sep = "," \/ sep = ", " -> ends b -> lexed b tb ->
  ends (String.concat "" (map (fun p => sep ++ str_int p) ps) ++ b)
  /\ lexed (String.concat "" (map (fun p => sep ++ str_int p) ps) ++ b) (ptokens ps ++ tb)%list.
Proof.
  intros sep ps b tb S E B. induction ps as [|p ps [IE IH]]; [split; [exact E|exact B]|].
  cbn [map ptokens flat_map]. fold (ptokens ps). rewrite concat_cons, !app_assoc_s. split.
  - destruct S as [-> | ->]; split; cbn; try discriminate; reflexivity.
  - rewrite <- app_comm_cons. cbn [app].
    change (K SComma :: (int_tokens p ++ ptokens ps) ++ tb)%list
      with ([K SComma] ++ (int_tokens p ++ ptokens ps) ++ tb)%list.
    rewrite <- app_assoc. apply lexed_app.
    + destruct S as [-> | ->]; [exact lexed_comma|exact lexed_comma_space].
    + destruct IE as [N C]. apply lexed_word_app; auto. apply lexed_int.
Qed.

Lemma concat_sep : forall sep a l, String.concat sep (a :: l) = a ++ String.concat "" (map (fun p => sep ++ p) l).
Proof.
  intros sep a l. revert a. induction l as [|b l IH]; intros a; [cbn; now rewrite app_nil_r_s|].
  transitivity (a ++ sep ++ String.concat sep (b :: l)); [reflexivity|].
  rewrite IH. cbn [map]. now rewrite concat_cons, app_assoc_s.
Qed.

Lemma lexed_ints_text : forall p, lexed (ints_text p) (list_tokens p).
Proof.
  intros [|z p]; unfold ints_text, list_tokens.
  - exact (lexed_app "[" "]" _ _ lexed_lbra lexed_rbra).
  - cbn [map]. rewrite concat_sep, map_map, app_assoc_s.
    apply (lexed_cons "["); [exact lexed_lbra|].
    destruct (lexed_params "," p "]" [K SRBra]) as [[N C] L]; auto.
    + split; [discriminate|reflexivity].
    + exact lexed_rbra.
    + apply lexed_word_app; auto. apply lexed_int.
Qed.

Lemma lexed_lists : forall ps b tb, lexed b tb ->
  lexed (String.concat "" (map (fun p => ", " ++ ints_text p) ps) ++ b) (ltokens ps ++ tb)%list.
Proof.
  intros ps b tb B. induction ps as [|p ps IH]; [exact B|].
  cbn [map ltokens flat_map]. fold (ltokens ps). rewrite concat_cons, !app_assoc_s.
  cbn [app]. change (K SComma :: (list_tokens p ++ ltokens ps) ++ tb)%list
    with ([K SComma] ++ (list_tokens p ++ ltokens ps) ++ tb)%list.
  rewrite <- app_assoc. apply lexed_app; [exact lexed_comma_space|].
  apply lexed_app; [apply lexed_ints_text|exact IH].
Qed.

Lemma ends_rpar : ends ")". Proof. split; [discriminate|reflexivity]. Qed.

Lemma lexed_numbered : forall kw i d c, identifier kw ->
  lexed (kw ++ "(" ++ str_int i ++ "," ++ str_int d ++ "," ++ str_int c ++ ")")
        (KName kw :: K SLPar :: int_tokens i ++ ptokens [d; c] ++ [K SRPar])%list.
Proof.
  intros kw i d c I. apply lexed_call; auto.
  destruct (lexed_params "," [d; c] ")" [K SRPar]) as [[N C] L]; auto; [exact ends_rpar|exact lexed_rpar|].
  cbn [map] in *. rewrite concat_cons, concat_cons, !app_assoc_s in *. cbn [String.concat append] in *.
  apply lexed_word_app; auto. apply lexed_int.
Qed.

Lemma lexed_operator : forall op s, symbol op = Some s -> lexed (" " ++ op ++ " ") [K s].
Proof.
  intros op s H. unfold symbol in H.
  repeat match type of H with
  | (if String.eqb op ?x then _ else _) = _ => destruct (String.eqb_spec op x) as [->|]; [injection H as <-|]
  end; try discriminate; intros r; cbn [append lex word]; cbn; destruct (lex "" r); reflexivity.
Qed.

Ltac ident :=
  split; [reflexivity|]; let d := fresh in let H := fresh in intros d H; cbn [has] in H;
  repeat (apply orb_true_iff in H; destruct H as [H|H]; [apply Ascii.eqb_eq in H; subst; reflexivity|]);
  discriminate H.

Lemma lexed_written : forall t, well_named t -> lexed (written t) (tokens t).
Proof.
  induction t as [i d c|i d c|n|op t IH ps|op t IHt u IHu|op t IHt u IHu ps|op t IHt u IHu ps|op t IHt u IHu v IHv];
    intros W; cbn [written tokens well_named] in *.
  - apply (lexed_numbered "Var"). ident.
  - apply (lexed_numbered "VarSymb"). ident.
  - apply (lexed_call "IntCst"); [ident|].
    apply lexed_word_app; [apply lexed_int|exact lexed_rpar|discriminate|reflexivity].
  - destruct W as [I W]. apply lexed_call; auto. apply lexed_app; auto.
    apply lexed_params; auto; [exact ends_rpar|exact lexed_rpar].
  - destruct W as (S & Wt & Wu). destruct (symbol op) as [s|] eqn:E; [|congruence].
    apply (lexed_cons "("); [exact lexed_lpar|]. apply lexed_app; auto.
    change (" " ++ op ++ " " ++ written u ++ ")") with (String " " (op ++ String " " (written u ++ ")"))).
    replace (String " " (op ++ String " " (written u ++ ")"))) with ((" " ++ op ++ " ") ++ written u ++ ")")
      by now cbn [append]; rewrite app_assoc_s.
    change (K s :: tokens u ++ [K SRPar])%list with ([K s] ++ tokens u ++ [K SRPar])%list.
    apply lexed_app; [now apply lexed_operator|]. apply lexed_app; auto. exact lexed_rpar.
  - destruct W as (I & Wt & Wu). apply lexed_call; auto. apply lexed_app; auto.
    change (K SComma :: tokens u ++ ptokens ps ++ [K SRPar])%list with ([K SComma] ++ tokens u ++ ptokens ps ++ [K SRPar])%list.
    apply lexed_app; [exact lexed_comma_space|]. apply lexed_app; auto.
    apply lexed_params; auto; [exact ends_rpar|exact lexed_rpar].
  - destruct W as (I & Wt & Wu). apply lexed_call; auto. apply lexed_app; auto.
    change (K SComma :: tokens u ++ ltokens ps ++ [K SRPar])%list with ([K SComma] ++ tokens u ++ ltokens ps ++ [K SRPar])%list.
    apply lexed_app; [exact lexed_comma_space|]. apply lexed_app; auto.
    apply lexed_lists. exact lexed_rpar.
  - destruct W as (I & Wt & Wu & Wv). apply lexed_call; auto. apply lexed_app; auto.
    change (K SComma :: tokens u ++ K SComma :: tokens v ++ [K SRPar])%list
      with ([K SComma] ++ tokens u ++ [K SComma] ++ tokens v ++ [K SRPar])%list.
    apply lexed_app; [exact lexed_comma_space|]. apply lexed_app; auto.
    apply lexed_app; [exact lexed_comma_space|]. apply lexed_app; auto. exact lexed_rpar.
Qed.

(** ** Expressions *)

Lemma ev_int : forall z r, stops 4 r -> Ev (fun n => parse n 4 (int_tokens z ++ r)%list) (literal z) r.
Proof.
  intros z r S. unfold int_tokens, literal. destruct (z <? 0)%Z; cbn [app].
  - apply ev_neg. apply (ev_from 6); [lia| |exact S|intros _; exact I].
    eapply ev_6; [apply ev_num|apply ev_trail_stop]. apply (stops_le 4); [lia|exact S].
  - apply (ev_from 6); [lia| |exact S|intros _; exact I].
    eapply ev_6; [apply ev_num|apply ev_trail_stop]. apply (stops_le 4); [lia|exact S].
Qed.
Lemma ev_int0 : forall z r, stops 0 r -> Ev (fun n => parse n 0 (int_tokens z ++ r)%list) (literal z) r.
Proof.
  intros z r S. apply (ev_from 4); [lia| |exact S|intros; lia]. apply ev_int. apply (stops_le 0); [lia|exact S].
Qed.
Lemma notclose_int : forall z r, notclose (int_tokens z ++ r)%list.
Proof. intros z r. unfold int_tokens. destruct (z <? 0)%Z; exact I. Qed.

Lemma ev_params : forall close ps r, closer close ->
  Ev (fun n => more n close (ptokens ps ++ K close :: r)%list) (map literal ps) r
  /\ stops 0 (ptokens ps ++ K close :: r)%list.
Proof.
  intros close ps r C. induction ps as [|p ps [IH IS]].
  - split; [apply ev_more_nil|]. destruct C as [-> | ->]; exact I.
  - cbn [ptokens flat_map map]. fold (ptokens ps). rewrite <- app_assoc. cbn [app]. split; [|exact I].
    eapply ev_more; [exact C|apply ev_int0; exact IS|exact IH].
Qed.

Lemma ev_int_list : forall p r, stops 0 r -> Ev (fun n => parse n 0 (list_tokens p ++ r)%list) (PList (map literal p)) r.
Proof.
  intros p r S. apply (ev_from 6); auto; [lia| |].
  - eapply ev_6; [|apply ev_trail_stop; apply (stops_le 0); [lia|exact S]].
    destruct p as [|z p]; cbn [list_tokens app].
    + apply ev_list. apply (ev_items_nil SRBra).
    + apply ev_list. rewrite <- !app_assoc. cbn [app map].
      destruct (ev_params SRBra p r) as [P Q]; [now right|].
      eapply ev_items; [now right|apply notclose_int|apply ev_int0; exact Q|exact P].
  - intros _. destruct p; exact I.
Qed.

Lemma ev_lists : forall ps r,
  Ev (fun n => more n SRPar (ltokens ps ++ K SRPar :: r)%list) (map (fun p => PList (map literal p)) ps) r
  /\ stops 0 (ltokens ps ++ K SRPar :: r)%list.
Proof.
  intros ps r. induction ps as [|p ps [IH IS]].
  - split; [apply ev_more_nil|exact I].
  - cbn [ltokens flat_map map]. fold (ltokens ps). rewrite <- app_assoc. cbn [app]. split; [|exact I].
    eapply ev_more; [now left|apply ev_int_list; exact IS|exact IH].
Qed.

Lemma tokens_first : forall t r, nodash (tokens t ++ r)%list /\ notclose (tokens t ++ r)%list.
Proof. intros t r. destruct t; split; exact I. Qed.

Lemma call_tree : forall op ts l r, stops 6 r -> Ev (fun n => items n SRPar ts) l r ->
  Ev (fun n => parse n 6 (KName op :: K SLPar :: ts)) (PCall (PName op) l) r.
Proof.
  intros op ts l r S H. eapply ev_6; [apply ev_name|]. eapply ev_trail_call; [exact H|]. now apply ev_trail_stop.
Qed.

Lemma ev_tokens : forall t r, well_named t -> stops 6 r -> Ev (fun n => parse n 6 (tokens t ++ r)%list) (tree t) r.
Proof.
  assert (Z0 : forall t r, (forall r, stops 6 r -> Ev (fun n => parse n 6 (tokens t ++ r)%list) (tree t) r) ->
    stops 0 r -> Ev (fun n => parse n 0 (tokens t ++ r)%list) (tree t) r).
  { intros t r H S. apply (ev_from 6); auto; [lia| |].
    - apply H. apply (stops_le 0); [lia|exact S].
    - intros _. apply tokens_first. }
  induction t as [i d c|i d c|n|op t IH ps|op t IHt u IHu|op t IHt u IHu ps|op t IHt u IHu ps|op t IHt u IHu v IHv];
    intros r W S; cbn [tokens tree well_named] in *; repeat (rewrite <- ?app_comm_cons, <- ?app_assoc; cbn [app]).
  - apply call_tree; auto. destruct (ev_params SRPar [d; c] r) as [P Q]; [now left|].
    eapply ev_items; [now left|apply notclose_int|apply ev_int0|exact P]. exact Q.
  - apply call_tree; auto. destruct (ev_params SRPar [d; c] r) as [P Q]; [now left|].
    eapply ev_items; [now left|apply notclose_int|apply ev_int0|exact P]. exact Q.
  - apply call_tree; auto.
    eapply ev_items; [now left|apply notclose_int|apply ev_int0|apply ev_more_nil]. exact I.
  - destruct W as [_ W]. apply call_tree; auto. destruct (ev_params SRPar ps r) as [P Q]; [now left|].
    eapply ev_items; [now left|apply tokens_first|apply Z0|exact P]; auto.
  - destruct W as (N & Wt & Wu). destruct (symbol op) as [s|] eqn:E; [|congruence].
    eapply ev_6; [|apply ev_trail_stop; exact S]. apply ev_par.
    assert (T : forall lev, 1 <= lev <= 4 -> forall r, stops lev r -> Ev (fun n => parse n lev (tokens t ++ r)%list) (tree t) r).
    { intros lev L r' S'. apply (ev_from 6); auto; [lia| |].
      - apply IHt; auto. apply (stops_le lev); [lia|exact S'].
      - intros _. apply tokens_first. }
    assert (U : forall lev, 1 <= lev <= 4 -> Ev (fun n => parse n lev (tokens u ++ K SRPar :: r)%list) (tree u) (K SRPar :: r)).
    { intros lev L. apply (ev_from 6); auto; [lia| | |].
      - apply IHu; auto. exact I.
      - exact I.
      - intros _. apply tokens_first. }
    destruct (ordering s) eqn:O.
    + eapply (ev_0 _ _ _ [(s, tree u)]); [apply (T 1); [lia|destruct s; try discriminate O; cbn; lia]|].
      eapply ev_cmp; [destruct s; try discriminate O; reflexivity|apply (U 1); lia|]. now apply ev_cmp_stop.
    + assert (B : exists lev, 1 <= lev <= 3 /\ at_level lev s = true /\ binds s = Some lev).
      { unfold symbol in E. repeat match type of E with
        | (if ?b then _ else _) = _ => destruct b; [injection E as <-; try discriminate O|]
        end; try discriminate; [exists 2|exists 2|exists 3|exists 3|exists 1]; repeat split; lia. }
      destruct B as (lev & L & A & B).
      apply (ev_from lev); [lia| |exact I|intros; lia].
      eapply ev_left; [exact L|apply (T (Datatypes.S lev)); [lia|cbn; rewrite B; lia]|].
      eapply ev_chain; [exact A|apply U; lia|]. now apply ev_chain_stop.
  - destruct W as (_ & Wt & Wu). apply call_tree; auto. destruct (ev_params SRPar ps r) as [P Q]; [now left|].
    eapply ev_items; [now left|apply tokens_first|apply Z0; auto; exact I|].
    eapply ev_more; [now left|apply Z0; auto|exact P].
  - destruct W as (_ & Wt & Wu). apply call_tree; auto. destruct (ev_lists ps r) as [P Q].
    eapply ev_items; [now left|apply tokens_first|apply Z0; auto; exact I|].
    eapply ev_more; [now left|apply Z0; auto|exact P].
  - destruct W as (_ & Wt & Wu & Wv). apply call_tree; auto.
    eapply ev_items; [now left|apply tokens_first|apply Z0; auto; exact I|].
    eapply ev_more; [now left|apply Z0; auto; exact I|].
    eapply ev_more; [now left|apply Z0; auto; exact I|apply ev_more_nil].
Qed.

Lemma written_read : forall t, well_named t -> reads (written t) (tree t).
Proof.
  intros t W. apply (reads_ev _ (tokens t)).
  - apply lexed_all. now apply lexed_written.
  - rewrite <- (app_nil_r (tokens t)). apply (ev_from 6); [lia| |exact I|].
    + apply ev_tokens; auto. exact I.
    + intros _. apply tokens_first.
Qed.
