(** * Printed formulas, read again. *)

From Coq Require Import ZArith Lia List Bool Ascii String.
From Verif Require Import Result Keys KeySpec Aliases AliasSpec C22Proofs C26Proofs Formula FormulaSpec Simplify Build
  PyRead PyReadSpec PyReadProofs C55Proofs C55More PrintTree PrintSpec.
Import ListNotations.
Open Scope string_scope.

(** ** Tokens *)

Definition needs (p : nat) (g : fm) : bool := match print_spec g with Some (_, c) => Nat.leb p c | None => false end.
Definition bsym (b : binop) : option (sym * nat) :=
  match b with
  | BAdd => Some (SPlus, 4) | BSub => Some (SDash, 4) | BMult => Some (SStar, 3) | BDiv => Some (SSlash, 3)
  | BLess => Some (SLt, 3) | BLessEq => Some (SLe, 3) | BEqual => Some (SEq, 3) | BNotEqual => Some (SNe, 3)
  | _ => None
  end.
Definition ctokens (id : string) (first : list token) (rest : list (list token)) (ps : list Z) : list token :=
  (KName id :: K SLPar :: first ++ flat_map (fun t => K SComma :: t) rest ++ ptokens ps ++ [K SRPar])%list.
Fixpoint toks (f : fm) : list token :=
  let wt p g := if needs p g then (K SLPar :: toks g ++ [K SRPar])%list else toks g in
  match f with
  | Var i d c => ctokens "Var" (int_tokens i) [] [Z.of_nat d; Z.of_nat c]
  | Zero d => ctokens "Zero" (int_tokens (Z.of_nat d)) [] []
  | Int z => int_tokens z
  | Rat p q => int_tokens p ++ K SSlash :: int_tokens q
  | Un u g =>
      match u with
      | UMinus => K SDash :: wt 2 g
      | USquare => wt 1 g ++ [K SPower; KNum 2]
      | UInv => KNum 1 :: K SSlash :: wt 3 g
      | _ => ctokens (un_id u) (toks g) [] (un_params u)
      end
  | Bin b g h =>
      match bsym b with
      | Some (s, p) => wt p g ++ K s :: wt p h
      | None => ctokens (bin_id b) (toks g) [toks h] []
      end
  | Ter t g h k => ctokens (ter_id t) (toks g) [toks h; toks k] []
  | Lin l g =>
      match l with
      | LElem m => wt 1 g ++ K SLBra :: int_tokens (Z.of_nat m) ++ [K SRBra]
      | _ => ctokens (lin_id l) (toks g) [] (lin_params l)
      end
  | Bil b g h =>
      match b with
      | KScal => wt 3 g ++ K SBar :: wt 3 h
      | _ => ctokens (bil_id b) (toks g) [toks h] []
      end
  | Cat g h => K SLBra :: wt 9 g ++ K SComma :: wt 9 h ++ [K SRBra]
  | Sel s g => ctokens (sel_id s) (toks g) [] (sel_params s)
  end%list.
Definition wt (p : nat) (g : fm) : list token := if needs p g then (K SLPar :: toks g ++ [K SRPar])%list else toks g.

(** First characters. *)
Definition opening (c : ascii) : bool := name_char c || (c =? "(")%char || (c =? "-")%char || (c =? "[")%char.
Definition opens (s : string) : Prop := match s with String c _ => opening c = true | _ => False end.

Lemma opens_app : forall a b, opens a -> opens (a ++ b).
Proof. intros [|c a] b H; [contradiction|exact H]. Qed.

Lemma opens_int : forall z, opens (str_int z).
Proof.
  intros z. destruct (Z.ltb_spec z 0) as [H|H].
  - rewrite str_neg by exact H. reflexivity.
  - destruct (str_int_digits z H) as [D N]. destruct (str_int z) as [|c s]; [congruence|].
    cbn [every] in D. apply andb_true_iff in D. destruct D as [D _].
    cbn. unfold opening. now destruct (digit_not_start c D) as [_ ->].
Qed.

Lemma wrapped_paren : forall m p g s, wrapped (Some (m, p)) (print_spec g, s) = if needs p g then "(" ++ s ++ ")" else s.
Proof.
  intros m p g s. unfold wrapped, needs. cbn [fst snd]. destruct (print_spec g) as [[m' c]|]; reflexivity.
Qed.
Lemma wrapped_none : forall x s, wrapped None (x, s) = s.
Proof. intros [[m c]|] s; reflexivity. Qed.

Lemma opens_wrapped : forall sp g, opens (printed g) -> opens (wrapped sp (print_spec g, printed g)).
Proof.
  intros [[m p]|] g H; [rewrite wrapped_paren; destruct (needs p g); [reflexivity|exact H]|now rewrite wrapped_none].
Qed.

Lemma opens_printed : forall f, opens (printed f).
Proof.
  induction f as [i d c|d|z|p q|u f IH|b f IHf g IHg|t f IHf g IHg h IHh|l f IH|b f IHf g IHg|f IHf g IHg|s f IH];
    cbn [printed]; unfold layout.
  - reflexivity.
  - reflexivity.
  - cbn. rewrite app_nil_r_s. apply opens_int.
  - apply opens_app, opens_int.
  - destruct u; cbn [print_spec around map String.concat append]; try reflexivity.
    rewrite ?app_assoc_s. apply opens_app. now apply opens_wrapped.
  - destruct b; cbn [print_spec around map]; try reflexivity; cbn [String.concat append];
      rewrite ?app_assoc_s; apply opens_app; now apply opens_wrapped.
  - destruct t; reflexivity.
  - destruct l; cbn [print_spec around map String.concat append]; try reflexivity.
    rewrite ?app_assoc_s. apply opens_app. now apply opens_wrapped.
  - destruct b; cbn [print_spec around map]; try reflexivity; cbn [String.concat append];
      rewrite ?app_assoc_s; apply opens_app; now apply opens_wrapped.
  - reflexivity.
  - destruct s; reflexivity.
Qed.

Lemma opening_sym2 : forall c d, opening d = true -> sym2 c d = None.
Proof.
  intros c d H. unfold sym2.
  destruct (Ascii.eqb_spec d "*") as [->|N]; [discriminate H|].
  destruct (Ascii.eqb_spec d "=") as [->|N']; [discriminate H|].
  now rewrite ?andb_false_r.
Qed.

Lemma lex_sym1 : forall c k s, sym1 c = Some k -> name_char c = false -> c <> " "%char ->
  match s with String d _ => sym2 c d = None | _ => True end -> lex "" (String c s) = ocons (K k) (lex "" s).
Proof.
  intros c k s S N W H. cbn [lex word]. rewrite N. destruct (Ascii.eqb_spec c " "); [congruence|].
  destruct s as [|d r].
  - rewrite S. reflexivity.
  - rewrite H, S. destruct (lex "" (String d r)); reflexivity.
Qed.

Lemma lexed_op : forall c k b tb, sym1 c = Some k -> name_char c = false -> c <> " "%char -> opens b ->
  lexed_word b tb -> lexed_word (String c b) (K k :: tb).
Proof.
  intros c k b tb S N W O B s C. specialize (B s C). cbn [append]. rewrite (lex_sym1 c k); auto.
  - rewrite B. destruct (lex "" s); reflexivity.
  - destruct b as [|d b]; [contradiction|]. now apply opening_sym2.
Qed.

Lemma lexed_op2 : forall c d k b tb, sym2 c d = Some k -> name_char c = false -> c <> " "%char ->
  lexed_word b tb -> lexed_word (String c (String d b)) (K k :: tb).
Proof.
  intros c d k b tb S N W B s C. specialize (B s C).
  cbn [append lex word]. rewrite N. destruct (Ascii.eqb_spec c " "); [congruence|].
  rewrite S. cbn [append] in B. rewrite B. destruct (lex "" s); reflexivity.
Qed.

Lemma lexed_wrapped : forall m p g, lexed_word (printed g) (toks g) ->
  lexed_word (wrapped (Some (m, p)) (print_spec g, printed g)) (wt p g).
Proof.
  intros m p g H. rewrite wrapped_paren. unfold wt. destruct (needs p g); [|exact H].
  apply lexed_weak. apply (lexed_app "(" _ [K SLPar]); [exact lexed_lpar|].
  apply lexed_word_app; auto; [exact lexed_rpar|discriminate|reflexivity].
Qed.

(** A call with arguments and parameters. *)
Lemma lexed_args : forall rest b tb, Forall (fun x => lexed_word (fst x) (snd x)) rest -> ends b -> lexed b tb ->
  ends (String.concat "" (map (fun x => "," ++ fst x) rest) ++ b)
  /\ lexed (String.concat "" (map (fun x => "," ++ fst x) rest) ++ b) (flat_map (fun x => K SComma :: snd x) rest ++ tb)%list.
Proof.
  intros rest b tb F E B. induction F as [|[a ta] rest A F [IE IH]]; [split; [exact E|exact B]|].
  cbn [map flat_map fst snd]. rewrite concat_cons, !app_assoc_s. split.
  - split; cbn; [discriminate|reflexivity].
  - cbn [app]. change (K SComma :: (ta ++ flat_map (fun x => K SComma :: snd x) rest) ++ tb)%list
      with ([K SComma] ++ (ta ++ flat_map (fun x => K SComma :: snd x) rest) ++ tb)%list.
    rewrite <- app_assoc. apply lexed_app; [exact lexed_comma|].
    destruct IE as [N C]. apply lexed_word_app; auto.
Qed.

Lemma lexed_ctokens : forall id a ta rest ps, identifier id -> lexed_word a ta ->
  Forall (fun x => lexed_word (fst x) (snd x)) rest ->
  lexed_word ((id ++ "(") ++ String.concat "," (a :: map fst rest)
              ++ String.concat "" (map (fun p => "," ++ str_int p) ps) ++ ")")
             (ctokens id ta (map snd rest) ps).
Proof.
  intros id a ta rest ps I A F. apply lexed_weak. unfold ctokens.
  rewrite !app_assoc_s, concat_sep, !app_assoc_s, map_map. apply lexed_call; auto.
  destruct (lexed_params "," ps ")" [K SRPar]) as [E L]; auto; [exact ends_rpar|exact lexed_rpar|].
  destruct (lexed_args rest _ _ F E L) as [E' L'].
  rewrite flat_map_concat_map, map_map, <- flat_map_concat_map.
  destruct E' as [N C]. apply lexed_word_app; auto.
Qed.

Lemma lexed_plain : forall id z ps, identifier id ->
  lexed_word ((id ++ "(") ++ "" ++ String.concat "," (map str_int (z :: ps)) ++ ")") (ctokens id (int_tokens z) [] ps).
Proof.
  intros id z ps I.
  pose proof (lexed_ctokens id (str_int z) (int_tokens z) [] ps I (lexed_int z) (Forall_nil _)) as H.
  cbn [map] in *. rewrite concat_sep. rewrite map_map. cbn [append String.concat] in *. rewrite !app_assoc_s in *. exact H.
Qed.

Ltac named := first [ident | match goal with |- identifier (?f ?x) => destruct x; ident end].

Lemma lexed_printed : forall f, lexed_word (printed f) (toks f).
Proof.
  assert (T2 : forall g a, lexed_word g a -> Forall (fun x => lexed_word (fst x) (snd x)) [(g, a)]) by auto.
  assert (OP : forall b s p g h, bsym b = Some (s, p) -> lexed_word (printed g) (toks g) -> lexed_word (printed h) (toks h) ->
    lexed_word (printed (Bin b g h)) (wt p g ++ K s :: wt p h)%list).
  { intros b s p g h B G H. 
    assert (W : forall m, opens (wrapped (Some (m, p)) (print_spec h, printed h))) by (intros m; apply opens_wrapped, opens_printed).
    destruct b; try discriminate B; injection B as <- <-; cbn [printed print_spec]; unfold layout; cbn [around map String.concat append];
    rewrite ?app_nil_r_s; (apply lexed_word_app_word; [now apply lexed_wrapped| |discriminate|reflexivity]);
    first [apply lexed_op; [reflexivity|reflexivity|discriminate|apply W|now apply lexed_wrapped]
          |apply lexed_op2; [reflexivity|reflexivity|discriminate|now apply lexed_wrapped]]. }
  induction f as [i d c|d|z|p q|u f IH|b f IHf g IHg|t f IHf g IHg h IHh|l f IH|b f IHf g IHg|f IHf g IHg|s f IH].
  - apply (lexed_plain "Var" i [Z.of_nat d; Z.of_nat c]). ident.
  - apply (lexed_plain "Zero" (Z.of_nat d) []). ident.
  - cbn. rewrite app_nil_r_s. apply lexed_int.
  - cbn [printed toks]. apply lexed_word_app_word; [apply lexed_int| |discriminate|reflexivity].
    apply lexed_op; [reflexivity|reflexivity|discriminate|apply opens_int|apply lexed_int].
  - assert (G : forall u, print_spec (Un u f) = None ->
      lexed_word (printed (Un u f)) (ctokens (un_id u) (toks f) [] (un_params u))).
    { intros v S. cbn [printed]. unfold layout. rewrite S. cbn [around map].
      rewrite wrapped_none. apply (lexed_ctokens (un_id v) (printed f) (toks f) []); auto. named. }
    destruct u; try (apply G; reflexivity); clear G.
    + cbn [printed print_spec]. unfold layout. cbn [around map String.concat append un_params]. rewrite ?app_nil_r_s.
      apply lexed_op; [reflexivity|reflexivity|discriminate|apply opens_wrapped, opens_printed|now apply lexed_wrapped].
    + cbn [printed print_spec]. unfold layout. cbn [around map String.concat append un_params].
      apply lexed_word_app_word; [now apply (lexed_wrapped (Post "**2") 1)| |discriminate|reflexivity].
      apply lexed_op2; [reflexivity|reflexivity|discriminate|apply (lexed_num 2); discriminate].
    + cbn [printed print_spec]. unfold layout. cbn [around map String.concat append un_params]. rewrite ?app_nil_r_s.
      apply (lexed_word_app_word "1" _ [KNum 1]); [apply (lexed_num 1); discriminate| |discriminate|reflexivity].
      apply lexed_op; [reflexivity|reflexivity|discriminate|apply opens_wrapped, opens_printed|now apply lexed_wrapped].
  - destruct (bsym b) as [[s p]|] eqn:B.
    + cbn [toks]. rewrite B. now apply OP.
    + destruct b; try discriminate B; cbn [printed print_spec]; unfold layout; cbn [around map]; rewrite !wrapped_none.
      * apply (lexed_ctokens "Atan2" (printed f) (toks f) [(printed g, toks g)] []); auto. ident.
      * apply (lexed_ctokens "Powf" (printed f) (toks f) [(printed g, toks g)] []); auto. ident.
  - cbn [printed print_spec]; unfold layout; cbn [around map]; rewrite !wrapped_none.
    apply (lexed_ctokens (ter_id t) (printed f) (toks f) [(printed g, toks g); (printed h, toks h)] []); auto. named.
  - assert (G : forall l, print_spec (Lin l f) = None ->
      lexed_word (printed (Lin l f)) (ctokens (lin_id l) (toks f) [] (lin_params l))).
    { intros v S. cbn [printed]. unfold layout. rewrite S. cbn [around map].
      rewrite wrapped_none. apply (lexed_ctokens (lin_id v) (printed f) (toks f) []); auto. named. }
    destruct l; try (apply G; reflexivity); clear G.
    cbn [printed print_spec]. unfold layout. cbn [around map String.concat append lin_params].
    apply lexed_word_app_word; [now apply (lexed_wrapped (Item "[" "]") 1)| |discriminate|reflexivity].
    rewrite ?app_assoc_s. apply lexed_weak. apply (lexed_cons "["); [exact lexed_lbra|].
    apply lexed_word_app; [apply lexed_int|exact lexed_rbra|discriminate|reflexivity].
  - destruct b; cbn [printed print_spec]; unfold layout; cbn [around map]; rewrite ?wrapped_none.
    + cbn [String.concat append]. rewrite ?app_nil_r_s.
      apply lexed_word_app_word; [now apply lexed_wrapped| |discriminate|reflexivity].
      apply lexed_op; [reflexivity|reflexivity|discriminate|apply opens_wrapped, opens_printed|now apply lexed_wrapped].
    + apply (lexed_ctokens "MatVecMult" (printed f) (toks f) [(printed g, toks g)] []); auto. ident.
    + apply (lexed_ctokens "VecMatMult" (printed f) (toks f) [(printed g, toks g)] []); auto. ident.
    + apply (lexed_ctokens "TensorProd" (printed f) (toks f) [(printed g, toks g)] []); auto. ident.
  - cbn [printed print_spec]; unfold layout; cbn [around map].
    cbn [String.concat append]. rewrite ?app_assoc_s. apply lexed_weak. apply (lexed_cons "["); [exact lexed_lbra|].
    apply lexed_word_app; [now apply lexed_wrapped| |discriminate|reflexivity].
    apply (lexed_cons ","); [exact lexed_comma|].
    apply lexed_word_app; [now apply lexed_wrapped|exact lexed_rbra|discriminate|reflexivity].
  - cbn [printed]. assert (S : print_spec (Sel s f) = None) by reflexivity. unfold layout. rewrite S. cbn [around map].
    rewrite wrapped_none. apply (lexed_ctokens (sel_id s) (printed f) (toks f) []); auto. named.
Qed.

(** ** Expressions *)

Definition plevel (f : fm) : nat :=
  match f with
  | Int z => if (z <? 0)%Z then 4 else 6
  | Rat _ _ => 3
  | Un USquare _ => 5
  | Un UMinus _ => 4
  | Un UInv _ | Bin BMult _ _ | Bin BDiv _ _ => 3
  | Bin BAdd _ _ | Bin BSub _ _ => 2
  | Bil KScal _ _ => 1
  | Bin BLess _ _ | Bin BLessEq _ _ | Bin BEqual _ _ | Bin BNotEqual _ _ => 0
  | _ => 6
  end.

Definition At (lev : nat) (ts : list token) (a : py) : Prop :=
  forall r, stops lev r -> Ev (fun n => parse n lev (ts ++ r)%list) a r.
Definition Prim (ts : list token) (a : py) : Prop :=
  forall r b r', Ev (fun n => trailers n a r) b r' -> Ev (fun n => parse n 6 (ts ++ r)%list) b r'.
Definition nd (ts : list token) : Prop := forall r, nodash (ts ++ r)%list.
Definition nc (ts : list token) : Prop := forall r, notclose (ts ++ r)%list.

Lemma at_prim : forall ts a, Prim ts a -> At 6 ts a.
Proof. intros ts a P r S. apply (P r a r). now apply ev_trail_stop. Qed.

Lemma at_down : forall p lev ts a, At p ts a -> lev <= p <= 6 -> (lev <= 4 < p -> nd ts) -> At lev ts a.
Proof.
  intros p lev ts a A L N r S. apply (ev_from p); auto.
  - apply A. now apply (stops_le lev).
  - intros B. now apply N.
Qed.

Lemma prim_par : forall ts a, At 0 ts a -> Prim (K SLPar :: ts ++ [K SRPar])%list a.
Proof.
  intros ts a A r b r' T. cbn [app]. rewrite <- app_assoc. cbn [app].
  eapply ev_6; [|exact T]. apply ev_par. apply A. exact I.
Qed.

Lemma ev_args : forall rest l, Forall2 (At 0) rest l -> forall ts ps r r', stops 0 ts ->
  Ev (fun n => more n SRPar ts) ps r' -> r = ts ->
  Ev (fun n => more n SRPar (flat_map (fun t => K SComma :: t) rest ++ ts)%list) (l ++ ps)%list r'
  /\ stops 0 (flat_map (fun t => K SComma :: t) rest ++ ts)%list.
Proof.
  intros rest l F. induction F as [|t a rest l A F IH]; intros ts ps r r' S P _; [split; auto|].
  destruct (IH ts ps ts r' S P eq_refl) as [IH1 IH2].
  cbn [flat_map app]. rewrite <- app_assoc. split; [|exact I].
  eapply ev_more; [now left|apply A; exact IH2|exact IH1].
Qed.

Lemma prim_call : forall id first a rest l ps, At 0 first a -> nc first -> Forall2 (At 0) rest l ->
  Prim (ctokens id first rest ps) (PCall (PName id) (a :: l ++ map literal ps)).
Proof.
  intros id first a rest l ps A N F r b r' T. unfold ctokens. cbn [app]. rewrite <- !app_assoc.
  eapply ev_6; [apply ev_name|]. eapply ev_trail_call; [|exact T].
  destruct (ev_params SRPar ps r) as [P Q]; [now left|].
  destruct (ev_args rest l F _ _ _ r Q P eq_refl) as [P' Q'].
  eapply ev_items; [now left|apply N|apply A; exact Q'|exact P'].
Qed.

Lemma at_literal : forall z, At 0 (int_tokens z) (literal z).
Proof. intros z r S. now apply ev_int0. Qed.
Lemma prim_num : forall z, Prim [KNum z] (PNum z).
Proof. intros z r b r' T. eapply ev_6; [apply ev_num|exact T]. Qed.

Lemma needs1 : forall g, faithful g -> ~ negative g -> needs 1 g = false -> plevel g = 6.
Proof.
  intros [| |z| |u|b| |l|b| |] F N H; try reflexivity; try contradiction.
  - cbn in N. cbn. destruct (Z.ltb_spec z 0); [contradiction|reflexivity].
  - destruct u; try reflexivity; discriminate H.
  - destruct b; try reflexivity; discriminate H.
  - destruct b; try reflexivity; discriminate H.
Qed.
Lemma needs3 : forall p g, 2 <= p <= 3 -> faithful g -> needs p g = false -> 4 <= plevel g.
Proof.
  intros p [| |z| |u|b| |l|b| |] L F H; try (cbn; lia); try contradiction.
  - cbn. destruct (z <? 0)%Z; lia.
  - destruct u; cbn in *; try lia; destruct p as [|[|[|[|]]]]; try lia; discriminate H.
  - destruct b; cbn in *; try lia; destruct p as [|[|[|[|]]]]; try lia; discriminate H.
  - destruct b; cbn in *; try lia; destruct p as [|[|[|[|]]]]; try lia; discriminate H.
Qed.
Lemma needs4 : forall g, faithful g -> ~ loose g -> needs 4 g = false -> 3 <= plevel g.
Proof.
  intros [| |z| |u|b| |l|b| |] F N H; try (cbn; lia); try contradiction.
  - cbn. destruct (z <? 0)%Z; lia.
  - destruct u; cbn; lia.
  - destruct b; cbn in *; try lia; try discriminate H; tauto.
  - destruct b; cbn in *; try lia; tauto.
Qed.

Definition wlevel (p : nat) (g : fm) : nat := if needs p g then 6 else plevel g.

Lemma toks_first : forall f, nc (toks f) /\ (faithful f -> 5 <= plevel f -> nd (toks f)).
Proof.
  assert (W : forall p g, nc (toks g) -> forall ts, nc (wt p g ++ ts)%list).
  { intros p g H ts r. unfold wt. destruct (needs p g); [exact I|]. rewrite <- app_assoc. apply H. }
  assert (W1 : forall g, faithful g -> ~ negative g -> (faithful g -> 5 <= plevel g -> nd (toks g)) -> forall ts, nd (wt 1 g ++ ts)%list).
  { intros g F N H ts r. unfold wt. destruct (needs 1 g) eqn:E; [exact I|]. rewrite <- app_assoc.
    apply H; auto. rewrite (needs1 g F N E). lia. }
  induction f as [i d c|d|z|p q|u f IH|b f IHf g IHg|t f IHf g IHg h IHh|l f IH|b f IHf g IHg|f IHf g IHg|s f IH].
  - split; [intros r; exact I|intros _ _ r; exact I].
  - split; [intros r; exact I|intros _ _ r; exact I].
  - split; cbn [toks plevel]; unfold int_tokens; destruct (z <? 0)%Z; try (intros r; exact I); intros _ L r; [lia|exact I].
  - split; [|contradiction]. intros r. cbn [toks]. unfold int_tokens. destruct (p <? 0)%Z; exact I.
  - destruct IH as [IH1 IH2]. destruct u; (split; [|intros F L]); try (intros r; exact I); try (cbn in L; lia).
    + exact (W 1 f IH1 _).
    + cbn [faithful] in F. apply (W1 f); tauto.
  - destruct IHf as [IH1 IH2].
    destruct b; (split; [|intros F L]); try (intros r; exact I); try (cbn in L; lia); apply W; exact IH1.
  - split; [intros r; exact I|intros _ _ r; exact I].
  - destruct IH as [IH1 IH2]. destruct l; (split; [|intros F L]); try (intros r; exact I); try (cbn in L; lia).
    + exact (W 1 f IH1 _).
    + cbn [faithful] in F. apply (W1 f); tauto.
  - destruct IHf as [IH1 IH2].
    destruct b; (split; [|intros F L]); try (intros r; exact I); try (cbn in L; lia); apply W; exact IH1.
  - split; [intros r; exact I|intros _ _ r; exact I].
  - split; [intros r; exact I|intros _ _ r; exact I].
Qed.

Definition good (f : fm) : Prop :=
  (plevel f = 6 -> Prim (toks f) (structure f)) /\ At (plevel f) (toks f) (structure f).

Lemma plevel_le : forall f, plevel f <= 6.
Proof.
  intros f. destruct f as [| |z| |u| b| |l|b| |]; cbn; try lia.
  - destruct (z <? 0)%Z; lia.
  - destruct u; lia.
  - destruct b; lia.
  - destruct b; lia.
Qed.

Lemma good_0 : forall f, faithful f -> good f -> At 0 (toks f) (structure f).
Proof.
  intros f F [_ A]. apply (at_down (plevel f)); auto.
  - split; [lia|apply plevel_le].
  - intros L. apply toks_first; auto. lia.
Qed.

Lemma good_wt : forall p lev f, faithful f -> good f -> lev <= wlevel p f -> At lev (wt p f) (structure f).
Proof.
  intros p lev f F G L. unfold wlevel, wt in *. destruct (needs p f) eqn:E.
  - apply (at_down 6); [|lia|intros _ r; exact I]. apply at_prim, prim_par. now apply good_0.
  - destruct G as [_ A]. apply (at_down (plevel f)); auto.
    + split; [lia|apply plevel_le].
    + intros B. apply toks_first; auto. lia.
Qed.

Lemma good_prim : forall f ts a, plevel f = 6 -> toks f = ts -> structure f = a -> Prim ts a -> good f.
Proof. intros f ts a L <- <- P. split; auto. rewrite L. now apply at_prim. Qed.

Lemma prim_wt1 : forall f, faithful f -> good f -> ~ negative f -> Prim (wt 1 f) (structure f).
Proof.
  intros f F G N. unfold wt. destruct (needs 1 f) eqn:E.
  - apply prim_par. now apply good_0.
  - apply G. now apply needs1.
Qed.

(** Operators that group from left to right. *)
Lemma at_binary : forall lev s x a y b, 1 <= lev <= 3 -> at_level lev s = true -> binds s = Some lev ->
  At (S lev) x a -> At (S lev) y b -> At lev (x ++ K s :: y)%list (PBin s a b).
Proof.
  intros lev s x a y b L A B X Y r S. rewrite <- app_assoc. cbn [app].
  eapply ev_left; [exact L|apply X; cbn; rewrite B; lia|].
  eapply ev_chain; [exact A|apply Y; now apply (stops_le lev); [lia|]|]. now apply ev_chain_stop.
Qed.
Lemma at_compare : forall s x a y b, compares s = true -> At 1 x a -> At 1 y b ->
  At 0 (x ++ K s :: y)%list (PCmp a [(s, b)]).
Proof.
  intros s x a y b C X Y r S. rewrite <- app_assoc. cbn [app].
  eapply (ev_0 _ _ _ [(s, b)]); [apply X; destruct s; try discriminate C; cbn; lia|].
  eapply ev_cmp; [exact C|apply Y; now apply (stops_le 0); [lia|]|]. now apply ev_cmp_stop.
Qed.

Lemma wlevel3 : forall p f, 2 <= p <= 3 -> faithful f -> 4 <= wlevel p f.
Proof. intros p f L F. unfold wlevel. destruct (needs p f) eqn:E; [lia|]. now apply (needs3 p). Qed.
Lemma wlevel4 : forall f, faithful f -> ~ loose f -> 3 <= wlevel 4 f.
Proof. intros f F N. unfold wlevel. destruct (needs 4 f) eqn:E; [lia|]. now apply needs4. Qed.

Lemma ev_trail_item : forall a ts i r b r', Ev (fun n => parse n 0 ts) i (K SRBra :: r) ->
  Ev (fun n => trailers n (PItem a i) r) b r' -> Ev (fun n => trailers n a (K SLBra :: ts)) b r'.
Proof.
  intros a ts i r b r' [n H] [k G]. ev (n + k). cbn [trailers]. rewrite H by lia. cbn [pbind]. apply G. lia.
Qed.

Lemma good_printed : forall f, faithful f -> good f.
Proof.
  induction f as [i d c|d|z|p q|u f IH|b f IHf g IHg|t f IHf g IHg h IHh|l f IH|b f IHf g IHg|f IHf g IHg|s f IH];
    intros F; try contradiction.
  - eapply good_prim; try reflexivity.
    apply (prim_call "Var" (int_tokens i) (literal i) [] [] [Z.of_nat d; Z.of_nat c]);
      [apply at_literal|intros r; apply notclose_int|constructor].
  - eapply good_prim; try reflexivity.
    apply (prim_call "Zero" _ (literal (Z.of_nat d)) [] [] []); [apply at_literal|intros r; apply notclose_int|constructor].
  - unfold good. cbn [plevel toks structure]. unfold int_tokens, literal. destruct (z <? 0)%Z eqn:E.
    + split; [discriminate|]. intros r S. cbn [app]. apply ev_neg.
      apply (at_down 6 4 [KNum (- z)] (PNum (- z))); [apply at_prim, prim_num|lia|intros _ r'; exact I|exact S].
    + split; [intros _; apply prim_num|apply at_prim, prim_num].
  - assert (Ff : faithful f) by (destruct u; try exact F; apply F). specialize (IH Ff).
    pose proof (good_0 f Ff IH) as Z0. destruct (toks_first f) as [N _].
    assert (P : forall id ps, Prim (ctokens id (toks f) [] ps) (PCall (PName id) (structure f :: map literal ps))).
    { intros id ps. apply (prim_call id (toks f) (structure f) [] [] ps); auto. }
    destruct u; try (eapply good_prim; [reflexivity..|apply P]); clear P.
    + split; [discriminate|]. intros r S. change (plevel (Un UMinus f)) with 4 in *. cbn [toks structure].
      change (Ev (fun n => parse n 4 (K SDash :: wt 2 f ++ r)%list) (PNeg (structure f)) r). apply ev_neg.
      apply (good_wt 2 4 f Ff IH); [|exact S]. apply wlevel3; auto; lia.
    + split; [discriminate|]. intros r S. change (plevel (Un USquare f)) with 5 in *.
      change (Ev (fun n => parse n 5 ((wt 1 f ++ [K SPower; KNum 2]) ++ r)%list) (PPow (structure f) (PNum 2)) r).
      rewrite <- app_assoc. cbn [app]. cbn [faithful] in F. eapply ev_power.
      * apply (prim_wt1 f Ff IH); [tauto|]. apply ev_trail_stop. cbn. lia.
      * apply (at_down 6 4 [KNum 2] (PNum 2)); [apply at_prim, prim_num|lia|intros _ r'; exact I|].
        destruct r as [|[| |s] r]; cbn in *; auto. destruct s; cbn in *; auto; lia.
    + split; [discriminate|]. change (plevel (Un UInv f)) with 3.
      apply (at_binary 3 SSlash [KNum 1] (PNum 1) (wt 3 f) (structure f)); try reflexivity; [lia| |].
      * apply (at_down 6); [apply at_prim, prim_num|lia|intros _ r; exact I].
      * apply good_wt; auto. apply wlevel3; auto; lia.
  - assert (Fs : faithful f /\ faithful g) by (destruct b; cbn [faithful] in F; tauto). destruct Fs as [Ff Fg].
    specialize (IHf Ff). specialize (IHg Fg).
    assert (P : forall id, Prim (ctokens id (toks f) [toks g] []) (PCall (PName id) [structure f; structure g])).
    { intros id. apply (prim_call id (toks f) (structure f) [toks g] [structure g] []);
        [now apply good_0|apply toks_first|repeat constructor; now apply good_0]. }
    assert (L3 : forall k, faithful k -> 4 <= wlevel 3 k) by (intros k Fk; apply wlevel3; auto; lia).
    destruct b; try (eapply good_prim; [reflexivity..|apply P]); clear P; (split; [discriminate|]).
    + cbn [faithful] in F. apply (at_binary 2 SPlus (wt 4 f) _ (wt 4 g)); try reflexivity; [lia|apply good_wt; auto; apply wlevel4; tauto..].
    + cbn [faithful] in F. apply (at_binary 2 SDash (wt 4 f) _ (wt 4 g)); try reflexivity; [lia|apply good_wt; auto; apply wlevel4; tauto..].
    + apply (at_binary 3 SStar (wt 3 f) _ (wt 3 g)); try reflexivity; [lia|apply good_wt; auto..].
    + apply (at_binary 3 SSlash (wt 3 f) _ (wt 3 g)); try reflexivity; [lia|apply good_wt; auto..].
    + apply (at_compare SEq (wt 3 f) _ (wt 3 g)); [reflexivity|apply good_wt; auto; specialize (L3 f Ff); lia|apply good_wt; auto; specialize (L3 g Fg); lia].
    + apply (at_compare SNe (wt 3 f) _ (wt 3 g)); [reflexivity|apply good_wt; auto; specialize (L3 f Ff); lia|apply good_wt; auto; specialize (L3 g Fg); lia].
    + apply (at_compare SLt (wt 3 f) _ (wt 3 g)); [reflexivity|apply good_wt; auto; specialize (L3 f Ff); lia|apply good_wt; auto; specialize (L3 g Fg); lia].
    + apply (at_compare SLe (wt 3 f) _ (wt 3 g)); [reflexivity|apply good_wt; auto; specialize (L3 f Ff); lia|apply good_wt; auto; specialize (L3 g Fg); lia].
  - destruct F as (Ff & Fg & Fh). eapply good_prim; try reflexivity.
    apply (prim_call (ter_id t) (toks f) (structure f) [toks g; toks h] [structure g; structure h] []);
      [apply good_0; auto|apply toks_first|repeat constructor; apply good_0; auto].
  - assert (Ff : faithful f) by (destruct l; try exact F; apply F). specialize (IH Ff).
    assert (P : forall id ps, Prim (ctokens id (toks f) [] ps) (PCall (PName id) (structure f :: map literal ps))).
    { intros id ps. apply (prim_call id (toks f) (structure f) [] [] ps); [now apply good_0|apply toks_first|constructor]. }
    destruct l; try (eapply good_prim; [reflexivity..|apply P]); clear P.
    eapply good_prim; try reflexivity. cbn [faithful] in F.
    intros r b r' T. change (Ev (fun n => parse n 6 ((wt 1 f ++ K SLBra :: int_tokens (Z.of_nat m) ++ [K SRBra]) ++ r)%list) b r').
    rewrite <- app_assoc. cbn [app]. rewrite <- app_assoc. cbn [app].
    apply (prim_wt1 f Ff IH); [tauto|]. eapply ev_trail_item; [|exact T]. apply ev_int0. exact I.
  - assert (Fs : faithful f /\ faithful g) by (destruct b; cbn [faithful] in F; tauto). destruct Fs as [Ff Fg].
    specialize (IHf Ff). specialize (IHg Fg).
    assert (P : forall id, Prim (ctokens id (toks f) [toks g] []) (PCall (PName id) [structure f; structure g])).
    { intros id. apply (prim_call id (toks f) (structure f) [toks g] [structure g] []);
        [now apply good_0|apply toks_first|repeat constructor; now apply good_0]. }
    destruct b; try (eapply good_prim; [reflexivity..|apply P]); clear P. split; [discriminate|].
    apply (at_binary 1 SBar (wt 3 f) _ (wt 3 g)); try reflexivity; [lia|apply good_wt; auto..];
      (eapply Nat.le_trans; [|apply wlevel3; auto]; lia).
  - destruct F as [Ff Fg]. eapply good_prim; try reflexivity.
    intros r b r' T. change (Ev (fun n => parse n 6 (K SLBra :: (wt 9 f ++ K SComma :: wt 9 g ++ [K SRBra]) ++ r)%list) b r').
    rewrite <- app_assoc. cbn [app]. rewrite <- app_assoc. cbn [app].
    eapply ev_6; [|exact T]. apply PyReadProofs.ev_list.
    eapply ev_items; [now right| |apply (good_wt 9 0 f Ff (IHf Ff)); [lia|exact I]|].
    + unfold wt. destruct (needs 9 f); [exact I|apply toks_first].
    + eapply ev_more; [now right|apply (good_wt 9 0 g Fg (IHg Fg)); [lia|exact I]|apply ev_more_nil].
  - assert (P : forall id ps, Prim (ctokens id (toks f) [] ps) (PCall (PName id) (structure f :: map literal ps))).
    { intros id ps. apply (prim_call id (toks f) (structure f) [] [] ps); [apply good_0; auto|apply toks_first|constructor]. }
    destruct s; (eapply good_prim; [reflexivity..|apply P]).
Qed.

Lemma printed_read : forall f, faithful f -> reads (printed f) (structure f).
Proof.
  intros f F. apply (reads_ev _ (toks f)).
  - apply lexed_word_all, lexed_printed.
  - rewrite <- (app_nil_r (toks f)). apply (good_0 f F (good_printed f F)). exact I.
Qed.
