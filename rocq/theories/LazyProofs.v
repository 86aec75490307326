(** * Substitutions in the texts of expressions. *)

From Coq Require Import ZArith List Bool Ascii String Lia.
From Verif Require Import Result Keys KeySpec Folder Aliases AliasSpec LazyTensors LazySpec
  C22Proofs C25Proofs C26Proofs.
Import ListNotations.
Open Scope string_scope.

(** ** Pieces of texts *)

Inductive piece := PVar (sym : bool) (id dim : Z) (cat : string) | PText (s : string).

Definition keyword (sym : bool) : string := if sym then "VarSymb" else "Var".

Definition show (p : piece) : string :=
  match p with
  | PVar s a b c => keyword s ++ "(" ++ str_int a ++ "," ++ str_int b ++ "," ++ c ++ ")"
  | PText s => s
  end.

Fixpoint show_all (l : list piece) : string :=
  match l with [] => "" | p :: l' => show p ++ show_all l' end.

Fixpoint pieces (e : expr) : list piece :=
  match e with
  | EVar a b c => [PVar false a b (str_int c)]
  | ESym a b c => [PVar true a b (str_int c)]
  | ECst a => [PText a]
  | EUn a e b => PText a :: pieces e ++ [PText b]
  | EBin a e b f c => PText a :: pieces e ++ PText b :: pieces f ++ [PText c]
  | ETer a e b f c g d =>
      PText a :: pieces e ++ PText b :: pieces f ++ PText c :: pieces g ++ [PText d]
  end%list.

Lemma show_all_app : forall l l', show_all (l ++ l')%list = show_all l ++ show_all l'.
Proof. induction l; simpl; intros; auto. now rewrite IHl, app_assoc_s. Qed.

Lemma show_pieces : forall e, show_all (pieces e) = text e.
Proof.
  induction e; cbn [pieces show_all show text numbered keyword];
    rewrite ?show_all_app; cbn [show_all show]; rewrite ?app_nil_r_s, ?IHe, ?IHe1, ?IHe2, ?IHe3;
    try reflexivity.
  - rewrite show_all_app; cbn [show_all show]. now rewrite IHe2, app_nil_r_s.
  - rewrite show_all_app; cbn [show_all show]. rewrite IHe2, show_all_app; cbn [show_all show].
    now rewrite IHe3, app_nil_r_s.
Qed.

(** Categories: one character that is a digit or a letter. *)
Definition cat_char (c : string) : Prop := c = "0" \/ c = "1" \/ c = "2" \/ c = "i".

Definition piece_ok (p : piece) : Prop :=
  match p with
  | PVar s a b c => (0 <= b)%Z /\ cat_char c
  | PText s => separator s
  end.

Lemma category_char : forall c, category c -> cat_char (str_int c).
Proof. intros c [E|[E|E]]; rewrite E; unfold cat_char; auto. Qed.

Lemma pieces_ok : forall e, well_formed e -> Forall piece_ok (pieces e).
Proof.
  induction e; simpl; intros H.
  - destruct H as (A & B & C). constructor; [|constructor]. simpl. auto using category_char.
  - destruct H as (B & C). constructor; [|constructor]. simpl. auto using category_char.
  - repeat constructor; apply H.
  - destruct H as (A & B & E). constructor; auto. apply Forall_app. auto.
  - destruct H as (A & B & C & E & F). constructor; auto. apply Forall_app. split; auto.
    constructor; auto. apply Forall_app. auto.
  - destruct H as (A & B & C & D & E & F & G). constructor; auto. apply Forall_app. split; auto.
    constructor; auto. apply Forall_app. split; auto. constructor; auto. apply Forall_app. auto.
Qed.

(** ** Separators *)

Lemma separator_tail : forall c s, separator (String c s) -> separator s.
Proof.
  intros c s (A & B & C). split; [|split].
  - intros a b E. subst s. exact (A (String c a) b eq_refl).
  - intros a E. subst s. exact (B (String c a) eq_refl).
  - intros a E. subst s. exact (C (String c a) eq_refl).
Qed.

Lemma separator_start : forall c s r x, separator (String c s) ->
  String c s ++ r <> "Var" ++ x.
Proof.
  intros c s r x (A & B & C) E. simpl in E. injection E as -> E.
  destruct s as [|c1 s]; [exact (B "" eq_refl)|].
  simpl in E. injection E as -> E.
  destruct s as [|c2 s]; [exact (C "" eq_refl)|].
  simpl in E. injection E as -> E. exact (A "" s eq_refl).
Qed.

Lemma no_V_separator : forall s, has "V" s = false -> separator s.
Proof.
  intros s H. split; [|split].
  - intros a b ->. rewrite !has_app in H. simpl in H. rewrite orb_true_r in H. discriminate.
  - intros a ->. rewrite !has_app in H. simpl in H. rewrite orb_true_r in H. discriminate.
  - intros a ->. rewrite !has_app in H. simpl in H. rewrite orb_true_r in H. discriminate.
Qed.

(** ** Substitutions *)

(** Matchers that only succeed on texts that start with these letters. *)
Definition on_var (m : string -> option (string * nat)) : Prop :=
  forall s, (forall x, s <> "Var" ++ x) -> m s = None.

Lemma sub_separator : forall m p r, on_var m -> separator p ->
  sub_from m 0 (p ++ r) = p ++ sub_from m 0 r.
Proof.
  intros m p r O. induction p as [|c p IH]; intros S; auto.
  cbn [append sub_from]. rewrite O by (intros x; now apply (separator_start c p r x)).
  rewrite IH by (eapply separator_tail; eauto). reflexivity.
Qed.

Lemma sub_skip : forall m q r, sub_from m (String.length q) (q ++ r) = sub_from m 0 r.
Proof. induction q; simpl; intros; auto. Qed.

Lemma sub_match : forall m c q r new, m (String c (q ++ r)) = Some (new, S (String.length q)) ->
  sub_from m 0 (String c (q ++ r)) = new ++ sub_from m 0 r.
Proof. intros m c q r new H. cbn [sub_from]. rewrite H. cbn [pred]. now rewrite sub_skip. Qed.

Lemma sub_none : forall m c r, m (String c r) = None ->
  sub_from m 0 (String c r) = String c (sub_from m 0 r).
Proof. intros m c r H. cbn [sub_from]. now rewrite H. Qed.

(** The effect of a matcher on the pieces. *)
Definition acts (m : string -> option (string * nat)) (f : piece -> piece) (ok : piece -> Prop) : Prop :=
  on_var m /\
  (forall s a b c r, ok (PVar s a b c) ->
     sub_from m 0 (show (PVar s a b c) ++ r) = show (f (PVar s a b c)) ++ sub_from m 0 r)
  /\ (forall s, f (PText s) = PText s).

Lemma acts_all : forall m f ok l, acts m f ok -> Forall piece_ok l -> Forall ok l ->
  sub_from m 0 (show_all l) = show_all (map f l).
Proof.
  intros m f ok l (O & V & T). induction l as [|p l IH]; intros H K; auto.
  inversion H; inversion K; subst. cbn [show_all map]. destruct p as [s a b c|s].
  - rewrite V by auto. now rewrite IH.
  - rewrite T. cbn [show]. rewrite sub_separator; auto. now rewrite IH.
Qed.

Lemma str_int_V : forall z, has "V" (str_int z) = false.
Proof. intros. now apply str_int_has. Qed.

Lemma cat_V : forall c, cat_char c -> has "V" c = false.
Proof. now intros c [E|[E|[E|E]]]; rewrite E. Qed.

Lemma tail_separator : forall b c, cat_char c -> separator (str_int b ++ "," ++ c ++ ")").
Proof.
  intros b c C. apply no_V_separator. rewrite !has_app, str_int_V, (cat_V c C). reflexivity.
Qed.

(** The text of a variable after its first character. *)
Definition rest_of (s : bool) (a b : Z) (c : string) : string :=
  (if s then "arSymb(" else "ar(") ++ str_int a ++ "," ++ str_int b ++ "," ++ c ++ ")".

Lemma show_var : forall s a b c, show (PVar s a b c) = String "V" (rest_of s a b c).
Proof. now intros [] a b c. Qed.

Lemma rest_separator : forall s a b c, cat_char c -> separator (rest_of s a b c).
Proof.
  intros s a b c C. apply no_V_separator. unfold rest_of.
  rewrite !has_app, !str_int_V, (cat_V c C). now destruct s.
Qed.

Lemma acts_unmatched : forall m s a b c r, on_var m -> cat_char c ->
  m (show (PVar s a b c) ++ r) = None ->
  sub_from m 0 (show (PVar s a b c) ++ r) = show (PVar s a b c) ++ sub_from m 0 r.
Proof.
  intros m s a b c r O C N. rewrite show_var in *. cbn [append] in *.
  rewrite sub_none by exact N. rewrite sub_separator; auto. now apply rest_separator.
Qed.

Lemma acts_matched : forall m s a b c r q new post, on_var m ->
  show (PVar s a b c) = String "V" q ++ post -> separator post ->
  m (show (PVar s a b c) ++ r) = Some (new, S (String.length q)) ->
  sub_from m 0 (show (PVar s a b c) ++ r) = new ++ post ++ sub_from m 0 r.
Proof.
  intros m s a b c r q new post O E P M. rewrite E in *. rewrite app_assoc_s in *.
  cbn [append] in *. rewrite sub_match with (new := new) by exact M.
  now rewrite sub_separator.
Qed.

(** ** Replacement of a tag *)

Lemma prefix_inv : forall a s, prefix a s = true -> exists r, s = a ++ r.
Proof.
  induction a as [|x a IH]; intros s H; [now exists s|].
  destruct s as [|y s]; [discriminate|]. cbn [prefix] in H.
  destruct (ascii_dec x y); [|discriminate]. subst. apply IH in H. destruct H as (r & ->).
  now exists r.
Qed.

Lemma not_prefix : forall a s, (forall r, s <> a ++ r) -> prefix a s = false.
Proof.
  intros a s H. destruct (prefix a s) eqn:E; auto. apply prefix_inv in E. destruct E as (r & E).
  now destruct (H r).
Qed.

Definition replacer (old new : string) : string -> option (string * nat) :=
  fun s => if prefix old s then Some (new, String.length old) else None.

Lemma tag_on_var : forall i new, on_var (replacer (tag i) new).
Proof.
  intros i new s H. unfold replacer. rewrite not_prefix; auto. intros r E.
  apply (H ("(" ++ str_int i ++ "," ++ r)). rewrite E. unfold tag. now rewrite !app_assoc_s.
Qed.

Lemma tag_start : forall i s a b c r x, show (PVar s a b c) ++ r = tag i ++ x -> s = false /\ a = i.
Proof.
  intros i s a b c r x E. unfold tag in E. rewrite !app_assoc_s in E. destruct s.
  - exfalso. cbn in E. discriminate.
  - split; auto. cbn [show keyword] in E. rewrite !app_assoc_s in E.
    apply (app_inv_head_s "Var(") in E.
    apply str_int_split in E; [tauto|reflexivity|reflexivity].
Qed.

Definition set_id (i j : Z) (p : piece) : piece :=
  match p with
  | PVar false a b c => if (a =? i)%Z then PVar false j b c else p
  | _ => p
  end.

Lemma acts_tag : forall i j, acts (replacer (tag i) (tag j)) (set_id i j) piece_ok.
Proof.
  intros i j. split; [apply tag_on_var|]. split; [|reflexivity].
  intros s a b c r (B & C).
  destruct (prefix (tag i) (show (PVar s a b c) ++ r)) eqn:P.
  - pose proof (prefix_inv _ _ P) as (x & E). destruct (tag_start _ _ _ _ _ _ _ E) as [-> ->].
    cbn [set_id]. rewrite Z.eqb_refl.
    rewrite acts_matched with (q := "ar(" ++ str_int i ++ ",") (new := tag j)
        (post := str_int b ++ "," ++ c ++ ")").
    + unfold tag. cbn [show keyword]. now rewrite !app_assoc_s.
    + apply tag_on_var.
    + change (String "V" ("ar(" ++ str_int i ++ ",")) with ("Var(" ++ str_int i ++ ",").
      cbn [show keyword]. now rewrite !app_assoc_s.
    + now apply tail_separator.
    + unfold replacer. rewrite P. f_equal.
  - rewrite acts_unmatched; auto.
    + f_equal. destruct s; auto. cbn [set_id]. destruct (Z.eqb_spec a i); auto. subst a.
      exfalso. assert (X : show (PVar false i b c) ++ r
        = tag i ++ (str_int b ++ "," ++ c ++ ")" ++ r))
        by (unfold tag; cbn [show keyword]; now rewrite !app_assoc_s).
      rewrite X, prefix_app in P. discriminate.
    + apply tag_on_var.
    + unfold replacer. now rewrite P.
Qed.

Lemma replace_tag : forall i j l, Forall piece_ok l ->
  py_replace (tag i) (tag j) (show_all l) = show_all (map (set_id i j) l).
Proof. intros. unfold py_replace. eapply acts_all; eauto. apply acts_tag. Qed.

(** ** Symbolic variables become variables *)

Definition no_sym (p : piece) : piece :=
  match p with PVar _ a b c => PVar false a b c | _ => p end.

Lemma symb_on_var : forall new, on_var (replacer "VarSymb(" new).
Proof.
  intros new s H. unfold replacer. rewrite not_prefix; auto. intros r E.
  apply (H ("Symb(" ++ r)). now rewrite E.
Qed.

Lemma acts_symb : acts (replacer "VarSymb(" "Var(") no_sym piece_ok.
Proof.
  split; [apply symb_on_var|]. split; [|reflexivity].
  intros s a b c r (B & C). destruct s.
  - cbn [no_sym].
    rewrite acts_matched with (q := "arSymb(") (new := "Var(")
        (post := str_int a ++ "," ++ str_int b ++ "," ++ c ++ ")").
    + cbn [show keyword]. now rewrite !app_assoc_s.
    + apply symb_on_var.
    + reflexivity.
    + apply no_V_separator. rewrite !has_app, !str_int_V, (cat_V c C). reflexivity.
    + unfold replacer. cbn [show keyword]. rewrite !app_assoc_s.
      change ("VarSymb" ++ "(" ++ ?x) with ("VarSymb(" ++ x).
      rewrite prefix_app. reflexivity.
  - rewrite acts_unmatched; auto. apply symb_on_var.
Qed.

Lemma replace_symb : forall l, Forall piece_ok l ->
  py_replace "VarSymb(" "Var(" (show_all l) = show_all (map no_sym l).
Proof. intros. unfold py_replace. eapply acts_all; eauto. apply acts_symb. Qed.

(** ** Presence of a tag *)

Definition has_id (i : Z) (p : piece) : bool :=
  match p with PVar false a _ _ => (a =? i)%Z | _ => false end.

Lemma tag_V : forall i x, tag i ++ x = "Var" ++ ("(" ++ str_int i ++ "," ++ x).
Proof. intros. unfold tag. now rewrite !app_assoc_s. Qed.

Lemma contains_separator : forall i p r, separator p ->
  contains (tag i) (p ++ r) = contains (tag i) r.
Proof.
  intros i. induction p as [|c p IH]; intros r S; auto.
  cbn [append contains]. rewrite not_prefix.
  - simpl. apply IH. eapply separator_tail; eauto.
  - intros x E. rewrite tag_V in E. exact (separator_start c p r _ S E).
Qed.

Lemma contains_tag : forall i l, Forall piece_ok l ->
  contains (tag i) (show_all l) = existsb (has_id i) l.
Proof.
  intros i l H. induction H as [|p l K H IH]; auto.
  cbn [show_all existsb]. destruct p as [s a b c|s].
  - destruct K as (B & C).
    assert (E : contains (tag i) (show (PVar s a b c) ++ show_all l)
      = prefix (tag i) (show (PVar s a b c) ++ show_all l) || contains (tag i) (show_all l)).
    { rewrite show_var. cbn [append contains]. f_equal. apply contains_separator.
      now apply rest_separator. }
    rewrite E, IH. f_equal. cbn [has_id]. destruct (prefix _ _) eqn:P.
    + apply prefix_inv in P. destruct P as (x & X). apply tag_start in X. destruct X as [-> ->].
      now rewrite Z.eqb_refl.
    + destruct s; auto. destruct (Z.eqb_spec a i); auto. subst a.
      assert (X : show (PVar false i b c) ++ show_all l
        = tag i ++ (str_int b ++ "," ++ c ++ ")" ++ show_all l))
        by (unfold tag; cbn [show keyword]; now rewrite !app_assoc_s).
      rewrite X, prefix_app in P. discriminate.
  - rewrite contains_separator by auto. exact IH.
Qed.

(** ** Search of a category *)

Lemma match_cat_V : forall i s, (forall x, s <> "Var" ++ x) -> match_cat i s = None.
Proof.
  intros i s H. unfold match_cat. destruct (strip_prefix (tag i) s) eqn:E; auto.
  apply strip_prefix_inv in E. rewrite tag_V in E. now destruct (H _ E).
Qed.

Lemma search_separator : forall i p r, separator p -> search_cat i (p ++ r) = search_cat i r.
Proof.
  intros i. induction p as [|c p IH]; intros r S; auto.
  cbn [append search_cat]. rewrite match_cat_V.
  - apply IH. eapply separator_tail; eauto.
  - intros x E. exact (separator_start c p r _ S E).
Qed.

Fixpoint first_cat (i : Z) (l : list piece) : option string :=
  match l with
  | [] => None
  | PVar false a b c :: l' => if (a =? i)%Z then Some c else first_cat i l'
  | _ :: l' => first_cat i l'
  end.

Definition number_cat (p : piece) : Prop :=
  match p with PVar _ _ _ c => c = "0" \/ c = "1" \/ c = "2" | _ => True end.

Lemma search_first : forall i l, Forall piece_ok l -> Forall number_cat l ->
  search_cat i (show_all l) = first_cat i l.
Proof.
  intros i l H N. induction H as [|p l K H IH]; auto.
  inversion N as [|? ? N1 N2]; subst. specialize (IH N2).
  cbn [show_all]. destruct p as [s a b c|s].
  - destruct K as (B & C).
    assert (E : search_cat i (show (PVar s a b c) ++ show_all l)
      = match match_cat i (show (PVar s a b c) ++ show_all l) with
        | Some c => Some c | None => search_cat i (show_all l) end).
    { rewrite show_var. cbn [append search_cat]. destruct (match_cat _ _); auto.
      apply search_separator. now apply rest_separator. }
    rewrite E. cbn [first_cat].
    destruct (strip_prefix (tag i) (show (PVar s a b c) ++ show_all l)) as [x|] eqn:P.
    + pose proof (strip_prefix_inv _ _ _ P) as X. pose proof (tag_start _ _ _ _ _ _ _ X) as [-> ->].
      rewrite Z.eqb_refl. unfold match_cat. rewrite P.
      assert (X' : x = str_int b ++ "," ++ c ++ ")" ++ show_all l).
      { apply app_inv_head_s with (tag i). rewrite <- X. unfold tag. cbn [show keyword].
        now rewrite !app_assoc_s. }
      subst x. destruct (str_int_digits b B) as [D NE].
      rewrite take_while_all; auto.
      destruct (str_int b) as [|b0 b1]; [congruence|].
      cbn [number_cat] in N1. destruct N1 as [E1|[E1|E1]]; rewrite E1; reflexivity.
    + unfold match_cat. rewrite P, IH. destruct s; auto.
      destruct (Z.eqb_spec a i); auto. subst a.
      assert (X : show (PVar false i b c) ++ show_all l
        = tag i ++ (str_int b ++ "," ++ c ++ ")" ++ show_all l))
        by (unfold tag; cbn [show keyword]; now rewrite !app_assoc_s).
      rewrite X, strip_prefix_app in P. discriminate.
  - rewrite search_separator by auto. exact IH.
Qed.
