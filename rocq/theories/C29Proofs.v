(** * Proofs about transposition. *)

From Coq Require Import ZArith List Bool Ascii String Lia.
From Verif Require Import Result Keys KeySpec Folder Aliases AliasSpec Broadcast LazyTensors LazySpec
  TransposeSpec C22Proofs C25Proofs C26Proofs LazyProofs C27Proofs.
Import ListNotations.
Open Scope string_scope.

(** ** Exchange of categories *)

Definition natural_piece (p : piece) : Prop :=
  match p with PVar _ a b c => (0 <= a)%Z /\ (0 <= b)%Z /\ cat_char c | PText _ => True end.

Definition set_cat (old new : string) (p : piece) : piece :=
  match p with
  | PVar s a b c => if String.eqb c old then PVar s a b new else p
  | _ => p
  end.

Lemma category_on_var : forall old new, on_var (match_category old new).
Proof.
  intros old new s H. unfold match_category.
  destruct (strip_prefix ("Var" ++ "(") s) eqn:E.
  { apply strip_prefix_inv in E. rewrite app_assoc_s in E. now destruct (H _ E). }
  destruct (strip_prefix ("VarSymb" ++ "(") s) eqn:E'; auto.
  apply strip_prefix_inv in E'. change ("VarSymb" ++ "(") with ("Var" ++ "Symb(") in E'.
  rewrite app_assoc_s in E'. now destruct (H _ E').
Qed.

(** The text after the keyword. *)
Definition body_category (kw old new s r : string) : option (string * nat) :=
  match take_while digit r with
  | (String a0 a, String "," r1) =>
      match take_while digit r1 with
      | (String b0 b, r2) =>
          match strip_prefix ("," ++ old ++ ")") r2 with
          | Some r3 =>
              Some (kw ++ "(" ++ String a0 a ++ "," ++ String b0 b ++ "," ++ new ++ ")",
                    String.length s - String.length r3)
          | None => None
          end
      | _ => None
      end
  | _ => None
  end.

Lemma body_category_ok : forall kw old new s a b c r, (0 <= a)%Z -> (0 <= b)%Z ->
  cat_char c -> cat_char old ->
  body_category kw old new s (str_int a ++ "," ++ str_int b ++ "," ++ c ++ ")" ++ r)
  = if String.eqb c old
    then Some (kw ++ "(" ++ str_int a ++ "," ++ str_int b ++ "," ++ new ++ ")",
               String.length s - String.length r)
    else None.
Proof.
  intros kw old new s a b c r A B C O. unfold body_category.
  destruct (str_int_digits a A) as [DA NA]. destruct (str_int_digits b B) as [DB NB].
  rewrite take_while_all; auto.
  destruct (str_int a) as [|a0 a1]; [congruence|].
  change ("," ++ str_int b ++ "," ++ c ++ ")" ++ r)
    with (String "," (str_int b ++ "," ++ c ++ ")" ++ r)).
  cbv beta iota.
  rewrite take_while_all; auto.
  destruct (str_int b) as [|b0 b1]; [congruence|].
  destruct C as [E|[E|[E|E]]], O as [E'|[E'|[E'|E']]]; rewrite E, E'; reflexivity.
Qed.

Lemma match_category_var : forall old new s a b c r, (0 <= a)%Z -> (0 <= b)%Z ->
  cat_char c -> cat_char old ->
  match_category old new (show (PVar s a b c) ++ r)
  = if String.eqb c old
    then Some (show (PVar s a b new), String.length (show (PVar s a b c)))
    else None.
Proof.
  intros old new s a b c r A B C O. set (t := show (PVar s a b c) ++ r).
  assert (T : t = keyword s ++ "(" ++ str_int a ++ "," ++ str_int b ++ "," ++ c ++ ")" ++ r)
    by (unfold t; cbn [show]; now rewrite !app_assoc_s).
  assert (L : String.length t - String.length r = String.length (show (PVar s a b c)))
    by (unfold t; rewrite length_app_s; lia).
  unfold match_category. destruct s; cbn [keyword] in T.
  - assert (N : strip_prefix ("Var" ++ "(") t = None) by (rewrite T; reflexivity).
    assert (S : strip_prefix ("VarSymb" ++ "(") t
                = Some (str_int a ++ "," ++ str_int b ++ "," ++ c ++ ")" ++ r)).
    { rewrite T. rewrite <- app_assoc_s. apply strip_prefix_app. }
    rewrite N, S. fold (body_category "VarSymb" old new t
                          (str_int a ++ "," ++ str_int b ++ "," ++ c ++ ")" ++ r)).
    rewrite body_category_ok by auto. rewrite L. now destruct (String.eqb c old).
  - assert (S : strip_prefix ("Var" ++ "(") t
                = Some (str_int a ++ "," ++ str_int b ++ "," ++ c ++ ")" ++ r)).
    { rewrite T. rewrite <- app_assoc_s. apply strip_prefix_app. }
    assert (N : strip_prefix ("VarSymb" ++ "(") t = None) by (rewrite T; reflexivity).
    rewrite S, N. fold (body_category "Var" old new t
                          (str_int a ++ "," ++ str_int b ++ "," ++ c ++ ")" ++ r)).
    rewrite body_category_ok by auto. rewrite L. now destruct (String.eqb c old).
Qed.

Lemma acts_category : forall old new, cat_char old ->
  acts (match_category old new) (set_cat old new) natural_piece.
Proof.
  intros old new O. split; [apply category_on_var|]. split; [|reflexivity].
  intros s a b c r (A & B & C). cbn [set_cat].
  pose proof (match_category_var old new s a b c r A B C O) as M.
  destruct (String.eqb c old).
  - rewrite acts_matched with (q := rest_of s a b c) (new := show (PVar s a b new)) (post := "").
    + reflexivity.
    + apply category_on_var.
    + now rewrite show_var, app_nil_r_s.
    + now apply no_V_separator.
    + rewrite M. f_equal. f_equal. now rewrite show_var.
  - rewrite acts_unmatched; auto. apply category_on_var.
Qed.

Definition swap_piece (p : piece) : piece :=
  match p with
  | PVar s a b c => PVar s a b (if String.eqb c "0" then "1" else if String.eqb c "1" then "0" else c)
  | _ => p
  end.

Lemma set_cat_ok : forall old new l, cat_char new -> Forall piece_ok l ->
  Forall piece_ok (map (set_cat old new) l).
Proof.
  intros old new l N H. induction H as [|p l K H IH]; simpl; constructor; auto.
  destruct p as [s a b c|t]; auto. cbn [set_cat]. destruct (String.eqb c old); auto.
  split; [apply K|exact N].
Qed.

Lemma set_cat_natural : forall old new l, cat_char new -> Forall natural_piece l ->
  Forall natural_piece (map (set_cat old new) l).
Proof.
  intros old new l N H. induction H as [|p l K H IH]; simpl; constructor; auto.
  destruct p as [s a b c|t]; auto. cbn [set_cat]. destruct (String.eqb c old); auto.
  destruct K as (A & B & C). repeat split; auto.
Qed.

Lemma swap_ok : forall l, Forall piece_ok l -> Forall natural_piece l -> Forall number_cat l ->
  swap_categories (show_all l) = show_all (map swap_piece l).
Proof.
  intros l O N C. unfold swap_categories.
  assert (C0 : cat_char "0") by (left; reflexivity).
  assert (C1 : cat_char "1") by (right; left; reflexivity).
  assert (Ci : cat_char "i") by (right; right; right; reflexivity).
  rewrite (acts_all _ _ _ l (acts_category "0" "i" C0)) by auto.
  rewrite (acts_all _ _ _ _ (acts_category "1" "0" C1))
    by (auto using set_cat_ok, set_cat_natural).
  rewrite (acts_all _ _ _ _ (acts_category "i" "1" Ci))
    by (auto using set_cat_ok, set_cat_natural).
  f_equal. rewrite !map_map. apply map_ext_in. intros p I.
  rewrite Forall_forall in C. specialize (C p I). destruct p as [s a b c|t]; auto.
  simpl in C. destruct C as [E|[E|E]]; rewrite E; reflexivity.
Qed.

(** ** New identities *)

Definition set_ident (x y : Z) (p : piece) : piece :=
  match p with PVar s a b c => if (a =? x)%Z then PVar s y b c else p | _ => p end.

Lemma identity_on_var : forall x y, on_var (match_identity x y).
Proof.
  intros x y s H. unfold match_identity.
  destruct (strip_prefix ("Var" ++ "(" ++ str_int x ++ ",") s) eqn:E.
  { apply strip_prefix_inv in E. rewrite app_assoc_s in E. now destruct (H _ E). }
  destruct (strip_prefix ("VarSymb" ++ "(" ++ str_int x ++ ",") s) eqn:E'; auto.
  apply strip_prefix_inv in E'. rewrite app_assoc_s in E'.
  now destruct (H ("Symb" ++ ("(" ++ str_int x ++ ",") ++ s0)).
Qed.

Definition body_identity (kw : string) (y : Z) (s r : string) : option (string * nat) :=
  match take_while digit r with
  | (String a0 a, String "," r1) =>
      match take_while digit r1 with
      | (String b0 b, String ")" r2) =>
          Some (kw ++ "(" ++ str_int y ++ "," ++ String a0 a ++ "," ++ String b0 b ++ ")",
                String.length s - String.length r2)
      | _ => None
      end
  | _ => None
  end.

Lemma body_identity_ok : forall kw y s b c r, (0 <= b)%Z -> c = "0" \/ c = "1" \/ c = "2" ->
  body_identity kw y s (str_int b ++ "," ++ c ++ ")" ++ r)
  = Some (kw ++ "(" ++ str_int y ++ "," ++ str_int b ++ "," ++ c ++ ")",
          String.length s - String.length r).
Proof.
  intros kw y s b c r B C. unfold body_identity.
  destruct (str_int_digits b B) as [DB NB].
  rewrite take_while_all; auto.
  destruct (str_int b) as [|b0 b1]; [congruence|].
  destruct C as [E|[E|E]]; rewrite E; reflexivity.
Qed.

Lemma strip_var : forall kw x a t, strip_prefix (kw ++ "(" ++ str_int x ++ ",")
    (kw ++ "(" ++ str_int a ++ "," ++ t) = if (a =? x)%Z then Some t else None.
Proof.
  intros kw x a t. destruct (Z.eqb_spec a x).
  - subst. assert (E : kw ++ "(" ++ str_int x ++ "," ++ t = (kw ++ "(" ++ str_int x ++ ",") ++ t)
      by now rewrite !app_assoc_s.
    rewrite E. apply strip_prefix_app.
  - destruct (strip_prefix _ _) eqn:E; auto. exfalso. apply strip_prefix_inv in E.
    rewrite !app_assoc_s in E. apply app_inv_head_s in E. apply (app_inv_head_s "(") in E.
    apply str_int_split in E; [tauto|reflexivity|reflexivity].
Qed.

Lemma match_identity_var : forall x y s a b c r, (0 <= b)%Z -> c = "0" \/ c = "1" \/ c = "2" ->
  match_identity x y (show (PVar s a b c) ++ r)
  = if (a =? x)%Z then Some (show (PVar s y b c), String.length (show (PVar s a b c))) else None.
Proof.
  intros x y s a b c r B C. set (t := show (PVar s a b c) ++ r).
  assert (T : t = keyword s ++ "(" ++ str_int a ++ "," ++ str_int b ++ "," ++ c ++ ")" ++ r)
    by (unfold t; cbn [show]; now rewrite !app_assoc_s).
  assert (L : String.length t - String.length r = String.length (show (PVar s a b c)))
    by (unfold t; rewrite length_app_s; lia).
  unfold match_identity. destruct s; cbn [keyword] in T.
  - assert (N : strip_prefix ("Var" ++ "(" ++ str_int x ++ ",") t = None) by (rewrite T; reflexivity).
    rewrite N.
    assert (S : strip_prefix ("VarSymb" ++ "(" ++ str_int x ++ ",") t
      = if (a =? x)%Z then Some (str_int b ++ "," ++ c ++ ")" ++ r) else None)
      by (rewrite T; apply strip_var).
    rewrite S. destruct (a =? x)%Z; auto.
    fold (body_identity "VarSymb" y t (str_int b ++ "," ++ c ++ ")" ++ r)).
    rewrite body_identity_ok by auto. now rewrite L.
  - assert (N : strip_prefix ("VarSymb" ++ "(" ++ str_int x ++ ",") t = None) by (rewrite T; reflexivity).
    rewrite N.
    assert (S : strip_prefix ("Var" ++ "(" ++ str_int x ++ ",") t
      = if (a =? x)%Z then Some (str_int b ++ "," ++ c ++ ")" ++ r) else None)
      by (rewrite T; apply strip_var).
    rewrite S. destruct (a =? x)%Z; auto.
    fold (body_identity "Var" y t (str_int b ++ "," ++ c ++ ")" ++ r)).
    rewrite body_identity_ok by auto. now rewrite L.
Qed.

Lemma acts_identity : forall x y, acts (match_identity x y) (set_ident x y)
  (fun p => piece_ok p /\ number_cat p).
Proof.
  intros x y. split; [apply identity_on_var|]. split; [|reflexivity].
  intros s a b c r ((B & C) & N). cbn [number_cat] in N. cbn [set_ident].
  pose proof (match_identity_var x y s a b c r B N) as M.
  destruct (a =? x)%Z.
  - rewrite acts_matched with (q := rest_of s a b c) (new := show (PVar s y b c)) (post := "").
    + reflexivity.
    + apply identity_on_var.
    + now rewrite show_var, app_nil_r_s.
    + now apply no_V_separator.
    + rewrite M. f_equal. f_equal. now rewrite show_var.
  - rewrite acts_unmatched; auto. apply identity_on_var.
Qed.

Lemma set_ident_ok : forall x y l, Forall (fun p => piece_ok p /\ number_cat p) l ->
  Forall (fun p => piece_ok p /\ number_cat p) (map (set_ident x y) l).
Proof.
  intros x y l H. induction H as [|p l K H IH]; simpl; constructor; auto.
  destruct p as [s a b c|t]; auto. cbn [set_ident]. now destruct (a =? x)%Z.
Qed.

(** The final identity of a tensor. *)
Fixpoint moved (vs : list tensor) (views : list Z) (a : Z) : Z :=
  match vs with
  | [] => a
  | x :: vs' =>
      match t_data x with
      | Floats _ => moved vs' views a
      | Array _ =>
          match views with
          | y :: views' => moved vs' views' (if (a =? t_id x)%Z then y else a)
          | [] => a
          end
      end
  end.

Definition move_piece (g : Z -> Z) (p : piece) : piece :=
  match p with PVar s a b c => PVar s (g a) b c | _ => p end.

Definition arrays (vs : list tensor) : list tensor :=
  filter (fun v => match t_data v with Array _ => true | Floats _ => false end) vs.

Lemma new_views_ok : forall vs views l, List.length views = List.length (arrays vs) ->
  Forall (fun p => piece_ok p /\ number_cat p) l ->
  exists new, new_views vs views (show_all l)
    = Ok (show_all (map (move_piece (moved vs views)) l), new)
    /\ List.length new = List.length vs
    /\ (forall a, In a (map t_id vs) -> In (moved vs views a) (map t_id new))
    /\ (forall (A : Type) (mem : Z -> A),
          Forall2 (fun x y => mem (t_id y) = mem (t_id x)) vs new ->
          forall a, mem (moved vs views a) = mem a).
Proof.
  induction vs as [|x vs IH]; intros views l L H.
  - exists []. cbn [new_views moved]. split.
    + assert (E : map (move_piece (fun a => a)) l = l)
        by (rewrite <- (map_id l) at 2; apply map_ext; now intros []).
      change (moved [] views) with (fun a : Z => a). now rewrite E.
    + split; auto.
  - cbn [new_views arrays filter] in *. destruct (t_data x) as [sh|n] eqn:D.
    + destruct views as [|y views]; [discriminate|]. injection L as L.
      assert (MV : forall a, moved (x :: vs) (y :: views) a
                             = moved vs views (if (a =? t_id x)%Z then y else a))
        by (intros a; cbn [moved]; now rewrite D).
      rewrite (acts_all _ _ _ l (acts_identity (t_id x) y));
        [|eapply Forall_impl; [|exact H]; now intros p []|exact H].
      destruct (IH views (map (set_ident (t_id x) y) l) L (set_ident_ok _ _ _ H))
        as (new & E & LN & IN & MM).
      rewrite E. cbn [rbind fst snd]. eexists. split; [|split; [|split]].
      * f_equal. f_equal. rewrite map_map. f_equal. apply map_ext. intros [s a b c|t]; auto.
        cbn [set_ident move_piece]. rewrite MV. now destruct (a =? t_id x)%Z.
      * simpl. now rewrite LN.
      * intros a I. rewrite MV. cbn [map t_id]. destruct (Z.eqb_spec a (t_id x)).
        -- destruct (in_dec Z.eq_dec y (map t_id vs)) as [Iy|Ny]; [right; auto|].
           left. clear - Ny. revert views Ny. induction vs as [|z vs IH]; simpl; auto.
           intros views Ny. destruct (t_data z); [|apply IH; tauto].
           destruct views; auto. destruct (Z.eqb_spec y (t_id z)); [subst; tauto|]. apply IH; tauto.
        -- destruct I as [I|I]; [congruence|]. right. auto.
      * intros A mem F a. inversion F as [|? ? ? ? F1 F2]; subst. rewrite MV, (MM A mem F2).
        cbn [t_id] in F1. destruct (Z.eqb_spec a (t_id x)); [now subst|reflexivity].
    + assert (MV : forall a, moved (x :: vs) views a = moved vs views a)
        by (intros a; cbn [moved]; now rewrite D).
      destruct (IH views l L H) as (new & E & LN & IN & MM). rewrite E. cbn [rbind fst snd].
      eexists. split.
      { f_equal. f_equal. f_equal. apply map_ext. intros [s a b c|t]; auto.
        cbn [move_piece]. now rewrite MV. } split; [simpl; now rewrite LN|]. split.
      * intros a I. rewrite MV. cbn [map]. destruct (in_dec Z.eq_dec a (map t_id vs)) as [Ia|Na]; [right; auto|].
        destruct I as [I|I]; [|contradiction]. left. subst a. clear - Na. revert views Na.
        induction vs as [|z vs IH]; simpl; auto. intros views Na.
        destruct (t_data z); [|apply IH; tauto]. destruct views; auto.
        destruct (Z.eqb_spec (t_id x) (t_id z)) as [E|E]; [rewrite E in Na; tauto|]. apply IH; tauto.
      * intros A mem F a. inversion F; subst. rewrite MV. now apply MM.
Qed.

(** ** Expressions *)

Lemma pieces_swap : forall g e, well_formed e -> (forall i, In i (symbols e) -> g i = i) ->
  map (move_piece g) (map swap_piece (pieces e)) = pieces (exchanged g e).
Proof.
  assert (SW : forall c, category c ->
    (if String.eqb (str_int c) "0" then "1" else if String.eqb (str_int c) "1" then "0" else str_int c)
    = str_int (other_side c)) by (intros c [E|[E|E]]; rewrite E; reflexivity).
  induction e; cbn [pieces exchanged map move_piece swap_piece well_formed symbols]; intros W S;
    rewrite ?map_app; cbn [map move_piece swap_piece];
    rewrite ?map_app; cbn [map move_piece swap_piece]; rewrite ?map_app; cbn [map move_piece swap_piece].
  - now rewrite SW by tauto.
  - rewrite SW by tauto. now rewrite (S ind) by (simpl; auto).
  - reflexivity.
  - rewrite IHe by tauto. reflexivity.
  - rewrite IHe1, IHe2; try tauto; intros; apply S, in_or_app; auto.
  - rewrite IHe1, IHe2, IHe3; try tauto; intros; apply S; rewrite !in_app_iff; auto.
Qed.

Lemma exchanged_well_formed : forall g e, (forall u, In u (tensors e) -> (0 <= g (fst u))%Z) ->
  well_formed e -> well_formed (exchanged g e).
Proof.
  assert (C : forall c, category c -> category (other_side c))
    by (intros c [E|[E|E]]; rewrite E; unfold category, other_side; simpl; auto).
  induction e; cbn [exchanged well_formed tensors]; intros H W; auto.
  - specialize (H _ (or_introl eq_refl)). simpl in H. intuition.
  - intuition.
  - intuition.
  - assert (H1 : well_formed (exchanged g e1)) by (apply IHe1; [intros; apply H, in_or_app; auto|tauto]).
    assert (H2 : well_formed (exchanged g e2)) by (apply IHe2; [intros; apply H, in_or_app; auto|tauto]).
    tauto.
  - assert (H1 : well_formed (exchanged g e1))
      by (apply IHe1; [intros; apply H; rewrite !in_app_iff; auto|tauto]).
    assert (H2 : well_formed (exchanged g e2))
      by (apply IHe2; [intros; apply H; rewrite !in_app_iff; auto|tauto]).
    assert (H3 : well_formed (exchanged g e3))
      by (apply IHe3; [intros; apply H; rewrite !in_app_iff; auto|tauto]).
    tauto.
Qed.

Lemma exchanged_tensors : forall g e,
  tensors (exchanged g e) = map (fun u => (g (fst u), other_side (snd u))) (tensors e).
Proof.
  induction e; simpl; auto; rewrite ?map_app; congruence.
Qed.

Lemma exchanged_symbols : forall g e, symbols (exchanged g e) = symbols e.
Proof. induction e; simpl; auto; congruence. Qed.

Lemma exchanged_value : forall (V A I : Type) (m : meaning V) (read : A -> Z -> option I -> V)
  (mem sym : Z -> A) g i j e,
  (forall a, mem (g a) = mem a) -> well_formed e ->
  value_at m read mem sym j i (exchanged g e) = value_at m read mem sym i j e.
Proof.
  intros V A I m read mem sym g i j e G.
  assert (C : forall c, category c -> pick (other_side c) j i = pick c i j)
    by (intros c [E|[E|E]]; rewrite E; reflexivity).
  unfold value_at. induction e; cbn [exchanged value well_formed]; intros W.
  - rewrite G, C by tauto. reflexivity.
  - rewrite C by tauto. reflexivity.
  - reflexivity.
  - now rewrite IHe by tauto.
  - now rewrite IHe1, IHe2 by tauto.
  - now rewrite IHe1, IHe2, IHe3 by tauto.
Qed.

Lemma pieces_natural : forall e, well_formed e -> (forall i, In i (symbols e) -> (0 <= i)%Z) ->
  Forall natural_piece (pieces e).
Proof.
  induction e; cbn [pieces well_formed symbols]; intros W S.
  - constructor; [|constructor]. simpl. intuition. now apply category_char.
  - constructor; [|constructor]. simpl. intuition. now apply category_char.
  - repeat constructor.
  - constructor; [exact I|]. apply Forall_app. split; [apply IHe; tauto|]. repeat constructor.
  - constructor; [exact I|]. apply Forall_app. split.
    { apply IHe1; [tauto|]. intros; apply S, in_or_app; auto. }
    constructor; [exact I|]. apply Forall_app. split.
    { apply IHe2; [tauto|]. intros; apply S, in_or_app; auto. }
    repeat constructor.
  - constructor; [exact I|]. apply Forall_app. split.
    { apply IHe1; [tauto|]. intros; apply S; rewrite !in_app_iff; auto. }
    constructor; [exact I|]. apply Forall_app. split.
    { apply IHe2; [tauto|]. intros; apply S; rewrite !in_app_iff; auto. }
    constructor; [exact I|]. apply Forall_app. split.
    { apply IHe3; [tauto|]. intros; apply S; rewrite !in_app_iff; auto. }
    repeat constructor.
Qed.

Lemma swap_piece_ok : forall l, Forall piece_ok l -> Forall number_cat l ->
  Forall (fun p => piece_ok p /\ number_cat p) (map swap_piece l).
Proof.
  intros l H N. induction H as [|p l K H IH]; simpl; constructor.
  - inversion N as [|? ? N1 N2]; subst. destruct p as [s a b c|t]; auto.
    cbn [swap_piece piece_ok number_cat] in *. destruct K as [B C]. unfold cat_char.
    destruct N1 as [E|[E|E]]; rewrite E; simpl; auto 8.
  - inversion N; auto.
Qed.

Lemma moved_other : forall vs views a, ~ In a (map t_id (arrays vs)) -> moved vs views a = a.
Proof.
  induction vs as [|x vs IH]; intros views a H; auto. cbn [moved arrays filter] in *.
  destruct (t_data x); [|now apply IH].
  destruct views as [|y views]; auto. cbn [map] in H.
  destruct (Z.eqb_spec a (t_id x)) as [E|E]; [exfalso; apply H; now left|].
  apply IH. intros I. apply H. now right.
Qed.

Lemma moved_nonneg : forall vs views a, Forall (Z.le 0) views -> (0 <= a)%Z -> (0 <= moved vs views a)%Z.
Proof.
  induction vs as [|x vs IH]; intros views a H A; auto. cbn [moved].
  destruct (t_data x); [|now apply IH].
  destruct views as [|y views]; auto. inversion H; subst. apply IH; auto.
  now destruct (a =? t_id x)%Z.
Qed.

Lemma tensors_nonneg : forall e, well_formed e -> forall u, In u (tensors e) -> (0 <= fst u)%Z.
Proof.
  induction e; cbn [well_formed tensors]; intros W u I; try (now destruct I); auto.
  - destruct I as [E|[]]. subst u. simpl. tauto.
  - apply IHe; tauto.
  - apply in_app_iff in I. destruct I; [apply IHe1|apply IHe2]; tauto.
  - rewrite !in_app_iff in I. destruct I as [I|[I|I]]; [apply IHe1|apply IHe2|apply IHe3]; tauto.
Qed.

Lemma number_cats : forall e, well_formed e -> Forall number_cat (pieces e).
Proof.
  assert (C : forall c, category c -> str_int c = "0" \/ str_int c = "1" \/ str_int c = "2")
    by (intros c [E|[E|E]]; rewrite E; auto).
  induction e; cbn [pieces well_formed]; intros W;
    repeat first [apply Forall_nil | apply Forall_app; split | apply Forall_cons
                 | solve [simpl; apply C; tauto] | exact I
                 | apply IHe; tauto | apply IHe1; tauto | apply IHe2; tauto | apply IHe3; tauto].
Qed.

Lemma text_pieces : forall e, text e = show_all (pieces e).
Proof. intros e. symmetry. apply show_pieces. Qed.

Lemma transposed : forall views l e,
  carries l e -> List.length views = count_arrays l -> Forall (Z.le 0) views ->
  (forall i, In i (symbols e) -> (0 <= i)%Z
     /\ forall v sh, In v (variables l) -> t_data v = Array sh -> t_id v <> i) ->
  exists r e', transpose views l = Ok r /\ carries r e'
    /\ symbols e' = symbols e
    /\ ni r = nj l /\ nj r = ni l /\ ndim r = ndim l /\ batchdims r = batchdims l
    /\ dtype r = dtype l /\ symbolic r = symbolic l
    /\ axis r = option_map other_side (axis l)
    /\ (forall a b c x y z, ranges l = Some [a; b; c; x; y; z] -> ranges r = Some [x; y; z; a; b; c])
    /\ (ranges l = None -> ranges r = None)
    /\ forall (V A I : Type) (m : meaning V) (read : A -> Z -> option I -> V) (mem sym : Z -> A),
         same_contents mem l r ->
         forall i j, value_at m read mem sym j i e' = value_at m read mem sym i j e.
Proof.
  intros views l e (F & W & K & S) L N Y.
  set (g := moved (variables l) views).
  assert (GS : forall i, In i (symbols e) -> g i = i).
  { intros i I. apply moved_other. intros H. apply in_map_iff in H. destruct H as (v & E & H).
    apply filter_In in H. destruct H as [H D]. destruct (t_data v) eqn:T; [|discriminate].
    now apply (proj2 (Y i I) v sh). }
  pose proof (pieces_ok e W) as PO. pose proof (number_cats e W) as NC.
  pose proof (pieces_natural e W (fun i I => proj1 (Y i I))) as PN.
  destruct (new_views_ok (variables l) views (map swap_piece (pieces e)) L (swap_piece_ok _ PO NC))
    as (new & E & LN & IN & MM).
  unfold transpose. rewrite F, text_pieces, swap_ok by auto. rewrite E. cbn [rbind fst snd].
  fold g in E, IN, MM |- *. rewrite (pieces_swap g e W GS), <- text_pieces.
  eexists. exists (exchanged g e). split; [reflexivity|]. split.
  { split; [reflexivity|]. split.
    - apply exchanged_well_formed; auto. intros u I. apply moved_nonneg; auto.
      now apply (tensors_nonneg e W).
    - cbn [variables symbolic]. split.
      + intros u I. rewrite exchanged_tensors in I. apply in_map_iff in I.
        destruct I as (w & E' & I). subst u. cbn [fst]. apply IN. now apply K.
      + rewrite exchanged_symbols. exact S. }
  split; [apply exchanged_symbols|]. cbn [ni nj ndim batchdims dtype symbolic axis ranges].
  split; [reflexivity|]. split; [reflexivity|]. split; [reflexivity|]. split; [reflexivity|].
  split; [reflexivity|]. split; [reflexivity|]. split.
  { destruct (axis l) as [x|]; auto. cbn [option_map]. unfold other_side.
    destruct (x =? 0)%Z; auto. now destruct (x =? 1)%Z. }
  split; [intros a b c x y z R; now rewrite R|]. split; [intros R; now rewrite R|].
  intros V A I m read mem sym SC i j. apply exchanged_value; auto.
Qed.

Lemma transposed_twice : forall v1 v2 l r q e,
  carries l e -> Forall (Z.le 0) v1 -> Forall (Z.le 0) v2 ->
  List.length v1 = count_arrays l -> List.length v2 = count_arrays r ->
  (forall i, In i (symbols e) -> (0 <= i)%Z
     /\ forall v sh, In v (variables l ++ variables r) -> t_data v = Array sh -> t_id v <> i) ->
  (forall s, ranges l = Some s -> List.length s = 6%nat) ->
  transpose v1 l = Ok r -> transpose v2 r = Ok q ->
  exists e'', carries q e''
    /\ ni q = ni l /\ nj q = nj l /\ ndim q = ndim l /\ batchdims q = batchdims l
    /\ dtype q = dtype l /\ symbolic q = symbolic l /\ axis q = axis l /\ ranges q = ranges l
    /\ forall (V A I : Type) (m : meaning V) (read : A -> Z -> option I -> V) (mem sym : Z -> A),
         same_contents mem l r -> same_contents mem r q ->
         forall i j, value_at m read mem sym i j e'' = value_at m read mem sym i j e.
Proof.
  intros v1 v2 l r q e C N1 N2 L1 L2 Y R6 T1 T2.
  destruct (transposed v1 l e C L1 N1) as (r' & e' & T1' & C' & S' & ? & ? & ? & ? & ? & ? & AX & RG & RN & VA).
  { intros i I. split; [apply (Y i I)|]. intros v sh Iv. apply (Y i I). apply in_or_app; auto. }
  rewrite T1' in T1. injection T1 as T1. subst r'.
  destruct (transposed v2 r e' C' L2 N2) as (q' & e'' & T2' & C'' & S'' & ? & ? & ? & ? & ? & ? & AX' & RG' & RN' & VA').
  { rewrite S'. intros i I. split; [apply (Y i I)|]. intros v sh Iv. apply (Y i I). apply in_or_app; auto. }
  rewrite T2' in T2. injection T2 as T2. subst q'.
  exists e''. split; auto.
  do 6 (split; [congruence|]). split.
  { rewrite AX', AX. destruct (axis l) as [x|]; auto. cbn [option_map]. f_equal. unfold other_side.
    destruct (Z.eqb_spec x 0); [now subst|]. destruct (Z.eqb_spec x 1); [now subst|].
    destruct (Z.eqb_spec x 0); [lia|]. destruct (Z.eqb_spec x 1); [lia|]. reflexivity. }
  split.
  { destruct (ranges l) as [s|]; [|rewrite RN' by auto; reflexivity].
    specialize (R6 s eq_refl). do 6 (destruct s as [|? s]; [discriminate|]).
    destruct s; [|discriminate]. rewrite (RG' _ _ _ _ _ _ (RG _ _ _ _ _ _ eq_refl)). reflexivity. }
  intros. rewrite VA' by auto. now apply VA.
Qed.

(** ** Cases *)

(** |x_i - y_j|^2 * (x_i | p), where x has 10 points and y has 20. *)
Definition ex_expr : expr :=
  EBin "(" (EUn "SqNorm2(" (EBin "(" (EVar 900 3 0) " - " (EVar 950 3 1) ")") ")") " * "
    (EBin "(" (EVar 900 3 0) " | " (ESym 0 3 1) ")") ")".

Definition ex_lazy : lazy :=
  {| formula := text ex_expr; variables := [array_at 900 [10; 3]%Z; array_at 950 [20; 3]%Z; array_at 900 [10; 3]%Z];
     symbolic := [(0, 3, 1)%Z]; ndim := 1; axis := None; ni := Some 10%Z; nj := Some 20%Z;
     batchdims := None; dtype := Some "float32"; ranges := Some [[0]; [1]; [2]; [3]; [4]; [5]]%Z;
     rec_highdim := None |}.

Lemma ex_carries : carries ex_lazy ex_expr.
Proof.
  split; [reflexivity|]. split.
  - unfold ex_expr. cbn [well_formed]. unfold category.
    repeat match goal with
    | |- separator _ => apply no_V_separator; reflexivity
    | |- _ /\ _ => split
    end; try lia; auto.
  - split.
    + intros u H. simpl in H. destruct H as [E|[E|[E|[]]]]; subst u; simpl; auto.
    + intros i H. simpl in H. destruct H as [E|[]]. subst i. now left.
Qed.

Lemma ex_transposed : exists r, transpose [1000; 1001; 1002]%Z ex_lazy = Ok r
  /\ formula r = "(SqNorm2((Var(1000,3,1) - Var(1001,3,0))) * (Var(1000,3,1) | VarSymb(0,3,0)))"
  /\ variables r = [array_at 1000 [10; 3]%Z; array_at 1001 [20; 3]%Z; array_at 1002 [10; 3]%Z]
  /\ ni r = Some 20%Z /\ nj r = Some 10%Z
  /\ ranges r = Some [[3]; [4]; [5]; [0]; [1]; [2]]%Z.
Proof. eexists. split; [vm_compute; reflexivity|]. repeat split. Qed.

(** K = k * v where v_i has 200 components. *)
Definition ex_big : res lazy :=
  do x <- lt_array "float32" 900 [10; 1; 3]%Z None ;
  do y <- lt_array "float32" 950 [1; 20; 3]%Z None ;
  do v <- lt_array "float32" 970 [10; 1; 200]%Z None ;
  do k <- binary x y "|" true (Some 1%Z) DSame None false ;
  binary k v "*" true None DSameOr1 None false.

Lemma big_reduction : exists k kt o,
  ex_big = Ok k /\ transpose [1000; 1001; 1002]%Z k = Ok kt
  /\ ni k = Some 10%Z /\ ni kt = Some 20%Z
  /\ formula kt = "((Var(1000,3,1) | Var(1001,3,0)) * Var(1002,200,1))"
  /\ sum_reduction k 1 = Ok o /\ sum_reduction kt 1 = Ok o
  /\ o = Times (Call {| c_op := "Sum"; c_axis := 1; c_formula := "(Var(0,3,0) | Var(1,3,1))";
                        c_formula2 := ""; c_args := [array_at 900 [10; 3]%Z; array_at 950 [20; 3]%Z];
                        c_highdim := None; c_ni := Some 10%Z; c_nj := Some 20%Z; c_ranges := None |})
               (array_at 970 [10; 200]%Z).
Proof.
  do 3 eexists. split; [vm_compute; reflexivity|]. split; [vm_compute; reflexivity|].
  split; [reflexivity|]. split; [reflexivity|]. split; [reflexivity|].
  split; [vm_compute; reflexivity|]. split; [vm_compute; reflexivity|]. reflexivity.
Qed.

Lemma negative_symbol : exists r, transpose [] (lt_symbolic (-1) 3 0) = Ok r
  /\ formula r = formula (lt_symbolic (-1) 3 0) /\ axis r = Some 1%Z.
Proof. eexists. split; [vm_compute; reflexivity|]. split; reflexivity. Qed.
