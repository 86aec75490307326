(** * Proofs about the numbering of variables. *)

From Coq Require Import ZArith List Bool Ascii String Lia.
From Verif Require Import Result Keys KeySpec Folder Aliases AliasSpec Broadcast LazyTensors LazySpec
  C22Proofs C25Proofs C26Proofs LazyProofs.
Import ListNotations.
Open Scope string_scope.

(** ** Renaming of pieces *)

Fixpoint index_of (a : Z) (ps : list Z) : option nat :=
  match ps with
  | [] => None
  | x :: ps' => if (a =? x)%Z then Some 0%nat
                else match index_of a ps' with Some k => Some (S k) | None => None end
  end.

Definition ren (start : Z) (ps : list Z) (a : Z) : Z :=
  match index_of a ps with Some k => (start + Z.of_nat k)%Z | None => a end.

Definition ren_piece (s : Z -> Z) (p : piece) : piece :=
  match p with PVar false a b c => PVar false (s a) b c | _ => p end.

Lemma index_some : forall ps a k, index_of a ps = Some k -> nth_error ps k = Some a.
Proof.
  induction ps as [|x ps IH]; simpl; intros a k H; [discriminate|].
  destruct (Z.eqb_spec a x).
  - injection H as <-. now subst.
  - destruct (index_of a ps) eqn:E; [|discriminate]. injection H as <-. simpl. auto.
Qed.

Lemma index_none : forall ps a, index_of a ps = None <-> ~ In a ps.
Proof.
  induction ps as [|x ps IH]; simpl; intros a; [tauto|].
  destruct (Z.eqb_spec a x).
  - split; [discriminate|]. intros H. exfalso. apply H. auto.
  - specialize (IH a). destruct (index_of a ps).
    + split; [discriminate|]. intros H. exfalso.
      assert (X : ~ In a ps) by tauto. apply IH in X. discriminate.
    + split; auto. intros _ [H|H]; [congruence|]. now apply IH.
Qed.

Lemma index_lt : forall ps a k, index_of a ps = Some k -> (k < List.length ps)%nat.
Proof. intros. apply nth_error_Some. rewrite (index_some _ _ _ H). discriminate. Qed.

Lemma index_app_l : forall ps qs a k, index_of a ps = Some k -> index_of a (ps ++ qs)%list = Some k.
Proof.
  induction ps as [|x ps IH]; simpl; intros qs a k H; [discriminate|].
  destruct (a =? x)%Z; auto. destruct (index_of a ps) eqn:E; [|discriminate].
  now rewrite (IH qs a n E).
Qed.

Lemma index_snoc : forall ps a b, ~ In a ps ->
  index_of a (ps ++ [b])%list = if (a =? b)%Z then Some (List.length ps) else None.
Proof.
  induction ps as [|x ps IH]; simpl; intros a b H; auto.
  destruct (Z.eqb_spec a x); [subst; tauto|]. rewrite IH by tauto.
  now destruct (a =? b)%Z.
Qed.

Lemma index_nth : forall ps k a, NoDup ps -> nth_error ps k = Some a -> index_of a ps = Some k.
Proof.
  induction ps as [|x ps IH]; intros k a N H; [destruct k; discriminate|].
  inversion N; subst. destruct k; simpl in *.
  - injection H as ->. now rewrite Z.eqb_refl.
  - destruct (Z.eqb_spec a x).
    + subst. apply nth_error_In in H. contradiction.
    + now rewrite (IH k a).
Qed.

(** Identities that are not used as labels. *)
Definition unused (start : Z) (n : nat) (a : Z) : Prop :=
  ~ (start <= a < start + Z.of_nat n)%Z.

Definition unused_piece (start : Z) (n : nat) (p : piece) : Prop :=
  match p with PVar false a _ _ => unused start n a | _ => True end.

Lemma ren_step : forall start n ps b a, unused start n a -> unused start n b ->
  (List.length ps < n)%nat -> ~ In b ps ->
  (if (ren start ps a =? b)%Z then (start + Z.of_nat (List.length ps))%Z else ren start ps a)
  = ren start (ps ++ [b])%list a.
Proof.
  intros start n ps b a A B L N. unfold ren. destruct (index_of a ps) as [k|] eqn:E.
  - rewrite (index_app_l _ _ _ _ E). apply index_lt in E.
    destruct (Z.eqb_spec (start + Z.of_nat k)%Z b); auto. exfalso. apply B. lia.
  - apply index_none in E. rewrite index_snoc by auto. destruct (Z.eqb_spec a b); auto.
Qed.

Lemma ren_label : forall start n ps b a, unused start n a -> unused start n b ->
  (List.length ps < n)%nat -> ~ In b ps ->
  (ren start (ps ++ [b])%list a =? start + Z.of_nat (List.length ps))%Z = (a =? b)%Z.
Proof.
  intros start n ps b a A B L N. unfold ren.
  destruct (index_of a ps) as [k|] eqn:E.
  - rewrite (index_app_l _ _ _ _ E). pose proof (index_lt _ _ _ E). apply index_some in E.
    apply nth_error_In in E. destruct (Z.eqb_spec a b); [subst; contradiction|].
    apply Z.eqb_neq. lia.
  - apply index_none in E. rewrite index_snoc by auto. destruct (Z.eqb_spec a b).
    + apply Z.eqb_refl.
    + apply Z.eqb_neq. intros X. apply A. lia.
Qed.

Lemma ren_piece_ok : forall s l, Forall piece_ok l -> Forall piece_ok (map (ren_piece s) l).
Proof.
  intros s l H. induction H as [|p l K H IH]; simpl; constructor; auto.
  destruct p as [[] a b c|t]; auto.
Qed.

Lemma ren_number_cat : forall s l, Forall number_cat l -> Forall number_cat (map (ren_piece s) l).
Proof.
  intros s l H. induction H as [|p l K H IH]; simpl; constructor; auto.
  destruct p as [[] a b c|t]; auto.
Qed.

Lemma ren_pieces_step : forall start n ps b l, Forall (unused_piece start n) l ->
  unused start n b -> (List.length ps < n)%nat -> ~ In b ps ->
  map (set_id b (start + Z.of_nat (List.length ps))) (map (ren_piece (ren start ps)) l)
  = map (ren_piece (ren start (ps ++ [b])%list)) l.
Proof.
  intros start n ps b l H B L N. rewrite map_map. apply map_ext_in. intros p I.
  rewrite Forall_forall in H. specialize (H p I). destruct p as [[] a d c|t]; auto.
  cbn [ren_piece set_id]. simpl in H. pose proof (ren_step start n ps b a H B L N) as E.
  destruct (Z.eqb_spec (ren start ps a) b); now rewrite E.
Qed.

Lemma has_renamed : forall start n ps b l, Forall (unused_piece start n) l ->
  unused start n b -> (List.length ps < n)%nat ->
  existsb (has_id b) (map (ren_piece (ren start ps)) l)
  = (negb (match index_of b ps with Some _ => true | None => false end) && existsb (has_id b) l)%bool.
Proof.
  intros start n ps b l H B L. induction H as [|p l K H IH]; simpl; [now rewrite andb_false_r|].
  rewrite IH. destruct p as [[] a d c|t]; auto. cbn [ren_piece has_id]. unfold ren.
  destruct (index_of a ps) as [k|] eqn:E.
  - pose proof (index_lt _ _ _ E).
    destruct (Z.eqb_spec (start + Z.of_nat k)%Z b); [exfalso; apply B; lia|].
    destruct (Z.eqb_spec a b); simpl; auto. subst a. rewrite E. reflexivity.
  - destruct (Z.eqb_spec a b); simpl; auto. subst a. now rewrite E.
Qed.

Lemma first_renamed : forall start n ps b l, Forall (unused_piece start n) l ->
  unused start n b -> (List.length ps < n)%nat -> ~ In b ps ->
  first_cat (start + Z.of_nat (List.length ps)) (map (ren_piece (ren start (ps ++ [b])%list)) l)
  = first_cat b l.
Proof.
  intros start n ps b l H B L N. induction H as [|p l K H IH]; simpl; auto.
  destruct p as [[] a d c|t]; auto. cbn [ren_piece]. simpl in K.
  now rewrite (ren_label start n ps b a K B L N), IH.
Qed.

Lemma first_exists : forall b l, existsb (has_id b) l = true -> first_cat b l <> None.
Proof.
  induction l as [|p l IH]; simpl; intros H; [discriminate|].
  destruct p as [[] a d c|t]; auto. cbn [has_id] in H.
  destruct (a =? b)%Z; [discriminate|auto].
Qed.

(** ** The loop *)

Definition loaded (typed : bool) (d : data) : data :=
  match d with Array sh => Array sh | Floats n => if typed then Array [n] else Floats n end.

Definition passed (nb : Z) (typed : bool) (l : list piece) (v : tensor) : tensor :=
  {| t_id := t_id v;
     t_data := match loaded typed (t_data v) with
               | Array sh => match first_cat (t_id v) l with
                             | Some c => Array (pad_batch nb c sh)
                             | None => Array sh
                             end
               | Floats n => Floats n
               end |}.

Lemma relabel_ok : forall start n nb typed vs ps l1 l2 hd,
  Forall piece_ok (l1 ++ l2) -> Forall number_cat (l1 ++ l2) ->
  Forall (unused_piece start n) (l1 ++ l2) ->
  (forall v, In v vs -> unused start n (t_id v)) ->
  match hd with Some h => unused start n h | None => True end ->
  (List.length ps + List.length vs <= n)%nat -> NoDup ps ->
  exists sel,
    let qs := (ps ++ map t_id sel)%list in
    relabel nb typed vs (start + Z.of_nat (List.length ps))
      (show_all (map (ren_piece (ren start ps)) l1)) (show_all (map (ren_piece (ren start ps)) l2))
      (option_map (ren start ps) hd)
    = Ok (show_all (map (ren_piece (ren start qs)) l1), show_all (map (ren_piece (ren start qs)) l2),
          map (passed nb typed (l1 ++ l2)) sel, option_map (ren start qs) hd)
    /\ NoDup qs /\ incl sel vs
    /\ (forall v, In v vs -> existsb (has_id (t_id v)) (l1 ++ l2) = true -> In (t_id v) qs)
    /\ (forall v, In v sel -> existsb (has_id (t_id v)) (l1 ++ l2) = true).
Proof.
  intros start n nb typed. induction vs as [|v vs IH]; intros ps l1 l2 hd OK NC UN UV UH L ND.
  - exists []. cbn [map]. rewrite app_nil_r. cbn [relabel]. repeat split; auto; intros x [].
  - cbn [relabel].
    assert (UV0 : unused start n (t_id v)) by (apply UV; simpl; auto).
    assert (LT : (List.length ps < n)%nat) by (simpl in L; lia).
    assert (CT : contains (tag (t_id v))
        (show_all (map (ren_piece (ren start ps)) l1) ++ show_all (map (ren_piece (ren start ps)) l2))
        = (negb (match index_of (t_id v) ps with Some _ => true | None => false end)
           && existsb (has_id (t_id v)) (l1 ++ l2))%bool).
    { rewrite <- show_all_app, <- map_app. rewrite contains_tag by now apply ren_piece_ok.
      now apply has_renamed with n. }
    rewrite CT.
    destruct (index_of (t_id v) ps) as [k|] eqn:IX.
    + cbn [negb andb].
      destruct (IH ps l1 l2 hd OK NC UN) as (sel & E & N1 & I1 & C1 & O1); auto.
      { intros w Iw. apply UV. simpl; auto. } { simpl in L. lia. }
      exists sel. cbv zeta in *. rewrite E. repeat split; auto.
      * intros w Iw. right. now apply I1.
      * intros w [Iw|Iw] Ew; auto. subst w. apply in_or_app. left.
        apply index_some in IX. now apply nth_error_In in IX.
    + cbn [negb andb]. apply index_none in IX.
      destruct (existsb (has_id (t_id v)) (l1 ++ l2)) eqn:EX.
      * rewrite Forall_app in OK, NC, UN. destruct OK as [OK1 OK2], NC as [NC1 NC2], UN as [UN1 UN2].
        rewrite !replace_tag by now apply ren_piece_ok.
        rewrite !(ren_pieces_step start n) by auto.
        rewrite <- show_all_app, <- map_app.
        rewrite search_first;
          [|apply ren_piece_ok; now apply Forall_app|apply ren_number_cat; now apply Forall_app].
        rewrite (first_renamed start n) by (auto; now apply Forall_app).
        destruct (IH (ps ++ [t_id v])%list l1 l2 hd) as (sel & E & N1 & I1 & C1 & O1);
          try (now apply Forall_app); auto.
        { intros w Iw. apply UV. simpl; auto. }
        { rewrite app_length. simpl in *. lia. }
        { apply NoDup_Add with (a := t_id v) (l := ps); [|split; auto].
          rewrite <- (app_nil_r ps) at 1. apply Add_app. }
        exists (v :: sel). cbv zeta in *. cbn [map]. rewrite <- app_assoc in E, N1, C1.
        cbn [app] in E, N1, C1.
        assert (HD : match option_map (ren start ps) hd with
                     | Some h => if (h =? t_id v)%Z then Some (start + Z.of_nat (List.length ps))%Z
                                 else option_map (ren start ps) hd
                     | None => None
                     end = option_map (ren start (ps ++ [t_id v])%list) hd).
        { destruct hd as [h|]; auto. cbn [option_map]. simpl in UH.
          pose proof (ren_step start n ps (t_id v) h UH UV0 LT IX) as R.
          destruct (ren start ps h =? t_id v)%Z; congruence. }
        assert (LEN : (start + Z.of_nat (List.length ps) + 1)%Z
                      = (start + Z.of_nat (List.length (ps ++ [t_id v])))%Z)
          by (rewrite app_length; simpl; lia).
        assert (P : (match loaded typed (t_data v) with
                     | Array sh =>
                         match first_cat (t_id v) (l1 ++ l2) with
                         | Some c => Ok (Array (pad_batch nb c sh))
                         | None => PyErr
                         end
                     | Floats k => Ok (Floats k)
                     end) = Ok (t_data (passed nb typed (l1 ++ l2) v))).
        { unfold passed. cbn [t_data]. destruct (loaded typed (t_data v)); auto.
          pose proof (first_exists _ _ EX). destruct (first_cat _ _); [auto|congruence]. }
        unfold loaded in P. rewrite P. cbn [rbind].
        rewrite HD, LEN, E. cbn [rbind]. repeat split; auto.
        -- intros w [Iw|Iw]; [subst; simpl; auto|]. right. now apply I1.
        -- intros w [Iw|Iw] Ew; [|now apply C1]. subst w. apply in_or_app. simpl; auto.
        -- intros w [Iw|Iw]; [now subst|auto].
      * destruct (IH ps l1 l2 hd OK NC UN) as (sel & E & N1 & I1 & C1 & O1); auto.
        { intros w Iw. apply UV. simpl; auto. } { simpl in L. lia. }
        exists sel. cbv zeta in *. rewrite E. repeat split; auto.
        -- intros w Iw. right. now apply I1.
        -- intros w [Iw|Iw] Ew; auto. subst w. congruence.
Qed.

(** ** From pieces to expressions *)

Lemma pieces_rename : forall s e, map no_sym (map (ren_piece s) (pieces e)) = pieces (rename s e).
Proof.
  induction e; cbn [pieces rename map ren_piece no_sym]; rewrite ?map_app; cbn [map ren_piece no_sym];
    rewrite ?map_app; cbn [map ren_piece no_sym]; rewrite ?map_app; cbn [map ren_piece no_sym];
    rewrite ?IHe, ?IHe1, ?IHe2, ?IHe3; auto.
Qed.

Lemma number_cat_pieces : forall e, well_formed e -> Forall number_cat (pieces e).
Proof.
  assert (C : forall c, category c -> str_int c = "0" \/ str_int c = "1" \/ str_int c = "2")
    by (intros c [E|[E|E]]; rewrite E; auto).
  induction e; simpl; intros H.
  - constructor; [|constructor]. simpl. apply C. tauto.
  - constructor; [|constructor]. simpl. apply C. tauto.
  - repeat constructor.
  - constructor; [exact I|]. apply Forall_app. split; [tauto|]. repeat constructor.
  - constructor; [exact I|]. apply Forall_app. split; [tauto|]. constructor; [exact I|].
    apply Forall_app. split; [tauto|]. repeat constructor.
  - constructor; [exact I|]. apply Forall_app. split; [tauto|]. constructor; [exact I|].
    apply Forall_app. split; [tauto|]. constructor; [exact I|].
    apply Forall_app. split; [tauto|]. repeat constructor.
Qed.

Fixpoint uses (l : list piece) : list (Z * string) :=
  match l with
  | [] => []
  | PVar false a _ c :: l' => (a, c) :: uses l'
  | _ :: l' => uses l'
  end.

Lemma uses_app : forall l l', uses (l ++ l')%list = (uses l ++ uses l')%list.
Proof. induction l as [|[[] a b c|s] l IH]; simpl; intros; auto. now rewrite IH. Qed.

Lemma uses_pieces : forall e,
  uses (pieces e) = map (fun u => (fst u, str_int (snd u))) (tensors e).
Proof.
  induction e; simpl; auto.
  - rewrite uses_app. simpl. now rewrite app_nil_r.
  - rewrite uses_app. simpl. rewrite uses_app. simpl. now rewrite app_nil_r, map_app, IHe1, IHe2.
  - rewrite uses_app. simpl. rewrite uses_app. simpl. rewrite uses_app. simpl.
    now rewrite app_nil_r, !map_app, IHe1, IHe2, IHe3.
Qed.

Lemma has_uses : forall i l, existsb (has_id i) l = true <-> In i (map fst (uses l)).
Proof.
  induction l as [|[[] a b c|s] l IH]; simpl; auto.
  - split; [discriminate|tauto].
  - rewrite orb_true_iff, IH, Z.eqb_eq. tauto.
Qed.

Lemma first_cat_uses : forall i l, first_cat i l
  = match find (fun u => (fst u =? i)%Z) (uses l) with Some u => Some (snd u) | None => None end.
Proof.
  induction l as [|[[] a b c|s] l IH]; simpl; auto. now destruct (a =? i)%Z.
Qed.

Lemma find_map_use : forall i (l : list (Z * Z)),
  find (fun u => (fst u =? i)%Z) (map (fun u => (fst u, str_int (snd u))) l)
  = option_map (fun u => (fst u, str_int (snd u))) (find (fun u => (fst u =? i)%Z) l).
Proof. induction l as [|u l IH]; simpl; auto. now destruct (fst u =? i)%Z. Qed.

Lemma unused_pieces : forall start n e,
  (forall u, In u (tensors e) -> unused start n (fst u)) ->
  Forall (unused_piece start n) (pieces e).
Proof.
  intros start n e H. apply Forall_forall. intros p I. destruct p as [[] a b c|s]; simpl; auto.
  assert (X : In a (map fst (uses (pieces e)))).
  { apply has_uses. apply existsb_exists. exists (PVar false a b c). split; auto.
    apply Z.eqb_refl. }
  rewrite uses_pieces, map_map in X. cbn [fst] in X. apply in_map_iff in X.
  destruct X as (u & <- & Iu). now apply H.
Qed.

Lemma rename_ext : forall s s' e, (forall u, In u (tensors e) -> s (fst u) = s' (fst u)) ->
  rename s e = rename s' e.
Proof.
  induction e; simpl; intros H; auto.
  - f_equal. exact (H (id, cat) (or_introl eq_refl)).
  - now rewrite IHe.
  - rewrite IHe1, IHe2; auto; intros; apply H, in_or_app; auto.
  - rewrite IHe1, IHe2, IHe3; auto; intros; apply H; rewrite !in_app_iff; auto.
Qed.

Lemma value_rename : forall V (m : meaning V) s var var' sym sym' e,
  (forall u, In u (tensors e) -> var' (s (fst u)) = var (fst u)) ->
  (forall i, In i (symbols e) -> var' i = sym i) ->
  value m var' sym' (rename s e) = value m var sym e.
Proof.
  induction e; cbn [rename value tensors symbols]; intros H K.
  - pose proof (H (id, cat) (or_introl eq_refl)) as E. cbn [fst] in E. now rewrite E.
  - now rewrite (K ind (or_introl eq_refl)).
  - reflexivity.
  - now rewrite IHe.
  - rewrite IHe1, IHe2; auto; intros; try apply H; try apply K; apply in_or_app; auto.
  - rewrite IHe1, IHe2, IHe3; auto; intros; try apply H; try apply K; rewrite !in_app_iff; auto.
Qed.

(** ** The first label *)

Lemma fold_max_ge : forall l a, (a <= fold_left Z.max l a)%Z
  /\ forall x, In x l -> (x <= fold_left Z.max l a)%Z.
Proof.
  induction l as [|y l IH]; simpl; intros a; [split; [lia|tauto]|].
  destruct (IH (Z.max a y)) as [A B]. split; [lia|]. intros x [<-|I]; [lia|auto].
Qed.

Lemma first_label : forall sv v, In v sv -> (fst (fst v) < new_variable_index sv)%Z.
Proof.
  intros [|w sv] v I; [destruct I|]. cbn [new_variable_index].
  destruct (fold_max_ge (map (fun v : Z * Z * Z => fst (fst v)) sv) (fst (fst w))) as [A B].
  destruct I as [<-|I]; [lia|]. specialize (B (fst (fst v))).
  assert (In (fst (fst v)) (map (fun v : Z * Z * Z => fst (fst v)) sv)).
  { apply in_map_iff. eauto. }
  specialize (B H). lia.
Qed.

(** ** Statements *)

Lemma text2_pieces : forall e2, show_all (match e2 with Some e => pieces e | None => [] end) = text2 e2.
Proof. intros [e|]; [apply show_pieces|reflexivity]. Qed.

Lemma passed_with_batch : forall nb l us v,
  uses l = map (fun u => (fst u, str_int (snd u))) us ->
  (forall u, In u us -> category (snd u)) ->
  existsb (has_id (t_id v)) l = true ->
  passed nb true l v = with_batch nb us v.
Proof.
  intros nb l us v U C EX. unfold passed, with_batch. f_equal.
  rewrite first_cat_uses, U, find_map_use.
  destruct (find _ us) as [u|] eqn:F.
  - apply find_some in F. destruct F as [I _]. specialize (C u I). destruct u as [a c].
    cbn [option_map snd fst]. unfold pad_batch.
    assert (E : (if (String.eqb (str_int c) "0" || String.eqb (str_int c) "1")%bool then 1 else 0)%Z
                = if (c =? 2)%Z then 0%Z else 1%Z)
      by (cbn [snd] in C; destruct C as [->| [->| ->]]; reflexivity).
    rewrite E. unfold loaded. destruct (t_data v).
    + do 4 f_equal. destruct (c =? 2)%Z; lia.
    + do 4 f_equal. destruct (c =? 2)%Z; lia.
  - exfalso. apply has_uses in EX. rewrite U, map_map in EX. apply in_map_iff in EX.
    destruct EX as (u & E & I). pose proof (find_none _ _ F u I) as N. simpl in E, N.
    rewrite E, Z.eqb_refl in N. discriminate.
Qed.

Lemma tensors_category : forall e u, well_formed e -> In u (tensors e) -> category (snd u).
Proof.
  induction e; simpl; intros u H I; try tauto.
  - destruct I as [<-|[]]. tauto.
  - apply IHe; tauto.
  - apply in_app_or in I. destruct I; [apply IHe1|apply IHe2]; tauto.
  - rewrite !in_app_iff in I. destruct I as [I|[I|I]]; [apply IHe1|apply IHe2|apply IHe3]; tauto.
Qed.

Lemma argument_app_l : forall A (l l' : list A) p, (p < Z.of_nat (List.length l))%Z ->
  argument (l ++ l')%list p = argument l p.
Proof.
  intros A l l' p H. unfold argument. destruct (Z.ltb_spec p 0); auto.
  apply nth_error_app1. lia.
Qed.

Lemma argument_app_r : forall A (l l' : list A) k,
  argument (l ++ l')%list (Z.of_nat (List.length l) + Z.of_nat k) = nth_error l' k.
Proof.
  intros A l l' k. unfold argument.
  destruct (Z.ltb_spec (Z.of_nat (List.length l) + Z.of_nat k) 0); [lia|].
  rewrite nth_error_app2 by lia. f_equal. lia.
Qed.

Lemma numbering : forall nb sv vs e e2 hd,
  well_formed e -> (forall x, e2 = Some x -> well_formed x) ->
  (forall u, In u (all_tensors e e2) -> In (fst u) (map t_id vs)) ->
  (forall i, In i (all_symbols e e2) -> In i (map (fun s => fst (fst s)) sv)) ->
  (forall h, hd = Some h -> In h (map t_id vs)) ->
  (forall v, In v vs -> ~ (new_variable_index sv <= t_id v
                           < new_variable_index sv + Z.of_nat (List.length vs))%Z) ->
  exists sel s,
    incl sel vs /\ NoDup (map t_id sel)
    /\ (forall i, In i (map t_id sel) <-> In i (map fst (all_tensors e e2)))
    /\ (forall k v, nth_error sel k = Some v -> s (t_id v) = (new_variable_index sv + Z.of_nat k)%Z)
    /\ fixvariables nb true sv vs (text e) (text2 e2) hd
       = Ok (text (rename s e), text2 (option_map (rename s) e2),
             map (with_batch nb (all_tensors e e2)) sel, option_map s hd)
    /\ forall (V A : Type) (m : meaning V) (read : option A -> Z -> Z -> V) (mem : Z -> A)
              (given : list A) sym,
         Z.of_nat (List.length given) = new_variable_index sv ->
         forall x, x = e \/ e2 = Some x ->
         value m (fun p => read (argument (given ++ map (fun v => mem (t_id v)) sel)%list p)) sym
           (rename s x)
         = value m (fun i => read (Some (mem i))) (fun p => read (argument given p)) x.
Proof.
  intros nb sv vs e e2 hd W W2 CV CS CH CL.
  set (start := new_variable_index sv) in *.
  set (n := List.length vs) in *.
  set (l1 := pieces e). set (l2 := match e2 with Some e => pieces e | None => [] end).
  assert (OK : Forall piece_ok (l1 ++ l2)).
  { apply Forall_app. split; [now apply pieces_ok|]. unfold l2. destruct e2; auto.
    apply pieces_ok. now apply W2. }
  assert (NC : Forall number_cat (l1 ++ l2)).
  { apply Forall_app. split; [now apply number_cat_pieces|]. unfold l2. destruct e2; auto.
    apply number_cat_pieces. now apply W2. }
  assert (CU : forall u, In u (all_tensors e e2) -> unused start n (fst u)).
  { intros u I. apply CV in I. apply in_map_iff in I. destruct I as (v & <- & I).
    exact (CL v I). }
  assert (UN : Forall (unused_piece start n) (l1 ++ l2)).
  { apply Forall_app. split.
    - apply unused_pieces. intros u I. apply CU. unfold all_tensors. apply in_or_app. auto.
    - unfold l2. destruct e2 as [f|]; auto. apply unused_pieces. intros u I. apply CU.
      unfold all_tensors. apply in_or_app. auto. }
  assert (US : uses (l1 ++ l2) = map (fun u => (fst u, str_int (snd u))) (all_tensors e e2)).
  { unfold l1, l2, all_tensors. rewrite uses_app, uses_pieces, map_app. f_equal.
    destruct e2; [apply uses_pieces|reflexivity]. }
  assert (CC : forall u, In u (all_tensors e e2) -> category (snd u)).
  { intros u I. unfold all_tensors in I. apply in_app_or in I. destruct I as [I|I].
    - eapply tensors_category; eauto.
    - destruct e2 as [f|]; [|destruct I]. eapply tensors_category; [apply W2|]; eauto. }
  assert (UH : match hd with Some h => unused start n h | None => True end).
  { destruct hd as [h|]; auto. specialize (CH h eq_refl). apply in_map_iff in CH.
    destruct CH as (v & <- & I). exact (CL v I). }
  destruct (relabel_ok start n nb true vs [] l1 l2 hd OK NC UN CL UH) as (sel & E & ND & IN & C1 & O1);
    [simpl; lia|constructor|].
  cbn [app List.length Z.of_nat] in *. rewrite Z.add_0_r in E.
  assert (R0 : forall l, map (ren_piece (ren start [])) l = l).
  { intros l. rewrite <- (map_id l) at 2. apply map_ext. now intros [[] a b c|t]. }
  rewrite !R0 in E.
  assert (H0 : option_map (ren start []) hd = hd) by now destruct hd.
  rewrite H0 in E. set (s := ren start (map t_id sel)) in *.
  exists sel, s.
  assert (OCC : forall i, In i (map t_id sel) <-> In i (map fst (all_tensors e e2))).
  { intros i. assert (EQ : map fst (uses (l1 ++ l2)) = map fst (all_tensors e e2))
      by (rewrite US, map_map; reflexivity).
    rewrite <- EQ. split; intros I.
    - apply in_map_iff in I. destruct I as (v & <- & I). apply has_uses. now apply O1.
    - assert (X : In i (map t_id vs)).
      { rewrite EQ in I. apply in_map_iff in I. destruct I as (u & <- & I). now apply CV. }
      apply in_map_iff in X. destruct X as (v & <- & Iv). apply C1; auto. now apply has_uses. }
  assert (POS : forall k v, nth_error sel k = Some v -> s (t_id v) = (start + Z.of_nat k)%Z).
  { intros k v K. unfold s, ren. rewrite (index_nth _ k); auto.
    apply map_nth_error with (f := t_id). exact K. }
  split; [exact IN|]. split; [exact ND|]. split; [exact OCC|]. split; [exact POS|]. split.
  - unfold fixvariables. fold start.
    assert (T1 : text e = show_all l1) by (unfold l1; now rewrite show_pieces).
    assert (T2 : text2 e2 = show_all l2) by (unfold l2; now rewrite text2_pieces).
    rewrite T1, T2, E. cbn [rbind].
    rewrite Forall_app in OK. destruct OK as [OK1 OK2].
    rewrite !replace_symb by now apply ren_piece_ok.
    assert (A1 : show_all (map no_sym (map (ren_piece s) l1)) = text (rename s e))
      by (unfold l1; now rewrite pieces_rename, show_pieces).
    assert (A2 : show_all (map no_sym (map (ren_piece s) l2)) = text2 (option_map (rename s) e2)).
    { unfold l2. destruct e2; [|reflexivity]. now rewrite pieces_rename, show_pieces. }
    rewrite A1, A2. do 3 f_equal. apply map_ext_in. intros v Iv.
    apply passed_with_batch; auto.
  - intros V A m read mem given sym LG x X.
    assert (XT : forall u, In u (tensors x) -> In u (all_tensors e e2)).
    { unfold all_tensors. intros u I. apply in_or_app. destruct X as [->| ->]; auto. }
    assert (XS : forall i, In i (symbols x) -> In i (all_symbols e e2)).
    { unfold all_symbols. intros u I. apply in_or_app. destruct X as [->| ->]; auto. }
    apply value_rename.
    + intros u I. assert (Iu : In (fst u) (map t_id sel)).
      { apply OCC. apply in_map. auto. }
      apply in_map_iff in Iu. destruct Iu as (v & Ev & Iv).
      apply In_nth_error in Iv. destruct Iv as (k & K).
      rewrite <- Ev, (POS k v K), <- LG, argument_app_r.
      now rewrite (map_nth_error (fun v => mem (t_id v)) k sel K).
    + intros i I. rewrite argument_app_l; auto. rewrite LG.
      apply XS, CS in I. apply in_map_iff in I. destruct I as (w & <- & I).
      now apply first_label.
Qed.

(** ** Symbolic tensors carry expressions *)

Lemma separator_app : forall a s, separator a -> separator s -> separator (a ++ s).
Proof.
  intros a s (A1 & A2 & A3) (S1 & S2 & S3). split; [|split].
  - intros x y E. apply app_split in E. destruct E as [(w & E1 & E2)|(w & E1 & E2)].
    + exact (S1 w y E2).
    + destruct w as [|c w]; [exact (S1 "" y (eq_sym E2))|]. cbn in E2. injection E2 as <- E2.
      destruct w as [|c w]; [exact (A2 x E1)|]. cbn in E2. injection E2 as <- E2.
      destruct w as [|c w]; [exact (A3 x E1)|]. cbn in E2. injection E2 as <- E2.
      exact (A1 x w E1).
  - intros x E. apply app_split in E. destruct E as [(w & E1 & E2)|(w & E1 & E2)].
    + exact (S2 w E2).
    + destruct w as [|c w]; [exact (S2 "" (eq_sym E2))|]. cbn in E2. injection E2 as <- E2.
      destruct w; [|discriminate]. exact (A2 x E1).
  - intros x E. apply app_split in E. destruct E as [(w & E1 & E2)|(w & E1 & E2)].
    + exact (S3 w E2).
    + destruct w as [|c w]; [exact (S3 "" (eq_sym E2))|]. cbn in E2. injection E2 as <- E2.
      destruct w as [|c w]; [exact (A2 x E1)|]. cbn in E2. injection E2 as <- E2.
      destruct w; [|discriminate]. exact (A3 x E1).
Qed.

Ltac sep := repeat (apply separator_app; [first [assumption | now apply no_V_separator]|]);
            first [assumption | now apply no_V_separator].

Lemma last_dim_ok : forall sh d, Forall (Z.le 0) sh -> last_dim sh = Ok d -> (0 <= d)%Z.
Proof.
  intros sh d H E. unfold last_dim in E. destruct (rev sh) eqn:R; [discriminate|].
  injection E as ->. rewrite Forall_forall in H. apply H. apply in_rev. rewrite R. simpl; auto.
Qed.

Lemma squeezed_ok : forall sh q, Forall (Z.le 0) sh -> squeezed sh = Ok q ->
  Forall (Z.le 0) (fst (fst q)).
Proof.
  intros sh q H E. unfold squeezed in E. apply Forall_rev in H.
  destruct (rev sh) as [|d [|n [|m rest]]] eqn:R; try discriminate.
  inversion H as [|? ? Hd H1]; subst. inversion H1 as [|? ? Hn H2]; subst.
  inversion H2 as [|? ? Hm H3]; subst. apply Forall_rev in H3.
  destruct (m =? 1)%Z, (n =? 1)%Z; try discriminate; injection E as <-; cbn [fst];
    apply Forall_app; auto.
Qed.

Lemma carries_var : forall id d a l, (0 <= id)%Z -> (0 <= d)%Z -> category a ->
  formula l = var_text "Var" id d a -> map t_id (variables l) = [id] -> exists e, carries l e.
Proof.
  intros id d a l I D C F V. exists (EVar id d a). split; [exact F|]. split; [simpl; auto|].
  split; [|intros i []]. intros u [<-|[]]. rewrite V. simpl; auto.
Qed.

Lemma array_carries : forall dt id sh ax l, (0 <= id)%Z -> Forall (Z.le 0) sh ->
  lt_array dt id sh ax = Ok l -> exists e, carries l e.
Proof.
  intros dt id sh ax l I H E. unfold lt_array in E.
  set (sh0 := match sh with [] => [1%Z] | _ => sh end) in E.
  assert (H0 : Forall (Z.le 0) sh0).
  { unfold sh0. destruct sh; auto. constructor; [lia|constructor]. }
  clearbody sh0. apply rbind_ok in E. destruct E as ([[sh1 ax1] batch] & E1 & E).
  assert (H1 : Forall (Z.le 0) sh1).
  { destruct (Nat.leb 3 (List.length sh0)).
    - destruct ax; [discriminate|]. apply rbind_ok in E1. destruct E1 as (q & Q & E1).
      injection E1 as <- <- <-. eapply squeezed_ok; eauto.
    - injection E1 as <- <- <-. auto. }
  apply rbind_ok in E. destruct E as (d & D & E). pose proof (last_dim_ok _ _ H1 D) as D0.
  assert (C2 : category 2) by (right; right; reflexivity).
  destruct (Nat.leb 2 (List.length sh1) && _)%bool.
  - destruct ax1 as [a|]; [|discriminate].
    destruct ((a =? 0)%Z || (a =? 1)%Z)%bool eqn:A; [|discriminate].
    apply rbind_ok in E. destruct E as (n & _ & E). injection E as <-.
    apply (carries_var id d a); auto.
    apply orb_true_iff in A. rewrite !Z.eqb_eq in A. unfold category. tauto.
  - destruct ax1 as [a|]; [destruct (a =? 2)%Z; [|discriminate]|]; injection E as <-;
      apply (carries_var id d 2); auto.
Qed.

Lemma join_ok : forall l o f d r, join l o f d = Ok r ->
  formula r = f /\ variables r = (variables l ++ variables o)%list
  /\ symbolic r = (symbolic l ++ symbolic o)%list.
Proof.
  intros l o f d r E. unfold join in E.
  do 5 (apply rbind_ok in E; destruct E as (? & _ & E)). injection E as <-. auto.
Qed.

Lemma binary_ok : forall l o op is_op d dc opt rv r, binary l o op is_op d dc opt rv = Ok r ->
  variables r = (variables l ++ variables o)%list
  /\ symbolic r = (symbolic l ++ symbolic o)%list
  /\ exists lf rf, (lf, rf) = (if rv then (formula o, formula l) else (formula l, formula o))
     /\ formula r = if is_op then "(" ++ lf ++ " " ++ op ++ " " ++ rf ++ ")"
      else match opt with
           | Some (x, false) => op ++ "(" ++ lf ++ ", " ++ rf ++ ", " ++ extra_text x ++ ")"
           | Some (x, true) => op ++ "(" ++ lf ++ ", " ++ extra_text x ++ ", " ++ rf ++ ")"
           | None => op ++ "(" ++ lf ++ ", " ++ rf ++ ")"
           end.
Proof.
  intros l o op is_op d dc opt rv r E. unfold binary in E. destruct (check_dims _ _ _); [|discriminate].
  destruct (if rv then _ else _) as [lf rf].
  apply rbind_ok in E. destruct E as (j & J & E). injection E as <-. cbn [variables symbolic formula].
  apply join_ok in J. destruct J as (F & V & S). rewrite F, V, S. split; auto. split; auto.
  exists lf, rf. auto.
Qed.

(** Knowing the variables of an expression. *)
Definition knows (vs : list tensor) (sv : list (Z * Z * Z)) (e : expr) : Prop :=
  (forall u, In u (tensors e) -> In (fst u) (map t_id vs))
  /\ (forall i, In i (symbols e) -> In i (map (fun s => fst (fst s)) sv)).

Lemma knows_incl : forall vs sv vs' sv' e, knows vs sv e -> incl vs vs' -> incl sv sv' ->
  knows vs' sv' e.
Proof.
  intros vs sv vs' sv' e [K1 K2] I1 I2. split.
  - intros u H. apply K1 in H. apply in_map_iff in H. destruct H as (v & E & H).
    apply in_map_iff. eauto.
  - intros u H. apply K2 in H. apply in_map_iff in H. destruct H as (v & E & H).
    apply in_map_iff. eauto.
Qed.

Lemma knows_bin : forall vs sv a e b f c, knows vs sv e -> knows vs sv f -> knows vs sv (EBin a e b f c).
Proof.
  intros vs sv a e b f c [A1 A2] [B1 B2]. split; cbn [tensors symbols]; intros u I;
    apply in_app_or in I; destruct I; auto.
Qed.

Lemma knows_ter : forall vs sv a e b f c g d, knows vs sv e -> knows vs sv f -> knows vs sv g ->
  knows vs sv (ETer a e b f c g d).
Proof.
  intros vs sv a e b f c g d [A1 A2] [B1 B2] [C1 C2]. split; cbn [tensors symbols]; intros u I;
    rewrite !in_app_iff in I; destruct I as [I|[I|I]]; auto.
Qed.

Lemma built_carries : forall l, built l -> exists e, carries l e.
Proof.
  intros l B. induction B.
  - exists (ESym ind dim cat). split; [reflexivity|]. split; [simpl; auto|]. split; [intros u []|].
    intros i [<-|[]]. simpl; auto.
  - exists (ECst ("IntCst(" ++ str_int n ++ ")")). split; [reflexivity|]. split.
    + apply no_V_separator. rewrite !has_app, str_int_V. reflexivity.
    + split; intros u [].
  - apply (carries_var id n 2); auto. right; right; reflexivity.
  - eapply array_carries; eauto.
  - destruct IHB as (e & F & W & T & S). unfold unary.
    set (post := match b, a with
                 | Some b, Some a => "," ++ a ++ "," ++ b ++ ")"
                 | Some b, None => ",None," ++ b ++ ")"
                 | None, Some a => "," ++ a ++ ")"
                 | None, None => ")"
                 end).
    exists (EUn (op ++ "(") e post).
    assert (P : separator post).
    { unfold post. destruct b as [b|], a as [a|]; try specialize (H0 _ eq_refl);
        try specialize (H1 _ eq_refl); sep. }
    split; [|split; [|split; [exact T|exact S]]].
    + cbn [formula init text]. rewrite F. unfold post. destruct b, a; now rewrite !app_assoc_s.
    + cbn [well_formed]. repeat split; auto; try apply P; sep.
  - destruct IHB1 as (e & F & W & K), IHB2 as (e' & F' & W' & K').
    apply binary_ok in H1. destruct H1 as (V & S & lf & rf & E & FR).
    assert (KE : knows (variables r) (symbolic r) e).
    { rewrite V, S. eapply knows_incl; [exact K| |]; intros x I; apply in_or_app; auto. }
    assert (KE' : knows (variables r) (symbolic r) e').
    { rewrite V, S. eapply knows_incl; [exact K'| |]; intros x I; apply in_or_app; auto. }
    assert (X : exists g g', well_formed g /\ well_formed g'
        /\ knows (variables r) (symbolic r) g /\ knows (variables r) (symbolic r) g'
        /\ lf = text g /\ rf = text g').
    { destruct rv; injection E as -> ->; [exists e', e|exists e, e']; repeat split; auto;
        try apply KE; try apply KE'. }
    destruct X as (g & g' & Wg & Wg' & Kg & Kg' & -> & ->).
    destruct is_op.
    + exists (EBin "(" g (" " ++ op ++ " ") g' ")"). split; [|split; [|now apply knows_bin]].
      * rewrite FR. cbn [text]. now rewrite !app_assoc_s.
      * cbn [well_formed]. split; [sep|]. split; [sep|]. split; [sep|]. auto.
    + destruct opt as [[x b]|].
      * destruct (H0 x b eq_refl) as (t & -> & St). destruct b.
        -- exists (EBin (op ++ "(") g (", " ++ t ++ ", ") g' ")").
           split; [|split; [|now apply knows_bin]].
           ++ rewrite FR. cbn [text extra_text]. now rewrite !app_assoc_s.
           ++ cbn [well_formed]. split; [sep|]. split; [sep|]. split; [sep|]. auto.
        -- exists (EBin (op ++ "(") g ", " g' (", " ++ t ++ ")")).
           split; [|split; [|now apply knows_bin]].
           ++ rewrite FR. cbn [text extra_text]. now rewrite !app_assoc_s.
           ++ cbn [well_formed]. split; [sep|]. split; [sep|]. split; [sep|]. auto.
      * exists (EBin (op ++ "(") g ", " g' ")"). split; [|split; [|now apply knows_bin]].
        -- rewrite FR. cbn [text]. now rewrite !app_assoc_s.
        -- cbn [well_formed]. split; [sep|]. split; [sep|]. split; [sep|]. auto.
  - destruct IHB1 as (e & F & W & K), IHB2 as (e' & F' & W' & K'), IHB3 as (ex & Fx & Wx & Kx).
    apply binary_ok in H2. destruct H2 as (V & S & lf & rf & E & FR).
    assert (KE : knows (variables r) (symbolic r) e).
    { rewrite V, S. eapply knows_incl; [exact K| |]; intros y I; apply in_or_app; auto. }
    assert (KE' : knows (variables r) (symbolic r) e').
    { rewrite V, S. eapply knows_incl; [exact K'| |]; intros y I; apply in_or_app; auto. }
    assert (KX : knows (variables r) (symbolic r) ex).
    { rewrite V, S. eapply knows_incl; [exact Kx| |]; auto. }
    assert (X : exists g g', well_formed g /\ well_formed g'
        /\ knows (variables r) (symbolic r) g /\ knows (variables r) (symbolic r) g'
        /\ lf = text g /\ rf = text g').
    { destruct rv; injection E as -> ->; [exists e', e|exists e, e']; repeat split; auto;
        try apply KE; try apply KE'. }
    destruct X as (g & g' & Wg & Wg' & Kg & Kg' & -> & ->).
    destruct is_op.
    + exists (EBin "(" g (" " ++ op ++ " ") g' ")"). split; [|split; [|now apply knows_bin]].
      * rewrite FR. cbn [text]. now rewrite !app_assoc_s.
      * cbn [well_formed]. split; [sep|]. split; [sep|]. split; [sep|]. auto.
    + destruct b.
      * exists (ETer (op ++ "(") g ", " ex ", " g' ")"). split; [|split; [|now apply knows_ter]].
        -- rewrite FR. cbn [text extra_text]. rewrite Fx. now rewrite !app_assoc_s.
        -- cbn [well_formed]. split; [sep|]. split; [sep|]. split; [sep|]. split; [sep|]. auto.
      * exists (ETer (op ++ "(") g ", " g' ", " ex ")"). split; [|split; [|now apply knows_ter]].
        -- rewrite FR. cbn [text extra_text]. rewrite Fx. now rewrite !app_assoc_s.
        -- cbn [well_formed]. split; [sep|]. split; [sep|]. split; [sep|]. split; [sep|]. auto.
  - destruct IHB1 as (e & F & W & K), IHB2 as (e1 & F1 & W1 & K1), IHB3 as (e2 & F2 & W2 & K2).
    unfold ternary in H1. destruct (match dc with DSame => _ | _ => _ end); [|discriminate].
    apply rbind_ok in H1. destruct H1 as (o & J & E). apply join_ok in J, E.
    destruct J as (_ & V' & S'), E as (FR & V & S). rewrite V' in V. rewrite S' in S.
    assert (KE : knows (variables r) (symbolic r) e).
    { rewrite V, S. eapply knows_incl; [exact K| |]; intros x I; rewrite !in_app_iff; auto. }
    assert (KE1 : knows (variables r) (symbolic r) e1).
    { rewrite V, S. eapply knows_incl; [exact K1| |]; intros x I; rewrite !in_app_iff; auto. }
    assert (KE2 : knows (variables r) (symbolic r) e2).
    { rewrite V, S. eapply knows_incl; [exact K2| |]; intros x I; rewrite !in_app_iff; auto. }
    destruct opt as [x|].
    + destruct (H0 x eq_refl) as (t & -> & St).
      exists (ETer (op ++ "(") e ", " e1 ", " e2 (", " ++ t ++ ")")).
      split; [|split; [|now apply knows_ter]].
      * rewrite FR. cbn [text extra_text]. rewrite F, F1, F2. now rewrite !app_assoc_s.
      * cbn [well_formed]. split; [sep|]. split; [sep|]. split; [sep|]. split; [sep|]. auto.
    + exists (ETer (op ++ "(") e ", " e1 ", " e2 ")").
      split; [|split; [|now apply knows_ter]].
      * rewrite FR. cbn [text]. rewrite F, F1, F2. now rewrite !app_assoc_s.
      * cbn [well_formed]. split; [sep|]. split; [sep|]. split; [sep|]. split; [sep|]. auto.
Qed.

(** ** Examples and refutations *)

Definition array_at (id : Z) (sh : list Z) : tensor := {| t_id := id; t_data := Array sh |}.

(** [x_i - y_j] and the constant of a list, with [x] used twice, a symbolic variable, and a tensor
    that is not used. *)
Definition example_expr : expr :=
  EBin "(" (EUn "SqNorm2(" (EBin "(" (EVar 900 3 0) " - " (EVar 950 3 1) ")") ")") " * "
    (EBin "(" (EBin "(" (EVar 900 3 0) " | " (ESym 1 3 1) ")") " / " (EVar 970 1 2) ")") ")".

Definition example_vars : list tensor :=
  [array_at 900 [7; 10; 3]%Z; array_at 950 [20; 3]%Z; array_at 900 [7; 10; 3]%Z; array_at 990 [10; 3]%Z;
   {| t_id := 970; t_data := Floats 1 |}].

Lemma example_fixed :
  fixvariables 1 true [(1, 3, 1)%Z] example_vars (text example_expr) "" None
  = Ok ("(SqNorm2((Var(2,3,0) - Var(3,3,1))) * ((Var(2,3,0) | Var(1,3,1)) / Var(4,1,2)))", "",
        [array_at 900 [7; 10; 3]%Z; array_at 950 [1; 20; 3]%Z; array_at 970 [1; 1]%Z], None).
Proof. vm_compute. reflexivity. Qed.

Lemma example_well_formed : well_formed example_expr.
Proof.
  unfold example_expr. cbn [well_formed]. unfold category.
  repeat match goal with
         | |- _ /\ _ => split
         | |- separator _ => now apply no_V_separator
         end; try lia; auto.
Qed.

Lemma clash :
  fixvariables 0 true [] [array_at 7 [10; 3]%Z; array_at 0 [20; 3]%Z]
    (text (EBin "(" (EVar 7 3 0) " - " (EVar 0 3 1) ")")) "" None
  = Ok ("(Var(1,3,0) - Var(1,3,1))", "", [array_at 7 [10; 3]%Z; array_at 0 [20; 3]%Z], None).
Proof. vm_compute. reflexivity. Qed.

(** The gradient of [x_i] with respect to a tensor that it does not contain. *)
Lemma absent : exists x y g r,
  lt_array "float32" 900 [10; 3]%Z (Some 0%Z) = Ok x /\ lt_array "float32" 950 [10; 3]%Z (Some 0%Z) = Ok y
  /\ lt_array "float32" 970 [10; 3]%Z (Some 0%Z) = Ok g
  /\ binary x g "Grad" false (Some 3%Z) DSame (Some (ELazy y, true)) false = Ok r
  /\ fixvariables 0 true (symbolic r) (variables r) (formula r) "" None
     = Ok ("Grad(Var(0,3,0), Var(950,3,0), Var(1,3,0))", "",
           [array_at 900 [10; 3]%Z; array_at 970 [10; 3]%Z], None).
Proof.
  do 4 eexists. split; [reflexivity|]. split; [reflexivity|]. split; [reflexivity|].
  split; [reflexivity|]. vm_compute. reflexivity.
Qed.
