(** Proofs about announced dimensions. *)

From Coq Require Import ZArith List Bool Ascii String Lia.
From Verif Require Import Result Keys KeySpec Formula LazyTensors Tensordot Methods MethodsSpec.
Import ListNotations.
Open Scope string_scope.

Lemma app_assoc_s : forall a b c : string, (a ++ b) ++ c = a ++ b ++ c.
Proof. induction a; intros; cbn; congruence. Qed.
Lemma app_nil_s : forall a : string, a ++ "" = a.
Proof. induction a; cbn; congruence. Qed.

Lemma vect1 : forall d, vectorized [d] = Ok d.
Proof. reflexivity. Qed.

Lemma vect2 : forall a b, vectorized [a; b] =
  if ((a =? b) || (Z.min a b =? 1))%Z then Ok (Z.max a b) else KErr.
Proof.
  intros a b. unfold vectorized. cbn [nodup]. destruct (in_dec Z.eq_dec a [b]) as [i|n]; cbn [List.length fold_left].
  - destruct i as [->|[]]. cbn. rewrite Z.eqb_refl. cbn. rewrite Z.max_id. reflexivity.
  - assert (a <> b) by (intros ->; apply n; left; auto).
    apply Z.eqb_neq in H. rewrite H. cbn. destruct (Z.min a b =? 1)%Z; reflexivity.
Qed.

Lemma vect2_ok : forall a b d, vectorized [a; b] = Ok d -> (1 <= a)%Z -> (1 <= b)%Z ->
  d = Z.max a b /\ (a = b \/ a = 1 \/ b = 1)%Z.
Proof.
  intros a b d H A B. rewrite vect2 in H.
  destruct (a =? b)%Z eqn:E; cbn in H; [apply Z.eqb_eq in E; inversion H; subst; auto|].
  destruct (Z.min a b =? 1)%Z eqn:E'; [|discriminate]. apply Z.eqb_eq in E'. inversion H. split; auto. right. lia.
Qed.

Lemma vect2_is : forall a b, (1 <= a)%Z -> (1 <= b)%Z -> (a = b \/ a = 1 \/ b = 1)%Z ->
  vectorized [a; b] = Ok (Z.max a b).
Proof.
  intros a b A B H. rewrite vect2. destruct (a =? b)%Z eqn:E; [auto|]. apply Z.eqb_neq in E. cbn.
  destruct (Z.min a b =? 1)%Z eqn:E'; [auto|]. apply Z.eqb_neq in E'. lia.
Qed.

Lemma nodup3 : forall a b c : Z, nodup Z.eq_dec [a; b; c] =
  if Z.eqb b c then if Z.eqb a c then [c] else [a; c]
  else if (Z.eqb a b || Z.eqb a c) then [b; c] else [a; b; c].
Proof.
  intros a b c. cbn [nodup].
  destruct (in_dec Z.eq_dec b [c]) as [i|n]; destruct (in_dec Z.eq_dec a [b; c]) as [j|m].
  - destruct i as [<-|[]]. rewrite Z.eqb_refl. destruct (Z.eqb_spec a c); [reflexivity|]. cbn in j. intuition congruence.
  - destruct i as [<-|[]]. rewrite Z.eqb_refl. destruct (Z.eqb_spec a c); [|reflexivity]. cbn in m. intuition congruence.
  - destruct (Z.eqb_spec b c); [cbn in n; intuition congruence|].
    destruct (Z.eqb_spec a b); [reflexivity|]. destruct (Z.eqb_spec a c); [reflexivity|]. cbn in j. intuition congruence.
  - destruct (Z.eqb_spec b c); [cbn in n; intuition congruence|].
    destruct (Z.eqb_spec a b); [cbn in m; intuition congruence|].
    destruct (Z.eqb_spec a c); [cbn in m; intuition congruence|]. reflexivity.
Qed.

Lemma vect3_ok : forall a b c d, vectorized [a; b; c] = Ok d -> (1 <= a)%Z -> (1 <= b)%Z -> (1 <= c)%Z ->
  d = Z.max a (Z.max b c).
Proof.
  intros a b c d H A B C. unfold vectorized in H. rewrite nodup3 in H.
  destruct (Z.eqb_spec b c); subst.
  - destruct (Z.eqb_spec a c); subst; cbn in H.
    + inversion H; lia.
    + destruct (Z.min a c =? 1)%Z; cbn in H; inversion H; lia.
  - destruct (Z.eqb_spec a b); subst; cbn in H.
    + destruct (Z.min b c =? 1)%Z; cbn in H; inversion H; lia.
    + destruct (Z.eqb_spec a c); subst; cbn in H.
      * destruct (Z.min b c =? 1)%Z; cbn in H; inversion H; lia.
      * discriminate.
Qed.

Lemma vect3_is : forall a b c, (1 <= a)%Z -> (1 <= b)%Z -> (1 <= c)%Z -> same_or_one_test a b c = true ->
  exists d, vectorized [a; b; c] = Ok d.
Proof.
  intros a b c A B C H. unfold same_or_one_test in H. apply Nat.leb_le in H.
  assert (F : forall x y z : Z, NoDup [x; y; z] -> incl [x; y; z] [a; b; c; 1%Z] -> False).
  { intros x y z N I. assert (L : incl [x; y; z] (nodup Z.eq_dec [a; b; c; 1%Z])).
    { intros w W. apply nodup_In. auto. }
    apply (NoDup_incl_length N) in L. cbn [List.length] in L. lia. }
  unfold vectorized. rewrite nodup3.
  destruct (Z.eqb_spec b c); subst.
  - destruct (Z.eqb_spec a c); subst; cbn; [eauto|].
    destruct (Z.min a c =? 1)%Z eqn:E; cbn; [eauto|]. apply Z.eqb_neq in E.
    exfalso. apply (F a c 1%Z); [|cbn; intros w; cbn; tauto].
    repeat constructor; cbn; intuition lia.
  - destruct (Z.eqb_spec a b); subst; cbn.
    + destruct (Z.min b c =? 1)%Z eqn:E; cbn; [eauto|]. apply Z.eqb_neq in E.
      exfalso. apply (F b c 1%Z); [|cbn; intros w; cbn; tauto]. repeat constructor; cbn; intuition lia.
    + destruct (Z.eqb_spec a c); subst; cbn.
      * destruct (Z.min b c =? 1)%Z eqn:E; cbn; [eauto|]. apply Z.eqb_neq in E.
        exfalso. apply (F b c 1%Z); [|cbn; intros w; cbn; tauto]. repeat constructor; cbn; intuition lia.
      * exfalso. apply (F a b c); [|cbn; intros w; cbn; tauto]. repeat constructor; cbn; intuition lia.
Qed.

(** ** Construction *)

Lemma bind_ok : forall A B (r : res A) (k : A -> res B) y, rbind r k = Ok y -> exists x, r = Ok x /\ k x = Ok y.
Proof. intros A B [x| | |] k y H; cbn in H; try discriminate. eauto. Qed.

Lemma join_fields : forall l o f d r, join l o f d = Ok r -> formula r = f /\ ndim r = d.
Proof.
  intros l o f d r H. unfold join in H. repeat (apply bind_ok in H as (? & _ & H)). inversion H. auto.
Qed.

Definition binary_text (lf rf op : string) (is_op : bool) (opt : option (extra * bool)) : string :=
  if is_op then "(" ++ lf ++ " " ++ op ++ " " ++ rf ++ ")"
  else match opt with
       | Some (x, false) => op ++ "(" ++ lf ++ ", " ++ rf ++ ", " ++ extra_text x ++ ")"
       | Some (x, true) => op ++ "(" ++ lf ++ ", " ++ extra_text x ++ ", " ++ rf ++ ")"
       | None => op ++ "(" ++ lf ++ ", " ++ rf ++ ")"
       end.

Lemma binary_fields : forall l o op i dr dc opt rv r, binary l o op i dr dc opt rv = Ok r ->
  check_dims dc (ndim l) (ndim o) = true
  /\ formula r = (if rv then binary_text (formula o) (formula l) op i opt
                  else binary_text (formula l) (formula o) op i opt)
  /\ ndim r = or_default dr (Z.max (ndim l) (ndim o)).
Proof.
  intros l o op i dr dc opt rv r H. unfold binary in H. destruct (check_dims dc (ndim l) (ndim o)); [|discriminate].
  split; auto. unfold binary_text. destruct rv; cbn zeta in H; apply bind_ok in H as (x & J & H);
    apply join_fields in J as [J1 J2]; inversion H; subst; cbn [formula ndim]; rewrite J1, J2; auto.
Qed.

Lemma ternary_fields : forall l o1 o2 op dr dc r, ternary l o1 o2 op dr dc None = Ok r ->
  formula r = op ++ "(" ++ formula l ++ ", " ++ formula o1 ++ ", " ++ formula o2 ++ ")"
  /\ ndim r = or_default dr (Z.max (ndim l) (Z.max (ndim o1) (ndim o2)))
  /\ (dc = DSameOr1 -> same_or_one_test (ndim l) (ndim o1) (ndim o2) = true).
Proof.
  intros l o1 o2 op dr dc r H. unfold ternary in H. cbn zeta in H.
  match type of H with (if ?c then _ else _) = _ => destruct c eqn:E; [|discriminate] end.
  apply bind_ok in H as (x & _ & J). apply join_fields in J as [J1 J2]. split; [auto|]. split; [auto|].
  intros ->. exact E.
Qed.

Lemma last_last : forall (l : list Z) d, last (l ++ [d]) 1%Z = d.
Proof. intros l d. apply last_last. Qed.

Lemma last_dim_last : forall sh d, last_dim sh = Ok d -> last sh 1%Z = d.
Proof.
  intros sh d H. unfold last_dim in H. destruct (rev sh) eqn:E; [discriminate|]. inversion H; subst.
  rewrite <- (rev_involutive sh), E. cbn [rev]. apply last_last.
Qed.

Lemma last_in : forall (sh : list Z), Forall (fun s => 1 <= s)%Z sh -> (1 <= last sh 1)%Z.
Proof.
  intros sh H. destruct sh as [|a sh]; [cbn; lia|]. rewrite Forall_forall in H. apply H.
  destruct (@exists_last _ (a :: sh)) as (l & x & ->); [discriminate|]. rewrite last_last. apply in_or_app. right. left. auto.
Qed.

Lemma squeezed_last : forall sh s' a b, squeezed sh = Ok (s', a, b) -> last s' 1%Z = last sh 1%Z.
Proof.
  intros sh s' a b H. unfold squeezed in H. destruct (rev sh) as [|d [|n [|m rest]]] eqn:E; try discriminate.
  assert (L : last sh 1%Z = d).
  { rewrite <- (rev_involutive sh), E. cbn [rev]. apply last_last. }
  rewrite L. clear L E. destruct (m =? 1)%Z; destruct (n =? 1)%Z; inversion H; subst.
  - apply last_last.
  - change ([n; d]) with ([n] ++ [d])%list. rewrite app_assoc. apply last_last.
  - change ([m; d]) with ([m] ++ [d])%list. rewrite app_assoc. apply last_last.
Qed.

Lemma array_fields : forall dt id sh ax l c, lt_array dt id sh ax = Ok l -> axis l = Some c ->
  formula l = var_text "Var" id (last sh 1%Z) c /\ ndim l = last sh 1%Z.
Proof.
  intros dt id sh ax l c H E. unfold lt_array in H. cbn zeta in H.
  set (s0 := match sh with [] => [1%Z] | _ => sh end) in *.
  assert (L : last s0 1%Z = last sh 1%Z) by (unfold s0; destruct sh; reflexivity). rewrite <- L. clearbody s0. clear L sh.
  apply bind_ok in H as (((sh', ax'), b) & E0 & H).
  assert (L : last sh' 1%Z = last s0 1%Z).
  { destruct (Nat.leb 3 (List.length s0)).
    - destruct ax; [discriminate|]. apply bind_ok in E0 as (((s1, a1), b1) & E1 & E0). cbn in E0. inversion E0; subst.
      eapply squeezed_last; eauto.
    - inversion E0; auto. }
  rewrite <- L. clear E0 L. apply bind_ok in H as (d & D & H). apply last_dim_last in D. rewrite D.
  destruct (Nat.leb 2 (List.length sh') && negb match ax' with Some a => (a =? 2)%Z | None => false end)%bool eqn:T.
  - destruct ax' as [a|]; [|discriminate]. destruct ((a =? 0)%Z || (a =? 1)%Z)%bool; [|discriminate].
    apply bind_ok in H as (n & _ & H). inversion H; subst. cbn [axis] in E. inversion E; subst. cbn [formula ndim]. auto.
  - destruct ax' as [a|].
    + destruct (a =? 2)%Z; [|discriminate]. inversion H; subst. cbn [axis] in E. inversion E; subst. cbn [formula ndim]. auto.
    + inversion H; subst. cbn [axis] in E. inversion E; subst. cbn [formula ndim]. auto.
Qed.

Lemma lists_concat : forall (x : list Z) (xs : list (list Z)),
  ", " ++ lists_text (x :: xs) = String.concat "" (map (fun p => ", " ++ ints_text p) (x :: xs)).
Proof.
  intros x xs. unfold lists_text. revert x. induction xs as [|y xs IH]; intros x.
  - reflexivity.
  - cbn [map String.concat] in *. rewrite <- IH. rewrite !app_assoc_s. cbn. reflexivity.
Qed.

(** ** The invariant *)

Record agrees (l : lazy) (t : term) : Prop := {
  ag_text : formula l = written t;
  ag_dim : forall d, engine_dim t = Ok d -> ndim l = d /\ (1 <= d)%Z;
  ag_ok : checked t = true -> exists d, engine_dim t = Ok d
}.

Lemma or_default_pos : forall z d, (1 <= z)%Z -> or_default (Some z) d = z.
Proof. intros z d H. cbn. destruct (Z.eqb_spec z 0); [lia|auto]. Qed.

Lemma engine_map : forall m d, (1 <= d)%Z -> engine1 (map1_op m) [] d = Ok d.
Proof.
  intros m d H. destruct m; try reflexivity. cbn. rewrite (vect2_is 1 d); [|lia..]. f_equal. lia.
Qed.
Lemma engine_scal : forall m d, (1 <= d)%Z -> engine1 (scal1_op m) [] d = Ok 1%Z.
Proof. intros m d H. destruct m; try reflexivity; cbn; destruct (Z.ltb_spec d 1); auto; lia. Qed.

Ltac engine_sub H := cbn [engine_dim] in H; apply bind_ok in H as (? & ? & H).

Lemma agrees_unary : forall l t op ps dr o1 o2,
  agrees l t ->
  (match o2, o1 with
   | Some b, Some a => op ++ "(" ++ formula l ++ "," ++ a ++ "," ++ b ++ ")"
   | Some b, None => op ++ "(" ++ formula l ++ ",None," ++ b ++ ")"
   | None, Some a => op ++ "(" ++ formula l ++ "," ++ a ++ ")"
   | None, None => op ++ "(" ++ formula l ++ ")"
   end = op ++ "(" ++ written t ++ String.concat "" (map (fun p => "," ++ str_int p) ps) ++ ")") ->
  (forall d d', ndim l = d -> (1 <= d)%Z -> engine1 op ps d = Ok d' -> or_default dr d = d' /\ (1 <= d')%Z) ->
  (forall d, ndim l = d -> (1 <= d)%Z -> op <> "OneHot" -> exists d', engine1 op ps d = Ok d') ->
  agrees (unary l op dr o1 o2) (T1 op t ps).
Proof.
  intros l t op ps dr o1 o2 [A B C] T D E. split.
  - cbn [unary init formula written]. exact T.
  - intros d H. engine_sub H. destruct (B _ H0) as [B1 B2]. subst x.
    destruct (D _ _ eq_refl B2 H) as [D1 D2]. split; auto.
  - intros H. cbn [checked] in H. apply andb_prop in H as [H1 H2].
    destruct (C H2) as [d Hd]. destruct (B _ Hd) as [B1 B2].
    destruct (E d B1 B2) as [d' Hd'].
    { intros ->. discriminate. }
    exists d'. cbn [engine_dim]. rewrite Hd. exact Hd'.
Qed.

Lemma text0 : forall op f, op ++ "(" ++ f ++ ")" = op ++ "(" ++ f ++ String.concat "" (map (fun p => "," ++ str_int p) []) ++ ")".
Proof. reflexivity. Qed.

Lemma agrees_map : forall m l t, agrees l t -> agrees (m_map m l) (T1 (map1_op m) t []).
Proof.
  intros m l t H. apply agrees_unary; auto.
  - rewrite (ag_text _ _ H). reflexivity.
  - intros d d' E L G. rewrite engine_map in G; auto. inversion G; subst. split; auto.
    destruct m; cbn; auto. destruct (Z.eqb_spec (ndim l) 0); auto.
  - intros d E L _. exists d. apply engine_map; auto.
Qed.

Lemma agrees_keep : forall op ps o1 o2 l t, agrees l t ->
  (match o2, o1 with
   | Some b, Some a => op ++ "(" ++ formula l ++ "," ++ a ++ "," ++ b ++ ")"
   | Some b, None => op ++ "(" ++ formula l ++ ",None," ++ b ++ ")"
   | None, Some a => op ++ "(" ++ formula l ++ "," ++ a ++ ")"
   | None, None => op ++ "(" ++ formula l ++ ")"
   end = op ++ "(" ++ written t ++ String.concat "" (map (fun p => "," ++ str_int p) ps) ++ ")") ->
  (forall d, engine1 op ps d = Ok d) -> agrees (unary l op None o1 o2) (T1 op t ps).
Proof.
  intros op ps o1 o2 l t H T E. apply agrees_unary; auto.
  - intros d d' _ L G. rewrite E in G. inversion G; subst. auto.
  - intros d _ _ _. eauto.
Qed.

Lemma agrees_pow : forall k l t, agrees l t ->
  agrees (m_pow k l) (if (k =? 2)%Z then T1 "Square" t [] else T1 "Pow" t [k]).
Proof.
  intros k l t H. unfold m_pow. destruct (k =? 2)%Z.
  - apply (agrees_keep _ []); auto. rewrite (ag_text _ _ H). reflexivity.
  - apply (agrees_keep _ [k]); auto. rewrite (ag_text _ _ H). cbn. rewrite ?app_assoc_s. reflexivity.
Qed.
Lemma agrees_round : forall k l t, agrees l t -> agrees (m_round k l) (T1 "Round" t [k]).
Proof. intros k l t H. apply agrees_keep; auto. rewrite (ag_text _ _ H). cbn. rewrite ?app_assoc_s. reflexivity. Qed.
Lemma agrees_clamp_int : forall a b l t, agrees l t -> agrees (m_clamp_int a b l) (T1 "ClampInt" t [a; b]).
Proof. intros a b l t H. apply agrees_keep; auto. rewrite (ag_text _ _ H). cbn. rewrite ?app_assoc_s. cbn. rewrite ?app_assoc_s. reflexivity. Qed.

Lemma agrees_scal : forall m l t, agrees l t -> agrees (m_scal m l) (T1 (scal1_op m) t []).
Proof.
  intros m l t H. apply agrees_unary; auto.
  - rewrite (ag_text _ _ H). reflexivity.
  - intros d d' E L G. rewrite engine_scal in G; auto. inversion G; subst. cbn. lia.
  - intros d E L _. exists 1%Z. apply engine_scal; auto.
Qed.

Lemma agrees_elem : forall i l t r, agrees l t -> m_elem i l = Ok r -> agrees r (T1 "Elem" t [i]).
Proof.
  intros i l t r H E. unfold m_elem in E. destruct ((i <? 0)%Z || (ndim l <=? i)%Z)%bool eqn:B; [discriminate|].
  inversion E; subst. apply orb_false_elim in B as [B1 B2]. apply Z.leb_gt in B2. apply agrees_unary; auto.
  - rewrite (ag_text _ _ H). cbn. rewrite ?app_assoc_s. reflexivity.
  - intros d d' _ L G. cbn in G. destruct (d <=? i)%Z; inversion G. cbn. lia.
  - intros d <- L _. cbn. destruct (Z.leb_spec (ndim l) i); [lia|]. eauto.
Qed.

Lemma agrees_extract : forall i d l t r, agrees l t -> m_extract i d l = Ok r -> agrees r (T1 "Extract" t [i; d]).
Proof.
  intros i d l t r H E. unfold m_extract in E. destruct ((i <? 0)%Z || (ndim l <=? i)%Z)%bool eqn:B; [discriminate|].
  destruct ((d <? 1)%Z || (ndim l <? i + d)%Z)%bool eqn:B'; [discriminate|].
  inversion E; subst. apply orb_false_elim in B as [B1 B2]. apply orb_false_elim in B' as [B3 B4].
  apply Z.leb_gt in B2. apply Z.ltb_ge in B1, B3, B4. apply agrees_unary; auto.
  - rewrite (ag_text _ _ H). cbn. rewrite ?app_assoc_s. cbn. rewrite ?app_assoc_s. reflexivity.
  - intros x d' _ L G. cbn in G. destruct ((x <? i + d)%Z || (i <? 0)%Z)%bool; inversion G; subst.
    rewrite or_default_pos; auto.
  - intros x <- L _. cbn. destruct (Z.ltb_spec (ndim l) (i + d)); [lia|]. destruct (Z.ltb_spec i 0); [lia|]. cbn. eauto.
Qed.

Lemma agrees_one_hot : forall d l t r, agrees l t -> m_one_hot d l = Ok r -> agrees r (T1 "OneHot" t [d]).
Proof.
  intros d l t r H E. unfold m_one_hot in E. destruct (negb (ndim l =? 1)%Z); [discriminate|]. inversion E; subst.
  apply agrees_unary; auto.
  - rewrite (ag_text _ _ H). cbn. rewrite ?app_assoc_s. reflexivity.
  - intros x d' _ L G. cbn in G. destruct (negb (x =? 1)%Z); [discriminate|].
    destruct (Z.ltb_spec d 1); inversion G; subst. rewrite or_default_pos; auto.
  - congruence.
Qed.

Lemma agrees_binary : forall l t l' t' op is_op dr dc opt rv r tr,
  agrees l t -> agrees l' t' -> binary l l' op is_op dr dc opt rv = Ok r ->
  (if rv then binary_text (written t') (written t) op is_op opt
   else binary_text (written t) (written t') op is_op opt) = written tr ->
  (forall d, engine_dim tr = Ok d -> exists a b, engine_dim t = Ok a /\ engine_dim t' = Ok b) ->
  (forall a b d, engine_dim t = Ok a -> engine_dim t' = Ok b -> ndim l = a -> ndim l' = b ->
     (1 <= a)%Z -> (1 <= b)%Z -> check_dims dc a b = true -> engine_dim tr = Ok d ->
     or_default dr (Z.max a b) = d /\ (1 <= d)%Z) ->
  (checked tr = true -> checked t = true /\ checked t' = true) ->
  (checked tr = true -> forall a b, engine_dim t = Ok a -> engine_dim t' = Ok b -> ndim l = a -> ndim l' = b ->
     (1 <= a)%Z -> (1 <= b)%Z -> check_dims dc a b = true -> exists d, engine_dim tr = Ok d) ->
  agrees r tr.
Proof.
  intros l t l' t' op i dr dc opt rv r tr [A B C] [A' B' C'] H T S D K E.
  apply binary_fields in H as (H1 & H2 & H3). split.
  - rewrite H2, <- T, A, A'. reflexivity.
  - intros d G. destruct (S _ G) as (a & b & Ga & Gb). destruct (B _ Ga) as [L1 L2]. destruct (B' _ Gb) as [L3 L4].
    rewrite H3, L1, L3. apply (D a b d); auto. congruence.
  - intros G. destruct (K G) as [K1 K2]. destruct (C K1) as [a Ga]. destruct (C' K2) as [b Gb].
    destruct (B _ Ga) as [L1 L2]. destruct (B' _ Gb) as [L3 L4].
    apply (E G a b); auto. congruence.
Qed.

Lemma op_arith : forall m a b, engine_op (arith_op m) a b = vectorized [a; b].
Proof. destruct m; reflexivity. Qed.
Lemma fun2_engine : forall m a b, engine2 (fun2_op m) [] a b = vectorized [a; b].
Proof. destruct m; reflexivity. Qed.

Lemma sameor1 : forall a b, check_dims DSameOr1 a b = true -> (a = b \/ a = 1 \/ b = 1)%Z.
Proof.
  intros a b H. cbn in H. apply orb_prop in H as [H|H]; [apply orb_prop in H as [H|H]|]; apply Z.eqb_eq in H; auto.
Qed.

Ltac split_checked := let H := fresh in intros H; cbn [checked] in H;
  repeat (apply andb_prop in H as [H ?]); auto.
Ltac sub2 := intros ? ?G; cbn [engine_dim] in G; apply bind_ok in G as (? & ? & G); apply bind_ok in G as (? & ? & G); eauto.

Lemma agrees_arith : forall m rv l t l' t' r, agrees l t -> agrees l' t' -> m_arith m rv l l' = Ok r ->
  agrees r (if rv then TOp (arith_op m) t' t else TOp (arith_op m) t t').
Proof.
  intros m rv l t l' t' r A A' H. refine (agrees_binary l t l' t' _ _ _ _ _ _ r _ A A' H _ _ _ _ _).
  - destruct rv; reflexivity.
  - destruct rv; sub2.
  - intros a b d Ga Gb _ _ La Lb _ G.
    destruct rv; cbn [engine_dim] in G; rewrite Ga, Gb in G; cbn [rbind] in G; rewrite op_arith in G;
      apply vect2_ok in G as [-> _]; auto; cbn; lia.
  - destruct rv; split_checked.
  - intros _ a b Ga Gb _ _ La Lb Cd. apply sameor1 in Cd.
    destruct rv; cbn [engine_dim]; rewrite Ga, Gb; cbn [rbind]; rewrite op_arith; rewrite vect2_is; eauto; lia.
Qed.

Lemma agrees_or : forall rv l t l' t' r, agrees l t -> agrees l' t' -> m_or rv l l' = Ok r ->
  agrees r (if rv then TOp "|" t' t else TOp "|" t t').
Proof.
  intros rv l t l' t' r A A' H. refine (agrees_binary l t l' t' _ _ _ _ _ _ r _ A A' H _ _ _ _ _).
  - destruct rv; reflexivity.
  - destruct rv; sub2.
  - intros a b d Ga Gb _ _ La Lb _ G.
    destruct rv; cbn [engine_dim] in G; rewrite Ga, Gb in G; cbn in G.
    + destruct (b =? a)%Z; inversion G; cbn; lia.
    + destruct (a =? b)%Z; inversion G; cbn; lia.
  - destruct rv; split_checked.
  - intros _ a b Ga Gb _ _ La Lb Cd. cbn in Cd. apply Z.eqb_eq in Cd. subst b.
    destruct rv; cbn [engine_dim]; rewrite Ga, Gb; cbn; rewrite Z.eqb_refl; eauto.
Qed.

Lemma agrees_fun2 : forall m l t l' t' r, agrees l t -> agrees l' t' -> m_fun2 m l l' = Ok r ->
  agrees r (T2 (fun2_op m) t t' []).
Proof.
  intros m l t l' t' r A A' H. refine (agrees_binary l t l' t' _ _ _ _ _ _ r _ A A' H _ _ _ _ _).
  - reflexivity.
  - sub2.
  - intros a b d Ga Gb _ _ La Lb _ G. cbn [engine_dim] in G; rewrite Ga, Gb in G; cbn [rbind] in G.
    rewrite fun2_engine in G. apply vect2_ok in G as [-> _]; auto. cbn. lia.
  - split_checked.
  - intros _ a b Ga Gb _ _ La Lb Cd. apply sameor1 in Cd.
    cbn [engine_dim]; rewrite Ga, Gb; cbn [rbind]; rewrite fun2_engine, vect2_is; eauto.
Qed.

Lemma agrees_powf : forall l t l' t' r, agrees l t -> agrees l' t' -> m_powf l l' = Ok r ->
  agrees r (T2 "Powf" t t' []).
Proof.
  intros l t l' t' r A A' H. unfold m_powf in H.
  destruct ((ndim l' =? 1)%Z || (ndim l' =? ndim l)%Z)%bool eqn:E; [|discriminate].
  refine (agrees_binary l t l' t' _ _ _ _ _ _ r _ A A' H _ _ _ _ _).
  - reflexivity.
  - sub2.
  - intros a b d Ga Gb _ _ La Lb _ G. cbn [engine_dim] in G; rewrite Ga, Gb in G; cbn [rbind] in G.
    apply vect2_ok in G as [-> _]; auto. cbn. lia.
  - split_checked.
  - intros _ a b Ga Gb Na Nb La Lb _. cbn [engine_dim]; rewrite Ga, Gb; cbn [rbind].
    subst a b. apply orb_prop in E as [E|E]; apply Z.eqb_eq in E;
    (exists (Z.max (ndim l) (ndim l')); apply (vect2_is (ndim l) (ndim l')); auto).
Qed.

Lemma agrees_sqdist : forall l t l' t' r, agrees l t -> agrees l' t' -> m_sqdist l l' = Ok r ->
  agrees r (T2 "SqDist" t t' []).
Proof.
  intros l t l' t' r A A' H. refine (agrees_binary l t l' t' _ _ _ _ _ _ r _ A A' H _ _ _ _ _).
  - reflexivity.
  - sub2.
  - intros a b d Ga Gb _ _ La Lb _ G. cbn [engine_dim] in G; rewrite Ga, Gb in G; cbn [rbind] in G.
    cbn -[vectorized] in G. apply bind_ok in G as (? & _ & G). inversion G. cbn. lia.
  - split_checked.
  - intros _ a b Ga Gb _ _ La Lb Cd. apply sameor1 in Cd.
    cbn [engine_dim]; rewrite Ga, Gb; cbn [rbind]. cbn -[vectorized]. rewrite vect2_is; cbn; eauto.
Qed.

Lemma agrees_weighted : forall l t l' t' r, agrees l t -> agrees l' t' -> m_weightedsqnorm l l' = Ok r ->
  agrees r (T2 "WeightedSqNorm" t' t []).
Proof.
  intros l t l' t' r A A' H. unfold m_weightedsqnorm in H.
  match type of H with (if ?c then _ else _) = _ => destruct c eqn:E; [|discriminate] end.
  refine (agrees_binary l t l' t' _ _ _ _ _ _ r _ A A' H _ _ _ _ _).
  - reflexivity.
  - sub2.
  - intros a b d Ga Gb _ _ La Lb _ G. cbn [engine_dim] in G; rewrite Ga, Gb in G; cbn [rbind] in G.
    cbn -[vectorized Z.mul] in G. destruct (Z.eqb_spec b 1).
    + subst b. cbn in G. inversion G. cbn. lia.
    + destruct (b =? a)%Z; apply bind_ok in G as (? & _ & G); inversion G; cbn; lia.
  - split_checked.
  - intros _ a b Ga Gb Na Nb La Lb _. cbn [engine_dim]; rewrite Ga, Gb; cbn [rbind]. cbn -[vectorized Z.mul].
    subst a b. destruct (Z.eqb_spec (ndim l') 1); [rewrite e; cbn; eauto|].
    destruct (Z.eqb_spec (ndim l') (ndim l)).
    + rewrite vect2_is; cbn; auto; eauto.
    + cbn in E. apply Z.eqb_eq in E. rewrite vect2_is; cbn; eauto; lia.
Qed.

Lemma agrees_difference : forall l t l' t' r, agrees l t -> agrees l' t' -> m_difference_matrix l l' = Ok r ->
  agrees r (T2 "DifferenceMatrix" t t' []).
Proof.
  intros l t l' t' r A A' H. refine (agrees_binary l t l' t' _ _ _ _ _ _ r _ A A' H _ _ _ _ _).
  - reflexivity.
  - sub2.
  - intros a b d Ga Gb _ _ La Lb _ G. cbn [engine_dim] in G; rewrite Ga, Gb in G; cbn in G. discriminate.
  - split_checked.
  - cbn. discriminate.
Qed.

Lemma agrees_concat : forall l t l' t' r, agrees l t -> agrees l' t' -> m_concat l l' = Ok r ->
  agrees r (T2 "Concat" t t' []).
Proof.
  intros l t l' t' r A A' H. refine (agrees_binary l t l' t' _ _ _ _ _ _ r _ A A' H _ _ _ _ _).
  - reflexivity.
  - sub2.
  - intros a b d Ga Gb Na Nb La Lb _ G. cbn [engine_dim] in G; rewrite Ga, Gb in G; cbn in G. inversion G.
    rewrite Na, Nb, or_default_pos; lia.
  - split_checked.
  - intros _ a b Ga Gb _ _ La Lb Cd. cbn [engine_dim]; rewrite Ga, Gb; cbn. eauto.
Qed.

Lemma agrees_bspline : forall k l t l' t' r, agrees l t -> agrees l' t' -> m_bspline k l l' = Ok r ->
  agrees r (T2 "BSpline" t t' [k]).
Proof.
  intros k l t l' t' r A A' H. refine (agrees_binary l t l' t' _ _ _ _ _ _ r _ A A' H _ _ _ _ _).
  - cbn. rewrite ?app_assoc_s. reflexivity.
  - sub2.
  - intros a b d Ga Gb Na Nb La Lb _ G. cbn [engine_dim] in G; rewrite Ga, Gb in G; cbn -[Z.ltb Z.eqb] in G.
    destruct (Z.ltb_spec k 0); [discriminate|]. destruct (negb (b =? 1)%Z); [discriminate|].
    destruct (Z.ltb_spec a (k + 2)); [discriminate|]. destruct (Z.ltb_spec (a - 1) (a - k - 1)); [discriminate|].
    inversion G. rewrite Na, or_default_pos; lia.
  - split_checked.
  - cbn. discriminate.
Qed.

Lemma agrees_matvec : forall l t l' t' r, agrees l t -> agrees l' t' -> m_matvec l l' = Ok r ->
  agrees r (T2 "MatVecMult" t t' []).
Proof.
  intros l t l' t' r A A' H. unfold m_matvec in H. destruct (ndim l' =? 0)%Z; [discriminate|].
  refine (agrees_binary l t l' t' _ _ _ _ _ _ r _ A A' H _ _ _ _ _).
  - reflexivity.
  - sub2.
  - intros a b d Ga Gb Na Nb La Lb _ G. cbn [engine_dim] in G; rewrite Ga, Gb in G. cbn -[Z.eqb Z.modulo Z.div] in G.
    destruct (Z.eqb_spec b 0); [discriminate|]. destruct (Z.eqb_spec (a mod b) 0); [|discriminate]. inversion G.
    rewrite Na, Nb. assert (1 <= a / b)%Z.
    { apply Z.div_exact in e; auto. assert (0 <= a / b)%Z by (apply Z.div_pos; lia). nia. }
    rewrite or_default_pos; auto.
  - split_checked.
  - cbn. discriminate.
Qed.

Lemma agrees_vecmat : forall l t l' t' r, agrees l t -> agrees l' t' -> m_vecmat l l' = Ok r ->
  agrees r (T2 "VecMatMult" t t' []).
Proof.
  intros l t l' t' r A A' H. unfold m_vecmat in H. destruct (ndim l =? 0)%Z; [discriminate|].
  refine (agrees_binary l t l' t' _ _ _ _ _ _ r _ A A' H _ _ _ _ _).
  - reflexivity.
  - sub2.
  - intros a b d Ga Gb Na Nb La Lb _ G. cbn [engine_dim] in G; rewrite Ga, Gb in G. cbn -[Z.eqb Z.modulo Z.div] in G.
    destruct (Z.eqb_spec a 0); [discriminate|]. destruct (Z.eqb_spec (b mod a) 0); [|discriminate]. inversion G.
    rewrite Na, Nb. assert (1 <= b / a)%Z.
    { apply Z.div_exact in e; auto. assert (0 <= b / a)%Z by (apply Z.div_pos; lia). nia. }
    rewrite or_default_pos; auto.
  - split_checked.
  - cbn. discriminate.
Qed.

Lemma agrees_tensorprod : forall l t l' t' r, agrees l t -> agrees l' t' -> m_tensorprod l l' = Ok r ->
  agrees r (T2 "TensorProd" t t' []).
Proof.
  intros l t l' t' r A A' H. refine (agrees_binary l t l' t' _ _ _ _ _ _ r _ A A' H _ _ _ _ _).
  - reflexivity.
  - sub2.
  - intros a b d Ga Gb Na Nb La Lb _ G. cbn [engine_dim] in G; rewrite Ga, Gb in G. cbn -[Z.mul] in G. inversion G.
    rewrite Na, Nb, or_default_pos; nia.
  - split_checked.
  - intros _ a b Ga Gb _ _ La Lb Cd. cbn [engine_dim]; rewrite Ga, Gb; cbn. eauto.
Qed.

Lemma agrees_factorize : forall l t l' t' r, agrees l t -> agrees l' t' -> m_factorize l l' = Ok r ->
  agrees r (T2 "Factorize" t t' []).
Proof.
  intros l t l' t' r A A' H. refine (agrees_binary l t l' t' _ _ _ _ _ _ r _ A A' H _ _ _ _ _).
  - reflexivity.
  - sub2.
  - intros a b d Ga Gb Na Nb La Lb _ G. cbn [engine_dim] in G; rewrite Ga, Gb in G. cbn in G. inversion G.
    rewrite Na, or_default_pos; lia.
  - split_checked.
  - intros _ a b Ga Gb _ _ La Lb Cd. cbn [engine_dim]; rewrite Ga, Gb; cbn. eauto.
Qed.

Lemma dot_text : forall op a b x xs,
  op ++ "(" ++ a ++ ", " ++ b ++ ", " ++ lists_text (x :: xs) ++ ")"
  = op ++ "(" ++ a ++ ", " ++ b ++ String.concat "" (map (fun p => ", " ++ ints_text p) (x :: xs)) ++ ")".
Proof.
  intros op a b x xs. rewrite <- lists_concat. rewrite !app_assoc_s. reflexivity.
Qed.

Lemma nats_zs : forall x, map Z.to_nat (map Z.of_nat x) = x.
Proof. induction x; cbn; [auto|]. rewrite Nat2Z.id. congruence. Qed.

Lemma product_positive : forall x, product x <> 0%nat -> Forall (fun a => 1 <= a)%nat x.
Proof. induction x; cbn; intros H; constructor; [lia|]. apply IHx. lia. Qed.
