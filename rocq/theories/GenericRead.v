(** Names of the arguments, and expressions with names. *)

From Coq Require Import ZArith Lia List Bool Ascii String.
From Verif Require Import Result Keys KeySpec Folder C25Proofs Aliases AliasSpec C22Proofs C26Proofs Formula FormulaSpec Simplify Build
  LazyTensors Methods MethodsSpec PyRead PyReadSpec PyReadProofs C55Proofs C55More RedText C57Proofs ReadArgs BackText
  ReadSaved GenericOps GenericOpsSpec.
Import ListNotations.
Open Scope string_scope.

(** ** The output *)

Lemma infer_pos_none : forall p, natural p ->
  exists q, infer_position (match p with Some z => str_int z | None => "" end) None = Ok q.
Proof.
  intros [z|] N; [|eexists; reflexivity].
  destruct (str_int_digits z N) as [_ E]. unfold infer_position. rewrite (py_int_str z N).
  destruct (str_int z); [congruence|]. eexists. reflexivity.
Qed.

(** ** The table of the names *)

Fixpoint table (k : Z) (ds : list declaration) : list (string * pv) :=
  match ds with
  | [] => []
  | d :: ds =>
      match d with
      | Named n _ _ _ =>
          let '(c, m, p) := triple k d in
          (n, VF (Var p (Z.to_nat m) (Z.to_nat c))) :: table (k + 1) ds
      | _ => table (k + 1) ds
      end
  end.

Lemma contains_char : forall c s, has c s = true -> contains (one c) s = true.
Proof.
  intros c. induction s as [|d s IH]; [discriminate|]. cbn [has contains prefix one]. intros H.
  destruct (ascii_dec c d) as [->|N]; [destruct s; reflexivity|].
  apply orb_true_iff in H. destruct H as [H|H]; [apply Ascii.eqb_eq in H; congruence|].
  rewrite (IH H). now rewrite orb_true_r.
Qed.

Lemma var_has_eq : forall p m c, has "=" (text (Positional p m c)) = false.
Proof. intros. cbn [text]. rewrite !has_app, !str_has by (reflexivity || discriminate). reflexivity. Qed.

Lemma table_ok : forall ds k, Forall valid ds -> Forall (fun d => 1 <= dimension d)%Z ds ->
  dictionary (meanings k ds) (table k ds).
Proof.
  induction ds as [|d ds IH]; intros k V D; [constructor|].
  inversion V as [|? ? Vd Vds]; subst. inversion D as [|? ? Dd Dds]; subst.
  destruct d as [n kd p m|kd p m|p m c]; cbn [meanings table]; try (now apply IH).
  cbn [triple]. set (q := match p with Some z => z | None => k end).
  destruct Vd as (Vn & Vp & Vm). cbn [dimension] in Dd.
  eapply (dict_add _ _ _ n (text (Positional q m (AliasSpec.category kd))) (tree (TVar q m (AliasSpec.category kd)))).
  - apply (contains_char "="). rewrite has_app. change (has "=" ("=" ++ ?x)) with true. apply orb_true_r.
  - change ("=" ++ ?x) with (String "=" x).
    rewrite (split_first "=" n) by (apply name_has; [exact Vn|reflexivity]).
    now rewrite split_none by apply var_has_eq.
  - exact (written_read (TVar q m (AliasSpec.category kd)) I).
  - apply (value_var (fun _ => None) q m (AliasSpec.category kd)); [exact Dd|destruct kd; discriminate].
  - now apply IH.
Qed.

Lemma table_in : forall ds k n x, In (n, x) (table k ds) <->
  exists i d, nth_error ds i = Some d /\ name_of d = Some n
    /\ let '(c, m, p) := triple (k + Z.of_nat i) d in x = VF (Var p (Z.to_nat m) (Z.to_nat c)).
Proof.
  induction ds as [|d ds IH]; intros k n x.
  - split; [contradiction|]. intros (i & d & N & _). destruct i; discriminate.
  - assert (R : (exists i d0, nth_error ds i = Some d0 /\ name_of d0 = Some n
        /\ let '(c, m, p) := triple (k + 1 + Z.of_nat i) d0 in x = VF (Var p (Z.to_nat m) (Z.to_nat c)))
      <-> (exists i d0, nth_error (d :: ds) (S i) = Some d0 /\ name_of d0 = Some n
        /\ let '(c, m, p) := triple (k + Z.of_nat (S i)) d0 in x = VF (Var p (Z.to_nat m) (Z.to_nat c)))).
    { split; intros (i & d0 & H); exists i, d0; cbn [nth_error] in *;
        replace (k + Z.of_nat (S i))%Z with (k + 1 + Z.of_nat i)%Z in * by lia; exact H. }
    destruct d as [m kd p dm|kd p dm|p dm c]; cbn [table].
    + cbn [triple]. split.
      * intros [E|H].
        -- injection E as <- <-. exists 0, (Named m kd p dm). cbn [nth_error name_of triple]. rewrite Z.add_0_r. auto.
        -- apply IH, R in H. destruct H as (i & d0 & H). exists (S i), d0. exact H.
      * intros ([|i] & d0 & H).
        -- left. cbn [nth_error] in H. destruct H as (E & N & H). injection E as <-. cbn [name_of triple] in *.
           injection N as ->. rewrite Z.add_0_r in H. congruence.
        -- right. apply IH, R. exists i, d0. exact H.
    + rewrite IH, R. split; intros (i & d0 & H).
      * exists (S i), d0. exact H.
      * destruct i as [|i]; [cbn in H; destruct H as (E & N & _); injection E as <-; discriminate|]. exists i, d0. exact H.
    + rewrite IH, R. split; intros (i & d0 & H).
      * exists (S i), d0. exact H.
      * destruct i as [|i]; [cbn in H; destruct H as (E & N & _); injection E as <-; discriminate|]. exists i, d0. exact H.
Qed.

Lemma assoc_in : forall (A : Type) s (l : list (string * A)) a, assoc s l = Some a -> In (s, a) l.
Proof.
  intros A s l a. induction l as [|[k b] l IH]; [discriminate|]. cbn [assoc].
  destruct (String.eqb_spec s k) as [->|]; intros H; [injection H as ->; now left|right; auto].
Qed.
Lemma assoc_none : forall (A : Type) s (l : list (string * A)), assoc s l = None -> forall a, ~ In (s, a) l.
Proof.
  intros A s l. induction l as [|[k b] l IH]; intros H a; [tauto|]. cbn [assoc] in H.
  destruct (String.eqb_spec s k) as [->|N]; [discriminate|]. intros [E|E]; [congruence|]. now apply (IH H a).
Qed.

Lemma found_declared : forall ds n c m p, once ds -> declares ds n (c, m, p) ->
  found (table 0 ds) n = Some (VF (Var p (Z.to_nat m) (Z.to_nat c))).
Proof.
  intros ds n c m p O (i & d & N & M & T). unfold found.
  assert (H : In (n, VF (Var p (Z.to_nat m) (Z.to_nat c))) (table 0 ds)).
  { apply table_in. exists i, d. rewrite Z.add_0_l, T. auto. }
  destruct (assoc n (rev (table 0 ds))) as [x|] eqn:E.
  - apply assoc_in, in_rev, table_in in E. destruct E as (j & d' & N' & M' & T').
    assert (i = j) by (eapply O; eassumption). subst j. rewrite N in N'. injection N' as <-.
    rewrite Z.add_0_l, T in T'. now rewrite T'.
  - destruct (assoc_none _ _ _ E _ (proj1 (in_rev _ _) H)).
Qed.
Lemma found_undeclared : forall ds n, ~ is_declared ds n -> found (table 0 ds) n = None.
Proof.
  intros ds n H. unfold found. destruct (assoc n (rev (table 0 ds))) as [x|] eqn:E; auto.
  apply assoc_in, in_rev, table_in in E. destruct E as (j & d' & N' & M' & _). destruct H. exists d'. split; auto.
  eapply nth_error_In; eauto.
Qed.

(** ** Expressions *)

Lemma literal_called : forall z, called (literal z) = [].
Proof. intros z. unfold literal. destruct (z <? 0)%Z; reflexivity. Qed.
Lemma literals_called : forall l, flat_map called (map literal l) = [].
Proof. induction l as [|z l IH]; [reflexivity|]. cbn [map flat_map]. now rewrite literal_called, IH. Qed.

Lemma stands_called : forall ds e t, stands ds e t -> forall s, In s (called e) -> ~ is_declared ds s.
Proof.
  intros ds e t H. induction H; intros s0 I; cbn [called tree flat_map snd app] in I;
    rewrite ?app_nil_r, ?literal_called, ?literals_called, ?app_nil_r in I; cbn [app] in I;
    repeat match goal with
    | H : In _ (_ ++ _)%list |- _ => apply in_app_or in H; destruct H
    | H : In _ (_ :: _) |- _ => destruct H as [<-|H]
    end; auto; try contradiction.
Qed.

Section Values.
  Variable ds : list declaration.
  Hypothesis O : once ds.
  Hypothesis V : Forall valid ds.
  Hypothesis D : Forall (fun d => 1 <= dimension d)%Z ds.
  Let names := found (table 0 ds).

  Lemma declared_var : forall n c d p, declares ds n (c, d, p) -> (1 <= d)%Z /\ (0 <= c)%Z.
  Proof.
    clear O names. intros n c d p (i & x & N & M & T). apply nth_error_In in N.
    rewrite Forall_forall in V, D. specialize (V x N). specialize (D x N).
    destruct x as [m kd q dm|kd q dm|q dm cc]; cbn in *; try discriminate; injection T as <- <- <-; destruct kd; cbn; lia.
  Qed.

  Lemma call_is : forall op l v, call op l = Ok v -> exists f, v = VF f.
  Proof.
    clear. assert (L : forall r v, lift r = Ok v -> exists f, v = VF f).
    { intros [f| | |] v H; try discriminate. injection H as <-. eauto. }
    intros op l v H. unfold call in H.
    repeat match type of H with (match ?x with _ => _ end) = _ => destruct x; try discriminate; try (now apply L in H) end.
  Qed.
  Lemma lift_is : forall r v, lift r = Ok v -> exists f, v = VF f.
  Proof. clear. intros [f| | |] v H; try discriminate. injection H as <-. eauto. Qed.

  Lemma tree_int : forall nm n, evaluate nm (tree (TInt n)) = Ok (VF (IntCst n)).
  Proof.
    clear. intros nm n. cbn [tree]. rewrite ev_call. change [literal n] with (map literal [n]). rewrite ev_literals. reflexivity.
  Qed.
  Lemma tree_is : forall nm t v, evaluate nm (tree t) = Ok v -> (exists f, v = VF f) \/ (exists op a b, t = TOp op a b).
  Proof.
    clear. intros nm t v H. destruct t; cbn [tree] in H; try (right; eauto; fail);
      left; rewrite ev_call in H; apply rbind_ok in H; destruct H as (l & _ & H); now apply call_is in H.
  Qed.

  Lemma binary_forms : forall s f g v, binary_op s (VF f) (VF g) = Ok v -> exists h, v = VF h.
  Proof.
    clear. intros s f g v H. destruct s; cbn in H; try discriminate; now apply lift_is in H.
  Qed.
  Lemma compare_forms : forall s f g v, ordering s = true -> compare_op s (VF f) (VF g) = Ok v -> exists h, v = VF h.
  Proof.
    clear. intros s f g v E H. destruct s; try discriminate E; cbn in H; now apply lift_is in H.
  Qed.

  Lemma ev_cmp1 : forall nm a s b, evaluate nm (PCmp a [(s, b)])
    = do x <- evaluate nm a ; do y <- evaluate nm b ; compare_op s x y.
  Proof.
    clear. intros nm a s b. cbn [evaluate]. destruct (evaluate nm a) as [x| | |]; cbn [rbind]; auto.
    destruct (evaluate nm b) as [y| | |]; cbn [rbind]; auto. now destruct (compare_op s x y).
  Qed.
  Lemma ev_bin : forall nm a s b, evaluate nm (PBin s a b)
    = do x <- evaluate nm a ; do y <- evaluate nm b ; binary_op s x y.
  Proof. reflexivity. Qed.

  Lemma left_number : forall op s n g, symbol op = Some s -> ordering s = false -> op <> "|" -> (op = "/" -> n <> 1%Z) ->
    binary_op s (VZ n) (VF g) = binary_op s (VF (IntCst n)) (VF g).
  Proof.
    clear. intros op s n g E F N Q. unfold symbol in E.
    repeat match type of E with
    | (if String.eqb op ?x then _ else _) = _ => destruct (String.eqb_spec op x) as [->|]; [injection E as <-|]
    end; try discriminate; try reflexivity; try congruence.
    cbn [binary_op divide number arith]. specialize (Q eq_refl).
    destruct n as [|[p|p|]|p]; try reflexivity. congruence.
  Qed.
  Lemma right_number : forall op s n f, symbol op = Some s -> ordering s = false -> op <> "|" ->
    binary_op s (VF f) (VZ n) = binary_op s (VF f) (VF (IntCst n)).
  Proof.
    clear. intros op s n f E F N. unfold symbol in E.
    repeat match type of E with
    | (if String.eqb op ?x then _ else _) = _ => destruct (String.eqb_spec op x) as [->|]; [injection E as <-|]
    end; try discriminate; try reflexivity; try congruence.
  Qed.
  Lemma order_left : forall s n g, ordering s = true -> compare_op s (VZ n) (VF g) = compare_op s (VF (IntCst n)) (VF g).
  Proof. clear. intros s n g E. destruct s; try discriminate E; reflexivity. Qed.
  Lemma order_right : forall s n f, ordering s = true -> compare_op s (VF f) (VZ n) = compare_op s (VF f) (VF (IntCst n)).
  Proof. clear. intros s n f E. destruct s; try discriminate E; reflexivity. Qed.

  Lemma stands_value : forall e t, stands ds e t ->
    evaluate names e = evaluate names (tree t) /\ forall v, evaluate names e = Ok v -> exists f, v = VF f.
  Proof.
    intros e t H. induction H.
    - destruct (declared_var _ _ _ _ H) as [A B]. change (tree (TVar p d c)) with (vtree p d c). rewrite value_var by auto.
      cbn [evaluate]. unfold names. rewrite (found_declared ds n c d p O H). split; [reflexivity|].
      intros v E. injection E as <-. eauto.
    - split; auto. intros v E. apply tree_is in E. destruct E as [E|(op & a & b & E)]; [exact E|discriminate].
    - split; auto. intros v E. apply tree_is in E. destruct E as [E|(op & a & b & E)]; [exact E|discriminate].
    - destruct IHstands as [E _]. cbn [tree]. rewrite !ev_call, !ev_list_cons, E. split; auto.
      intros v Q. apply rbind_ok in Q. destruct Q as (l & _ & Q). now apply call_is in Q.
    - destruct IHstands1 as [E _], IHstands2 as [E' _]. cbn [tree]. rewrite !ev_call, !ev_list_cons, E, E'. split; auto.
      intros v Q. apply rbind_ok in Q. destruct Q as (l & _ & Q). now apply call_is in Q.
    - destruct IHstands1 as [E _], IHstands2 as [E' _], IHstands3 as [E'' _]. cbn [tree].
      rewrite !ev_call, !ev_list_cons, E, E', E''. split; auto.
      intros w Q. apply rbind_ok in Q. destruct Q as (l & _ & Q). now apply call_is in Q.
    - destruct IHstands1 as [E F], IHstands2 as [E' F']. cbn [tree]. rewrite H, H0, !ev_bin, E, E'. rewrite E in F. rewrite E' in F'.
      split; auto. intros v Q. apply rbind_ok in Q. destruct Q as (x & X & Q). apply rbind_ok in Q. destruct Q as (y & Y & Q).
      destruct (F x X) as [f ->]. destruct (F' y Y) as [g ->]. now apply binary_forms in Q.
    - destruct IHstands1 as [E F], IHstands2 as [E' F']. cbn [tree]. rewrite H, H0, !ev_cmp1, E, E'. rewrite E in F. rewrite E' in F'.
      split; auto. intros v Q. apply rbind_ok in Q. destruct Q as (x & X & Q). apply rbind_ok in Q. destruct Q as (y & Y & Q).
      destruct (F x X) as [f ->]. destruct (F' y Y) as [g ->]. now apply compare_forms in Q.
    - destruct IHstands as [E' F']. 
      change (tree (TOp op (TInt n) u)) with (match symbol op with Some s => if ordering s then PCmp (tree (TInt n)) [(s, tree u)] else PBin s (tree (TInt n)) (tree u) | None => PName "" end).
      rewrite H, H0, !ev_bin, eval_literal, tree_int, <- E'. cbn [rbind].
      destruct (evaluate names b) as [y| | |]; [|split; [reflexivity|discriminate]..].
      destruct (F' y eq_refl) as [g ->]. cbn [rbind]. rewrite (left_number op s n g H H0 H1 H2). split; [reflexivity|].
      intros v Q. now apply binary_forms in Q.
    - destruct IHstands as [E' F'].
      change (tree (TOp op t (TInt n))) with (match symbol op with Some s => if ordering s then PCmp (tree t) [(s, tree (TInt n))] else PBin s (tree t) (tree (TInt n)) | None => PName "" end).
      rewrite H, H0, !ev_bin, eval_literal, tree_int, <- E'.
      destruct (evaluate names a) as [y| | |]; [|split; [reflexivity|discriminate]..].
      destruct (F' y eq_refl) as [g ->]. cbn [rbind]. rewrite (right_number op s n g H H0 H1). split; [reflexivity|].
      intros v Q. now apply binary_forms in Q.
    - destruct IHstands as [E' F'].
      change (tree (TOp op (TInt n) u)) with (match symbol op with Some s => if ordering s then PCmp (tree (TInt n)) [(s, tree u)] else PBin s (tree (TInt n)) (tree u) | None => PName "" end).
      rewrite H, H0, !ev_cmp1, eval_literal, tree_int, <- E'. cbn [rbind].
      destruct (evaluate names b) as [y| | |]; [|split; [reflexivity|discriminate]..].
      destruct (F' y eq_refl) as [g ->]. cbn [rbind]. rewrite (order_left s n g H0). split; [reflexivity|].
      intros v Q. now apply compare_forms in Q.
    - destruct IHstands as [E' F'].
      change (tree (TOp op t (TInt n))) with (match symbol op with Some s => if ordering s then PCmp (tree t) [(s, tree (TInt n))] else PBin s (tree t) (tree (TInt n)) | None => PName "" end).
      rewrite H, H0, !ev_cmp1, eval_literal, tree_int, <- E'.
      destruct (evaluate names a) as [y| | |]; [|split; [reflexivity|discriminate]..].
      destruct (F' y eq_refl) as [g ->]. cbn [rbind]. rewrite (order_right s n g H0). split; [reflexivity|].
      intros v Q. now apply compare_forms in Q.
    - destruct IHstands as [E' F']. cbn [tree map]. rewrite ev_bin, ev_call, ev_list_cons, eval_literal, <- E'. cbn [rbind].
      destruct (evaluate names e) as [y| | |]; [|split; [reflexivity|discriminate]..].
      destruct (F' y eq_refl) as [g ->]. cbn [rbind ev_list]. split; [reflexivity|].
      intros v Q. cbn in Q. now injection Q as <-; eauto.
    - destruct IHstands as [E' F']. cbn [tree map]. cbn [evaluate]. fold evaluate. rewrite <- E'.
      destruct (evaluate names e) as [y| | |]; [|split; [reflexivity|discriminate]..].
      destruct (F' y eq_refl) as [g ->]. cbn [rbind]. split; [reflexivity|].
      intros v Q. cbn in Q. now apply lift_is in Q.
    - destruct IHstands as [E' F']. cbn [tree map]. cbn [evaluate]. rewrite <- E'.
      destruct (evaluate names e) as [y| | |]; [|split; [reflexivity|discriminate]..].
      destruct (F' y eq_refl) as [g ->]. cbn [rbind]. split; [reflexivity|].
      intros v Q. cbn in Q. now apply lift_is in Q.
    - destruct IHstands as [E' F']. cbn [tree map]. rewrite ev_call, !ev_list_cons.
      change (evaluate names (PPow e (literal k)))
        with (do x <- evaluate names e ; do y <- evaluate names (literal k) ; power_op x y).
      rewrite eval_literal, <- E'.
      destruct (evaluate names e) as [y| | |]; [|split; [reflexivity|discriminate]..].
      destruct (F' y eq_refl) as [g ->]. cbn [rbind ev_list].
      assert (P : power_op (VF g) (VZ k) = lift (Pow g k)).
      { cbn [power_op number]. destruct k as [|[p|[p|p|]|]|p]; try reflexivity. congruence. }
      rewrite P. split; [reflexivity|]. intros v Q. now apply lift_is in Q.
  Qed.
End Values.
