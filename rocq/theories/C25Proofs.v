From Coq Require Import ZArith List Bool Ascii String Lia.
From Coq Require Import DecimalString DecimalZ.
From Verif Require Import Result Keys KeySpec C22Proofs Folder FolderSpec.
Import ListNotations.
Open Scope string_scope.

(** ** Splitting *)

Lemma app_cons_s : forall c (a b : string), String c a ++ b = String c (a ++ b).
Proof. reflexivity. Qed.

Fixpoint join_with (c : ascii) (l : list string) : string :=
  match l with
  | [] => ""
  | [s] => s
  | s :: l' => s ++ String c (join_with c l')
  end.

Lemma split_none : forall c s, has c s = false -> split c s = [s].
Proof.
  induction s as [|d s IH]; cbn; intros H; [reflexivity|].
  apply orb_false_iff in H. destruct H as [-> H]. now rewrite (IH H).
Qed.

Lemma split_first : forall c a b, has c a = false ->
  split c (a ++ String c b) = a :: split c b.
Proof.
  induction a as [|d a IH]; cbn; intros b H.
  - now rewrite Ascii.eqb_refl.
  - apply orb_false_iff in H. destruct H as [-> H]. now rewrite (IH b H).
Qed.

Lemma split_inv : forall c s, s = join_with c (split c s)
  /\ Forall (fun t => has c t = false) (split c s) /\ split c s <> [].
Proof.
  induction s as [|d s IH]; cbn.
  - split; [reflexivity|]. split; [now constructor|discriminate].
  - destruct IH as [E [F N]]. destruct (d =? c)%char eqn:D.
    + apply Ascii.eqb_eq in D. subst d. split.
      * destruct (split c s) as [|h t]; [congruence|]. cbn. cbn in E. now rewrite E.
      * split; [now constructor|discriminate].
    + destruct (split c s) as [|h t]; [congruence|]. split.
      * cbn in E. destruct t; cbn; now rewrite E.
      * split; [|discriminate]. inversion F; subst. constructor; [|assumption].
        cbn. rewrite D. assumption.
Qed.

Fixpoint count (c : ascii) (s : string) : nat :=
  match s with
  | EmptyString => 0
  | String d s' => (if (d =? c)%char then 1 else 0) + count c s'
  end.

Lemma split_length : forall c s, List.length (split c s) = S (count c s).
Proof.
  induction s as [|d s IH]; cbn; [reflexivity|]. destruct (d =? c)%char; cbn; [lia|].
  destruct (split c s) as [|h t]; cbn in *; lia.
Qed.

Lemma count_app : forall c a b, count c (a ++ b) = count c a + count c b.
Proof. induction a; intros; cbn; [reflexivity|]. rewrite IHa. lia. Qed.

Lemma has_count : forall c s, has c s = true -> 1 <= count c s.
Proof.
  induction s as [|d s IH]; cbn; intros H; [discriminate|].
  destruct (d =? c)%char; [lia|]. cbn in H. specialize (IH H). lia.
Qed.

Lemma universal_none : forall s, has return_char s = false -> universal s = s.
Proof.
  induction s as [|d s IH]; intros H; [reflexivity|].
  cbn [has] in H. apply orb_false_iff in H. destruct H as [D H].
  cbn [universal]. rewrite D. now rewrite (IH H).
Qed.

(** Translating the ends of lines keeps at least the lines. *)
Lemma universal_count : forall n s, String.length s <= n ->
  count newline s <= count newline (universal s).
Proof.
  induction n as [|n IH]; intros s H.
  - destruct s; cbn in *; lia.
  - destruct s as [|c s]; [cbn; lia|]. cbn [String.length] in H. cbn [universal].
    destruct (c =? return_char)%char eqn:C.
    + apply Ascii.eqb_eq in C. subst c. cbn [count].
      change ((return_char =? newline)%char) with false. rewrite Ascii.eqb_refl.
      destruct s as [|d s]; [cbn; lia|]. destruct (d =? newline)%char eqn:D.
      * apply Ascii.eqb_eq in D. subst d. cbn [count String.length] in *.
        rewrite Ascii.eqb_refl. specialize (IH s ltac:(lia)). lia.
      * specialize (IH (String d s) ltac:(lia)). lia.
    + cbn [count]. specialize (IH s ltac:(lia)). lia.
Qed.

(** ** Integers *)

Lemma eval_int : forall z, py_eval (str_int z) = Ok z.
Proof.
  intros z. unfold py_eval, str_int.
  assert (N : Z.to_int z <> Decimal.Pos Decimal.Nil /\ Z.to_int z <> Decimal.Neg Decimal.Nil).
  { destruct z as [|p|p]; cbn; split; try discriminate; intros E; injection E as E;
      assert (U := DecimalPos.Unsigned.to_uint_nonnil p); contradiction. }
  rewrite NilZero.isi by apply N.
  rewrite DecimalZ.of_to. destruct (string_dec _ _) as [_|M]; [reflexivity|].
  now elim M.
Qed.

Lemma eval_inv : forall s z, py_eval s = Ok z -> s = str_int z.
Proof.
  intros s z H. unfold py_eval in H. destruct (NilZero.int_of_string s) as [i|]; [|discriminate].
  destruct (string_dec _ _) as [<-|]; [|discriminate]. injection H as <-. reflexivity.
Qed.

Lemma int_plain : forall z c, c = newline \/ c = return_char \/ c = "="%char ->
  has c (str_int z) = false.
Proof. intros z c [->|[->| ->]]; apply str_int_has; reflexivity || discriminate. Qed.

(** ** Reading back *)

Lemma info_has_return : forall f m, one_line f -> has return_char (info_text f m) = false.
Proof.
  intros f m [_ H]. unfold info_text. change (has return_char f = false) in H.
  repeat (rewrite has_app || (cbn [has]; rewrite has_app)).
  rewrite H, !int_plain by auto. reflexivity.
Qed.

Lemma field_split : forall k z, has "=" k = false ->
  split "=" (k ++ String "=" (str_int z)) = [k; str_int z].
Proof.
  intros k z H. rewrite split_first by exact H. rewrite split_none; [reflexivity|].
  apply int_plain. auto.
Qed.

Lemma lines_of_info : forall f m, one_line f ->
  split newline (info_text f m)
  = ["red_formula=" ++ f; "dim=" ++ str_int (mt_dim m);
     "tagI=" ++ str_int (mt_tagI m); "dimy=" ++ str_int (mt_dimy m)].
Proof.
  intros f m [H _]. unfold info_text. change (has newline f = false) in H.
  rewrite <- app_assoc_s. rewrite split_first.
  2:{ rewrite has_app, H. reflexivity. }
  rewrite <- app_assoc_s, split_first.
  2:{ rewrite has_app, int_plain by auto. reflexivity. }
  rewrite <- app_assoc_s, split_first.
  2:{ rewrite has_app, int_plain by auto. reflexivity. }
  rewrite split_none; [reflexivity|]. rewrite has_app, int_plain by auto. reflexivity.
Qed.

Lemma round_trip : forall f m, one_line f -> read_info (info_text f m) = Ok m.
Proof.
  intros f m H. unfold read_info. rewrite universal_none by now apply info_has_return.
  rewrite lines_of_info by exact H.
  change ("dim=" ++ str_int (mt_dim m)) with ("dim" ++ String "=" (str_int (mt_dim m))).
  change ("tagI=" ++ str_int (mt_tagI m)) with ("tagI" ++ String "=" (str_int (mt_tagI m))).
  change ("dimy=" ++ str_int (mt_dimy m)) with ("dimy" ++ String "=" (str_int (mt_dimy m))).
  rewrite !field_split by reflexivity. cbn [string_dec]. cbn.
  rewrite !eval_int. destruct m; reflexivity.
Qed.

Lemma newline_fails : forall f m, has newline f = true -> read_info (info_text f m) = KErr.
Proof.
  intros f m H. unfold read_info.
  assert (L : 5 <= List.length (split newline (universal (info_text f m)))).
  { rewrite split_length.
    assert (U := universal_count (String.length (info_text f m)) (info_text f m) (le_n _)).
    assert (C : 4 <= count newline (info_text f m)); [|lia].
    apply has_count in H. unfold info_text.
    repeat (rewrite count_app || (cbn [count]; rewrite Ascii.eqb_refl)). lia. }
  destruct (split newline _) as [|a [|b [|c [|d [|e l]]]]]; cbn in L; try lia. reflexivity.
Qed.

(** A file that is not complete is never read as the right information. *)
Lemma prefix_not_read : forall f m p r, one_line f ->
  p ++ r = info_text f m -> r <> "" -> read_info p <> Ok m.
Proof.
  intros f m p r H E N R. apply N. clear N.
  assert (U : has return_char p = false).
  { assert (G := info_has_return f m H). rewrite <- E, has_app in G.
    apply orb_false_iff in G. tauto. }
  unfold read_info in R. rewrite (universal_none p U) in R.
  destruct (split_inv newline p) as [J [F _]].
  destruct (split newline p) as [|l0 [|l1 [|l2 [|l3 [|]]]]]; try discriminate.
  destruct (split_inv "=" l1) as [J1 _]. destruct (split_inv "=" l2) as [J2 _].
  destruct (split_inv "=" l3) as [J3 _].
  destruct (split "=" l1) as [|k1 [|v1 [|]]]; try discriminate.
  destruct (split "=" l2) as [|k2 [|v2 [|]]]; try discriminate.
  destruct (split "=" l3) as [|k3 [|v3 [|]]]; try discriminate.
  destruct (string_dec k1 "dim") as [->|]; [|discriminate].
  destruct (string_dec k2 "tagI") as [->|]; [|discriminate].
  destruct (string_dec k3 "dimy") as [->|]; [|discriminate].
  apply rbind_ok in R. destruct R as [dim [R1 R]].
  apply rbind_ok in R. destruct R as [tagI [R2 R]].
  apply rbind_ok in R. destruct R as [dimy [R3 R]]. injection R as <-.
  apply eval_inv in R1, R2, R3. subst v1 v2 v3.
  apply Forall_cons_iff in F. destruct F as [F0 F]. apply Forall_cons_iff in F. destruct F as [F1 F].
  apply Forall_cons_iff in F. destruct F as [F2 F].
  cbn [join_with] in J. rewrite J in E. unfold info_text in E.
  cbn [mt_dim mt_tagI mt_dimy] in E.
  rewrite <- (app_assoc_s "red_formula=" f), app_assoc_s, app_cons_s in E.
  apply first_occurrence in E; [|assumption|].
  2:{ rewrite has_app. destruct H as [H _]. unfold newline. rewrite H. reflexivity. }
  destruct E as [_ E].
  rewrite <- (app_assoc_s "dim="), app_assoc_s, app_cons_s in E.
  apply first_occurrence in E; [|assumption|rewrite has_app, int_plain by auto; reflexivity].
  destruct E as [_ E].
  rewrite <- (app_assoc_s "tagI="), app_assoc_s, app_cons_s in E.
  apply first_occurrence in E; [|assumption|rewrite has_app, int_plain by auto; reflexivity].
  destruct E as [_ E]. rewrite J3 in E. cbn [join_with] in E. rewrite app_assoc_s in E.
  change (String "=" (str_int dimy) ++ r) with (String "=" (str_int dimy ++ r)) in E.
  change ("dimy=" ++ str_int dimy) with ("dimy" ++ String "=" (str_int dimy)) in E.
  apply app_inv_head_s in E. injection E as E. rewrite <- (app_nil_r_s (str_int dimy)) in E at 2.
  apply app_inv_head_s in E. exact E.
Qed.
