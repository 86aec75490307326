(** Proofs for C64. *)

From Coq Require Import ZArith Lia List Bool Ascii String.
From Verif Require Import Result Keys KeySpec Folder Aliases AliasSpec C22Proofs C25Proofs C26Proofs RKeops RKeopsSpec.
Import ListNotations.
Local Open Scope nat_scope.
Open Scope string_scope.

(** ** Texts *)

Lemma depth_open : forall n, depth_after (Z.of_nat n) "(" = Z.of_nat (S n).
Proof. intros n. unfold depth_after. cbn [Ascii.eqb Bool.eqb andb]. cbn. lia. Qed.
Lemma depth_close : forall n, depth_after (Z.of_nat (S n)) ")" = Z.of_nat n.
Proof. intros n. unfold depth_after. change (")" =? "(")%char with false. change (")" =? ")")%char with true. cbv iota. lia. Qed.
Lemma depth_other : forall n c, c <> "("%char -> c <> ")"%char -> depth_after n c = n.
Proof. intros n c H1 H2. unfold depth_after. rewrite (proj2 (Ascii.eqb_neq _ _) H1), (proj2 (Ascii.eqb_neq _ _) H2). reflexivity. Qed.
Inductive closed_step (n : nat) (c : ascii) (s : string) : Prop :=
| CS_open : c = "("%char -> closed (S n) s = true -> closed_step n c s
| CS_close m : c = ")"%char -> n = S m -> closed m s = true -> closed_step n c s
| CS_comma m : c = ","%char -> n = S m -> closed n s = true -> closed_step n c s
| CS_other : c <> "("%char -> c <> ")"%char -> c <> ","%char -> closed n s = true -> closed_step n c s.
Lemma closed_cases : forall n c s, closed n (String c s) = true -> closed_step n c s.
Proof.
  intros n c s H. cbn [closed] in H. destruct (Ascii.eqb_spec c "(") as [E1|N1]; [now apply CS_open|].
  destruct (Ascii.eqb_spec c ")") as [E2|N2]; [destruct n; [discriminate|]; now apply (CS_close _ _ _ n)|].
  destruct (Ascii.eqb_spec c ",") as [E3|N3]; [destruct n; [discriminate|]; now apply (CS_comma _ _ _ n)|].
  now apply CS_other.
Qed.
Lemma hide_app : forall s n r, closed n s = true -> hide (Z.of_nat n) (s ++ r) = hide (Z.of_nat n) s ++ hide 0 r.
Proof.
  induction s as [|c s IH]; intros n r H.
  - cbn in H. apply Nat.eqb_eq in H. subst n. reflexivity.
  - change (String c s ++ r) with (String c (s ++ r)). cbn [hide].
    destruct (closed_cases _ _ _ H) as [E1 E2|m E1 E2 E3|m E1 E2 E3|E1 E2 E3 E4]; clear H.
    + subst c. rewrite depth_open, (IH _ _ E2). reflexivity.
    + subst c n. rewrite depth_close, (IH _ _ E3). reflexivity.
    + subst c n. rewrite depth_other by discriminate. rewrite (IH _ _ E3). reflexivity.
    + rewrite depth_other by assumption. rewrite (IH _ _ E4). reflexivity.
Qed.
Lemma hide_comma : forall s n, closed n s = true -> has "," (hide (Z.of_nat n) s) = false.
Proof.
  induction s as [|c s IH]; intros n H; [reflexivity|]. cbn [hide].
  destruct (closed_cases _ _ _ H) as [E1 E2|m E1 E2 E3|m E1 E2 E3|E1 E2 E3 E4]; clear H.
  - subst c. rewrite depth_open. cbn [has]. rewrite (IH _ E2). reflexivity.
  - subst c n. rewrite depth_close. cbn [has]. rewrite (IH _ E3). reflexivity.
  - subst c n. rewrite depth_other by discriminate. cbn [has]. rewrite (IH _ E3).
    change (0 <? Z.of_nat (S m))%Z with true. reflexivity.
  - rewrite depth_other by assumption. cbn [has]. rewrite (IH _ E4).
    rewrite (proj2 (Ascii.eqb_neq c ",") E3). cbn [andb]. rewrite (proj2 (Ascii.eqb_neq c ",") E3). reflexivity.
Qed.
Lemma show_hide : forall s n, has "$" s = false -> show (hide n s) = s.
Proof.
  induction s as [|c s IH]; intros n H; [reflexivity|]. cbn [has] in H. apply orb_false_iff in H. destruct H as [H1 H2].
  cbn [hide show]. rewrite (IH _ H2). f_equal.
  destruct (Ascii.eqb_spec c ",") as [->|N].
  - cbn [andb]. destruct (0 <? _)%Z; reflexivity.
  - cbn [andb]. rewrite H1. reflexivity.
Qed.
Lemma before_last_app : forall c x, before_last c (x ++ String c "") = Some x.
Proof.
  intros c. induction x as [|d x IH]; cbn [append before_last].
  - rewrite Ascii.eqb_refl. reflexivity.
  - rewrite IH. reflexivity.
Qed.
Lemma after_first_app : forall c a b, has c a = false -> after_first c (a ++ String c b) = Some b.
Proof.
  intros c. induction a as [|d a IH]; intros b H; cbn [append after_first].
  - rewrite Ascii.eqb_refl. reflexivity.
  - cbn [has] in H. apply orb_false_iff in H. destruct H as [H1 H2]. rewrite H1. apply IH, H2.
Qed.

Lemma show_app : forall a b, show (a ++ b) = show a ++ show b.
Proof. induction a as [|c a IH]; intros b; [reflexivity|]. cbn [append show]. now rewrite IH. Qed.

(** A list of parts. *)
Lemma split_two : forall a r, closed 0 a = true ->
  split "," (hide 0 (a ++ "," ++ r)) = hide 0 a :: split "," (hide 0 r).
Proof.
  intros a r H. change (hide 0) with (hide (Z.of_nat 0)). rewrite (hide_app _ _ _ H).
  change (hide 0 ("," ++ r)) with (String "," (hide 0 r)). apply split_first, hide_comma, H.
Qed.
Lemma split_one : forall a, closed 0 a = true -> split "," (hide 0 a) = [hide 0 a].
Proof. intros a H. apply split_none. exact (hide_comma a 0 H). Qed.

Lemma upto_none : forall sub s, contains sub s = false -> upto_last sub s = None.
Proof.
  intros sub. induction s as [|c s IH]; intros H; [reflexivity|]. cbn [contains] in H. apply orb_false_iff in H.
  destruct H as [H1 H2]. cbn [upto_last]. rewrite (IH H2), H1. reflexivity.
Qed.
Lemma upto_app : forall sub a c s, String.prefix sub (String c s) = true -> upto_last sub s = None ->
  upto_last sub (a ++ String c s) = Some a.
Proof.
  intros sub a c s Hp Hn. induction a as [|d a IH].
  - cbn [append upto_last]. rewrite Hn, Hp. reflexivity.
  - cbn [append]. cbn [upto_last]. rewrite IH. reflexivity.
Qed.

Lemma prefix_stop : forall sub a c b, has c sub = false -> String.prefix sub (a ++ String c b) = true -> String.prefix sub a = true.
Proof.
  induction sub as [|d sub IH]; intros a c b H P; [destruct a; reflexivity|].
  cbn [has] in H. apply orb_false_iff in H. destruct H as [H1 H2]. destruct a as [|x a].
  - cbn [append String.prefix] in P. destruct (ascii_dec d c) as [E|E]; [|discriminate].
    subst d. rewrite Ascii.eqb_refl in H1. discriminate.
  - cbn [append String.prefix] in P |- *. destruct (ascii_dec d x); [|discriminate]. exact (IH _ _ _ H2 P).
Qed.
Lemma contains_two : forall sub a c b, has c sub = false -> contains sub a = false -> contains sub b = false -> sub <> "" ->
  contains sub (a ++ String c b) = false.
Proof.
  intros sub a c b H Ha Hb Hs. induction a as [|d a IH].
  - cbn [append contains]. rewrite Hb, orb_false_r. destruct (String.prefix sub (String c b)) eqn:E; [|reflexivity].
    apply (prefix_stop sub "" c b H) in E. destruct sub; [congruence|discriminate].
  - cbn [contains] in Ha. apply orb_false_iff in Ha. destruct Ha as [H1 H2].
    cbn [append contains]. rewrite (IH H2), orb_false_r. destruct (String.prefix sub (String d (a ++ String c b))) eqn:E; [|reflexivity].
    apply (prefix_stop sub (String d a) c b H) in E. congruence.
Qed.
Lemma every_has : forall p c s, every p s = true -> p c = false -> has c s = false.
Proof.
  intros p c. induction s as [|d s IH]; intros H N; [reflexivity|]. cbn [every has] in *. apply andb_true_iff in H.
  destruct H as [H1 H2]. rewrite (IH H2 N), orb_false_r. destruct (Ascii.eqb_spec d c) as [->|]; [congruence|reflexivity].
Qed.
Lemma digits_closed : forall s, every digit s = true -> closed 0 s = true.
Proof.
  induction s as [|c s IH]; intros H; [reflexivity|]. cbn [every] in H. apply andb_true_iff in H. destruct H as [H1 H2].
  cbn [closed]. destruct (Ascii.eqb_spec c "(") as [->|]; [discriminate|]. destruct (Ascii.eqb_spec c ")") as [->|]; [discriminate|].
  destruct (Ascii.eqb_spec c ",") as [->|]; [discriminate|]. apply IH, H2.
Qed.
Lemma hide_same : forall s n, has "," s = false -> hide n s = s.
Proof.
  induction s as [|c s IH]; intros n H; [reflexivity|]. cbn [has] in H. apply orb_false_iff in H. destruct H as [H1 H2].
  cbn [hide]. rewrite H1, (IH _ H2). reflexivity.
Qed.
Record number_text (s : string) (z : Z) : Prop := {
  nt_part : part s; nt_hide : hide 0 s = s; nt_int : as_integer s = Some z; nt_ne : s <> "" }.
Lemma number_is : forall z, (0 <= z)%Z -> number_text (str_int z) z.
Proof.
  intros z Hz. destruct (digits_of_str z Hz) as [N D]. constructor.
  - split; [exact (digits_closed _ D)|]. split; [apply (every_has _ _ _ D); reflexivity|].
    split; [apply (every_has _ _ _ D); reflexivity|].
    apply (contains_has "_"); [reflexivity|]. apply (every_has _ _ _ D); reflexivity.
  - apply hide_same, (every_has _ _ _ D); reflexivity.
  - unfold as_integer. rewrite D. destruct (String.eqb_spec (str_int z) ""); [congruence|]. cbn [negb andb].
    pose proof (py_int_str z Hz) as P. unfold py_int in P. destruct (str_int z); [congruence|]. now injection P as <-.
  - exact N.
Qed.
Lemma has_spaces : forall c s, c <> " "%char -> has c s = has c (no_spaces s).
Proof.
  intros c. induction s as [|d s IH]; intros H; [reflexivity|]. cbn [has no_spaces]. destruct (Ascii.eqb_spec d " ") as [->|N].
  - rewrite (IH H). destruct (Ascii.eqb_spec " " c) as [E|]; [congruence|reflexivity].
  - cbn [has]. rewrite (IH H). reflexivity.
Qed.
Lemma no_spaces_same : forall s, has " " s = false -> no_spaces s = s.
Proof.
  induction s as [|c s IH]; intros H; [reflexivity|]. cbn [has] in H. apply orb_false_iff in H. destruct H as [H1 H2].
  cbn [no_spaces]. rewrite H1, (IH H2). reflexivity.
Qed.
Lemma grad_start : forall op r, String.prefix "Grad" op = false -> String.prefix "Grad" (op ++ "_Reduction(" ++ r) = false.
Proof.
  intros op r H. destruct (String.prefix "Grad" (op ++ "_Reduction(" ++ r)) eqn:E; [|reflexivity].
  change ("_Reduction(" ++ r) with (String "_" ("Reduction(" ++ r)) in E. apply prefix_stop in E; [congruence|reflexivity].
Qed.
Lemma has_mid : forall c a b d, c <> d -> has c a = false -> has c b = false -> has c (a ++ String d b) = false.
Proof.
  intros c a b d N Ha Hb. rewrite has_app. rewrite Ha. cbn [has orb]. rewrite Hb, orb_false_r.
  apply Ascii.eqb_neq. congruence.
Qed.

(** ** The text of a reduction *)

Record inside (rest : string) : Prop := { in_dollar : has "$" rest = false; in_red : contains "_Reduction" rest = false }.

Lemma inside_part : forall s, part s -> inside s.
Proof. intros s (_ & H1 & _ & H2). now constructor. Qed.
Lemma inside_two : forall a b c, (c = "," \/ c = ")")%char -> inside a -> inside b -> inside (a ++ String c b).
Proof.
  intros a b c Hc [A1 A2] [B1 B2]. constructor.
  - apply has_mid; [destruct Hc; subst; discriminate|assumption|assumption].
  - apply contains_two; [destruct Hc; subst; reflexivity|assumption|assumption|discriminate].
Qed.
Lemma inside_empty : inside "".
Proof. now constructor. Qed.

Lemma reduction_described : forall fuel grad T op rest, reduction_name op -> inside rest ->
  no_spaces T = op ++ "_Reduction(" ++ rest ++ ")" ->
  pykeops_formula (S fuel) grad T = described_reduction (op ++ "_Reduction(" ++ rest ++ ")") (hide 0 rest) grad.
Proof.
  intros fuel grad T op rest [(N1 & N2 & N3 & N4 & N5 & N6) N7] [I1 I2] HT.
  cbn [pykeops_formula]. rewrite (has_spaces "$") by discriminate. rewrite HT.
  assert (D : has "$" (op ++ "_Reduction(" ++ rest ++ ")") = false).
  { rewrite !has_app, N5, I1. reflexivity. }
  rewrite D. unfold parenthesised.
  replace (op ++ "_Reduction(" ++ rest ++ ")") with ((op ++ "_Reduction") ++ String "(" (rest ++ ")")) at 1
    by (rewrite app_assoc_s; reflexivity).
  rewrite after_first_app by (rewrite has_app, N2; reflexivity).
  rewrite before_last_app. rewrite (grad_start op _ N7). reflexivity.
Qed.

Lemma upto_reduction : forall op rest, contains "_Reduction" rest = false ->
  upto_last "_Reduction" (op ++ "_Reduction(" ++ rest ++ ")") = Some op.
Proof.
  intros op rest H.
  change ("_Reduction(" ++ rest ++ ")") with (String "_" ("Reduction(" ++ rest ++ ")")). apply upto_app.
  - reflexivity.
  - apply upto_none. change ("Reduction(" ++ rest ++ ")") with ("Reduction" ++ String "(" (rest ++ String ")" "")).
    apply contains_two; [reflexivity|reflexivity| |discriminate].
    apply contains_two; [reflexivity|assumption|reflexivity|discriminate].
Qed.

Definition with_grad (grad : option (string * string)) (d : described) : described :=
  match grad with Some (v, e) => with_main d (grad_text (d_main d) v e) | None => d end.

Lemma written_described : forall T X d fuel grad, written X d -> no_spaces T = X ->
  pykeops_formula (S fuel) grad T = Ok (with_grad grad d).
Proof.
  intros T X d fuel grad W HT. destruct W as [op f ax Ho Hf Hax|op f k ax Ho W1 W2 Hf Hk Hax|op f g ax Ho Hf Hg Hax].
  - destruct (number_is ax Hax) as [P H I N].
    rewrite (reduction_described fuel grad T op (f ++ "," ++ str_int ax)) ; [|assumption| |].
    + unfold described_reduction. rewrite upto_reduction.
      * destruct Ho as [[Ho _] _]. destruct op as [|c op]; [congruence|]. unfold strsplit.
        rewrite split_two by apply Hf. rewrite split_one by apply P. rewrite H. cbn [last].
        destruct (String.eqb_spec (str_int ax) "") as [E|_]; [congruence|].
        cbn [List.length Nat.ltb Nat.leb last]. rewrite I, show_hide by apply Hf.
        destruct grad as [[v e]|]; reflexivity.
      * apply in_red. apply inside_two; [tauto|now apply inside_part|now apply inside_part].
    + apply inside_two; [tauto|now apply inside_part|now apply inside_part].
    + rewrite HT. rewrite !app_assoc_s. reflexivity.
  - destruct (number_is ax Hax) as [P H I N]. destruct (number_is k Hk) as [P' H' I' N'].
    assert (IN : inside (f ++ "," ++ str_int k ++ "," ++ str_int ax)).
    { apply inside_two; [tauto|now apply inside_part|]. apply inside_two; [tauto|now apply inside_part|now apply inside_part]. }
    rewrite (reduction_described fuel grad T op (f ++ "," ++ str_int k ++ "," ++ str_int ax)) ; [|assumption|assumption|].
    + unfold described_reduction. rewrite upto_reduction by apply IN.
      destruct Ho as [[Ho _] _]. destruct op as [|c op]; [congruence|]. unfold strsplit.
      rewrite split_two by apply Hf. rewrite split_two by apply P'. rewrite split_one by apply P. rewrite H, H'. cbn [last].
      destruct (String.eqb_spec (str_int ax) "") as [E|_]; [congruence|].
      cbn [List.length Nat.ltb Nat.leb last Nat.sub nth]. rewrite I, I', show_hide by apply Hf.
      unfold weighted. destruct (String.eqb_spec (String c op) "LogSumExpWeight") as [E|_]; [congruence|].
      destruct (String.eqb_spec (String c op) "SumSoftMaxWeight") as [E|_]; [congruence|]. cbn [orb].
      destruct grad as [[v e]|]; reflexivity.
    + rewrite HT. rewrite !app_assoc_s. reflexivity.
  - destruct (number_is ax Hax) as [P H I N].
    assert (IN : inside (f ++ "," ++ g ++ "," ++ str_int ax)).
    { apply inside_two; [tauto|now apply inside_part|]. apply inside_two; [tauto|now apply inside_part|now apply inside_part]. }
    assert (Hn : reduction_name op) by (destruct Ho; subst op; repeat split; discriminate).
    rewrite (reduction_described fuel grad T op (f ++ "," ++ g ++ "," ++ str_int ax)) ; [|assumption|assumption|].
    + unfold described_reduction. rewrite upto_reduction by apply IN.
      assert (Hw : weighted op = true) by (destruct Ho; subst op; reflexivity).
      destruct Hn as [[Hn _] _]. destruct op as [|c op]; [congruence|]. unfold strsplit.
      rewrite split_two by apply Hf. rewrite split_two by apply Hg. rewrite split_one by apply P. rewrite H. cbn [last].
      destruct (String.eqb_spec (str_int ax) "") as [E|_]; [congruence|].
      cbn [List.length Nat.ltb Nat.leb last Nat.sub nth]. rewrite I, show_hide by apply Hf. rewrite Hw, show_hide by apply Hg.
      destruct grad as [[v e]|]; reflexivity.
    + rewrite HT. rewrite !app_assoc_s. reflexivity.
Qed.

Lemma r_kernel : forall T X d, written X d -> no_spaces T = X -> get_pykeops_formula T = Ok d.
Proof. intros T X d W H. exact (written_described T X d _ None W H). Qed.

Fixpoint derivs (x : string) (l : list (string * string)) : string :=
  match l with [] => x | (v, e) :: l => derivs (grad_text x v e) l end.

(** ** Gradients of texts *)

Record whole (X : string) : Prop := { wh_closed : closed 0 X = true; wh_dollar : has "$" X = false; wh_space : has " " X = false }.

Lemma closed_app : forall a n r, closed n a = true -> closed 0 r = true -> closed n (a ++ r) = true.
Proof.
  induction a as [|c a IH]; intros n r H Hr.
  - cbn in H. apply Nat.eqb_eq in H. now subst n.
  - cbn [append closed] in *. destruct (c =? "(")%char; [now apply IH|].
    destruct (c =? ")")%char; [destruct n; [discriminate|now apply IH]|].
    destruct (c =? ",")%char; [destruct n; [discriminate|now apply IH]|]. now apply IH.
Qed.
(** Deeper, everything is still closed. *)
Lemma closed_deep : forall a n k r, closed n a = true -> closed (n + S k) (a ++ r) = closed (S k) r.
Proof.
  induction a as [|c a IH]; intros n k r H.
  - cbn in H. apply Nat.eqb_eq in H. now subst n.
  - cbn [append closed] in *. destruct (c =? "(")%char; [exact (IH (S n) k r H)|].
    destruct (c =? ")")%char; [destruct n; [discriminate|exact (IH n k r H)]|].
    destruct (c =? ",")%char; [destruct n; [discriminate|]|]; rewrite (IH _ k r H).
    + destruct (S n + S k)%nat eqn:E; [lia|reflexivity].
    + reflexivity.
Qed.

Lemma closed_name : forall a n r, has "(" a = false -> has ")" a = false -> has "," a = false -> closed n (a ++ r) = closed n r.
Proof.
  induction a as [|c a IH]; intros n r H1 H2 H3; [reflexivity|]. cbn [has] in *.
  apply orb_false_iff in H1, H2, H3. destruct H1 as [A1 B1], H2 as [A2 B2], H3 as [A3 B3].
  cbn [append closed]. rewrite A1, A2, A3. now apply IH.
Qed.
Lemma closed_in : forall a r, closed 0 a = true -> closed 1 (a ++ r) = closed 1 r.
Proof. intros a r H. exact (closed_deep a 0 0 r H). Qed.
Lemma closed_simple : forall s, simple_name s -> closed 0 s = true.
Proof.
  intros s (_ & H1 & H2 & H3 & _). rewrite <- (app_nil_r_s s). rewrite closed_name by assumption. reflexivity.
Qed.

Lemma whole_written : forall X d, written X d -> whole X.
Proof.
  intros X d W. destruct W as [op f ax [Ho _] Hf Hax|op f k ax [Ho _] W1 W2 Hf Hk Hax|op f g ax Ho Hf Hg Hax].
  - destruct (number_is ax Hax) as [P _ _ _]. destruct Ho as (_ & O1 & O2 & O3 & O4 & O5). destruct Hf as (F1 & F2 & F3 & _).
    destruct P as (P1 & P2 & P3 & _). constructor.
    + rewrite closed_name by assumption. change (closed 0 ("_Reduction(" ++ ?r)) with (closed 1 r).
      rewrite closed_in by assumption. change (closed 1 ("," ++ ?r)) with (closed 1 r). rewrite closed_in by assumption. reflexivity.
    + rewrite !has_app, O4, F2, P2. reflexivity.
    + rewrite !has_app, O5, F3, P3. reflexivity.
  - destruct (number_is ax Hax) as [P _ _ _]. destruct (number_is k Hk) as [Q _ _ _].
    destruct Ho as (_ & O1 & O2 & O3 & O4 & O5). destruct Hf as (F1 & F2 & F3 & _).
    destruct P as (P1 & P2 & P3 & _). destruct Q as (Q1 & Q2 & Q3 & _). constructor.
    + rewrite closed_name by assumption. change (closed 0 ("_Reduction(" ++ ?r)) with (closed 1 r).
      rewrite closed_in by assumption. change (closed 1 ("," ++ ?r)) with (closed 1 r). rewrite closed_in by assumption.
      change (closed 1 ("," ++ ?r)) with (closed 1 r). rewrite closed_in by assumption. reflexivity.
    + rewrite !has_app, O4, F2, P2, Q2. reflexivity.
    + rewrite !has_app, O5, F3, P3, Q3. reflexivity.
  - destruct (number_is ax Hax) as [P _ _ _].
    assert (Hn : simple_name op) by (destruct Ho; subst op; repeat split; discriminate).
    destruct Hn as (_ & O1 & O2 & O3 & O4 & O5). destruct Hf as (F1 & F2 & F3 & _). destruct Hg as (Q1 & Q2 & Q3 & _).
    destruct P as (P1 & P2 & P3 & _). constructor.
    + rewrite closed_name by assumption. change (closed 0 ("_Reduction(" ++ ?r)) with (closed 1 r).
      rewrite closed_in by assumption. change (closed 1 ("," ++ ?r)) with (closed 1 r). rewrite closed_in by assumption.
      change (closed 1 ("," ++ ?r)) with (closed 1 r). rewrite closed_in by assumption. reflexivity.
    + rewrite !has_app, O4, F2, P2, Q2. reflexivity.
    + rewrite !has_app, O5, F3, P3, Q3. reflexivity.
Qed.
Lemma whole_grad : forall X v e, whole X -> simple_name v -> simple_name e -> whole (grad_text X v e).
Proof.
  intros X v e [C D S] Hv He. assert (Cv := closed_simple v Hv). assert (Ce := closed_simple e He).
  destruct Hv as (_ & _ & _ & _ & V1 & V2). destruct He as (_ & _ & _ & _ & E1 & E2). unfold grad_text. constructor.
  - change (closed 0 ("Grad(" ++ ?r)) with (closed 1 r).
    rewrite closed_in by assumption. change (closed 1 ("," ++ ?r)) with (closed 1 r). rewrite closed_in by assumption.
    change (closed 1 ("," ++ ?r)) with (closed 1 r). rewrite closed_in by assumption. reflexivity.
  - rewrite !has_app, D, V1, E1. reflexivity.
  - rewrite !has_app, S, V2, E2. reflexivity.
Qed.

Lemma grad_step : forall fuel grad T X v e, whole X -> simple_name v -> simple_name e -> no_spaces T = grad_text X v e ->
  pykeops_formula (S fuel) grad T = pykeops_formula fuel (Some (v, e)) X.
Proof.
  intros fuel grad T X v e WX Hv He HT. destruct (whole_grad X v e WX Hv He) as [_ D _].
  destruct WX as [CX DX SX]. assert (Cv := closed_simple v Hv). assert (Ce := closed_simple e He).
  cbn [pykeops_formula]. rewrite (has_spaces "$") by discriminate. rewrite HT, D. unfold parenthesised, grad_text.
  change ("Grad(" ++ ?r) with ("Grad" ++ String "(" r). rewrite after_first_app by reflexivity.
  replace (X ++ "," ++ v ++ "," ++ e ++ ")") with ((X ++ "," ++ v ++ "," ++ e) ++ ")") by (rewrite !app_assoc_s; reflexivity).
  rewrite before_last_app. change (String.prefix "Grad" ("Grad" ++ ?r)) with true. cbv iota.
  rewrite split_two by assumption. rewrite split_two by assumption. rewrite split_one by assumption.
  rewrite show_hide by assumption. destruct Hv as (_ & _ & _ & V3 & _). destruct He as (_ & _ & _ & E3 & _).
  rewrite (hide_same v), (hide_same e) by assumption. reflexivity.
Qed.

Lemma derivs_app : forall l X v e, derivs X (l ++ [(v, e)])%list = grad_text (derivs X l) v e.
Proof. induction l as [|[w g] l IH]; intros X v e; [reflexivity|]. cbn [app derivs]. apply IH. Qed.
Definition names_ok (l : list (string * string)) : Prop := Forall (fun p => simple_name (fst p) /\ simple_name (snd p)) l.

Lemma whole_derivs : forall l X, whole X -> names_ok l -> whole (derivs X l).
Proof.
  induction l as [|[v e] l IH]; intros X W N; [assumption|]. inversion N as [|? ? [H1 H2] H3]; subst.
  cbn [derivs]. apply IH; [|assumption]. now apply whole_grad.
Qed.
Definition innermost (l : list (string * string)) (grad : option (string * string)) : option (string * string) :=
  match l with p :: _ => Some p | [] => grad end.
Lemma derivs_described : forall X d, written X d -> forall l fuel grad T, names_ok l -> List.length l <= fuel ->
  no_spaces T = derivs X l -> pykeops_formula (S fuel) grad T = Ok (with_grad (innermost l grad) d).
Proof.
  intros X d W l. induction l as [|[v e] l IH] using rev_ind; intros fuel grad T N L HT.
  - exact (written_described T X d fuel grad W HT).
  - rewrite derivs_app in HT. apply Forall_app in N. destruct N as [N1 N2]. inversion N2 as [|? ? [V E] _]; subst.
    cbn [fst snd] in *. rewrite app_length in L. cbn [List.length] in L.
    assert (WH : whole (derivs X l)) by (apply whole_derivs; [now apply (whole_written X d)|assumption]).
    rewrite (grad_step fuel grad T _ v e WH V E HT). destruct fuel as [|fuel]; [lia|].
    rewrite (IH fuel (Some (v, e)) _ N1 ltac:(lia) (no_spaces_same _ (wh_space _ WH))).
    destruct l as [|p l]; reflexivity.
Qed.
Lemma length_spaces : forall s, String.length (no_spaces s) <= String.length s.
Proof. induction s as [|c s IH]; [auto|]. cbn [no_spaces]. destruct (c =? " ")%char; cbn [String.length]; lia. Qed.
Lemma length_app : forall a b, String.length (a ++ b) = String.length a + String.length b.
Proof. induction a as [|c a IH]; intros b; [reflexivity|]. cbn [append String.length]. rewrite IH. reflexivity. Qed.
Lemma length_derivs : forall l X, List.length l + String.length X <= String.length (derivs X l).
Proof.
  induction l as [|[v e] l IH]; intros X; [cbn; lia|]. cbn [derivs List.length]. specialize (IH (grad_text X v e)).
  unfold grad_text in IH at 1. rewrite !length_app in IH. cbn [String.length] in IH. lia.
Qed.
Lemma r_derivatives : forall T X d l, written X d -> names_ok l -> no_spaces T = derivs X l ->
  get_pykeops_formula T = Ok (with_grad (innermost l None) d).
Proof.
  intros T X d l W N H. unfold get_pykeops_formula. apply (derivs_described X d W); [assumption| |assumption].
  pose proof (length_spaces T) as Q. rewrite H in Q. pose proof (length_derivs l X). lia.
Qed.
Lemma r_grad : forall T X d v e, written X d -> simple_name v -> simple_name e -> no_spaces T = grad_text X v e ->
  get_pykeops_formula T = Ok (with_main d (grad_text (d_main d) v e)).
Proof.
  intros T X d v e W V E H. apply (r_derivatives T X d [(v, e)]); [assumption| |assumption].
  constructor; [split; assumption|constructor].
Qed.
(** The derivs after the first one are lost. *)
Lemma r_lost : forall T T' X d v e l, written X d -> names_ok ((v, e) :: l) -> no_spaces T = derivs X ((v, e) :: l) ->
  no_spaces T' = grad_text X v e -> get_pykeops_formula T = get_pykeops_formula T'.
Proof.
  intros T T' X d v e l W N H H'. rewrite (r_derivatives T X d _ W N H).
  inversion N as [|? ? [V E] _]; subst. now rewrite (r_grad T' X d v e W V E H').
Qed.

(** ** As claimed *)

Lemma written_space : forall X d, written X d -> has " " X = false.
Proof. intros X d W. exact (wh_space _ (whole_written X d W)). Qed.
