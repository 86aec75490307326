(** Proofs for C65: the names of the arguments. *)

From Coq Require Import ZArith List Bool Ascii String Lia.
From Verif Require Import Result Keys KeySpec Aliases AliasSpec Methods MethodsSpec PyRead PyReadSpec PyReadProofs C22Proofs C26Proofs C55Proofs RKeops RKeopsSpec
  C64Proofs RLazy RLazySpec.
Import ListNotations.
Local Open Scope nat_scope.
Open Scope string_scope.

(** ** Replacements *)

Lemma prefix_more : forall id s r, String.prefix id s = true -> String.prefix id (s ++ r) = true.
Proof.
  induction id as [|c id IH]; intros s r H; [destruct (s ++ r); reflexivity|].
  destruct s as [|d s]; [discriminate|]. cbn [append String.prefix] in *. destruct (ascii_dec c d); [|discriminate]. now apply IH.
Qed.
Lemma prefix_length : forall id s, String.prefix id s = true -> String.length id <= String.length s.
Proof.
  induction id as [|c id IH]; intros s H; [cbn; lia|].
  destruct s as [|d s]; [discriminate|]. cbn [String.prefix] in H. destruct (ascii_dec c d); [|discriminate]. cbn. apply IH in H. lia.
Qed.

Section Replace.
  Variables (id tag : string).
  Hypothesis NE : id <> "".

  Lemma replace_split : forall c, has c id = false -> forall a k b, k <= String.length a ->
    replace_from k id tag (a ++ String c b) = replace_from k id tag a ++ String c (replace_all id tag b).
  Proof.
    intros c H. induction a as [|x a IH]; intros k b L.
    - cbn in L. assert (k = 0) by lia. subst k. cbn [append replace_from].
      destruct (String.prefix id (String c b)) eqn:E; [|reflexivity].
      apply (prefix_stop id "" c b H) in E. destruct id; [congruence|discriminate].
    - destruct k as [|k]; [|cbn [append replace_from]; apply IH; cbn in L; lia].
      cbn [append replace_from]. destruct (String.prefix id (String x a)) eqn:E.
      + change (String x (a ++ String c b)) with (String x a ++ String c b). rewrite (prefix_more _ _ _ E).
        rewrite app_assoc_s. f_equal. apply IH. apply prefix_length in E. cbn in E. lia.
      + destruct (String.prefix id (String x (a ++ String c b))) eqn:E2.
        * change (String x (a ++ String c b)) with (String x a ++ String c b) in E2. apply (prefix_stop id _ c b H) in E2. congruence.
        * cbn [append]. f_equal. apply IH. lia.
  Qed.
  Lemma replace_two : forall c a b, has c id = false ->
    replace_all id tag (a ++ String c b) = replace_all id tag a ++ String c (replace_all id tag b).
  Proof. intros c a b H. apply replace_split; [exact H|lia]. Qed.

  Lemma replace_absent : forall s, contains id s = false -> replace_all id tag s = s.
  Proof.
    unfold replace_all. induction s as [|c s IH]; intros H; [reflexivity|]. cbn [contains] in H. apply orb_false_iff in H. destruct H as [H1 H2].
    cbn [replace_from]. rewrite H1. f_equal. now apply IH.
  Qed.
  Lemma first_absent : forall s, contains id s = false -> replace_first id tag s = s.
  Proof.
    induction s as [|c s IH]; intros H; cbn [contains] in H; apply orb_false_iff in H; destruct H as [H1 H2];
      cbn [replace_first]; rewrite H1; [reflexivity|]. f_equal. now apply IH.
  Qed.
  Lemma drop_app : forall a b, drop (String.length a) (a ++ b) = b.
  Proof. induction a; auto. Qed.
  Lemma first_here : forall r, replace_first id tag (id ++ r) = tag ++ r.
  Proof.
    intros r. assert (P := prefix_app id r). rewrite <- (drop_app id r) at 2.
    destruct (id ++ r); cbn [replace_first]; rewrite P; reflexivity.
  Qed.
  Lemma skip_all : forall s, replace_from (String.length s) id tag s = "".
  Proof. induction s as [|c s IH]; auto. Qed.
  Lemma replace_self : replace_all id tag id = tag.
  Proof.
    assert (P := prefix_app id ""). rewrite app_nil_r_s in P. unfold replace_all.
    destruct id as [|c s] eqn:E; [congruence|]. cbn [replace_from]. rewrite P.
    replace (String.length (String c s) - 1) with (String.length s) by (cbn; lia).
    rewrite <- E. rewrite skip_all. apply app_nil_r_s.
  Qed.
End Replace.

(** ** Names *)

Definition lname (a : string) (x : rindex) : string := "A" ++ a ++ index_text x.

Lemma every_has_false : forall p c s, every p s = true -> p c = false -> has c s = false.
Proof. exact C64Proofs.every_has. Qed.

Lemma name_has : forall a x c, is_address a -> existsb (Ascii.eqb c) ["("; ")"; ","; "|"; "="; " "; "$"]%char = true -> has c (lname a x) = false.
Proof.
  intros a x c (h & -> & H) C. unfold lname. cbn [existsb] in C.
  assert (N : hexadecimal c = false /\ (forall d, In d ["A"; "0"; "x"; "i"; "j"; "N"]%char -> (d =? c)%char = false)).
  { repeat (apply orb_true_iff in C; destruct C as [C|C]; [apply Ascii.eqb_eq in C; subst c; split;
      [reflexivity|intros d D; cbn in D; intuition (subst; reflexivity)]|]). discriminate. }
  destruct N as [N1 N2]. assert (HH := every_has_false _ _ _ H N1).
  cbn [append has]. rewrite !N2 by (cbn; tauto). cbn [orb].
  assert (G : forall s t, has c s = false -> has c t = false -> has c (s ++ t) = false).
  { induction s as [|d s IH]; intros t A B; [exact B|]. cbn [append has] in *. apply orb_false_iff in A. destruct A as [A1 A2]. rewrite A1. now apply IH. }
  apply G; auto. destruct x; cbn [index_text has]; rewrite ?N2 by (cbn; tauto); reflexivity.
Qed.

Lemma hex_stop : forall h h' x x', every hexadecimal h = true -> every hexadecimal h' = true ->
  String.prefix (h ++ index_text x) (h' ++ index_text x') = true -> h = h' /\ x = x'.
Proof.
  induction h as [|c h IH]; intros h' x x' H H' P; destruct h' as [|c' h'].
  - split; auto. destruct x, x'; cbn in P; try reflexivity; discriminate.
  - exfalso. cbn [every] in H'. apply andb_true_iff in H'. destruct H' as [H' _].
    destruct x; cbn [append index_text String.prefix] in P;
    match type of P with (if ascii_dec ?a ?b then _ else _) = _ => destruct (ascii_dec a b) as [<-|]; [discriminate H'|discriminate] end.
  - exfalso. cbn [every] in H. apply andb_true_iff in H. destruct H as [H _].
    destruct x'; cbn [append index_text String.prefix] in P;
    match type of P with (if ascii_dec ?a ?b then _ else _) = _ => destruct (ascii_dec a b) as [->|]; [discriminate H|discriminate] end.
  - cbn [every] in H, H'. apply andb_true_iff in H, H'. destruct H as [H1 H2], H' as [H1' H2'].
    cbn [append String.prefix] in P. destruct (ascii_dec c c') as [->|]; [|discriminate].
    destruct (IH _ _ _ H2 H2' P) as [-> ->]. auto.
Qed.

Lemma contains_skip : forall id s t, has "A" s = false -> contains (String "A" id) (s ++ t) = contains (String "A" id) t.
Proof.
  intros id. induction s as [|c s IH]; intros t H; [reflexivity|]. cbn [has] in H. apply orb_false_iff in H. destruct H as [H1 H2].
  rewrite <- (IH t H2). cbn [append contains String.prefix]. destruct (ascii_dec "A" c) as [<-|]; [discriminate H1|reflexivity].
Qed.

Lemma hex_A : forall h, every hexadecimal h = true -> has "A" h = false.
Proof. intros h H. now apply (every_has_false hexadecimal). Qed.

Lemma name_contains : forall a x a' x', is_address a -> is_address a' ->
  contains (lname a x) (lname a' x') = true -> a = a' /\ x = x'.
Proof.
  intros a x a' x' (h & -> & H) (h' & -> & H') C. unfold lname in C.
  change ("A" ++ ("0x" ++ h) ++ index_text x) with (String "A" (String "0" (String "x" (h ++ index_text x)))) in C.
  change ("A" ++ ("0x" ++ h') ++ index_text x') with (String "A" (String "0" (String "x" (h' ++ index_text x')))) in C.
  set (id := String "0" (String "x" (h ++ index_text x))) in C.
  cbn [contains] in C. apply orb_true_iff in C. destruct C as [C|C].
  - subst id. cbn [String.prefix] in C. repeat (destruct (ascii_dec _ _) in C; [|congruence]).
    destruct (hex_stop _ _ _ _ H H' C) as [-> ->]. auto.
  - exfalso. apply orb_true_iff in C. destruct C as [C|C]; [discriminate C|].
    apply orb_true_iff in C. destruct C as [C|C]; [discriminate C|].
    rewrite contains_skip in C by now apply hex_A. subst id. destruct x'; discriminate C.
Qed.

Lemma name_ne : forall a x, lname a x <> "".
Proof. intros a x. discriminate. Qed.

Lemma A_absent : forall a x s, has "A" s = false -> contains (lname a x) s = false.
Proof. intros a x s H. apply (contains_has "A"); [reflexivity|exact H]. Qed.

Lemma int_A : forall z, has "A" (str_int z) = false.
Proof. intros z. apply str_int_has; [reflexivity|discriminate]. Qed.

(** ** The text of a program *)

Lemma id_has : forall a x c, is_address a -> In c ["("; ")"; ","; "|"; "="]%char -> has c (lname a x) = false.
Proof. intros a x c A I. apply name_has; auto. cbn in I. intuition (subst; reflexivity). Qed.

Definition ptext (opts : list Z) : string := String.concat "" (map (fun k => "," ++ str_int k) opts).
Lemma ptext_cons : forall k opts r, ptext (k :: opts) ++ r = String "," (str_int k ++ ptext opts ++ r).
Proof. intros k opts r. unfold ptext. cbn [map]. rewrite concat_cons, !app_assoc_s. reflexivity. Qed.
Lemma ptext_start : forall opts r, exists c t, ptext opts ++ String ")" r = String c t /\ In c ["("; ")"; ","; "|"; "="]%char.
Proof.
  intros [|k opts] r; [exists ")"%char, r; split; [reflexivity|cbn; tauto]|].
  rewrite ptext_cons. eexists _, _. split; [reflexivity|cbn; tauto].
Qed.

Lemma replace_params : forall a0 x0 tag opts r, is_address a0 ->
  replace_all (lname a0 x0) tag (ptext opts ++ String ")" r) = ptext opts ++ String ")" (replace_all (lname a0 x0) tag r).
Proof.
  intros a0 x0 tag opts r A.
  assert (D : forall c s t, In c ["("; ")"; ","; "|"; "="]%char ->
    replace_all (lname a0 x0) tag (s ++ String c t) = replace_all (lname a0 x0) tag s ++ String c (replace_all (lname a0 x0) tag t)).
  { intros c s t I. apply replace_two; [apply name_ne|now apply id_has]. }
  induction opts as [|k opts IH].
  - exact (D ")"%char "" r ltac:(cbn; tauto)).
  - rewrite !ptext_cons. etransitivity; [exact (D ","%char "" _ ltac:(cbn; tauto))|].
    change (replace_all (lname a0 x0) tag "") with "". change ("" ++ String "," (replace_all (lname a0 x0) tag (str_int k ++ ptext opts ++ String ")" r)))
      with (String "," (replace_all (lname a0 x0) tag (str_int k ++ ptext opts ++ String ")" r))). f_equal.
    destruct (ptext_start opts r) as (c & t & S & IC). rewrite S in IH. rewrite S.
    rewrite (D c (str_int k) t IC). rewrite (replace_absent _ tag (str_int k)); [|apply A_absent, int_A]. f_equal.
    rewrite <- IH. symmetry. exact (D c "" t IC).
Qed.

Lemma prefix_less : forall p q s, String.prefix (p ++ q) s = true -> String.prefix p s = true.
Proof.
  induction p as [|c p IH]; intros q s H; [destruct s; reflexivity|]. destruct s as [|d s]; [discriminate|].
  cbn [append String.prefix] in *. destruct (ascii_dec c d); [|discriminate]. exact (IH _ _ H).
Qed.
Lemma A0x_absent : forall a x s, is_address a -> contains "A0x" s = false -> contains (lname a x) s = false.
Proof.
  intros a x s (h & -> & _). change (lname ("0x" ++ h) x) with ("A0x" ++ (h ++ index_text x)).
  generalize "A0x" (h ++ index_text x). intros p q. revert s.
  induction s as [|c s IH]; intros H; cbn [contains] in *; apply orb_false_iff in H; destruct H as [H1 H2];
    (destruct (String.prefix (p ++ q) _) eqn:E; [apply prefix_less in E; congruence|]); auto.
Qed.

Lemma shown_replace : forall a0 x0 tag nm nm' e, is_address a0 -> operations e ->
  (forall a x v, In (a, x, v) (leaves e) -> replace_all (lname a0 x0) tag (nm a x) = nm' a x) ->
  replace_all (lname a0 x0) tag (shown nm e) = shown nm' e.
Proof.
  intros a0 x0 tag nm nm' e A. assert (N0 := name_ne a0 x0).
  assert (D : forall c s t, In c ["("; ")"; ","; "|"; "="]%char ->
    replace_all (lname a0 x0) tag (s ++ String c t) = replace_all (lname a0 x0) tag s ++ String c (replace_all (lname a0 x0) tag t)).
  { intros c s t I. apply replace_two; auto. now apply id_has. }
  assert (O : forall op, operation_name op -> replace_all (lname a0 x0) tag op = op).
  { intros op (_ & H & _). apply replace_absent. now apply A0x_absent. }
  assert (E0 : replace_all (lname a0 x0) tag "" = "") by reflexivity.
  induction e as [a x v|n|op opts d e IH|op c d e IHe f IHf|e IHe f IHf|op c d e IHe f IHf g IHg]; intros W L; cbn [operations shown leaves] in *.
  - now apply (L a x v); left.
  - apply replace_absent. apply A_absent. rewrite has_app. apply orb_false_iff. split; [reflexivity|].
    rewrite has_app, int_A. reflexivity.
  - destruct W as [WO W]. etransitivity; [exact (D "("%char op _ ltac:(cbn; tauto))|]. rewrite (O op WO). f_equal. apply (f_equal (String "(")).
    fold (ptext opts). destruct (ptext_start opts "") as (c & t & S & IC).
    assert (P := replace_params a0 x0 tag opts "" A). rewrite E0 in P. rewrite S in P. change ")" with (String ")" ""). rewrite S.
    rewrite (D c _ _ IC), IH by auto. f_equal. etransitivity; [|exact P]. symmetry. exact (D c "" t IC).
  - destruct W as (WO & We & Wf). etransitivity; [exact (D "("%char op _ ltac:(cbn; tauto))|]. rewrite (O op WO). f_equal. cbn [append]. f_equal.
    rewrite (D ","%char), (D ")"%char) by (cbn; tauto). rewrite IHe, IHf; auto; intros; apply (L a x v); apply in_or_app; auto.
  - destruct W as (We & Wf). etransitivity; [exact (D "("%char "" _ ltac:(cbn; tauto))|]. rewrite E0. cbn [append]. f_equal.
    rewrite (D "|"%char), (D ")"%char) by (cbn; tauto). rewrite IHe, IHf; auto; intros; apply (L a x v); apply in_or_app; auto.
  - destruct W as (WO & We & Wf & Wg). etransitivity; [exact (D "("%char op _ ltac:(cbn; tauto))|]. rewrite (O op WO). f_equal. cbn [append]. f_equal.
    rewrite (D ","%char), (D ","%char), (D ")"%char) by (cbn; tauto).
    rewrite IHe, IHf, IHg; auto; intros; apply (L a x v); rewrite !in_app_iff; auto.
Qed.
