From Coq Require Import ZArith List Bool Ascii String Lia.
From Coq Require Import DecimalString DecimalZ DecimalPos.
From Verif Require Import Keys KeySpec.
Import ListNotations.
Open Scope string_scope.

(** ** Strings *)

Lemma app_assoc_s : forall a b c : string, (a ++ b) ++ c = a ++ (b ++ c).
Proof. induction a; intros; cbn; [reflexivity|]. now rewrite IHa. Qed.

Lemma app_nil_r_s : forall a : string, a ++ "" = a.
Proof. induction a; cbn; congruence. Qed.

Lemma length_app_s : forall a b, String.length (a ++ b) = String.length a + String.length b.
Proof. induction a; intros; cbn; [reflexivity|]. now rewrite IHa. Qed.

Lemma app_inv_head_s : forall a b c : string, a ++ b = a ++ c -> b = c.
Proof. induction a; intros b c H; cbn in H; [exact H|]. injection H. apply IHa. Qed.

(** Two decompositions of a text: one head is a prefix of the other. *)
Lemma app_split : forall a b c d : string, a ++ b = c ++ d ->
  (exists w, c = a ++ w /\ b = w ++ d) \/ (exists w, a = c ++ w /\ d = w ++ b).
Proof.
  induction a as [|x a IH]; intros b c d H.
  - left. exists c. split; [reflexivity|exact H].
  - destruct c as [|y c].
    + right. exists (String x a). split; [reflexivity|now rewrite H].
    + cbn in H. injection H as -> H. destruct (IH _ _ _ H) as [[w [-> ->]]|[w [-> ->]]].
      * left. now exists w.
      * right. now exists w.
Qed.

Lemma app_inv_tail_s : forall a b c : string, a ++ c = b ++ c -> a = b.
Proof.
  intros a b c H. destruct (app_split _ _ _ _ H) as [[w [-> E]]|[w [-> E]]].
  - destruct w; [now rewrite app_nil_r_s|].
    assert (L := f_equal String.length E). rewrite length_app_s in L. cbn in L. lia.
  - destruct w; [now rewrite app_nil_r_s|].
    assert (L := f_equal String.length E). rewrite length_app_s in L. cbn in L. lia.
Qed.

Lemma has_app : forall c a b, has c (a ++ b) = has c a || has c b.
Proof. induction a; intros; cbn; [reflexivity|]. rewrite IHa. now rewrite orb_assoc. Qed.

(** First occurrence of a character. *)
Lemma first_occurrence : forall c a b a' b',
  has c a = false -> has c a' = false ->
  a ++ String c b = a' ++ String c b' -> a = a' /\ b = b'.
Proof.
  induction a as [|x a IH]; intros b a' b' H H' E.
  - destruct a' as [|y a'].
    + cbn in E. injection E as ->. now split.
    + cbn in E. injection E as <- _. cbn in H'. now rewrite Ascii.eqb_refl in H'.
  - destruct a' as [|y a'].
    + cbn in E. injection E as -> _. cbn in H. now rewrite Ascii.eqb_refl in H.
    + cbn in E. injection E as -> E. cbn in H, H'.
      apply orb_false_iff in H. apply orb_false_iff in H'.
      destruct (IH _ _ _ (proj2 H) (proj2 H') E) as [-> ->]. now split.
Qed.

(** Last occurrence of a character. *)
Lemma last_occurrence : forall c a b a' b',
  has c b = false -> has c b' = false ->
  a ++ String c b = a' ++ String c b' -> a = a' /\ b = b'.
Proof.
  intros c a b a' b' H H' E.
  destruct (app_split _ _ _ _ E) as [[w [-> F]]|[w [-> F]]].
  - destruct w as [|y w]; cbn in F.
    + injection F as ->. now rewrite app_nil_r_s.
    + injection F as -> F. exfalso. rewrite F in H. rewrite has_app in H. cbn in H.
      rewrite Ascii.eqb_refl in H. rewrite orb_true_r in H. discriminate.
  - destruct w as [|y w]; cbn in F.
    + injection F as ->. now rewrite app_nil_r_s.
    + injection F as -> F. exfalso. rewrite F in H'. rewrite has_app in H'. cbn in H'.
      rewrite Ascii.eqb_refl in H'. rewrite orb_true_r in H'. discriminate.
Qed.

(** ** Integers *)

Fixpoint digits (s : string) : bool :=
  match s with EmptyString => true | String c s' => digit c && digits s' end.

Lemma uint_digits_e : forall u, digits (NilEmpty.string_of_uint u) = true.
Proof. induction u; cbn; auto. Qed.

Lemma uint_digits : forall u, digits (NilZero.string_of_uint u) = true.
Proof. intros u. destruct u; try apply uint_digits_e; reflexivity. Qed.

Lemma uint_start : forall u, starts digit (NilZero.string_of_uint u) = true.
Proof. intros u. destruct u; reflexivity. Qed.

Lemma digits_split : forall a b a' b',
  digits a = true -> digits a' = true ->
  starts digit b = false -> starts digit b' = false ->
  a ++ b = a' ++ b' -> a = a' /\ b = b'.
Proof.
  induction a as [|x a IH]; intros b a' b' Ha Ha' Hb Hb' E.
  - destruct a' as [|y a']; [now split|]. cbn in E. subst b. cbn in Hb, Ha'.
    rewrite Hb in Ha'. discriminate.
  - destruct a' as [|y a'].
    + cbn in E. subst b'. cbn in Hb', Ha. rewrite Hb' in Ha. discriminate.
    + cbn in E. injection E as -> E. cbn in Ha, Ha'.
      apply andb_true_iff in Ha. apply andb_true_iff in Ha'.
      destruct (IH _ _ _ (proj2 Ha) (proj2 Ha') Hb Hb' E) as [-> ->]. now split.
Qed.

Lemma str_int_inj : forall z z', str_int z = str_int z' -> z = z'.
Proof.
  intros z z' H. unfold str_int in H.
  assert (N : forall x, Z.to_int x <> Decimal.Pos Decimal.Nil
                        /\ Z.to_int x <> Decimal.Neg Decimal.Nil).
  { intros x. destruct x; cbn; split; try discriminate; intros E; injection E;
      apply Unsigned.to_uint_nonnil. }
  apply DecimalZ.to_int_inj.
  assert (E : Some (Z.to_int z) = Some (Z.to_int z')).
  { destruct (N z), (N z'). rewrite <- !NilZero.isi by assumption. now rewrite H. }
  now injection E.
Qed.

Lemma minus_not_digit : digit "-" = false.
Proof. reflexivity. Qed.

Lemma str_int_split : forall z z' r r',
  starts digit r = false -> starts digit r' = false ->
  str_int z ++ r = str_int z' ++ r' -> z = z' /\ r = r'.
Proof.
  intros z z' r r' Hr Hr' E.
  assert (S : str_int z = str_int z' /\ r = r').
  { unfold str_int in *. unfold NilZero.string_of_int in *.
    destruct (Z.to_int z) as [d|d], (Z.to_int z') as [d'|d'].
    - apply digits_split in E; auto using uint_digits.
    - exfalso. assert (S := uint_start d).
      destruct (NilZero.string_of_uint d); [discriminate|]. cbn in E. injection E as -> _.
      discriminate S.
    - exfalso. assert (S := uint_start d').
      destruct (NilZero.string_of_uint d'); [discriminate|]. cbn in E. injection E as <- _.
      discriminate S.
    - cbn in E. injection E as E. apply digits_split in E; auto using uint_digits.
      destruct E as [-> ->]. now split. }
  destruct S as [S ->]. split; [now apply str_int_inj|reflexivity].
Qed.

Lemma tag_split : forall z z' r r', tag z -> tag z' ->
  str_int z ++ r = str_int z' ++ r' -> z = z' /\ r = r'.
Proof.
  intros z z' r r' [->| ->] [->| ->] E; cbn in E; injection E as E; now split.
Qed.

Lemma choice_split : forall z z' r r', choice z -> choice z' ->
  str_int z ++ r = str_int z' ++ r' -> z = z' /\ r = r'.
Proof.
  intros z z' r r' [->|[->| ->]] [->|[->| ->]] E; cbn in E; try discriminate E;
    injection E as E; now split.
Qed.

Lemma bool_split : forall b b' r r',
  str_bool b ++ r = str_bool b' ++ r' -> b = b' /\ r = r'.
Proof. intros [|] [|] r r' E; cbn in E; try discriminate E; injection E as E; now split. Qed.

(** ** Quoted strings *)

Lemma hex_digit_inj : forall n m, n < 16 -> m < 16 -> hex_digit n = hex_digit m -> n = m.
Proof.
  intros n m Hn Hm.
  do 16 (destruct n as [|n]; [do 16 (destruct m as [|m]; [cbn; intros H; first [reflexivity|discriminate H]|]); lia|]).
  lia.
Qed.

Lemma hex_split : forall h l h' l' s t,
  String backslash (String "x" (String h (one l))) ++ s
  = String backslash (String "x" (String h' (one l'))) ++ t -> h = h' /\ l = l' /\ s = t.
Proof. intros h l h' l' s t H. cbn in H. injection H as -> -> ->. auto. Qed.

Lemma repr_char_split : forall q c c' r r',
  q = quote \/ q = dquote ->
  repr_char q c ++ r = repr_char q c' ++ r' -> c = c' /\ r = r'.
Proof.
  intros q c c' r r' Hq E. unfold repr_char in E.
  assert (B : forall x, (x =? backslash)%char = false -> x <> backslash).
  { intros x H K. subst x. discriminate H. }
  assert (hexa : forall a b s t, String backslash (String "x"
         (String (hex_digit (nat_of_ascii a / 16))
            (one (hex_digit (nat_of_ascii a mod 16))))) ++ s
      = String backslash (String "x"
         (String (hex_digit (nat_of_ascii b / 16))
            (one (hex_digit (nat_of_ascii b mod 16))))) ++ t -> a = b /\ s = t).
  { intros a b s t H.
    destruct (hex_split _ _ _ _ _ _ H) as [H1 [H2 H3]].
    assert (La := nat_ascii_bounded a). assert (Lb := nat_ascii_bounded b).
    apply hex_digit_inj in H1; [|apply Nat.div_lt_upper_bound; lia..].
    apply hex_digit_inj in H2; [|apply Nat.mod_upper_bound; lia..].
    split; [|exact H3].
    rewrite <- (ascii_nat_embedding a), <- (ascii_nat_embedding b). f_equal.
    rewrite (Nat.div_mod_eq (nat_of_ascii a) 16), (Nat.div_mod_eq (nat_of_ascii b) 16).
    now rewrite H1, H2. }
  destruct ((c =? q)%char) eqn:Eq1; [apply Ascii.eqb_eq in Eq1; subst c|];
  (destruct ((c' =? q)%char) eqn:Eq1'; [apply Ascii.eqb_eq in Eq1'; subst c'|]);
  cbn [orb] in E.
  - injection E as E. now split.
  - destruct ((c' =? backslash)%char) eqn:E2; [apply Ascii.eqb_eq in E2; subst c'|].
    + destruct Hq; subst q; discriminate E.
    + destruct ((c' =? "009")%char); [destruct Hq; subst q; discriminate E|].
      destruct ((c' =? "010")%char); [destruct Hq; subst q; discriminate E|].
      destruct ((c' =? "013")%char); [destruct Hq; subst q; discriminate E|].
      destruct (printable c').
      * cbn in E. injection E as <- _. discriminate E2.
      * destruct Hq; subst q; discriminate E.
  - destruct ((c =? backslash)%char) eqn:E2; [apply Ascii.eqb_eq in E2; subst c|].
    + destruct Hq; subst q; discriminate E.
    + destruct ((c =? "009")%char); [destruct Hq; subst q; discriminate E|].
      destruct ((c =? "010")%char); [destruct Hq; subst q; discriminate E|].
      destruct ((c =? "013")%char); [destruct Hq; subst q; discriminate E|].
      destruct (printable c).
      * cbn in E. injection E as -> _. discriminate E2.
      * destruct Hq; subst q; discriminate E.
  - destruct ((c =? backslash)%char) eqn:E2; [apply Ascii.eqb_eq in E2; subst c|];
    (destruct ((c' =? backslash)%char) eqn:E2'; [apply Ascii.eqb_eq in E2'; subst c'|]).
    + injection E as E. now split.
    + destruct ((c' =? "009")%char); [discriminate E|].
      destruct ((c' =? "010")%char); [discriminate E|].
      destruct ((c' =? "013")%char); [discriminate E|].
      destruct (printable c').
      * cbn in E. injection E as <- _. discriminate E2'.
      * discriminate E.
    + destruct ((c =? "009")%char); [discriminate E|].
      destruct ((c =? "010")%char); [discriminate E|].
      destruct ((c =? "013")%char); [discriminate E|].
      destruct (printable c).
      * cbn in E. injection E as -> _. discriminate E2.
      * discriminate E.
    + destruct ((c =? "009")%char) eqn:E3; [apply Ascii.eqb_eq in E3; subst c|];
      (destruct ((c' =? "009")%char) eqn:E3'; [apply Ascii.eqb_eq in E3'; subst c'|]);
      [injection E as E; now split| | |].
      * destruct ((c' =? "010")%char); [discriminate E|].
        destruct ((c' =? "013")%char); [discriminate E|].
        destruct (printable c'); [|discriminate E].
        cbn in E. injection E as <- _. discriminate E2'.
      * destruct ((c =? "010")%char); [discriminate E|].
        destruct ((c =? "013")%char); [discriminate E|].
        destruct (printable c); [|discriminate E].
        cbn in E. injection E as -> _. discriminate E2.
      * destruct ((c =? "010")%char) eqn:E4; [apply Ascii.eqb_eq in E4; subst c|];
        (destruct ((c' =? "010")%char) eqn:E4'; [apply Ascii.eqb_eq in E4'; subst c'|]);
        [injection E as E; now split| | |].
        -- destruct ((c' =? "013")%char); [discriminate E|].
           destruct (printable c'); [|discriminate E].
           cbn in E. injection E as <- _. discriminate E2'.
        -- destruct ((c =? "013")%char); [discriminate E|].
           destruct (printable c); [|discriminate E].
           cbn in E. injection E as -> _. discriminate E2.
        -- destruct ((c =? "013")%char) eqn:E5; [apply Ascii.eqb_eq in E5; subst c|];
           (destruct ((c' =? "013")%char) eqn:E5'; [apply Ascii.eqb_eq in E5'; subst c'|]);
           [injection E as E; now split| | |].
           ++ destruct (printable c'); [|discriminate E].
              cbn in E. injection E as <- _. discriminate E2'.
           ++ destruct (printable c); [|discriminate E].
              cbn in E. injection E as -> _. discriminate E2.
           ++ destruct (printable c), (printable c').
              ** cbn in E. injection E as -> E. now split.
              ** cbn in E. injection E as -> _. discriminate E2.
              ** cbn in E. injection E as <- _. discriminate E2'.
              ** now apply hexa in E.
Qed.

Lemma repr_char_start : forall q c, q = quote \/ q = dquote ->
  starts (fun x => (x =? q)%char) (repr_char q c) = false /\ repr_char q c <> "".
Proof.
  intros q c Hq. unfold repr_char.
  destruct ((c =? q)%char) eqn:E1; [destruct Hq; subst q; now split|].
  destruct ((c =? backslash)%char); [destruct Hq; subst q; now split|].
  cbn [orb].
  destruct ((c =? "009")%char); [destruct Hq; subst q; now split|].
  destruct ((c =? "010")%char); [destruct Hq; subst q; now split|].
  destruct ((c =? "013")%char); [destruct Hq; subst q; now split|].
  destruct (printable c).
  - cbn. now split.
  - destruct Hq; subst q; now split.
Qed.

Lemma repr_body_split : forall q s s' r r', q = quote \/ q = dquote ->
  repr_body q s ++ r = repr_body q s' ++ r' -> s = s' /\ r = r'.
Proof.
  intros q s. induction s as [|c s IH]; intros s' r r' Hq E; destruct s' as [|c' s'].
  - cbn in E. injection E as E. now split.
  - exfalso. cbn [repr_body] in E. rewrite app_assoc_s in E.
    destruct (repr_char_start q c' Hq) as [A B]. destruct (repr_char q c'); [congruence|].
    cbn in A, E. injection E as <- _. now rewrite Ascii.eqb_refl in A.
  - exfalso. cbn [repr_body] in E. rewrite app_assoc_s in E.
    destruct (repr_char_start q c Hq) as [A B]. destruct (repr_char q c); [congruence|].
    cbn in A, E. injection E as -> _. now rewrite Ascii.eqb_refl in A.
  - cbn [repr_body] in E. rewrite !app_assoc_s in E.
    destruct (repr_char_split q c c' _ _ Hq E) as [-> F].
    destruct (IH _ _ _ Hq F) as [-> ->]. now split.
Qed.

Lemma repr_quote_cases : forall s, repr_quote s = quote \/ repr_quote s = dquote.
Proof. intros s. unfold repr_quote. destruct (has quote s && negb (has dquote s)); auto. Qed.

Lemma py_repr_split : forall s s' r r', py_repr s ++ r = py_repr s' ++ r' ->
  s = s' /\ r = r'.
Proof.
  intros s s' r r' E. unfold py_repr in E. cbn [append] in E. injection E as Eq E.
  rewrite <- Eq in E. exact (repr_body_split _ _ _ _ _ (repr_quote_cases s) E).
Qed.

Lemma list_tail_split : forall l l' r r', list_tail l ++ r = list_tail l' ++ r' ->
  l = l' /\ r = r'.
Proof.
  induction l as [|s l IH]; intros l' r r' E; destruct l' as [|s' l'];
    cbn [list_tail] in E.
  - injection E as E. now split.
  - discriminate E.
  - discriminate E.
  - rewrite !app_assoc_s in E. apply app_inv_head_s in E.
    apply py_repr_split in E. destruct E as [-> E].
    apply IH in E. destruct E as [-> ->]. now split.
Qed.

Lemma str_list_split : forall l l' r r', str_list l ++ r = str_list l' ++ r' ->
  l = l' /\ r = r'.
Proof.
  intros [|s l] [|s' l'] r r' E; cbn [str_list] in E.
  - injection E as E. now split.
  - exfalso. unfold py_repr in E. destruct (repr_quote_cases s') as [H|H]; rewrite H in E;
      discriminate E.
  - exfalso. unfold py_repr in E. destruct (repr_quote_cases s) as [H|H]; rewrite H in E;
      discriminate E.
  - rewrite !app_assoc_s in E. apply app_inv_head_s in E.
    apply py_repr_split in E. destruct E as [-> E].
    apply list_tail_split in E. destruct E as [-> ->]. now split.
Qed.

Lemma list_starts : forall l, exists t, str_list l = String "[" t.
Proof. intros [|s l]; eexists; reflexivity. Qed.

(** ** Types and summation schemes *)

Lemma ctype_split : forall t t' r r',
  ctype_str t ++ r = ctype_str t' ++ r' -> t = t' /\ r = r'.
Proof. intros [| |] [| |] r r' E; cbn in E; try discriminate E; injection E as E; now split. Qed.

Lemma sum_split : forall t t' r r',
  sumkind_str t ++ r = sumkind_str t' ++ r' -> t = t' /\ r = r'.
Proof. intros [| |] [| |] r r' E; cbn in E; try discriminate E; injection E as E; now split. Qed.

Lemma acc_sum_split : forall a a' s s' r r',
  acctype_str a ++ sumkind_str s ++ r = acctype_str a' ++ sumkind_str s' ++ r' ->
  a = a' /\ s = s' /\ r = r'.
Proof.
  intros [| | |] [| | |] [| |] [| |] r r' E; cbn in E; try discriminate E;
    injection E as E; now repeat split.
Qed.

Lemma ctype_start : forall t r, starts digit (ctype_str t ++ r) = false.
Proof. intros [| |] r; reflexivity. Qed.

Lemma ptype_split : forall t t' r r',
  ptype_str t ++ r = ptype_str t' ++ r' -> t = t' /\ r = r'.
Proof. intros [| |] [| |] r r' E; cbn in E; try discriminate E; injection E as E; now split. Qed.

Lemma ptype_start : forall t r, starts digit (ptype_str t ++ r) = false.
Proof. intros [| |] r; reflexivity. Qed.

Lemma language_split : forall t t' r r',
  language_str t ++ r = language_str t' ++ r' -> t = t' /\ r = r'.
Proof. intros [|] [|] r r' E; cbn in E; try discriminate E; injection E as E; now split. Qed.

(** ** Formulas *)

Lemma formula_start : forall s, formula_text s -> starts letter s = true.
Proof.
  intros s [name [body [-> [_ [H _]]]]]. destruct name; [discriminate H|]. exact H.
Qed.

Lemma formula_no_bracket : forall s, formula_text s -> has "[" s = false.
Proof. intros s [name [body [_ [_ [_ [_ H]]]]]]. exact H. Qed.

Lemma formula_end : forall s, formula_text s -> exists b, s = b ++ ")".
Proof.
  intros s [name [body [-> _]]]. exists (name ++ "(" ++ body).
  now rewrite !app_assoc_s.
Qed.

Lemma choice_chars : forall z c, choice z -> has c (str_int z) = true ->
  c = "-"%char \/ c = "0"%char \/ c = "1"%char.
Proof.
  assert (K : forall d c s, has c (String d s) = true -> d = c \/ has c s = true).
  { intros d c s H. cbn [has] in H. apply orb_true_iff in H. destruct H as [H|H]; [left|now right].
    now apply Ascii.eqb_eq. }
  intros z c [->|[->| ->]] H.
  - apply K in H. destruct H as [H|H]; [now left|]. apply K in H.
    destruct H as [H|H]; [auto|discriminate H].
  - apply K in H. destruct H as [H|H]; [auto|discriminate H].
  - apply K in H. destruct H as [H|H]; [auto|discriminate H].
Qed.

Lemma three_split : forall f f' a b c a' b' c' r r',
  formula_text f -> formula_text f' ->
  choice a -> choice b -> choice c -> choice a' -> choice b' -> choice c' ->
  f ++ str_int a ++ str_int b ++ str_int c ++ String "[" r
  = f' ++ str_int a' ++ str_int b' ++ str_int c' ++ String "[" r' ->
  f = f' /\ a = a' /\ b = b' /\ c = c' /\ r = r'.
Proof.
  intros f f' a b c a' b' c' r r' F F' Ha Hb Hc Ha' Hb' Hc' E.
  assert (NC : forall x z, choice z -> x <> "-"%char -> x <> "0"%char -> x <> "1"%char ->
                 has x (str_int z) = false).
  { intros x z Hz A B C. destruct (has x (str_int z)) eqn:G; [|reflexivity].
    destruct (choice_chars z x Hz G) as [->|[->| ->]]; congruence. }
  replace (f ++ str_int a ++ str_int b ++ str_int c ++ String "[" r)
    with ((f ++ str_int a ++ str_int b ++ str_int c) ++ String "[" r) in E
    by now rewrite !app_assoc_s.
  replace (f' ++ str_int a' ++ str_int b' ++ str_int c' ++ String "[" r')
    with ((f' ++ str_int a' ++ str_int b' ++ str_int c') ++ String "[" r') in E
    by now rewrite !app_assoc_s.
  apply first_occurrence in E;
    [|rewrite !has_app, formula_no_bracket, !NC by (assumption || discriminate);
      reflexivity..].
  destruct E as [E ->].
  destruct (formula_end f F) as [g ->], (formula_end f' F') as [g' ->].
  rewrite !(app_assoc_s _ ")") in E.
  change (")" ++ ?x) with (String ")" x) in E.
  apply last_occurrence in E;
    [|rewrite !has_app, !NC by (assumption || discriminate); reflexivity..].
  destruct E as [-> E].
  apply choice_split in E; try assumption. destruct E as [-> E].
  apply choice_split in E; try assumption. destruct E as [-> E].
  rewrite <- (app_nil_r_s (str_int c)), <- (app_nil_r_s (str_int c')) in E.
  apply choice_split in E; try assumption. destruct E as [-> _]. auto.
Qed.

Lemma scheme_split : forall s s' f f' r r',
  starts letter f = true -> starts letter f' = true ->
  scheme_id s ++ f ++ r = scheme_id s' ++ f' ++ r' -> s = s' /\ f ++ r = f' ++ r'.
Proof.
  intros s s' f f' r r' F F' E.
  destruct f as [|x f]; [discriminate F|]. destruct f' as [|y f']; [discriminate F'|].
  cbn [starts] in F, F'.
  destruct s, s'; cbn in E; try discriminate E; injection E as E;
    try (split; [reflexivity|]; cbn; congruence);
    exfalso; subst; (discriminate F || discriminate F').
Qed.

Lemma env_split : forall fl fl' af af',
  env_param fl af = env_param fl' af' -> fl = fl' /\ af = af'.
Proof.
  intros fl fl' af af' E. unfold env_param in E.
  assert (T : af = af').
  { destruct af, af'; try reflexivity; exfalso;
    assert (L := f_equal (fun s => get (String.length s - 4) s) E); cbn beta in L.
    - revert E. generalize fl, fl'. clear. intros a b E.
      assert (L1 := f_equal String.length E). rewrite !length_app_s in L1. cbn in L1.
      assert (P : (a ++ " auto_factorize=") ++ "True" = (b ++ " auto_factorize=F") ++ "alse").
      { rewrite !app_assoc_s. exact E. }
      destruct (app_split _ _ _ _ P) as [[w [A B]]|[w [A B]]];
        (destruct w as [|x [|y [|z [|t [|u w]]]]]; cbn in B; discriminate B).
    - revert E. generalize fl, fl'. clear. intros a b E.
      assert (P : (a ++ " auto_factorize=F") ++ "alse" = (b ++ " auto_factorize=") ++ "True").
      { rewrite !app_assoc_s. exact E. }
      destruct (app_split _ _ _ _ P) as [[w [A B]]|[w [A B]]];
        (destruct w as [|x [|y [|z [|t [|u w]]]]]; cbn in B; discriminate B). }
  subst af'. split; [|reflexivity]. now apply app_inv_tail_s in E.
Qed.

Lemma env_start : forall fl af, flags_ok fl -> starts digit (env_param fl af) = false.
Proof. intros [|c fl] af H; [reflexivity|exact H]. Qed.

Lemma request_eq : forall r r' : request,
  rq_scheme r = rq_scheme r' -> rq_formula r = rq_formula r' ->
  rq_chunks r = rq_chunks r' -> rq_final r = rq_final r' ->
  rq_highdim r = rq_highdim r' -> rq_aliases r = rq_aliases r' ->
  rq_nargs r = rq_nargs r' -> rq_dtype r = rq_dtype r' -> rq_acc r = rq_acc r' ->
  rq_sum r = rq_sum r' -> rq_hostdevice r = rq_hostdevice r' ->
  rq_cpugpu r = rq_cpugpu r' -> rq_1d2d r = rq_1d2d r' -> rq_half r = rq_half r' ->
  rq_fast r = rq_fast r' -> rq_device r = rq_device r' -> r = r'.
Proof. intros [] []; cbn; intros; subst; reflexivity. Qed.

(** The end of a key, from the number of arguments on. *)
Lemma tail_split : forall (r r' : request) e e',
  tag (rq_hostdevice r) -> tag (rq_cpugpu r) -> tag (rq_1d2d r) -> tag (rq_fast r) ->
  tag (rq_hostdevice r') -> tag (rq_cpugpu r') -> tag (rq_1d2d r') -> tag (rq_fast r') ->
  starts digit e = false -> starts digit e' = false ->
  str_int (rq_nargs r) ++ ctype_str (rq_dtype r) ++ acctype_str (rq_acc r)
    ++ sumkind_str (rq_sum r) ++ str_int (rq_hostdevice r) ++ str_int (rq_cpugpu r)
    ++ str_int (rq_1d2d r) ++ str_bool (rq_half r) ++ str_int (rq_fast r)
    ++ str_int (rq_device r) ++ e
  = str_int (rq_nargs r') ++ ctype_str (rq_dtype r') ++ acctype_str (rq_acc r')
    ++ sumkind_str (rq_sum r') ++ str_int (rq_hostdevice r') ++ str_int (rq_cpugpu r')
    ++ str_int (rq_1d2d r') ++ str_bool (rq_half r') ++ str_int (rq_fast r')
    ++ str_int (rq_device r') ++ e' ->
  rq_nargs r = rq_nargs r' /\ rq_dtype r = rq_dtype r' /\ rq_acc r = rq_acc r'
  /\ rq_sum r = rq_sum r' /\ rq_hostdevice r = rq_hostdevice r'
  /\ rq_cpugpu r = rq_cpugpu r' /\ rq_1d2d r = rq_1d2d r' /\ rq_half r = rq_half r'
  /\ rq_fast r = rq_fast r' /\ rq_device r = rq_device r' /\ e = e'.
Proof.
  intros r r' e e' T1 T2 T3 T4 T1' T2' T3' T4' S S' E.
  apply str_int_split in E; try apply ctype_start. destruct E as [E1 E].
  apply ctype_split in E. destruct E as [E2 E].
  apply acc_sum_split in E. destruct E as [E3 [E4 E]].
  apply tag_split in E; try assumption. destruct E as [E5 E].
  apply tag_split in E; try assumption. destruct E as [E6 E].
  apply tag_split in E; try assumption. destruct E as [E7 E].
  apply bool_split in E. destruct E as [E8 E].
  apply tag_split in E; try assumption. destruct E as [E9 E].
  apply str_int_split in E; try assumption. destruct E as [E10 E].
  repeat split; assumption.
Qed.

Lemma requests_distinct : forall r r' fl fl' af af',
  admissible r -> admissible r' -> flags_ok fl -> flags_ok fl' ->
  request_key r fl af = request_key r' fl' af' -> r = r' /\ fl = fl' /\ af = af'.
Proof.
  intros r r' fl fl' af af' [F [C1 [C2 [C3 [T1 [T2 [T3 T4]]]]]]]
    [F' [C1' [C2' [C3' [T1' [T2' [T3' T4']]]]]]] G G' E.
  unfold request_key, cache_key, request_args in E. cbn [join py_str] in E.
  rewrite !app_assoc_s in E.
  apply scheme_split in E; try (now apply formula_start). destruct E as [E0 E].
  destruct (list_starts (rq_aliases r)) as [t Ht], (list_starts (rq_aliases r')) as [t' Ht'].
  rewrite Ht, Ht' in E. cbn [append] in E.
  apply three_split in E; try assumption.
  destruct E as [EF [EC1 [EC2 [EC3 E]]]].
  assert (EL := f_equal (String "[") E).
  change (String "[" (t ++ ?x)) with (String "[" t ++ x) in EL.
  change (String "[" (t' ++ ?x)) with (String "[" t' ++ x) in EL.
  rewrite <- Ht, <- Ht' in EL. apply str_list_split in EL. destruct EL as [EL ET].
  cbn [append] in ET.
  apply tail_split in ET; try assumption; try (now apply env_start).
  destruct ET as [H1 [H2 [H3 [H4 [H5 [H6 [H7 [H8 [H9 [H10 H11]]]]]]]]]].
  apply env_split in H11. destruct H11. split; [|now split].
  now apply request_eq.
Qed.

(** ** Keys of the front-ends *)

Lemma flag_int_split : forall z z' r r', str_int z ++ "," ++ r = str_int z' ++ "," ++ r' ->
  z = z' /\ r = r'.
Proof.
  intros z z' r r' E. apply str_int_split in E; [|reflexivity..].
  destruct E as [-> E]. split; [reflexivity|]. now injection E.
Qed.

Lemma options_split : forall o o' r r',
  str_dict (options_dict o) ++ r = str_dict (options_dict o') ++ r' -> o = o' /\ r = r'.
Proof.
  intros [a s f c h] [a' s' f' c' h'] r r' E.
  unfold options_dict in E. cbn [op_acc op_sum op_fast op_chunks op_highdim] in E.
  cbn [str_dict dict_tail flag_repr] in E. rewrite !app_assoc_s in E.
  apply app_inv_head_s in E. apply app_inv_head_s in E. apply app_inv_head_s in E.
  apply py_repr_split in E. destruct E as [-> E].
  apply app_inv_head_s in E. apply app_inv_head_s in E. apply app_inv_head_s in E.
  apply py_repr_split in E. destruct E as [Es E].
  assert (s = s') as -> by (destruct s, s'; congruence || discriminate Es).
  apply app_inv_head_s in E. apply app_inv_head_s in E. apply app_inv_head_s in E.
  apply str_int_split in E; [|reflexivity..]. destruct E as [-> E].
  apply app_inv_head_s in E. apply app_inv_head_s in E. apply app_inv_head_s in E.
  apply str_int_split in E; [|reflexivity..]. destruct E as [-> E].
  apply app_inv_head_s in E. apply app_inv_head_s in E. apply app_inv_head_s in E.
  apply str_int_split in E; [|reflexivity..]. destruct E as [-> E].
  split; [reflexivity|]. now injection E.
Qed.

Lemma load_eq : forall l l' : load,
  ld_cpugpu l = ld_cpugpu l' -> ld_1d2d l = ld_1d2d l' ->
  ld_hostdevice l = ld_hostdevice l' -> ld_ranges l = ld_ranges l' ->
  ld_device l = ld_device l' -> ld_formula l = ld_formula l' ->
  ld_aliases l = ld_aliases l' -> ld_nargs l = ld_nargs l' ->
  ld_dtype l = ld_dtype l' -> ld_lang l = ld_lang l' -> ld_options l = ld_options l' ->
  l = l'.
Proof. intros [] []; cbn; intros; subst; reflexivity. Qed.

Lemma letter_not_digit : forall c, letter c = true -> digit c = false.
Proof.
  intros c H. unfold letter, digit in *.
  destruct (Nat.leb 48 (nat_of_ascii c) && Nat.leb (nat_of_ascii c) 57) eqn:E; [|reflexivity].
  apply andb_true_iff in E. destruct E as [A B].
  apply Nat.leb_le in A. apply Nat.leb_le in B.
  apply orb_true_iff in H. destruct H as [H|H]; apply andb_true_iff in H; destruct H as [C D];
    apply Nat.leb_le in C; apply Nat.leb_le in D; lia.
Qed.

Lemma formula_not_digit : forall f r, formula_text f -> starts digit (f ++ r) = false.
Proof.
  intros f r F. assert (S := formula_start f F). destruct f; [discriminate S|].
  cbn in *. now apply letter_not_digit.
Qed.

Lemma loads_distinct : forall l l' t t',
  admissible_load l -> admissible_load l' ->
  load_key l t = load_key l' t' -> l = l' /\ t = t'.
Proof.
  intros l l' t t' [F [T1 [T2 T3]]] [F' [T1' [T2' T3']]] E.
  unfold load_key, cache_key, load_args in E. cbn [join py_str] in E.
  rewrite !app_assoc_s in E.
  apply tag_split in E; try assumption. destruct E as [E1 E].
  apply tag_split in E; try assumption. destruct E as [E2 E].
  apply tag_split in E; try assumption. destruct E as [E3 E].
  apply bool_split in E. destruct E as [E4 E].
  apply str_int_split in E; try (now apply formula_not_digit). destruct E as [E5 E].
  destruct (list_starts (ld_aliases l)) as [u Hu], (list_starts (ld_aliases l')) as [u' Hu'].
  rewrite Hu, Hu' in E. cbn [append] in E.
  apply first_occurrence in E; try (now apply formula_no_bracket).
  destruct E as [E6 E]. assert (EL := f_equal (String "[") E).
  change (String "[" (u ++ ?x)) with (String "[" u ++ x) in EL.
  change (String "[" (u' ++ ?x)) with (String "[" u' ++ x) in EL.
  rewrite <- Hu, <- Hu' in EL. apply str_list_split in EL. destruct EL as [E7 EL].
  apply str_int_split in EL; try apply ptype_start. destruct EL as [E8 EL].
  apply ptype_split in EL. destruct EL as [E9 EL].
  apply language_split in EL. destruct EL as [E10 EL].
  apply options_split in EL. destruct EL as [E11 EL].
  split; [now apply load_eq|]. exact EL.
Qed.

(** ** Text of a module *)

Lemma digits_has : forall c s, digit c = false -> digits s = true -> has c s = false.
Proof.
  intros c s Hc. induction s as [|d s IH]; intros H; [reflexivity|].
  cbn in *. apply andb_true_iff in H. destruct H as [Hd H]. rewrite IH by exact H.
  rewrite orb_false_r. apply Ascii.eqb_neq. intros ->. congruence.
Qed.

Lemma str_int_has : forall c z, digit c = false -> c <> "-"%char -> has c (str_int z) = false.
Proof.
  intros c z Hc Hm. unfold str_int, NilZero.string_of_int.
  destruct (Z.to_int z).
  - apply digits_has; [exact Hc|apply uint_digits].
  - cbn [has]. rewrite digits_has by (exact Hc || apply uint_digits).
    rewrite orb_false_r. apply Ascii.eqb_neq. congruence.
Qed.

Lemma hex_digit_bracket : forall n, n < 16 -> hex_digit n <> "["%char.
Proof.
  intros n H. do 16 (destruct n as [|n]; [discriminate|]). lia.
Qed.

Lemma repr_char_has : forall q c, q = quote \/ q = dquote -> c <> "["%char ->
  has "[" (repr_char q c) = false.
Proof.
  intros q c Hq Hc. unfold repr_char.
  destruct ((c =? q)%char || (c =? backslash)%char).
  - cbn [has one]. rewrite orb_false_r. now apply Ascii.eqb_neq.
  - destruct ((c =? "009")%char); [reflexivity|].
    destruct ((c =? "010")%char); [reflexivity|].
    destruct ((c =? "013")%char); [reflexivity|].
    destruct (printable c).
    + cbn [has one]. rewrite orb_false_r. now apply Ascii.eqb_neq.
    + assert (L := nat_ascii_bounded c).
      assert (A : hex_digit (nat_of_ascii c / 16) <> "["%char)
        by (apply hex_digit_bracket; apply Nat.div_lt_upper_bound; lia).
      assert (B : hex_digit (nat_of_ascii c mod 16) <> "["%char)
        by (apply hex_digit_bracket; apply Nat.mod_upper_bound; lia).
      apply Ascii.eqb_neq in A. apply Ascii.eqb_neq in B.
      cbn [has one]. rewrite A, B. reflexivity.
Qed.

Lemma repr_body_has : forall q s, q = quote \/ q = dquote -> has "[" s = false ->
  has "[" (repr_body q s) = false.
Proof.
  intros q s Hq. induction s as [|c s IH]; intros H.
  - cbn [repr_body]. destruct Hq; subst q; reflexivity.
  - cbn [repr_body]. cbn [has] in H. apply orb_false_iff in H. destruct H as [A B].
    rewrite has_app, IH by exact B. rewrite repr_char_has; [reflexivity|exact Hq|].
    now apply Ascii.eqb_neq.
Qed.

Lemma py_repr_has : forall s, has "[" s = false -> has "[" (py_repr s) = false.
Proof.
  intros s H. unfold py_repr. cbn [has]. rewrite repr_body_has by (exact H || apply repr_quote_cases).
  destruct (repr_quote_cases s) as [-> | ->]; reflexivity.
Qed.

Lemma list_tail_has : forall l, Forall (fun s => has "[" s = false) l ->
  has "[" (list_tail l) = false.
Proof.
  induction l as [|s l IH]; intros H; [reflexivity|].
  inversion H; subst. cbn [list_tail]. rewrite !has_app, py_repr_has, IH by assumption.
  reflexivity.
Qed.

Lemma list_bracket : forall l, Forall (fun s => has "[" s = false) l ->
  exists t, str_list l = String "[" t /\ has "[" t = false.
Proof.
  intros [|s l] H.
  - exists "]". now split.
  - inversion H; subst. exists (py_repr s ++ list_tail l). split; [reflexivity|].
    now rewrite has_app, py_repr_has, list_tail_has.
Qed.

Lemma depth_app : forall a b n, depth n (a ++ b) =
  match depth n a with Some m => depth m b | None => None end.
Proof.
  induction a as [|c a IH]; intros b n; [reflexivity|]. cbn [append depth].
  destruct ((c =? "(")%char); [apply IH|]. destruct ((c =? ")")%char); [|apply IH].
  destruct n; [reflexivity|apply IH].
Qed.

Lemma depth_shift : forall s n m k, depth n s = Some m -> depth (n + k) s = Some (m + k).
Proof.
  induction s as [|c s IH]; intros n m k H; cbn [depth] in *.
  - now injection H as ->.
  - destruct ((c =? "(")%char); [exact (IH (S n) m k H)|].
    destruct ((c =? ")")%char); [|now apply IH].
    destruct n; [discriminate H|]. cbn. now apply IH.
Qed.

Lemma depth_plain : forall s n, plain s = true -> depth n s = Some n.
Proof.
  induction s as [|c s IH]; intros n H; [reflexivity|]. cbn [plain] in H.
  apply andb_true_iff in H. destruct H as [A B]. apply negb_true_iff in A.
  apply orb_false_iff in A. destruct A as [A _]. apply orb_false_iff in A. destruct A as [A1 A2].
  cbn [depth]. rewrite A1, A2. now apply IH.
Qed.

Lemma plain_app : forall a b, plain (a ++ b) = plain a && plain b.
Proof. induction a; intros; cbn; [reflexivity|]. now rewrite IHa, andb_assoc. Qed.

(** Depth of a formula starting from any depth. *)
Lemma formula_depth : forall s n, formula_text s -> depth n s = Some n.
Proof.
  intros s n [name [body [-> [P [_ [D _]]]]]].
  rewrite depth_app, (depth_plain _ _ P). cbn [append depth].
  change (("(" =? "(")%char) with true. cbn iota.
  rewrite depth_app. apply (depth_shift _ _ _ (S n)) in D. cbn [plus] in D. rewrite D.
  reflexivity.
Qed.

(** A formula that ends with another one is that formula, up to characters
    added at the start of its name. *)
Lemma formula_suffix : forall w f, formula_text f -> formula_text (w ++ f) -> plain w = true.
Proof.
  intros w f F [name [body [E [P [_ [D _]]]]]].
  assert (E0 : w ++ f = name ++ String "(" (body ++ ")")) by exact E. clear E. rename E0 into E.
  destruct (app_split _ _ _ _ E) as [[u [-> G]]|[u [-> G]]].
  - rewrite plain_app in P. now apply andb_true_iff in P.
  - destruct u as [|c u].
    + rewrite app_nil_r_s. exact P.
    + exfalso. cbn in G. injection G as <- G.
      (* body ++ ")" = u ++ f *)
      assert (Ff := formula_end f F). destruct Ff as [g ->].
      assert (B : body = u ++ g).
      { apply (app_inv_tail_s _ _ ")"). rewrite app_assoc_s. exact G. }
      subst body. rewrite depth_app in D.
      assert (Fd := fun n => formula_depth _ n F).
      destruct (depth 0 u) as [m|] eqn:Du; [|discriminate D].
      specialize (Fd m). rewrite depth_app in Fd. rewrite D in Fd. discriminate Fd.
Qed.

Lemma printed_formula_split : forall p p' f f',
  printed_text p -> printed_text p' -> formula_text f -> formula_text f' ->
  p ++ f = p' ++ f' -> p = p' /\ f = f'.
Proof.
  assert (W : forall p p' f f' w, printed_text p -> formula_text f -> formula_text f' ->
              p = p' ++ w -> f' = w ++ f -> w = "").
  { intros p p' f f' w Pp F F' Ep Ef.
    subst f'. assert (Pw := formula_suffix w f F F').
    destruct w as [|c w]; [reflexivity|]. exfalso.
    assert (L : exists v d, String c w = v ++ one d).
    { clear. revert c. induction w as [|e w IH]; intros c.
      - now exists "", c.
      - destruct (IH e) as [v [d H]]. exists (String c v), d. now rewrite H. }
    destruct L as [v [d L]]. rewrite L in Pw, Ep. rewrite plain_app in Pw.
    apply andb_true_iff in Pw. destruct Pw as [_ Pd].
    destruct Pp as [b [Pp|Pp]]; rewrite Pp in Ep.
    - assert (K : b ++ ")" = (p' ++ v) ++ one d) by now rewrite app_assoc_s.
      destruct (app_split _ _ _ _ K) as [[x [A B]]|[x [A B]]].
      + destruct x as [|y [|z x]]; cbn in B; [|discriminate B..].
        injection B as <-. discriminate Pd.
      + destruct x as [|y [|z x]]; cbn in B; [|discriminate B..].
        injection B as ->. discriminate Pd.
    - assert (K : b ++ " " = (p' ++ v) ++ one d) by now rewrite app_assoc_s.
      destruct (app_split _ _ _ _ K) as [[x [A B]]|[x [A B]]].
      + destruct x as [|y [|z x]]; cbn in B; [|discriminate B..].
        injection B as <-. discriminate Pd.
      + destruct x as [|y [|z x]]; cbn in B; [|discriminate B..].
        injection B as ->. discriminate Pd. }
  intros p p' f f' Pp Pp' F F' E.
  destruct (app_split _ _ _ _ E) as [[w [A B]]|[w [A B]]].
  - assert (w = "") as -> by exact (W p' p f' f w Pp' F' F A B).
    rewrite app_nil_r_s in A. now split.
  - assert (w = "") as -> by exact (W p p' f f' w Pp F F' A B).
    rewrite app_nil_r_s in A. now split.
Qed.

Lemma tail_has : forall r, has "["
   (str_int (rq_nargs r) ++ ctype_str (rq_dtype r) ++ acctype_str (rq_acc r)
    ++ sumkind_str (rq_sum r) ++ str_int (rq_hostdevice r) ++ str_int (rq_cpugpu r)
    ++ str_int (rq_1d2d r) ++ str_bool (rq_half r) ++ str_int (rq_fast r)
    ++ str_int (rq_device r) ++ "") = false.
Proof.
  intros r. rewrite !has_app, !str_int_has by (reflexivity || discriminate).
  destruct (rq_dtype r), (rq_acc r), (rq_sum r), (rq_half r); reflexivity.
Qed.

Lemma module_texts_distinct : forall cls cls' printed printed' r r' fl,
  class_text cls -> class_text cls' -> printed_text printed -> printed_text printed' ->
  admissible r -> admissible r' ->
  Forall (fun s => has "[" s = false) (rq_aliases r) ->
  Forall (fun s => has "[" s = false) (rq_aliases r') ->
  module_text cls printed r fl = module_text cls' printed' r' fl ->
  cls = cls' /\ printed = printed' /\ rq_formula r = rq_formula r'
  /\ rq_aliases r = rq_aliases r' /\ rq_nargs r = rq_nargs r'
  /\ rq_dtype r = rq_dtype r' /\ rq_acc r = rq_acc r' /\ rq_sum r = rq_sum r'
  /\ rq_hostdevice r = rq_hostdevice r' /\ rq_cpugpu r = rq_cpugpu r'
  /\ rq_1d2d r = rq_1d2d r' /\ rq_half r = rq_half r' /\ rq_fast r = rq_fast r'
  /\ rq_device r = rq_device r'.
Proof.
  intros cls cls' p p' r r' fl Hc Hc' Hp Hp' [F [_ [_ [_ [T1 [T2 [T3 T4]]]]]]]
    [F' [_ [_ [_ [T1' [T2' [T3' T4']]]]]]] A A' E.
  unfold module_text, cache_key in E. apply app_inv_tail_s in E. cbn [join py_str] in E.
  destruct (list_bracket _ A) as [t [Ht Nt]], (list_bracket _ A') as [t' [Ht' Nt']].
  rewrite Ht, Ht' in E. cbn [append] in E.
  rewrite <- (app_assoc_s p), <- (app_assoc_s cls) in E.
  rewrite <- (app_assoc_s p'), <- (app_assoc_s cls') in E.
  apply last_occurrence in E; [|rewrite has_app, ?Nt, ?Nt'; apply tail_has..].
  destruct E as [E1 E2].
  assert (P : printed_text (cls ++ p)).
  { destruct Hp as [b [->| ->]]; exists (cls ++ b); rewrite !app_assoc_s; auto. }
  assert (P' : printed_text (cls' ++ p')).
  { destruct Hp' as [b [->| ->]]; exists (cls' ++ b); rewrite !app_assoc_s; auto. }
  rewrite <- !app_assoc_s in E1.
  apply printed_formula_split in E1; try assumption. destruct E1 as [E1 EF].
  destruct Hc as [b [-> Nb]], Hc' as [b' [-> Nb']]. rewrite !app_assoc_s in E1.
  apply first_occurrence in E1; try assumption. destruct E1 as [-> E1].
  assert (EL := f_equal (String "[") E2).
  change (String "[" (t ++ ?x)) with (String "[" t ++ x) in EL.
  change (String "[" (t' ++ ?x)) with (String "[" t' ++ x) in EL.
  rewrite <- Ht, <- Ht' in EL. apply str_list_split in EL. destruct EL as [EL ET].
  apply tail_split in ET; try assumption; try reflexivity.
  destruct ET as [H1 [H2 [H3 [H4 [H5 [H6 [H7 [H8 [H9 [H10 _]]]]]]]]]].
  repeat split; assumption.
Qed.

(** ** Ten characters are not enough *)

Definition all_chars : list ascii := map ascii_of_nat (seq 0 256).

Lemma all_chars_in : forall c, In c all_chars.
Proof.
  intros c. apply in_map_iff. exists (nat_of_ascii c).
  split; [apply ascii_nat_embedding|]. apply in_seq. split; [lia|].
  apply nat_ascii_bounded.
Qed.

Fixpoint words (n : nat) : list string :=
  match n with
  | 0 => [""]
  | S m => "" :: flat_map (fun w => map (fun c => String c w) all_chars) (words m)
  end.

Lemma words_in : forall n s, String.length s <= n -> In s (words n).
Proof.
  induction n as [|n IH]; intros s H.
  - destruct s; [now left|cbn in H; lia].
  - destruct s as [|c s]; [now left|]. right. apply in_flat_map. exists s.
    split; [apply IH; cbn in H; lia|].
    apply (in_map (fun c => String c s)). apply all_chars_in.
Qed.

Lemma substring_length : forall n s, String.length (substring 0 n s) <= n.
Proof.
  induction n as [|n IH]; intros s; destruct s; cbn; try lia.
  specialize (IH s). lia.
Qed.

Lemma find_repeat : forall l : list string, ~ NoDup l ->
  exists i j, i < j < List.length l /\ nth i l "" = nth j l "".
Proof.
  induction l as [|x l IH]; intros H.
  - exfalso. apply H. constructor.
  - destruct (in_dec string_dec x l) as [I|I].
    + apply (In_nth l x "") in I. destruct I as [j [Hj E]].
      exists 0, (S j). cbn. split; [lia|now rewrite E].
    + destruct IH as [i [j [Hij E]]].
      * intros N. apply H. now constructor.
      * exists (S i), (S j). cbn. split; [lia|exact E].
Qed.

Lemma pigeonhole : forall f : nat -> string, (forall n, String.length (f n) <= 10) ->
  exists i j, i < j /\ f i = f j.
Proof.
  intros f Hf.
  set (N := S (List.length (words 10))).
  assert (H : ~ NoDup (map f (seq 0 N))).
  { intros D. assert (L : List.length (map f (seq 0 N)) <= List.length (words 10)).
    { apply NoDup_incl_length; [exact D|]. intros s Hs. apply in_map_iff in Hs.
      destruct Hs as [n [<- _]]. now apply words_in. }
    rewrite map_length, seq_length in L. unfold N in L. lia. }
  destruct (find_repeat _ H) as [i [j [[Hij Hj] E]]].
  rewrite map_length, seq_length in Hj.
  exists i, j. split; [exact Hij|].
  rewrite (nth_indep _ "" (f 0)) in E by (rewrite map_length, seq_length; lia).
  rewrite (nth_indep (map f (seq 0 N)) "" (f 0)) in E by (rewrite map_length, seq_length; lia).
  rewrite !map_nth, !seq_nth in E by lia. exact E.
Qed.

Definition sum_of_var (n : nat) : string :=
  "Sum_Reduction(Var(0," ++ str_int (Z.of_nat n) ++ ",0),1)".

Definition cpu_request (f : string) : request :=
  {| rq_scheme := CpuReduc; rq_formula := f; rq_chunks := 1; rq_final := -1;
     rq_highdim := 0; rq_aliases := []; rq_nargs := 1; rq_dtype := TFloat;
     rq_acc := AFloat; rq_sum := BlockSum; rq_hostdevice := 0; rq_cpugpu := 0;
     rq_1d2d := 0; rq_half := false; rq_fast := 1; rq_device := -1 |}.

Lemma digits_depth : forall s n, digits s = true -> depth n s = Some n.
Proof.
  induction s as [|c s IH]; intros n H; [reflexivity|]. cbn [digits] in H.
  apply andb_true_iff in H. destruct H as [A B]. cbn [depth].
  destruct ((c =? "(")%char) eqn:E; [apply Ascii.eqb_eq in E; subst c; discriminate A|].
  destruct ((c =? ")")%char) eqn:E'; [apply Ascii.eqb_eq in E'; subst c; discriminate A|].
  now apply IH.
Qed.

Lemma nat_digits : forall n, digits (str_int (Z.of_nat n)) = true.
Proof.
  intros n. unfold str_int. destruct n; [reflexivity|]. cbn [Z.of_nat Z.to_int].
  apply uint_digits.
Qed.

Lemma sum_of_var_formula : forall n, formula_text (sum_of_var n).
Proof.
  intros n. exists "Sum_Reduction", ("Var(0," ++ str_int (Z.of_nat n) ++ ",0),1").
  split; [unfold sum_of_var; now rewrite !app_assoc_s|].
  split; [reflexivity|]. split; [reflexivity|]. split.
  - rewrite depth_app. change (depth 0 "Var(0,") with (Some 1). cbv beta iota.
    rewrite depth_app. rewrite digits_depth by apply nat_digits. reflexivity.
  - unfold sum_of_var. rewrite !has_app, str_int_has by (reflexivity || discriminate). reflexivity.
Qed.

Lemma sum_of_var_inj : forall n m, sum_of_var n = sum_of_var m -> n = m.
Proof.
  intros n m H. unfold sum_of_var in H. apply app_inv_head_s in H. apply app_inv_tail_s in H.
  apply str_int_inj in H. lia.
Qed.

Lemma cpu_admissible : forall f, formula_text f -> admissible (cpu_request f).
Proof.
  intros f F. unfold admissible, choice, tag, cpu_request. cbn. intuition.
Qed.

Lemma names_collide : forall digest cls (printed : request -> string) fl,
  exists n m, n <> m
    /\ hash_name digest (module_text cls (printed (cpu_request (sum_of_var n)))
                           (cpu_request (sum_of_var n)) fl)
       = hash_name digest (module_text cls (printed (cpu_request (sum_of_var m)))
                           (cpu_request (sum_of_var m)) fl).
Proof.
  intros digest cls printed fl.
  destruct (pigeonhole (fun n => hash_name digest
      (module_text cls (printed (cpu_request (sum_of_var n))) (cpu_request (sum_of_var n)) fl)))
    as [i [j [H E]]].
  - intros n. apply substring_length.
  - exists i, j. split; [lia|exact E].
Qed.

Lemma names_collide_requests : forall digest cls (printed : request -> string) fl,
  exists r r', admissible r /\ admissible r' /\ rq_formula r <> rq_formula r'
    /\ hash_name digest (module_text cls (printed r) r fl)
       = hash_name digest (module_text cls (printed r') r' fl).
Proof.
  intros digest cls printed fl.
  destruct (names_collide digest cls printed fl) as [n [m [N E]]].
  exists (cpu_request (sum_of_var n)), (cpu_request (sum_of_var m)).
  split; [apply cpu_admissible, sum_of_var_formula|].
  split; [apply cpu_admissible, sum_of_var_formula|].
  split; [|exact E]. intros H. apply N. now apply sum_of_var_inj.
Qed.

Lemma parsed_collide : forall digest,
  exists f f', formula_text f /\ formula_text f' /\ f <> f'
    /\ hash_name digest (reduction_text f [] false) = hash_name digest (reduction_text f' [] false).
Proof.
  intros digest.
  destruct (pigeonhole (fun n => hash_name digest (reduction_text (sum_of_var n) [] false)))
    as [i [j [H E]]].
  - intros n. apply substring_length.
  - exists (sum_of_var i), (sum_of_var j). split; [apply sum_of_var_formula|].
    split; [apply sum_of_var_formula|]. split; [|exact E].
    intros K. apply sum_of_var_inj in K. lia.
Qed.

Lemma reduction_texts_distinct : forall f f' a a' b b',
  formula_text f -> formula_text f' ->
  reduction_text f a b = reduction_text f' a' b' -> f = f' /\ a = a' /\ b = b'.
Proof.
  intros f f' a a' b b' F F' E. unfold reduction_text, cache_key in E.
  apply app_inv_tail_s in E. cbn [join py_str] in E.
  destruct (list_starts a) as [t Ht], (list_starts a') as [t' Ht'].
  rewrite Ht, Ht' in E. cbn [append] in E.
  apply first_occurrence in E; try (now apply formula_no_bracket). destruct E as [-> E].
  assert (EL := f_equal (String "[") E).
  change (String "[" (t ++ ?x)) with (String "[" t ++ x) in EL.
  change (String "[" (t' ++ ?x)) with (String "[" t' ++ x) in EL.
  rewrite <- Ht, <- Ht' in EL. apply str_list_split in EL. destruct EL as [-> EL].
  apply bool_split in EL. destruct EL as [-> _]. auto.
Qed.

Lemma requests_key_neq : forall r r' fl fl' af af',
  admissible r -> admissible r' -> flags_ok fl -> flags_ok fl' ->
  (r, fl, af) <> (r', fl', af') -> request_key r fl af <> request_key r' fl' af'.
Proof.
  intros r r' fl fl' af af' A A' G G' N E. apply N.
  destruct (requests_distinct r r' fl fl' af af' A A' G G' E) as [-> [-> ->]]. reflexivity.
Qed.

Lemma loads_key_neq : forall l l' t,
  admissible_load l -> admissible_load l' -> l <> l' -> load_key l t <> load_key l' t.
Proof.
  intros l l' t A A' N E. apply N. now destruct (loads_distinct l l' t t A A' E).
Qed.

Lemma reduction_text_neq : forall f f' a a' af af',
  formula_text f -> formula_text f' -> (f, a, af) <> (f', a', af') ->
  reduction_text f a af <> reduction_text f' a' af'.
Proof.
  intros f f' a a' af af' F F' N E. apply N.
  destruct (reduction_texts_distinct _ _ _ _ _ _ F F' E) as [-> [-> ->]]. reflexivity.
Qed.

(** A Gaussian kernel sum, in simple and in double precision. *)
Definition gaussian := "Sum_Reduction((Exp(Minus(Sum(Square((x - y))))) * b),0)".

Definition gaussian_request (t : ctype) (a : acctype) : request :=
  {| rq_scheme := GpuReduc1D_ranges; rq_formula := gaussian; rq_chunks := 1;
     rq_final := -1; rq_highdim := 0;
     rq_aliases := ["x=Var(0,3,0)"; "y=Var(1,3,1)"; "b=Var(2,1,1)"]; rq_nargs := 3;
     rq_dtype := t; rq_acc := a; rq_sum := BlockSum; rq_hostdevice := 1;
     rq_cpugpu := 1; rq_1d2d := 0; rq_half := false; rq_fast := 1; rq_device := 0 |}.

Lemma gaussian_text : formula_text gaussian.
Proof.
  exists "Sum_Reduction", "(Exp(Minus(Sum(Square((x - y))))) * b),0".
  repeat split.
Qed.
