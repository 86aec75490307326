From Coq Require Import ZArith List Bool Ascii String Lia Permutation.
From Coq Require Import DecimalString DecimalZ DecimalPos.
From Verif Require Import Result Keys KeySpec C22Proofs Folder C25Proofs Aliases AliasSpec.
Import ListNotations.
Open Scope string_scope.

(** ** Scanners *)

Lemma every_app : forall p a b, every p (a ++ b) = every p a && every p b.
Proof. induction a; intros; cbn; [reflexivity|]. rewrite IHa. apply andb_assoc. Qed.

Lemma take_while_all : forall p a b, every p a = true -> starts p b = false ->
  take_while p (a ++ b) = (a, b).
Proof.
  induction a as [|c a IH]; intros b H S; cbn in *.
  - destruct b; [reflexivity|]. cbn in *. now rewrite S.
  - apply andb_true_iff in H. destruct H as [-> H]. now rewrite (IH b H S).
Qed.

Lemma strip_prefix_app : forall a b, strip_prefix a (a ++ b) = Some b.
Proof. induction a; intros; cbn; [reflexivity|]. now rewrite Ascii.eqb_refl. Qed.

Lemma strip_prefix_inv : forall a s r, strip_prefix a s = Some r -> s = a ++ r.
Proof.
  induction a as [|c a IH]; intros s r H; [now injection H|].
  destruct s as [|d s]; [discriminate|]. cbn in H. destruct (c =? d)%char eqn:E; [|discriminate].
  apply Ascii.eqb_eq in E. subst d. cbn. now rewrite (IH _ _ H).
Qed.

Lemma take_while_inv : forall p s a b, take_while p s = (a, b) ->
  s = a ++ b /\ every p a = true /\ starts p b = false.
Proof.
  induction s as [|c s IH]; intros a b H; cbn in H.
  - injection H as <- <-. auto.
  - destruct (p c) eqn:P.
    + destruct (take_while p s) as [a' b']. injection H as <- <-.
      destruct (IH _ _ eq_refl) as [-> [E S]]. cbn. rewrite P, E. auto.
    + injection H as <- <-. cbn. rewrite P. auto.
Qed.

(** ** Numbers *)

Lemma every_digits : forall s, every digit s = digits s.
Proof. induction s; cbn; [reflexivity|]. now rewrite IHs. Qed.

Lemma int_from_uint : forall u acc,
  int_from (Zpos acc) (NilEmpty.string_of_uint u) = Zpos (Pos.of_uint_acc u acc).
Proof.
  induction u; intros acc; cbn [NilEmpty.string_of_uint int_from Pos.of_uint_acc]; try reflexivity;
    rewrite <- IHu; f_equal; cbn -[Z.mul Z.add Pos.mul Pos.add]; lia.
Qed.

Lemma int_from_uint0 : forall u,
  int_from 0 (NilEmpty.string_of_uint u) = Z.of_uint u.
Proof.
  unfold Z.of_uint.
  induction u; cbn [NilEmpty.string_of_uint int_from Pos.of_uint]; try reflexivity.
  - exact IHu.
  - apply int_from_uint.
  - apply int_from_uint.
  - apply int_from_uint.
  - apply int_from_uint.
  - apply int_from_uint.
  - apply int_from_uint.
  - apply int_from_uint.
  - apply int_from_uint.
  - apply int_from_uint.
Qed.

Lemma str_nonneg : forall z, (0 <= z)%Z -> exists u, Z.to_int z = Decimal.Pos u
  /\ str_int z = NilZero.string_of_uint u /\ u <> Decimal.Nil /\ Z.of_uint u = z.
Proof.
  intros z H. assert (E := DecimalZ.of_to z).
  destruct z as [|p|p]; [| |lia].
  - exists (Decimal.D0 Decimal.Nil). repeat split. discriminate.
  - exists (Pos.to_uint p). repeat split.
    + apply DecimalPos.Unsigned.to_uint_nonnil.
    + exact E.
Qed.

Lemma str_int_digits : forall z, (0 <= z)%Z -> every digit (str_int z) = true /\ str_int z <> "".
Proof.
  intros z H. destruct (str_nonneg z H) as [u [_ [-> [N _]]]]. split.
  - rewrite every_digits. apply uint_digits.
  - destruct u; discriminate.
Qed.

Lemma py_int_str : forall z, (0 <= z)%Z -> py_int (str_int z) = Ok z.
Proof.
  intros z H. destruct (str_int_digits z H) as [_ N].
  unfold py_int. destruct (str_int z) as [|c t] eqn:E; [congruence|]. rewrite <- E.
  destruct (str_nonneg z H) as [u [_ [Eu [Nu V]]]]. rewrite Eu. f_equal.
  rewrite <- V. destruct u; try congruence; apply int_from_uint0.
Qed.

Lemma value_int : forall s n, int_from (Z.of_nat n) s = Z.of_nat (value_from n s).
Proof.
  induction s as [|c s IH]; intros n; [reflexivity|]. cbn [int_from value_from].
  rewrite <- IH. f_equal. unfold digit_value. lia.
Qed.

Lemma py_int_value : forall s, s <> "" -> py_int s = Ok (Z.of_nat (value s)).
Proof.
  intros s N. unfold py_int, value. destruct s as [|c s]; [congruence|].
  now rewrite <- value_int.
Qed.

(** ** Spaces and old names *)

Lemma spaced_no_spaces : forall s t, spaced s t -> has " " t = false -> no_spaces s = t.
Proof.
  intros s t H. induction H as [|s t H IH|c s t H IH]; intros N.
  - reflexivity.
  - cbn. now apply IH.
  - cbn in N. apply orb_false_iff in N. destruct N as [C N]. cbn. rewrite C. now rewrite IH.
Qed.

Lemma no_spaces_spaced : forall s, spaced s (no_spaces s) /\ has " " (no_spaces s) = false.
Proof.
  induction s as [|c s [IH1 IH2]]; cbn; [split; [constructor|reflexivity]|].
  destruct (c =? " ")%char eqn:C.
  - apply Ascii.eqb_eq in C. subst c. split; [now constructor|exact IH2].
  - split; [now constructor|]. cbn. now rewrite C.
Qed.

(** Equal up to [x] replaced with [i] and [y] replaced with [j]. *)
Definition sim_char (c c' : ascii) : Prop :=
  c' = c \/ (c = "x" /\ c' = "i")%char \/ (c = "y" /\ c' = "j")%char.

Inductive sim : string -> string -> Prop :=
| Sim_nil : sim "" ""
| Sim_cons : forall c c' s s', sim_char c c' -> sim s s' -> sim (String c s) (String c' s').

Lemma sim_refl : forall s, sim s s.
Proof. induction s; constructor; [now left|assumption]. Qed.

Lemma sim_trans : forall a b, sim a b -> forall c, sim b c -> sim a c.
Proof.
  intros a b H. induction H as [|x y s t C H IH]; intros c G; inversion G; subst; constructor.
  - unfold sim_char in *. destruct C as [->|[[-> ->]|[-> ->]]].
    + assumption.
    + match goal with H : _ \/ _ |- _ => destruct H as [->|[[E _]|[E _]]]; [|discriminate E..] end.
      auto.
    + match goal with H : _ \/ _ |- _ => destruct H as [->|[[E _]|[E _]]]; [|discriminate E..] end.
      auto.
  - now apply IH.
Qed.

Lemma replace_sim : forall old new n s, String.length s <= n -> sim_char old new ->
  sim s (replace_type old new s).
Proof.
  intros old new. induction n as [|n IH]; intros s H C.
  - destruct s; [constructor|cbn in H; lia].
  - destruct s as [|a s]; [constructor|]. cbn [String.length] in H. cbn [replace_type].
    destruct (a =? "V")%char.
    + destruct s as [|c s]; [apply sim_refl|]. destruct (c =? old)%char eqn:E.
      * apply Ascii.eqb_eq in E. subst c. constructor; [now left|].
        constructor; [exact C|]. apply IH; [cbn in H; lia|exact C].
      * constructor; [now left|]. apply IH; [lia|exact C].
    + constructor; [now left|]. apply IH; [lia|exact C].
Qed.

Lemma sim_no_spaces : forall s t, sim s t -> sim (no_spaces s) (no_spaces t).
Proof.
  intros s t H. induction H as [|c c' s t C H IH]; [constructor|]. cbn.
  destruct C as [->|[[-> ->]|[-> ->]]]; cbn; try (constructor; [|exact IH]; unfold sim_char; auto).
  destruct (c =? " ")%char; [exact IH|]. constructor; [now left|exact IH].
Qed.

Lemma sim_app : forall a b t, sim (a ++ b) t -> exists a' b', t = a' ++ b' /\ sim a a' /\ sim b b'.
Proof.
  induction a as [|c a IH]; intros b t H.
  - exists "", t. repeat split; [constructor|exact H].
  - cbn in H. inversion H; subst. destruct (IH _ _ H4) as [a' [b' [-> [S1 S2]]]].
    exists (String c' a'), b'. repeat split; [constructor; assumption|exact S2].
Qed.

Lemma sim_same : forall a b, sim a b -> has "x" a = false -> has "y" a = false -> b = a.
Proof.
  intros a b H. induction H as [|c c' s t C H IH]; intros X Y; [reflexivity|].
  cbn in X, Y. apply orb_false_iff in X. apply orb_false_iff in Y. f_equal.
  - destruct C as [->|[[-> ->]|[-> ->]]]; [reflexivity| |].
    + destruct X as [X _]. discriminate X.
    + destruct Y as [Y _]. discriminate Y.
  - apply IH; tauto.
Qed.

Lemma scanned : forall s t, spaced s t -> has " " t = false ->
  sim t (no_spaces (replace_type "y" "j" (replace_type "x" "i" s))).
Proof.
  intros s t H N. rewrite <- (spaced_no_spaces s t H N) at 1. apply sim_no_spaces.
  eapply sim_trans.
  - apply (replace_sim "x" "i" (String.length s)); [lia|]. unfold sim_char. auto.
  - apply (replace_sim "y" "j" _ _ (le_n _)). unfold sim_char. auto.
Qed.

Lemma sim_name : forall n n', is_name n -> sim n n' -> is_name n'.
Proof.
  intros n n' [c [t [-> [C T]]]] H. inversion H; subst.
  match goal with H : sim_char c ?x, G : sim t ?y |- _ =>
    rename H into HC; rename G into HT; exists x, y end.
  split; [reflexivity|]. split.
  - destruct HC as [->|[[-> ->]|[-> ->]]]; [exact C|reflexivity..].
  - clear H C HC. induction HT as [|d d' s t' D HT IH]; [reflexivity|].
    cbn in *. apply andb_true_iff in T. destruct T as [T1 T2]. rewrite (IH T2), andb_true_r.
    destruct D as [->|[[-> ->]|[-> ->]]]; [exact T1|reflexivity..].
Qed.

(** ** Declarations *)

Lemma has_digits : forall c s, every digit s = true -> digit c = false -> has c s = false.
Proof. intros c s H C. apply digits_has; [exact C|]. now rewrite <- every_digits. Qed.

Lemma str_has : forall c z, digit c = false -> c <> "-"%char -> has c (str_int z) = false.
Proof. apply str_int_has. Qed.

Ltac no_char := rewrite ?has_app; cbn [has];
  rewrite ?str_has by (reflexivity || discriminate); reflexivity.

Lemma tail_has : forall c k p dim, digit c = false -> c <> "-"%char ->
  has c ("=ViVjPm(,)") = false -> has c (kind_text k ++ "(" ++ numbers p dim ++ ")") = false.
Proof.
  intros c k p dim D M H.
  cbn [has] in H. repeat (apply orb_false_iff in H; destruct H as [?H H]).
  rewrite !has_app.
  destruct k; destruct p as [p|]; cbn [kind_text numbers]; rewrite ?has_app; cbn [has];
    rewrite ?str_has by assumption; rewrite ?H0, ?H1, ?H2, ?H4, ?H5, ?H6, ?H7, ?H8, ?H9;
    reflexivity.
Qed.

Lemma name_has : forall c n, is_name n -> name_letter c || digit c = false -> has c n = false.
Proof.
  intros c n [d [t [-> [D T]]]] C. cbn [has]. apply orb_false_iff. split.
  - destruct (d =? c)%char eqn:E; [|reflexivity]. apply Ascii.eqb_eq in E. subst d.
    rewrite D in C. discriminate.
  - clear D. induction t as [|e t IH]; [reflexivity|]. cbn [every] in T.
    apply andb_true_iff in T. destruct T as [T1 T2]. cbn [has]. rewrite (IH T2), orb_false_r.
    destruct (e =? c)%char eqn:E; [|reflexivity]. apply Ascii.eqb_eq in E. subst e.
    rewrite T1 in C. discriminate.
Qed.

Lemma text_space : forall d, valid d -> has " " (text d) = false.
Proof.
  intros [n k p dim|k p dim|p dim c] V; cbn [text].
  - rewrite has_app. rewrite (name_has " " n); [|apply V|reflexivity].
    cbn [append has]. apply (tail_has " "); (reflexivity || discriminate).
  - apply tail_has; (reflexivity || discriminate).
  - no_char.
Qed.

Lemma kind_of_text : forall k r, kind_of (kind_text k ++ "(" ++ r) = Some (category k, r).
Proof. destruct k; reflexivity. Qed.

Definition pos_text (p : option Z) : string := match p with Some z => str_int z | None => "" end.

Lemma two_groups_text : forall p dim r, natural p -> (0 <= dim)%Z ->
  two_groups (numbers p dim ++ ")" ++ r) = Some (pos_text p, str_int dim).
Proof.
  intros [p|] dim r Hp Hd; unfold two_groups; cbn [numbers pos_text natural] in *.
  - rewrite app_assoc_s. rewrite (take_while_all digit (str_int p)); [|now apply str_int_digits|reflexivity].
    cbn [append]. rewrite (take_while_all digit (str_int dim)); [|now apply str_int_digits|reflexivity].
    reflexivity.
  - rewrite (take_while_all digit (str_int dim)); [|now apply str_int_digits|reflexivity].
    reflexivity.
Qed.

Lemma match_named_text : forall n k p dim r, is_name n -> natural p -> (0 <= dim)%Z ->
  match_named (n ++ "=" ++ kind_text k ++ "(" ++ numbers p dim ++ ")" ++ r)
  = Some (n, category k, pos_text p, str_int dim).
Proof.
  intros n k p dim r [c [t [-> [C T]]]] Hp Hd. unfold match_named.
  assert (K := kind_of_text k (numbers p dim ++ ")" ++ r)).
  set (w := kind_text k ++ "(" ++ numbers p dim ++ ")" ++ r) in *. clearbody w. cbn [append].
  change (name_start c) with (name_letter c). rewrite C.
  change (String c (t ++ ?x)) with (String c t ++ x).
  rewrite (take_while_all name_char (String c t)); [|cbn [every]|reflexivity].
  - rewrite K, two_groups_text; auto.
  - apply andb_true_iff. split; [|exact T]. unfold name_char. change (name_start c) with (name_letter c).
    now rewrite C.
Qed.

Lemma infer_pos : forall p k, natural p ->
  infer_position (pos_text p) (Some k) = Ok (Some (match p with Some z => z | None => k end)).
Proof.
  intros [z|] k H; [|reflexivity]. cbn [pos_text natural] in *. unfold infer_position.
  destruct (str_int_digits z H) as [_ N]. destruct (str_int z) eqn:E; [congruence|].
  rewrite <- E. now rewrite py_int_str.
Qed.

Lemma match_named_kind : forall k r, match_named (kind_text k ++ "(" ++ r) = None.
Proof. destruct k; reflexivity. Qed.

Lemma match_var_text : forall a b c r, every digit a = true -> every digit b = true ->
  every digit c = true ->
  match_var ("Var(" ++ a ++ "," ++ b ++ "," ++ c ++ ")" ++ r) = Some (a, b, c).
Proof.
  intros a b c r Ha Hb Hc. unfold match_var. rewrite strip_prefix_app.
  rewrite (take_while_all digit a); [|exact Ha|reflexivity]. cbn [append].
  rewrite (take_while_all digit b); [|exact Hb|reflexivity].
  rewrite (take_while_all digit c); [|exact Hc|reflexivity]. reflexivity.
Qed.

(** A variable, possibly with spaces. *)
Lemma get_type_var : forall a b c s k, digits_text a -> digits_text b -> digits_text c ->
  spaced s ("Var(" ++ a ++ "," ++ b ++ "," ++ c ++ ")") ->
  get_type s k = Ok {| ar_name := None; ar_cat := Z.of_nat (value c); ar_dim := Z.of_nat (value b);
                       ar_pos := Some (Z.of_nat (value a)) |}.
Proof.
  intros a b c s k [Na Ha] [Nb Hb] [Nc Hc] S.
  assert (X : forall x, digit x = false -> has x ("Var(,)") = false ->
              has x ("Var(" ++ a ++ "," ++ b ++ "," ++ c ++ ")") = false).
  { intros x D H. cbn [has] in H. repeat (apply orb_false_iff in H; destruct H as [?H H]).
    rewrite !has_app, (has_digits x a), (has_digits x b), (has_digits x c) by assumption. cbn [has].
    now rewrite H0, H1, H2, H3, H4, H5. }
  apply scanned in S; [|now apply X].
  apply sim_same in S; [|now apply X|now apply X]. unfold get_type. rewrite S.
  assert (N : match_named ("Var(" ++ a ++ "," ++ b ++ "," ++ c ++ ")") = None) by reflexivity.
  assert (U : match_unnamed ("Var(" ++ a ++ "," ++ b ++ "," ++ c ++ ")") = None) by reflexivity.
  rewrite N, U. clear N U.
  rewrite <- (app_nil_r_s ")"). rewrite match_var_text by assumption.
  rewrite (py_int_value c), (py_int_value b), (py_int_value a) by assumption. reflexivity.
Qed.

Lemma digits_of_str : forall z, (0 <= z)%Z -> digits_text (str_int z).
Proof. intros z H. destruct (str_int_digits z H). now split. Qed.

Lemma value_str : forall z, (0 <= z)%Z -> Z.of_nat (value (str_int z)) = z.
Proof.
  intros z H. assert (E := py_int_str z H). rewrite py_int_value in E by now apply str_int_digits.
  now injection E.
Qed.

Lemma get_type_text : forall d s k, valid d -> spaced s (text d) ->
  exists n, get_type s (Some k) = Ok {| ar_name := n; ar_cat := fst (fst (triple k d));
      ar_dim := snd (fst (triple k d)); ar_pos := Some (snd (triple k d)) |}.
Proof.
  intros d s k V S.
  destruct d as [n kd p dim|kd p dim|p dim c].
  - destruct V as [Vn [Vp Vd]]. assert (N := text_space (Named n kd p dim) (conj Vn (conj Vp Vd))).
    apply scanned in S; [|exact N]. clear N. cbn [text] in S.
    apply sim_app in S. destruct S as [n' [t' [E [S1 S2]]]].
    apply sim_same in S2; [|apply tail_has; (reflexivity || discriminate)..].
    subst t'. apply sim_name in S1; [|exact Vn]. unfold get_type. rewrite E.
    rewrite <- (app_nil_r_s ")"). rewrite match_named_text by assumption.
    rewrite infer_pos by assumption. cbn [rbind]. rewrite py_int_str by assumption.
    exists (Some n'). reflexivity.
  - destruct V as [Vp Vd]. assert (N := text_space (Unnamed kd p dim) (conj Vp Vd)).
    apply scanned in S; [|exact N]. clear N. cbn [text] in S.
    apply sim_same in S; [|apply tail_has; (reflexivity || discriminate)..].
    unfold get_type. rewrite S. rewrite match_named_kind. unfold match_unnamed.
    rewrite kind_of_text. rewrite <- (app_nil_r_s ")"). rewrite two_groups_text by assumption.
    rewrite infer_pos by assumption. cbn [rbind]. rewrite py_int_str by assumption.
    exists None. reflexivity.
  - destruct V as [Vp [Vd Vc]]. cbn [text] in S. exists None.
    rewrite (get_type_var _ _ _ s (Some k) (digits_of_str p Vp) (digits_of_str dim Vd)
               (digits_of_str c Vc) S).
    rewrite !value_str by assumption. reflexivity.
Qed.

Definition argument_triple (a : argument) : Z * Z * option Z := (ar_cat a, ar_dim a, ar_pos a).
Definition with_position (t : Z * Z * Z) : Z * Z * option Z := (fst t, Some (snd t)).

Lemma get_types_text : forall ds ss k, Forall2 (fun s d => valid d /\ spaced s (text d)) ss ds ->
  exists l, get_types k ss = Ok l
    /\ map argument_triple l = map with_position (triples k ds).
Proof.
  intros ds ss k H. revert k. induction H as [|s d ss ds [V S] H IH]; intros k.
  - exists []. split; reflexivity.
  - destruct (get_type_text d s k V S) as [n E]. destruct (IH (k + 1)%Z) as [l [El M]].
    eexists. split.
    + cbn [get_types]. rewrite E. cbn [rbind]. rewrite El. reflexivity.
    + cbn [map triples]. rewrite M. f_equal. unfold argument_triple, with_position. cbn.
      now destruct (triple k d) as [[a b] c].
Qed.

(** ** The engine *)

Lemma contains_has : forall c sub s, has c sub = true -> has c s = false -> contains sub s = false.
Proof.
  intros c sub s Hc. induction s as [|d s IH]; intros H; cbn [contains].
  - destruct sub; [discriminate|reflexivity].
  - cbn [has] in H. apply orb_false_iff in H. destruct H as [D H]. rewrite (IH H), orb_false_r.
    assert (P : forall sub t, has c sub = true -> has c t = false -> prefix sub t = false).
    { clear. induction sub as [|x sub IH]; intros t H1 H2; [discriminate|].
      destruct t as [|y t]; [reflexivity|]. cbn [prefix]. destruct (ascii_dec x y) as [->|]; [|reflexivity].
      cbn [has] in H1, H2. apply orb_false_iff in H2. destruct H2 as [H2 H3].
      rewrite H2 in H1. now apply IH. }
    apply P; [exact Hc|]. cbn [has]. now rewrite D, H.
Qed.

Lemma numbers_has : forall c p dim, digit c = false -> c <> "-"%char -> c <> ","%char ->
  has c (numbers p dim) = false.
Proof.
  intros c p dim D M C. assert (X : ("," =? c)%char = false) by (apply Ascii.eqb_neq; congruence).
  destruct p; cbn [numbers]; rewrite ?has_app; cbn [has];
    rewrite ?str_has by assumption; rewrite ?X; reflexivity.
Qed.

Lemma prefix_app : forall a b, prefix a (a ++ b) = true.
Proof.
  induction a as [|c a IH]; intros b; [now destruct b|]. cbn.
  destruct (ascii_dec c c); [apply IH|congruence].
Qed.

Lemma contains_kind : forall k r, contains (kind_text k) (kind_text k ++ r) = true.
Proof.
  intros k r. assert (P := prefix_app (kind_text k) r).
  destruct k; cbn [kind_text append contains] in *; rewrite P; reflexivity.
Qed.

Lemma engine_cat_text : forall k p dim old,
  engine_cat (kind_text k ++ "(" ++ numbers p dim ++ ")") old = Some (category k).
Proof.
  intros k p dim old. unfold engine_cat. destruct k.
  - change "Vi" with (kind_text KVi) at 1. now rewrite contains_kind.
  - rewrite (contains_has "i"); [|reflexivity|].
    + change "Vj" with (kind_text KVj) at 1. now rewrite contains_kind.
    + rewrite !has_app, numbers_has by (reflexivity || discriminate). reflexivity.
  - rewrite (contains_has "i" "Vi"); [|reflexivity|].
    + rewrite (contains_has "j" "Vj"); [|reflexivity|].
      * change "Pm" with (kind_text KPm) at 1. now rewrite contains_kind.
      * rewrite !has_app, numbers_has by (reflexivity || discriminate). reflexivity.
    + rewrite !has_app, numbers_has by (reflexivity || discriminate). reflexivity.
Qed.

Lemma drop_last_app : forall a c, drop_last (a ++ String c "") = a.
Proof.
  induction a as [|d a IH]; intros c; [reflexivity|]. cbn [append drop_last]. rewrite IH.
  destruct a; reflexivity.
Qed.

Lemma engine_numbers_text : forall k kd p dim old,
  engine_numbers k (kind_text kd ++ "(" ++ numbers p dim ++ ")") old
  = Ok (Some (match p with Some z => z | None => k end, dim)).
Proof.
  intros k kd p dim old. unfold engine_numbers.
  assert (D : drop 3 (kind_text kd ++ "(" ++ numbers p dim ++ ")") = numbers p dim ++ ")")
    by (destruct kd; reflexivity).
  rewrite D, drop_last_app. destruct p as [p|]; cbn [numbers].
  - cbn [append]. rewrite split_first by (apply str_has; (reflexivity || discriminate)).
    rewrite split_none by (apply str_has; (reflexivity || discriminate)).
    now rewrite !eval_int.
  - rewrite split_none by (apply str_has; (reflexivity || discriminate)). now rewrite eval_int.
Qed.

Lemma engine_text : forall ds ss k cat nums,
  Forall2 (fun s d => valid d /\ spaced s (text d)) ss ds ->
  engine_aliases k cat nums ss = Ok (meanings k ds).
Proof.
  intros ds ss k cat nums H. revert k cat nums.
  induction H as [|s d ss ds [V S] H IH]; intros k cat nums; [reflexivity|].
  cbn [engine_aliases]. rewrite (spaced_no_spaces _ _ S (text_space d V)).
  destruct d as [n kd p dim|kd p dim|p dim c]; cbn [text meanings].
  - change ("=" ++ ?x) with (String "=" x).
    rewrite (split_first "=" n) by (apply name_has; [apply V|reflexivity]).
    rewrite split_none.
    2:{ rewrite !has_app, numbers_has by (reflexivity || discriminate). now destruct kd. }
    rewrite engine_numbers_text, engine_cat_text. cbn [rbind]. rewrite IH. reflexivity.
  - rewrite split_none.
    2:{ rewrite !has_app, numbers_has by (reflexivity || discriminate). now destruct kd. }
    apply IH.
  - rewrite split_none by no_char. apply IH.
Qed.

(** ** Completion *)

Ltac assoc := repeat (progress (cbn [append]; rewrite ?app_assoc_s)); reflexivity.

Lemma match_full_ok : forall a b c r, digits_text a -> digits_text b -> digits_text c ->
  match_full_var ("Var(" ++ a ++ "," ++ b ++ "," ++ c ++ ")" ++ r) = Some (a, b, c, r).
Proof.
  intros a b c r [Na Ha] [Nb Hb] [Nc Hc]. unfold match_full_var. rewrite strip_prefix_app.
  rewrite (take_while_all digit a); [|exact Ha|reflexivity].
  destruct a as [|a0 a]; [congruence|]. cbn [append]. cbv beta iota.
  rewrite (take_while_all digit b); [|exact Hb|reflexivity].
  destruct b as [|b0 b]; [congruence|]. cbv beta iota.
  rewrite (take_while_all digit c); [|exact Hc|reflexivity].
  destruct c as [|c0 c]; [congruence|]. reflexivity.
Qed.

Lemma match_full_inv : forall s a b c r, match_full_var s = Some (a, b, c, r) ->
  digits_text a /\ digits_text b /\ digits_text c
  /\ s = "Var(" ++ a ++ "," ++ b ++ "," ++ c ++ ")" ++ r.
Proof.
  intros s a b c r H. unfold match_full_var in H.
  destruct (strip_prefix "Var(" s) as [t|] eqn:E; [|discriminate]. apply strip_prefix_inv in E. subst s.
  destruct (take_while digit t) as [a' r1] eqn:E. apply take_while_inv in E. destruct E as [-> [Ha _]].
  destruct a' as [|a0 a']; [discriminate|]. destruct r1 as [|x r1]; [discriminate|].
  destruct (ascii_dec x ",") as [->|N].
  2:{ exfalso. destruct x as [[] [] [] [] [] [] [] []]; try discriminate H; now apply N. }
  destruct (take_while digit r1) as [b' r2] eqn:E. apply take_while_inv in E. destruct E as [-> [Hb _]].
  destruct b' as [|b0 b']; [discriminate|]. destruct r2 as [|x r2]; [discriminate|].
  destruct (ascii_dec x ",") as [->|N].
  2:{ exfalso. destruct x as [[] [] [] [] [] [] [] []]; try discriminate H; now apply N. }
  destruct (take_while digit r2) as [c' r3] eqn:E. apply take_while_inv in E. destruct E as [-> [Hc _]].
  destruct c' as [|c0 c']; [discriminate|]. destruct r3 as [|x r3]; [discriminate|].
  destruct (ascii_dec x ")") as [->|N].
  2:{ exfalso. destruct x as [[] [] [] [] [] [] [] []]; try discriminate H; now apply N. }
  injection H as <- <- <- <-. unfold digits_text.
  repeat split; try assumption; discriminate.
Qed.

Lemma variable_fun : forall a a' v, variable_text a v -> variable_text a' v -> a = a'.
Proof.
  intros a a' v [b [c [Ha [Hb [Hc ->]]]]] [b' [c' [Ha' [Hb' [Hc' E]]]]].
  assert (X := match_full_ok a b c "" Ha Hb Hc). assert (Y := match_full_ok a' b' c' "" Ha' Hb' Hc').
  rewrite !app_nil_r_s in *. rewrite <- E in Y. rewrite X in Y. now injection Y.
Qed.

Lemma find_vars_sound : forall fuel s a v, In (a, v) (find_vars fuel s) ->
  variable_text a v /\ exists pre post, s = pre ++ v ++ post.
Proof.
  induction fuel as [|fuel IH]; intros s a v H; [destruct H|].
  cbn [find_vars] in H. destruct s as [|x s]; [destruct H|].
  destruct (match_full_var (String x s)) as [[[[a' b] c] r]|] eqn:E.
  - apply match_full_inv in E. destruct E as [Ha [Hb [Hc E]]]. destruct H as [H|H].
    + injection H as <- <-. split; [exists b, c; auto|]. exists "", r. rewrite E. cbn [append].
      assoc.
    + destruct (IH _ _ _ H) as [V [pre [post ->]]]. split; [exact V|].
      exists ("Var(" ++ a' ++ "," ++ b ++ "," ++ c ++ ")" ++ pre), post. rewrite E.
      assoc.
  - destruct (IH _ _ _ H) as [V [pre [post ->]]]. split; [exact V|].
    now exists (String x pre), post.
Qed.

Lemma find_vars_complete : forall fuel s a v pre post, variable_text a v ->
  s = pre ++ v ++ post -> String.length s < fuel -> In (a, v) (find_vars fuel s).
Proof.
  induction fuel as [|fuel IH]; intros s a v pre post V E L; [lia|].
  cbn [find_vars]. destruct s as [|x s].
  - exfalso. destruct V as [b [c [_ [_ [_ ->]]]]]. destruct pre; discriminate E.
  - destruct pre as [|y pre].
    + destruct V as [b [c [Ha [Hb [Hc ->]]]]]. cbn [append] in E.
      assert (M := match_full_ok a b c post Ha Hb Hc).
      replace ("Var(" ++ a ++ "," ++ b ++ "," ++ c ++ ")" ++ post) with (String x s) in M.
      2:{ rewrite E. assoc. }
      rewrite M. now left.
    + cbn [append] in E. injection E as <- E.
      destruct (match_full_var (String x s)) as [[[[a' b'] c'] r]|] eqn:M.
      * right. apply match_full_inv in M. destruct M as [Ha' [Hb' [Hc' M]]].
        cbn [append] in M. injection M as -> M.
        set (w := "ar(" ++ a' ++ "," ++ b' ++ "," ++ c' ++ ")").
        assert (W : has "V" w = false).
        { destruct Ha', Hb', Hc'. unfold w.
          rewrite !has_app, (has_digits _ a'), (has_digits _ b'), (has_digits _ c')
            by (assumption || reflexivity). reflexivity. }
        assert (M' : w ++ r = pre ++ v ++ post).
        { rewrite <- E, M. unfold w. assoc. }
        destruct (app_split _ _ _ _ M') as [[u [-> Er]]|[u [Ew Er]]].
        -- apply (IH r a v u post V Er). rewrite Er. rewrite E in L. cbn [String.length] in L.
           rewrite !length_app_s in *. lia.
        -- destruct u as [|z u].
           ++ cbn in Er. subst r. apply (IH (v ++ post) a v "" post V eq_refl).
              rewrite E in L. cbn [String.length] in L. rewrite !length_app_s in *. lia.
           ++ exfalso. destruct V as [b [c [_ [_ [_ ->]]]]]. cbn [append] in Er.
              injection Er as <- _. rewrite Ew in W. rewrite has_app in W. cbn [has] in W.
              rewrite orb_true_r in W. discriminate.
      * apply (IH s a v pre post V E). cbn [String.length] in L. lia.
Qed.

Lemma extra_occurs : forall f a v, In (a, v) (extra_vars f)
  <-> variable_text a v /\ occurs f (value a) v.
Proof.
  intros f a v. destruct (no_spaces_spaced f) as [S N]. unfold extra_vars. split.
  - intros H. destruct (find_vars_sound _ _ _ _ H) as [V [pre [post E]]]. split; [exact V|].
    exists (no_spaces f), pre, post, a. auto.
  - intros [V [f' [pre [post [a' [S' [N' [E [V' _]]]]]]]]].
    rewrite (spaced_no_spaces f f' S' N'). apply (find_vars_complete _ _ a v pre post V E). lia.
Qed.

Lemma positions_ok : forall l, (forall a v, In (a, v) l -> a <> "") ->
  positions l = Ok (map (fun av => (value (fst av), snd av)) l).
Proof.
  induction l as [|[a v] l IH]; intros H; [reflexivity|]. cbn [positions map fst snd].
  rewrite py_int_value by (apply (H a v); now left). cbn [rbind]. rewrite IH.
  - cbn [rbind]. now rewrite Nat2Z.id.
  - intros a' v' I. apply (H a' v'). now right.
Qed.

Lemma set_nth_ok : forall l n x, n < List.length l -> exists l', set_nth n x l = Ok l'
  /\ List.length l' = List.length l /\ nth_error l' n = Some x
  /\ forall m, m <> n -> nth_error l' m = nth_error l m.
Proof.
  induction l as [|y l IH]; intros n x H; [cbn in H; lia|]. destruct n as [|n].
  - exists (x :: l). repeat split. intros [|m] M; [congruence|reflexivity].
  - cbn in H. destruct (IH n x) as [l' [E [L [X O]]]]; [lia|].
    exists (y :: l'). cbn. rewrite E. repeat split; cbn; [now rewrite L|exact X|].
    intros [|m] M; [reflexivity|]. cbn. apply O. lia.
Qed.

Lemma fill_ok : forall new l, (forall p v, In (p, v) new -> p < List.length l) ->
  exists l', fill new l = Ok l' /\ List.length l' = List.length l
   /\ forall p, (exists v, In (p, v) new /\ nth_error l' p = Some (Some v))
                \/ (~ (exists v, In (p, v) new) /\ nth_error l' p = nth_error l p).
Proof.
  induction new as [|[p v] new IH]; intros l H.
  - exists l. repeat split. intros p. right. split; [intros [v []]|reflexivity].
  - destruct (set_nth_ok l p (Some v)) as [l1 [E1 [L1 [X1 O1]]]]; [apply (H p v); now left|].
    destruct (IH l1) as [l' [E [L X]]].
    { intros q w I. rewrite L1. apply (H q w). now right. }
    exists l'. cbn [fill]. rewrite E1. cbn [rbind]. rewrite E. repeat split; [now rewrite L|].
    intros q. destruct (X q) as [[w [I Y]]|[N Y]].
    + left. exists w. split; [now right|exact Y].
    + destruct (Nat.eq_dec q p) as [->|D].
      * left. exists v. split; [now left|]. now rewrite Y.
      * right. split.
        -- intros [w [I|I]]; [injection I as <- <-; congruence|]. apply N. now exists w.
        -- rewrite Y. now apply O1.
Qed.

Lemma NoDup_map_on : forall (A B : Type) (f : A -> B) l,
  (forall x y, In x l -> In y l -> f x = f y -> x = y) -> NoDup l -> NoDup (map f l).
Proof.
  intros A B f l. induction l as [|x l IH]; intros I N; cbn; constructor.
  - inversion N; subst. intros H. apply in_map_iff in H. destruct H as [y [E Hy]].
    apply H1. rewrite <- (I y x); auto; [now right|now left].
  - inversion N; subst. apply IH; [|assumption]. intros a b Ha Hb. apply I; now right.
Qed.

Lemma nth_ext_error : forall (A : Type) (l l' : list A),
  (forall n, nth_error l n = nth_error l' n) -> l = l'.
Proof.
  induction l as [|x l IH]; intros [|y l'] H.
  - reflexivity.
  - discriminate (H 0).
  - discriminate (H 0).
  - assert (E := H 0). injection E as <-. f_equal. apply IH. intros n. exact (H (S n)).
Qed.

Lemma completed : forall enumerate f aliases vs, enumerates enumerate ->
  undeclared (List.length aliases) f vs ->
  complete_aliases enumerate f aliases = Ok (aliases ++ map Some vs)%list.
Proof.
  intros enumerate f aliases vs En U. unfold complete_aliases.
  destruct (En (extra_vars f)) as [ND IN].
  assert (VT : forall a v, In (a, v) (enumerate (extra_vars f)) -> variable_text a v).
  { intros a v H. apply IN, extra_occurs in H. apply H. }
  rewrite positions_ok.
  2:{ intros a v H. apply VT in H. destruct H as [b [c [[Na _] _]]]. exact Na. }
  cbn [rbind]. set (n := List.length aliases) in *.
  set (new := filter _ _).
  assert (M : forall p v, In (p, v) new <-> n <= p /\ occurs f p v).
  { intros p v. unfold new. rewrite filter_In, in_map_iff, Nat.leb_le. cbn [fst]. split.
    - intros [[[a w] [E H]] L]. injection E as <- <-. split; [exact L|].
      apply IN, extra_occurs in H. apply H.
    - intros [L O]. split; [|exact L]. destruct O as [f' [pre [post [a [S [N [E [V P]]]]]]]].
      exists (a, v). cbn [fst snd]. rewrite P. split; [reflexivity|].
      apply IN, extra_occurs. split; [exact V|]. exists f', pre, post, a. auto. }
  assert (NDn : NoDup new).
  { unfold new. apply NoDup_filter. apply NoDup_map_on; [|exact ND].
    intros [a v] [a' v'] H H' E. cbn in E. injection E as _ <-. f_equal.
    apply (variable_fun _ _ v); apply VT; assumption. }
  assert (Len : List.length new = List.length vs).
  { set (ref := map (fun i => (n + i, nth i vs "")) (seq 0 (List.length vs))).
    assert (P : Permutation new ref).
    { apply NoDup_Permutation; [exact NDn| |].
      - unfold ref. apply NoDup_map_on; [|apply seq_NoDup]. intros i j _ _ E. injection E as E _. lia.
      - intros [p v]. rewrite M. unfold ref. rewrite in_map_iff. split.
        + intros [L O]. exists (p - n). apply U in O; [|exact L]. rewrite (nth_error_nth _ _ _ O).
          split; [f_equal; lia|]. apply in_seq. cbn. split; [lia|].
          apply nth_error_Some. now rewrite O.
        + intros [i [E I]]. injection E as <- <-. split; [lia|]. apply U; [lia|].
          replace (n + i - n) with i by lia. apply nth_error_nth'. apply in_seq in I. lia. }
    rewrite (Permutation_length P). unfold ref. now rewrite map_length, seq_length. }
  destruct (fill_ok new (aliases ++ repeat None (List.length new))%list) as [l' [E [L X]]].
  { intros p v H. apply M in H. destruct H as [Lp O]. apply U in O; [|exact Lp].
    rewrite app_length, repeat_length, Len. fold n.
    assert (p - n < List.length vs) by (apply nth_error_Some; now rewrite O). lia. }
  rewrite E. f_equal. apply nth_ext_error. intros p.
  destruct (Nat.lt_ge_cases p n) as [Lp|Lp].
  - rewrite nth_error_app1 by exact Lp. destruct (X p) as [[v [I _]]|[_ Y]].
    + exfalso. apply M in I. lia.
    + rewrite Y. now rewrite nth_error_app1.
  - rewrite nth_error_app2 by exact Lp. fold n. destruct (X p) as [[v [I Y]]|[N Y]].
    + rewrite Y. apply M in I. destruct I as [_ I]. apply U in I; [|exact Lp].
      symmetry. now apply map_nth_error.
    + rewrite Y. rewrite nth_error_app2 by exact Lp. fold n.
      assert (Z : nth_error vs (p - n) = None).
      { destruct (nth_error vs (p - n)) as [v|] eqn:Ev; [|reflexivity].
        exfalso. apply N. exists v. apply M. split; [exact Lp|]. now apply U. }
      assert (Z' := Z). apply nth_error_None in Z.
      rewrite (proj2 (nth_error_None _ _)) by (rewrite repeat_length, Len; exact Z).
      symmetry. apply nth_error_None. now rewrite map_length.
Qed.

Lemma completed_types : forall f n vs, undeclared n f vs ->
  forall i v k, nth_error vs i = Some v -> exists a b c,
    v = "Var(" ++ a ++ "," ++ b ++ "," ++ c ++ ")" /\ value a = n + i
    /\ get_type v k = Ok {| ar_name := None; ar_cat := Z.of_nat (value c);
         ar_dim := Z.of_nat (value b); ar_pos := Some (Z.of_nat (n + i)) |}.
Proof.
  intros f n vs U i v k H.
  assert (O : occurs f (n + i) v).
  { apply U; [lia|]. now replace (n + i - n) with i by lia. }
  destruct O as [f' [pre [post [a [S [N [E [[b [c [Ha [Hb [Hc ->]]]]] P]]]]]]]].
  exists a, b, c. repeat split; [exact P|]. rewrite <- P.
  apply get_type_var; try assumption.
  clear. set (x := _ ++ _). induction x; constructor; assumption.
Qed.

(** Each text once. *)
Definition pair_dec : forall x y : string * string, {x = y} + {x <> y}.
Proof. intros [a b] [c d]. decide equality; apply string_dec. Defined.

Lemma nodup_enumerates : enumerates (nodup pair_dec).
Proof. intros l. split; [apply NoDup_nodup|apply nodup_In]. Qed.

Definition example_declarations : list declaration :=
  [Named "x" KVi None 3; Named "y_1" KVj (Some 1%Z) 4; Named "Vx" KPm None 2; Unnamed KVj None 5].
Definition example_aliases : list string :=
  [" x = Vi( 3)"; "y_1=Vj(1 ,4)"; "Vx = Pm(2)"; "Vj(5)"].

Lemma example_spaced : Forall2 (fun s d => valid d /\ spaced s (text d))
  example_aliases example_declarations.
Proof.
  unfold example_aliases, example_declarations.
  repeat (apply Forall2_cons || apply Forall2_nil); split.
  all: try (match goal with |- spaced _ _ => repeat constructor end).
  - split; [|now repeat split]. now exists "x"%char, "".
  - split; [|now repeat split]. now exists "y"%char, "_1".
  - split; [|now repeat split]. now exists "V"%char, "x".
  - now repeat split.
Qed.

Definition example_formula : string := "SqNorm2(x - Var(1,3,1)) * Var( 2, 1, 1) + Var(1,3,1)".

Lemma example_undeclared : undeclared 1 example_formula ["Var(1,3,1)"; "Var(2,1,1)"].
Proof.
  assert (EV : extra_vars example_formula
    = [("1", "Var(1,3,1)"); ("2", "Var(2,1,1)"); ("1", "Var(1,3,1)")])
    by (vm_compute; reflexivity).
  intros p v L. split.
  - intros O. destruct O as [f' [pre [post [a [S [N [E [V P]]]]]]]].
    assert (X : In (a, v) (extra_vars example_formula)).
    { apply extra_occurs. split; [exact V|]. exists f', pre, post, a. auto. }
    rewrite EV in X. destruct X as [X|[X|[X|[]]]]; injection X as <- <-; subst p; reflexivity.
  - intros H.
    assert (X : exists a, In (a, v) (extra_vars example_formula) /\ value a = p).
    { rewrite EV. destruct p as [|[|[|p]]]; [lia| | |].
      - injection H as <-. exists "1". split; [now left|reflexivity].
      - injection H as <-. exists "2". split; [now right; left|reflexivity].
      - destruct p; discriminate H. }
    destruct X as [a [X <-]]. apply extra_occurs in X. apply X.
Qed.

(** ** Statements *)

Lemma declarations : forall ds ss,
  Forall2 (fun s d => valid d /\ spaced s (text d)) ss ds ->
  (exists l, get_types 0 ss = Ok l
     /\ map (fun a => (ar_cat a, ar_dim a, ar_pos a)) l
        = map (fun t => (fst t, Some (snd t))) (triples 0 ds))
  /\ engine_aliases 0 None None ss = Ok (meanings 0 ds).
Proof.
  intros ds ss H. split; [|now apply engine_text]. now apply get_types_text.
Qed.

Lemma completion : forall enumerate f aliases vs, enumerates enumerate ->
  undeclared (List.length aliases) f vs ->
  complete_aliases enumerate f aliases = Ok (aliases ++ map Some vs)%list
  /\ forall i v k, nth_error vs i = Some v -> exists a b c,
       v = "Var(" ++ a ++ "," ++ b ++ "," ++ c ++ ")"
       /\ value a = List.length aliases + i
       /\ exists r, get_type v k = Ok r /\ ar_cat r = Z.of_nat (value c)
            /\ ar_dim r = Z.of_nat (value b) /\ ar_pos r = Some (Z.of_nat (value a)).
Proof.
  intros enumerate f aliases vs En U. split; [now apply completed|].
  intros i v k H. destruct (completed_types _ _ _ U i v k H) as [a [b [c [E [V G]]]]].
  exists a, b, c. split; [exact E|]. split; [exact V|]. eexists. split; [exact G|].
  cbn. now rewrite V.
Qed.

Lemma old_types :
  (exists l, get_types 0 ["x = Vi(3)"; "y = Vy(3)"] = Ok l /\ map ar_cat l = [0; 1]%Z)
  /\ engine_aliases 0 None None ["x = Vi(3)"; "y = Vy(3)"] = Ok ["x=Var(0,3,0)"; "y=Var(1,3,0)"]
  /\ (exists l, get_types 0 ["y = Vy(3)"] = Ok l)
  /\ engine_aliases 0 None None ["y = Vy(3)"] = PyErr.
Proof.
  repeat apply conj; try (eexists; split); try eexists; vm_compute; reflexivity.
Qed.

Lemma named_variable : forall k, get_type "x = Var(0,3,0)" k = PyErr.
Proof. intros k. vm_compute. reflexivity. Qed.

Lemma gap :
  complete_aliases (nodup pair_dec) "Exp(x - Var(2,3,1))" [Some "x = Vi(3)"] = PyErr.
Proof. vm_compute. reflexivity. Qed.

Lemma shared_list :
  let c := complete_aliases (nodup pair_dec) in
  exists l, c "x - Var(1,3,1)" [Some "x = Vi(3)"] = Ok l
    /\ c "x * Var(1,1,2)" l = Ok [Some "x = Vi(3)"; Some "Var(1,3,1)"]
    /\ c "x * Var(1,1,2)" [Some "x = Vi(3)"] = Ok [Some "x = Vi(3)"; Some "Var(1,1,2)"].
Proof. cbv zeta. eexists. split; [|split]; vm_compute; reflexivity. Qed.
