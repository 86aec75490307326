(** * Reading words, symbols and expressions. *)

From Coq Require Import ZArith Lia List Bool Ascii String.
From Verif Require Import Result Keys KeySpec Aliases AliasSpec C22Proofs C26Proofs Formula PyRead.
Import ListNotations.
Open Scope string_scope.

(** ** Tokens *)

Definition clean (s : string) : Prop := match s with String c _ => name_char c = false | _ => True end.
Definition lexed (a : string) (ta : list token) : Prop :=
  forall s, lex "" (a ++ s) = option_map (app ta) (lex "" s).
Definition lexed_word (a : string) (ta : list token) : Prop :=
  forall s, clean s -> lex "" (a ++ s) = option_map (app ta) (lex "" s).

Lemma lexed_weak : forall a ta, lexed a ta -> lexed_word a ta.
Proof. intros a ta H s _. apply H. Qed.

Lemma omap_app : forall (a b : list token) o,
  option_map (app a) (option_map (app b) o) = option_map (app (a ++ b)%list) o.
Proof. intros a b [l|]; cbn; [now rewrite app_assoc|reflexivity]. Qed.

Lemma lexed_app : forall a b ta tb, lexed a ta -> lexed b tb -> lexed (a ++ b) (ta ++ tb)%list.
Proof. intros a b ta tb A B s. now rewrite app_assoc_s, A, B, omap_app. Qed.

Lemma lexed_word_app : forall a b ta tb, lexed_word a ta -> lexed b tb -> b <> "" -> clean b ->
  lexed (a ++ b) (ta ++ tb)%list.
Proof.
  intros a b ta tb A B N C s. rewrite app_assoc_s, A, B, omap_app; [reflexivity|].
  destruct b; [congruence|exact C].
Qed.

Lemma lexed_word_app_word : forall a b ta tb, lexed_word a ta -> lexed_word b tb -> b <> "" -> clean b ->
  lexed_word (a ++ b) (ta ++ tb)%list.
Proof.
  intros a b ta tb A B N C s Hs. rewrite app_assoc_s, A, B, omap_app; [reflexivity|exact Hs|].
  destruct b; [congruence|exact C].
Qed.

Lemma lexed_app_word : forall a b ta tb, lexed a ta -> lexed_word b tb -> lexed_word (a ++ b) (ta ++ tb)%list.
Proof. intros a b ta tb A B s C. now rewrite app_assoc_s, A, B, omap_app. Qed.

Lemma lex_word : forall w v s, every name_char w = true -> clean s ->
  lex v (w ++ s) = match word (v ++ w) with Some t => option_map (app t) (lex "" s) | None => None end.
Proof.
  induction w as [|c w IH]; intros v s E C.
  - rewrite app_nil_r_s. cbn [append]. destruct s as [|c r].
    + cbn [lex word option_map]. destruct (word v); cbn; [now rewrite app_nil_r|reflexivity].
    + cbn in C. cbn [lex]. rewrite C. cbn [word]. destruct (word v) as [t|]; [|reflexivity].
      match goal with |- context [match ?x with Some l => Some (t ++ l)%list | None => None end] => destruct x end;
      reflexivity.
  - cbn [every] in E. apply andb_true_iff in E. destruct E as [E1 E2].
    cbn [append lex]. rewrite E1, IH by assumption. now rewrite app_assoc_s.
Qed.

Lemma lexed_name : forall c r, name_start c = true -> every name_char r = true ->
  lexed_word (String c r) [KName (String c r)].
Proof.
  intros c r N E s C. rewrite lex_word; [|cbn [every]; unfold name_char at 1; now rewrite N, E|exact C].
  cbn [append word]. now rewrite N.
Qed.

Lemma digit_not_start : forall c, digit c = true -> name_start c = false /\ name_char c = true.
Proof.
  intros c H. unfold name_char, name_start. rewrite H, orb_true_r. split; [|reflexivity].
  destruct (letter c) eqn:L; [rewrite (letter_not_digit c L) in H; discriminate|].
  destruct (Ascii.eqb_spec c "_"); [subst; discriminate|reflexivity].
Qed.

Lemma lexed_num : forall z, (0 <= z)%Z -> lexed_word (str_int z) [KNum z].
Proof.
  intros z H s C. destruct (str_int_digits z H) as [D N].
  assert (V : int_from 0 (str_int z) = z).
  { pose proof (py_int_str z H) as P. unfold py_int in P.
    destruct (str_int z); [congruence|]. now injection P. }
  rewrite lex_word; [|clear -D; induction (str_int z) as [|c t IH]; [reflexivity|]|exact C].
  - cbn [append]. unfold word. destruct (str_int z) as [|c t] eqn:E; [congruence|].
    cbn [every] in D. apply andb_true_iff in D. destruct D as [D _].
    destruct (digit_not_start c D) as [-> _]. rewrite V, E, String.eqb_refl. reflexivity.
  - cbn [every] in *. apply andb_true_iff in D. destruct D as [D1 D2].
    destruct (digit_not_start c D1) as [_ ->]. now apply IH.
Qed.

Lemma str_neg : forall z, (z < 0)%Z -> str_int z = "-" ++ str_int (- z).
Proof. intros [|p|p] H; try lia. reflexivity. Qed.

(** Symbols that no second character changes. *)
Definition alone (c : ascii) : bool :=
  negb ((c =? "*")%char || (c =? "<")%char || (c =? ">")%char || (c =? "=")%char || (c =? "!")%char).

Lemma sym2_alone : forall c d, alone c = true -> sym2 c d = None.
Proof.
  intros c d H. unfold alone in H. apply negb_true_iff in H. repeat apply orb_false_iff in H as [H ?].
  unfold sym2. now rewrite H, H0, H1, H2, H3.
Qed.

Lemma lexed_symbol : forall c k, sym1 c = Some k -> alone c = true -> name_char c = false -> c <> " "%char ->
  lexed (one c) [K k].
Proof.
  intros c k S A N B s. unfold one. cbn [append lex word]. rewrite N.
  destruct (Ascii.eqb_spec c " "); [congruence|].
  destruct s as [|d r].
  - rewrite S. reflexivity.
  - rewrite (sym2_alone c d A), S. destruct (lex "" (String d r)); reflexivity.
Qed.

Lemma lexed_space : lexed " " [].
Proof. intros s. cbn [append lex word]. cbn. destruct (lex "" s); reflexivity. Qed.

Lemma lexed_nil : lexed "" [].
Proof. intros s. cbn [append]. destruct (lex "" s); reflexivity. Qed.

Lemma lexed_all : forall a ta, lexed a ta -> lex "" a = Some ta.
Proof. intros a ta H. specialize (H ""). rewrite app_nil_r_s in H. rewrite H. cbn. now rewrite app_nil_r. Qed.
Lemma lexed_word_all : forall a ta, lexed_word a ta -> lex "" a = Some ta.
Proof. intros a ta H. specialize (H "" I). rewrite app_nil_r_s in H. rewrite H. cbn. now rewrite app_nil_r. Qed.

(** An integer. *)
Definition int_tokens (z : Z) : list token := if (z <? 0)%Z then [K SDash; KNum (- z)] else [KNum z].
Lemma lexed_int : forall z, lexed_word (str_int z) (int_tokens z).
Proof.
  intros z. unfold int_tokens. destruct (Z.ltb_spec z 0) as [H|H].
  - rewrite str_neg by exact H. change [K SDash; KNum (- z)] with ([K SDash] ++ [KNum (- z)])%list.
    apply lexed_app_word; [|apply lexed_num; lia].
    now apply (lexed_symbol "-" SDash).
  - now apply lexed_num.
Qed.

(** ** Expressions *)

Definition Ev {A} (f : nat -> parsed A) (a : A) (r : list token) : Prop :=
  exists n, forall m, n <= m -> f m = Some (a, r).

Ltac ev k :=
  exists (S k); intros m ?; destruct m as [|m]; [lia|].

(** The level at which a symbol continues an expression. *)
Definition binds (s : sym) : option nat :=
  match s with
  | SLt | SLe | SGt | SGe | SEq | SNe => Some 0
  | SBar => Some 1
  | SPlus | SDash => Some 2
  | SStar | SSlash => Some 3
  | SPower => Some 5
  | SLPar | SLBra => Some 6
  | SRPar | SRBra | SComma => None
  end.
Definition stops (lev : nat) (r : list token) : Prop :=
  match r with K s :: _ => match binds s with Some b => b < lev | None => True end | _ => True end.
Definition nodash (ts : list token) : Prop := match ts with K SDash :: _ => False | _ => True end.

Lemma stops_le : forall lev lev' r, lev <= lev' -> stops lev r -> stops lev' r.
Proof. intros lev lev' [|[| |s] r] L; cbn; auto. destruct (binds s); auto. lia. Qed.

Lemma ev_name : forall s r, Ev (fun n => atom n (KName s :: r)) (PName s) r.
Proof. intros s r. ev 0. reflexivity. Qed.
Lemma ev_num : forall z r, Ev (fun n => atom n (KNum z :: r)) (PNum z) r.
Proof. intros s r. ev 0. reflexivity. Qed.
Lemma ev_par : forall ts a r, Ev (fun n => parse n 0 ts) a (K SRPar :: r) ->
  Ev (fun n => atom n (K SLPar :: ts)) a r.
Proof. intros ts a r [n H]. ev n. cbn [atom]. rewrite H by lia. reflexivity. Qed.
Lemma ev_list : forall ts l r, Ev (fun n => items n SRBra ts) l r -> Ev (fun n => atom n (K SLBra :: ts)) (PList l) r.
Proof. intros ts l r [n H]. ev n. cbn [atom]. rewrite H by lia. reflexivity. Qed.

Lemma ev_6 : forall ts a r b r', Ev (fun n => atom n ts) a r -> Ev (fun n => trailers n a r) b r' ->
  Ev (fun n => parse n 6 ts) b r'.
Proof. intros ts a r b r' [n H] [k G]. ev (n + k). cbn [parse]. rewrite H by lia. cbn [pbind]. apply G; lia. Qed.

Lemma ev_trail_stop : forall a r, stops 6 r -> Ev (fun n => trailers n a r) a r.
Proof.
  intros a r S. ev 0. cbn [trailers]. destruct r as [|[| |s] r]; auto.
  cbn in S. destruct s; auto; cbn in S; lia.
Qed.
Lemma ev_trail_call : forall a ts l r b r', Ev (fun n => items n SRPar ts) l r ->
  Ev (fun n => trailers n (PCall a l) r) b r' -> Ev (fun n => trailers n a (K SLPar :: ts)) b r'.
Proof.
  intros a ts l r b r' [n H] [k G]. ev (n + k). cbn [trailers]. rewrite H by lia. cbn [pbind]. apply G; lia.
Qed.

Lemma ev_power : forall ts a r b r', Ev (fun n => parse n 6 ts) a (K SPower :: r) ->
  Ev (fun n => parse n 4 r) b r' -> Ev (fun n => parse n 5 ts) (PPow a b) r'.
Proof.
  intros ts a r b r' [n H] [k G]. ev (n + k). cbn [parse]. rewrite H by lia. cbn [pbind]. now rewrite G by lia.
Qed.
Lemma ev_neg : forall ts a r, Ev (fun n => parse n 4 ts) a r -> Ev (fun n => parse n 4 (K SDash :: ts)) (PNeg a) r.
Proof. intros ts a r [n H]. ev n. cbn [parse]. rewrite H by lia. reflexivity. Qed.

Lemma ev_chain_stop : forall lev a r, 1 <= lev <= 3 -> stops lev r -> Ev (fun n => chain n lev a r) a r.
Proof.
  intros lev a r L S. ev 0. cbn [chain]. destruct r as [|[| |s] r]; auto.
  assert (E : at_level lev s = false); [|now rewrite E].
  cbn in S. destruct lev as [|[|[|[|]]]]; try lia; destruct s; try reflexivity; cbn in S; lia.
Qed.
Lemma ev_chain : forall lev a s ts b r c r', at_level lev s = true -> Ev (fun n => parse n (S lev) ts) b r ->
  Ev (fun n => chain n lev (PBin s a b) r) c r' -> Ev (fun n => chain n lev a (K s :: ts)) c r'.
Proof.
  intros lev a s ts b r c r' A [n H] [k G]. ev (n + k). cbn [chain]. rewrite A, H by lia. cbn [pbind].
  apply G; lia.
Qed.
Lemma ev_left : forall lev ts a r b r', 1 <= lev <= 3 -> Ev (fun n => parse n (S lev) ts) a r ->
  Ev (fun n => chain n lev a r) b r' -> Ev (fun n => parse n lev ts) b r'.
Proof.
  intros lev ts a r b r' L [n H] [k G]. ev (n + k). cbn [parse].
  destruct lev as [|[|[|[|]]]]; try lia; rewrite H by lia; cbn [pbind]; apply G; lia.
Qed.

Lemma ev_cmp_stop : forall r, stops 0 r -> Ev (fun n => comparisons n r) [] r.
Proof.
  intros r S. ev 0. cbn [comparisons]. destruct r as [|[| |s] r]; auto.
  cbn in S. destruct s; auto; cbn in S; lia.
Qed.
Lemma ev_cmp : forall s ts b r l r', compares s = true -> Ev (fun n => parse n 1 ts) b r ->
  Ev (fun n => comparisons n r) l r' -> Ev (fun n => comparisons n (K s :: ts)) ((s, b) :: l) r'.
Proof.
  intros s ts b r l r' C [n H] [k G]. ev (n + k). cbn [comparisons]. rewrite C, H by lia. cbn [pbind].
  now rewrite G by lia.
Qed.
Lemma ev_0 : forall ts a r l r', Ev (fun n => parse n 1 ts) a r -> Ev (fun n => comparisons n r) l r' ->
  Ev (fun n => parse n 0 ts) (match l with [] => a | _ => PCmp a l end) r'.
Proof.
  intros ts a r l r' [n H] [k G]. ev (n + k). cbn [parse]. rewrite H by lia. cbn [pbind]. now rewrite G by lia.
Qed.

(** From a level to the one below. *)
Lemma ev_step : forall lev ts a r, lev < 6 -> Ev (fun n => parse n (S lev) ts) a r -> stops lev r ->
  (lev = 4 -> nodash ts) -> Ev (fun n => parse n lev ts) a r.
Proof.
  intros lev ts a r L H S D.
  destruct lev as [|[|[|[|[|[|]]]]]]; try lia.
  - apply (ev_0 ts a r [] r H). now apply ev_cmp_stop.
  - apply (ev_left 1 ts a r); auto. apply ev_chain_stop; auto; lia.
  - apply (ev_left 2 ts a r); auto. apply ev_chain_stop; auto; lia.
  - apply (ev_left 3 ts a r); auto. apply ev_chain_stop; auto; lia.
  - specialize (D eq_refl). destruct H as [n H]. ev n. cbn [parse].
    destruct ts as [|[| |s] ts]; [apply H; lia..|].
    destruct s; try (apply H; lia). contradiction.
  - destruct H as [n H]. ev n. cbn [parse]. rewrite H by lia. cbn [pbind].
    destruct r as [|[| |s] r]; auto. cbn in S. destruct s; auto; cbn in S; lia.
Qed.

Lemma ev_down : forall k lev ts a r, lev + k <= 6 -> Ev (fun n => parse n (lev + k) ts) a r -> stops lev r ->
  (lev <= 4 < lev + k -> nodash ts) -> Ev (fun n => parse n lev ts) a r.
Proof.
  induction k as [|k IH]; intros lev ts a r L H S D; [now rewrite Nat.add_0_r in H|].
  apply ev_step; auto; try lia.
  - apply IH; try lia.
    + now replace (Datatypes.S lev + k) with (lev + Datatypes.S k) by lia.
    + now apply (stops_le lev); [lia|].
    + intros B. apply D. lia.
  - intros ->. apply D. lia.
Qed.

Lemma ev_from : forall lev' lev ts a r, lev <= lev' <= 6 -> Ev (fun n => parse n lev' ts) a r -> stops lev r ->
  (lev <= 4 < lev' -> nodash ts) -> Ev (fun n => parse n lev ts) a r.
Proof.
  intros lev' lev ts a r L H S D. apply (ev_down (lev' - lev)); auto; replace (lev + (lev' - lev)) with lev' by lia; auto. lia.
Qed.

(** Arguments. *)
Definition closer (s : sym) : Prop := s = SRPar \/ s = SRBra.
Lemma ev_more_nil : forall close r, Ev (fun n => more n close (K close :: r)) [] r.
Proof. intros c r. ev 0. cbn [more]. unfold sym_eqb. destruct (sym_eq_dec c c); congruence. Qed.
Lemma ev_more : forall close ts a r l r', closer close -> Ev (fun n => parse n 0 ts) a r ->
  Ev (fun n => more n close r) l r' -> Ev (fun n => more n close (K SComma :: ts)) (a :: l) r'.
Proof.
  intros c ts a r l r' C [n H] [k G]. ev (n + k). cbn [more].
  destruct C as [-> | ->]; cbn [sym_eqb sym_eq_dec]; cbn; rewrite H by lia; cbn [pbind]; now rewrite G by lia.
Qed.
Lemma ev_items_nil : forall close r, Ev (fun n => items n close (K close :: r)) [] r.
Proof. intros c r. ev 0. cbn [items]. unfold sym_eqb. destruct (sym_eq_dec c c); congruence. Qed.
Definition notclose (ts : list token) : Prop := match ts with K SRPar :: _ | K SRBra :: _ => False | _ => True end.
Lemma ev_items : forall close ts a r l r', closer close -> notclose ts -> Ev (fun n => parse n 0 ts) a r ->
  Ev (fun n => more n close r) l r' -> Ev (fun n => items n close ts) (a :: l) r'.
Proof.
  intros c ts a r l r' C N [n H] [k G]. ev (n + k). cbn [items].
  destruct ts as [|[| |s] ts]; try (rewrite H by lia; cbn [pbind]; now rewrite G by lia).
  assert (E : sym_eqb s c = false).
  { unfold sym_eqb. destruct (sym_eq_dec s c); auto. subst. destruct C as [-> | ->]; contradiction. }
  rewrite E, H by lia. cbn [pbind]. now rewrite G by lia.
Qed.

Lemma reads_unique : forall s a b, reads s a -> reads s b -> a = b.
Proof.
  intros s a b (ts & n & L & H) (ts' & n' & L' & H'). rewrite L in L'. injection L' as <-.
  specialize (H (n + n') ltac:(lia)). specialize (H' (n + n') ltac:(lia)). congruence.
Qed.

Lemma reads_ev : forall s ts a, lex "" s = Some ts -> Ev (fun n => parse n 0 ts) a [] -> reads s a.
Proof. intros s ts a L [n H]. exists ts, n. auto. Qed.
