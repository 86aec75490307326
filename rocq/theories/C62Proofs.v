(** * Proofs for C62: the device memory of a launch *)

From Coq Require Import ZArith String List Bool Lia.
From Verif Require Import GpuMemory GpuMemorySpec.
Import ListNotations.
Open Scope list_scope.
Open Scope Z_scope.

(** ** Bytes *)

Lemma nth_error_nth0 : forall (l : list byte) i x, nth_error l i = Some x -> nth i l 0 = x.
Proof.
  intros l i x H. apply nth_error_nth with (d := 0) in H. exact H.
Qed.

Lemma nth_error_lt : forall {A} (l : list A) i x, nth_error l i = Some x -> (i < length l)%nat.
Proof. intros A l i x H. apply nth_error_Some. rewrite H. discriminate. Qed.

Lemma holds_write : forall m a l, holds (write m a l) a l.
Proof.
  intros m a l i x H. unfold write. pose proof (nth_error_lt _ _ _ H).
  replace (a <=? a + Z.of_nat i) with true by (symmetry; apply Z.leb_le; lia).
  replace (a + Z.of_nat i <? a + Z.of_nat (length l)) with true by (symmetry; apply Z.ltb_lt; lia).
  cbn [andb]. replace (Z.to_nat (a + Z.of_nat i - a)) with i by lia. apply nth_error_nth0; assumption.
Qed.

Lemma holds_write_apart : forall m a l b k, holds m b k ->
  apart a (Z.of_nat (length l)) b (Z.of_nat (length k)) -> holds (write m a l) b k.
Proof.
  intros m a l b k H A i x Hi. pose proof (nth_error_lt _ _ _ Hi) as Li. unfold write.
  destruct ((a <=? b + Z.of_nat i) && (b + Z.of_nat i <? a + Z.of_nat (length l))) eqn:E.
  - apply andb_prop in E. destruct E as [E1 E2]. apply Z.leb_le in E1. apply Z.ltb_lt in E2.
    destruct A; lia.
  - apply H. exact Hi.
Qed.

Lemma holds_nil : forall m a, holds m a [].
Proof. intros m a i x H. destruct i; discriminate. Qed.

Lemma read_length : forall m a n, length (read m a n) = n.
Proof. intros. unfold read. rewrite map_length, seq_length. reflexivity. Qed.

Lemma holds_read : forall m a n, holds m a (read m a n).
Proof.
  intros m a n i x H. unfold read in H. rewrite nth_error_map in H.
  destruct (nth_error (seq 0 n) i) as [k|] eqn:E; [|discriminate]. cbn in H. injection H as <-.
  pose proof (nth_error_lt _ _ _ E) as L. rewrite seq_length in L.
  apply nth_error_nth with (d := 0%nat) in E. rewrite seq_nth in E by exact L. rewrite <- E. reflexivity.
Qed.

Lemma list_ext : forall {A} (l k : list A), length l = length k ->
  (forall i x, nth_error l i = Some x -> nth_error k i = Some x) -> l = k.
Proof.
  induction l as [|x l IH]; intros [|y k] L H; try discriminate L; [reflexivity|].
  pose proof (H 0%nat x eq_refl) as H0. injection H0 as <-. f_equal.
  apply IH; [cbn in L; lia|]. intros i z Hi. exact (H (S i) z Hi).
Qed.

Lemma read_holds : forall m a l, holds m a l -> read m a (length l) = l.
Proof.
  intros m a l H. symmetry. apply list_ext; [rewrite read_length; reflexivity|].
  intros i x Hi. pose proof (nth_error_lt _ _ _ Hi) as L. unfold read. rewrite nth_error_map.
  rewrite nth_error_nth' with (d := 0%nat) by (rewrite seq_length; exact L).
  rewrite seq_nth by exact L. cbn [option_map Nat.add]. f_equal. apply H. exact Hi.
Qed.

(** ** Words *)

Lemma word_length : forall z, length (word z) = 8%nat.
Proof. reflexivity. Qed.

Lemma words_length : forall l, length (words l) = (8 * length l)%nat.
Proof.
  induction l as [|z l IH]; [reflexivity|]. unfold words in *. cbn [flat_map].
  rewrite app_length, word_length, IH. cbn [length]. lia.
Qed.

Lemma byte_step : forall z p, 0 < p -> z / p = (z / p) mod 256 + 256 * (z / (p * 256)).
Proof.
  intros z p P. rewrite <- Z.div_div by lia. pose proof (Z.div_mod (z / p) 256 ltac:(lia)). lia.
Qed.

Lemma unsigned_word : forall z, 0 <= z < 2 ^ 64 -> unsigned (word z) = z.
Proof.
  intros z H. unfold word, unsigned. cbn [map fold_right].
  pose proof (byte_step z 1 ltac:(lia)) as E0. pose proof (byte_step z 256 ltac:(lia)) as E1.
  pose proof (byte_step z (256 ^ 2) ltac:(lia)) as E2. pose proof (byte_step z (256 ^ 3) ltac:(lia)) as E3.
  pose proof (byte_step z (256 ^ 4) ltac:(lia)) as E4. pose proof (byte_step z (256 ^ 5) ltac:(lia)) as E5.
  pose proof (byte_step z (256 ^ 6) ltac:(lia)) as E6. pose proof (byte_step z (256 ^ 7) ltac:(lia)) as E7.
  assert (E8 : z / (256 ^ 7 * 256) = 0).
  { apply Z.div_small. change (256 ^ 7 * 256) with (2 ^ 64). exact H. }
  change (1 * 256) with 256 in *. change (256 * 256) with (256 ^ 2) in *.
  change (256 ^ 2 * 256) with (256 ^ 3) in *. change (256 ^ 3 * 256) with (256 ^ 4) in *.
  change (256 ^ 4 * 256) with (256 ^ 5) in *. change (256 ^ 5 * 256) with (256 ^ 6) in *.
  change (256 ^ 6 * 256) with (256 ^ 7) in *. change (256 ^ 0) with 1. change (256 ^ 1) with 256.
  rewrite Z.div_1_r in E0. rewrite Z.div_1_r. lia.
Qed.

Lemma signed_word : forall z, 0 <= z < 2 ^ 63 -> signed (word z) = z.
Proof.
  intros z H. unfold signed. rewrite unsigned_word by lia. cbv zeta.
  destruct (Z.ltb_spec z (2 ^ 63)); lia.
Qed.

Lemma decode_words : forall l, Forall (fun z => 0 <= z < 2 ^ 63) l -> decode (length l) (words l) = l.
Proof.
  induction l as [|z l IH]; intros F; [reflexivity|]. inversion F; subst.
  change (words (z :: l)) with (word z ++ words l). cbn [length decode].
  replace (Z.of_nat (length (word z ++ words l)) <? 8) with false.
  2:{ symmetry. apply Z.ltb_ge. rewrite app_length, word_length. lia. }
  rewrite firstn_app, word_length. replace (firstn 8 (word z)) with (word z) by reflexivity.
  cbn [Nat.sub firstn]. rewrite app_nil_r. rewrite signed_word by assumption.
  rewrite skipn_app, word_length. replace (skipn 8 (word z)) with (@nil byte) by reflexivity.
  cbn [Nat.sub skipn app]. rewrite IH by assumption. reflexivity.
Qed.

(** ** Blocks *)

Lemma inside_within : forall l a n, inside l a n = true <-> within l a n.
Proof.
  intros l a n. unfold inside, within. rewrite existsb_exists. split.
  - intros (b & I & H). apply andb_prop in H. destruct H as [H1 H2].
    apply Z.leb_le in H1. apply Z.leb_le in H2. exists b. auto.
  - intros (b & I & H1 & H2). exists b. split; [exact I|]. apply andb_true_intro.
    split; apply Z.leb_le; lia.
Qed.

Lemma within_incl : forall l k a n, within l a n -> incl l k -> within k a n.
Proof. intros l k a n (b & I & H) J. exists b. split; [apply J; exact I|exact H]. Qed.

Lemma release_app : forall own a n rest, Forall (fun b => fst b <> a) own ->
  release a (own ++ (a, n) :: rest) = Some (own ++ rest).
Proof.
  induction own as [|b own IH]; intros a n rest F.
  - cbn. rewrite Z.eqb_refl. reflexivity.
  - inversion F; subst. cbn [app release]. destruct (Z.eqb_spec (fst b) a); [contradiction|].
    rewrite IH by assumption. reflexivity.
Qed.

Lemma separate_app : forall own c rest, separate (own ++ c :: rest) -> separate (own ++ rest)
  /\ Forall (fun b => apart (fst b) (snd b) (fst c) (snd c)) own
  /\ Forall (fun b => apart (fst c) (snd c) (fst b) (snd b)) rest.
Proof.
  induction own as [|b own IH]; intros c rest S.
  - inversion S; subst. split; [assumption|]. split; [constructor|]. assumption.
  - cbn [app] in S. inversion S as [|? ? F S']; subst. destruct (IH _ _ S') as (H1 & H2 & H3).
    apply Forall_app in F. destruct F as [F1 F2]. inversion F2; subst.
    split; [constructor; [apply Forall_app; split; assumption|assumption]|].
    split; [constructor; assumption|assumption].
Qed.

(** Two different live blocks are apart. *)
Lemma separate_two : forall l b c, separate l -> In b l -> In c l -> b = c \/ apart (fst b) (snd b) (fst c) (snd c).
Proof.
  intros l b c S. induction S as [|x l F S IH]; intros B C; [destruct B|].
  rewrite Forall_forall in F. destruct B as [<-|B], C as [<-|C]; auto.
  right. destruct (F _ B) as [H|H]; [right|left]; exact H.
Qed.

Lemma apart_sym : forall a n b k, apart a n b k -> apart b k a n.
Proof. intros a n b k [H|H]; [right|left]; exact H. Qed.

(** ** Sizes *)

Lemma to_int_small : forall z, - 2 ^ 31 <= z < 2 ^ 31 -> to_int z = z.
Proof. intros z H. unfold to_int. rewrite Z.mod_small by lia. lia. Qed.

Lemma to_int_mod : forall z, to_int z mod 2 ^ 32 = z mod 2 ^ 32.
Proof.
  intros z. unfold to_int. rewrite Zminus_mod, Z.mod_mod by lia. rewrite <- Zminus_mod. f_equal. lia.
Qed.

Lemma to_int_eq : forall y z, y mod 2 ^ 32 = z mod 2 ^ 32 -> to_int y = to_int z.
Proof. intros y z H. unfold to_int. rewrite (Zplus_mod y), (Zplus_mod z), H. reflexivity. Qed.

Lemma to_int_to_int : forall z, to_int (to_int z) = to_int z.
Proof. intros z. apply to_int_eq. apply to_int_mod. Qed.

Lemma int_product_from : forall l acc, to_int acc = acc ->
  fold_left (fun acc s => to_int (acc * s)) l acc = to_int (acc * product l).
Proof.
  induction l as [|s l IH]; intros acc A; cbn [fold_left product fold_right].
  - rewrite Z.mul_1_r. symmetry. exact A.
  - rewrite IH by apply to_int_to_int. apply to_int_eq. fold (product l).
    rewrite Zmult_mod, to_int_mod, <- Zmult_mod. f_equal. lia.
Qed.

Lemma int_product_mod : forall l, int_product l = to_int (product l).
Proof. intros l. unfold int_product. rewrite int_product_from by reflexivity. f_equal. lia. Qed.

Lemma int_product_small : forall l, 0 <= product l < 2 ^ 31 -> int_product l = product l.
Proof. intros l H. rewrite int_product_mod. apply to_int_small. lia. Qed.

Lemma size_t_small : forall z, 0 <= z < 2 ^ 64 -> size_t z = z.
Proof. intros z H. apply Z.mod_small. exact H. Qed.

Lemma fold_total : forall l z, fold_left Z.add l z = z + total l.
Proof.
  induction l as [|x l IH]; intros z; cbn [fold_left total fold_right]; [lia|].
  rewrite IH. unfold total. lia.
Qed.

(** ** Geometry *)

Lemma block_size_right : forall D q, geometry D q -> threads D q (block_size D q).
Proof.
  intros D q (T & _ & Y & B & MT & SM & L & _). unfold threads, block_size.
  set (w := dim_y q * type_size q) in *.
  assert (W : 0 <= w) by (unfold w; nia).
  assert (Dv : forall s, 0 < s -> w <= s -> 0 < s / Z.max 1 w /\ s / Z.max 1 w * w <= s).
  { intros s P Ls. assert (0 < Z.max 1 w <= s) by lia. split.
    - apply Z.div_str_pos. lia.
    - pose proof (Z.mul_div_le s (Z.max 1 w) ltac:(lia)). pose proof (Z.div_pos s (Z.max 1 w) ltac:(lia) ltac:(lia)).
      apply Z.le_trans with (Z.max 1 w * (s / Z.max 1 w)); [|lia]. rewrite Z.mul_comm.
      apply Z.mul_le_mono_nonneg_r; lia. }
  destruct (chunks q).
  - destruct (Dv 49152 ltac:(lia) L) as [D1 D2]. unfold to_uint. rewrite Z.mod_small by lia.
    split; [lia|]. split; [lia|].
    apply Z.le_trans with (49152 / Z.max 1 w * w); [|exact D2]. apply Z.mul_le_mono_nonneg_r; lia.
  - destruct (Dv (shared_mem D) ltac:(lia) L) as [D1 D2]. unfold to_uint. rewrite Z.mod_small by lia.
    split; [lia|]. split; [lia|].
    apply Z.le_trans with (shared_mem D / Z.max 1 w * w); [|exact D2]. apply Z.mul_le_mono_nonneg_r; lia.
Qed.

Lemma ceil_covers : forall n b, 0 < n -> 0 < b ->
  covers (Z.quot n b + (if Z.rem n b =? 0 then 0 else 1)) b n.
Proof.
  intros n b N B. pose proof (Z.quot_rem' n b). pose proof (Z.rem_bound_pos n b ltac:(lia) B).
  unfold covers. destruct (Z.eqb_spec (Z.rem n b) 0); nia.
Qed.

Lemma covers_range : forall g b n, 0 < b -> 0 < n -> covers g b n -> 0 < g <= n.
Proof. intros g b n B N [H1 H2]. nia. Qed.

Lemma ceiling_covers : forall n b, 0 < n < 2 ^ 32 -> 0 < b -> covers (ceiling n b) b n.
Proof.
  intros n b N B. pose proof (ceil_covers n b ltac:(lia) B) as C.
  pose proof (covers_range _ b n B ltac:(lia) C). unfold ceiling, to_uint. rewrite Z.mod_small by lia. exact C.
Qed.

(** ** The table of the blocks *)

Lemma range_entries_cut : forall rounds b i s len j, 0 < b -> 0 <= j -> j <= len -> len - j <= Z.of_nat rounds ->
  cut b i (s + j) (s + len) (range_entries rounds b i s len j).
Proof.
  induction rounds as [|rounds IH]; intros b i s len j B J L R; cbn [range_entries].
  - replace (s + j) with (s + len) by lia. constructor.
  - destruct (Z.ltb_spec j len) as [H|H].
    + replace (s + j + Z.min b (len - j)) with (Z.min (s + j + b) (s + len)) by lia.
      apply cut_more; [lia|]. destruct (Z.le_gt_cases (j + b) len) as [C|C].
      * replace (Z.min (s + j + b) (s + len)) with (s + (j + b)) by lia. apply IH; lia.
      * replace (Z.min (s + j + b) (s + len)) with (s + len) by lia.
        destruct rounds as [|rounds]; cbn [range_entries]; [constructor|].
        destruct (Z.ltb_spec (j + b) len); [lia|constructor].
    + replace (s + j) with (s + len) by lia. constructor.
Qed.

Lemma cut_length : forall b i s e l, 0 < b -> cut b i s e l ->
  s <= e /\ Z.of_nat (length l) = Z.quot (e - s) b + (if Z.rem (e - s) b =? 0 then 0 else 1).
Proof.
  intros b i s e l B C. induction C as [s|s e l H C IH].
  - split; [lia|]. rewrite Z.sub_diag, Z.quot_0_l, Z.rem_0_l by lia. reflexivity.
  - destruct IH as [_ IH]. split; [lia|]. cbn [length]. rewrite Nat2Z.inj_succ, IH.
    destruct (Z.le_gt_cases (s + b) e) as [L|L].
    + rewrite Z.min_l by lia. replace (e - s) with (e - (s + b) + 1 * b) by lia.
      rewrite Z.quot_add, Z.rem_add by (try lia; nia). lia.
    + rewrite Z.min_r by lia. rewrite Z.sub_diag, Z.quot_0_l, Z.rem_0_l by lia.
      rewrite Z.quot_small, Z.rem_small by lia. destruct (Z.eqb_spec (e - s) 0); [lia|]. reflexivity.
Qed.

(** The ranges from number [k] of a list. *)
Lemma pairs_app : forall l k, pairs (l ++ k) = pairs l ++ pairs k.
Proof. intros l k. unfold pairs. apply flat_map_app. Qed.
Lemma pairs_length : forall l, length (pairs l) = (2 * length l)%nat.
Proof.
  induction l as [|p l IH]; [reflexivity|]. unfold pairs in *. cbn [flat_map app length]. rewrite IH. cbn [length]. lia.
Qed.

Lemma pairs_nth : forall before p after,
  nth_error (pairs (before ++ p :: after)) (2 * length before) = Some (fst p)
  /\ nth_error (pairs (before ++ p :: after)) (2 * length before + 1) = Some (snd p).
Proof.
  intros before p after. rewrite pairs_app. split.
  - rewrite nth_error_app2 by (rewrite pairs_length; lia). rewrite pairs_length, Nat.sub_diag. reflexivity.
  - rewrite nth_error_app2 by (rewrite pairs_length; lia). rewrite pairs_length.
    replace (2 * length before + 1 - 2 * length before)%nat with 1%nat by lia. reflexivity.
Qed.

Lemma entries_right : forall b D d, 0 < b -> forall after before,
  Forall (fun p => fst p <= snd p) after -> forall acc,
  exists l, entries b (pairs (before ++ after)) (seq (length before) (length after)) D d = (Done l, d)
  /\ cuts b (Z.of_nat (length before)) after l
  /\ count_blocks b (pairs (before ++ after)) (seq (length before) (length after)) acc D d
     = (Done (acc + Z.of_nat (length l)), d)
  /\ Z.of_nat (length l) <= total (map (fun p => snd p - fst p) after)
  /\ (0 < total (map (fun p => snd p - fst p) after) -> 0 < Z.of_nat (length l)).
Proof.
  intros b D d B. induction after as [|[s e] after IH]; intros before F acc.
  - exists []. split; [reflexivity|]. split; [constructor|]. split; [cbn [length seq count_blocks]; unfold ret; do 2 f_equal; cbn; lia|]. cbn. lia.
  - inversion F as [|? ? H F']; subst. cbn [fst snd] in H.
    destruct (pairs_nth before (s, e) after) as [N1 N2]. cbn [fst snd] in N1, N2.
    cbn [length seq entries count_blocks].
    set (l1 := range_entries (Z.to_nat (e - s)) b (Z.of_nat (length before)) s (e - s) 0).
    assert (C1 : cut b (Z.of_nat (length before)) s e l1).
    { replace s with (s + 0) at 1 by lia. replace e with (s + (e - s)) at 1 by lia.
      apply range_entries_cut; lia. }
    destruct (cut_length _ _ _ _ _ B C1) as [_ L1].
    specialize (IH (before ++ [(s, e)]) F'
       (acc + Z.quot (e - s) b + (if Z.rem (e - s) b =? 0 then 0 else 1))).
    rewrite <- app_assoc in IH. cbn [app] in IH. rewrite app_length in IH. cbn [length] in IH.
    replace (length before + 1)%nat with (S (length before)) in IH by lia.
    destruct IH as (l2 & E2 & C2 & K2 & T2 & P2).
    exists (l1 ++ l2). split; [|split; [|split; [|split]]].
    + unfold bind, element. rewrite N2. cbn [ret]. unfold ret. rewrite N1. rewrite E2. reflexivity.
    + apply cuts_more; [exact C1|]. replace (Z.of_nat (length before) + 1) with (Z.of_nat (S (length before))) by lia. exact C2.
    + unfold bind, element. rewrite N2. unfold ret. rewrite N1. destruct (Z.eqb_spec b 0); [lia|].
      rewrite K2. rewrite app_length. f_equal. f_equal. lia.
    + cbn [map total fold_right fst snd]. fold (total (map (fun p => snd p - fst p) after)).
      rewrite app_length. pose proof (Z.eq_le_incl _ _ L1).
      assert (Z.of_nat (length l1) <= e - s).
      { rewrite L1. destruct (Z.eq_dec s e) as [->|Q].
        - rewrite Z.sub_diag, Z.quot_0_l, Z.rem_0_l by lia. cbn. lia.
        - apply (covers_range _ b (e - s) B ltac:(lia) (ceil_covers (e - s) b ltac:(lia) B)). }
      lia.
    + cbn [map total fold_right fst snd]. fold (total (map (fun p => snd p - fst p) after)).
      rewrite app_length. intros T. destruct (Z.eq_dec s e) as [->|Q]; [lia|].
      assert (0 < Z.of_nat (length l1)); [|lia].
      rewrite L1. apply (covers_range _ b (e - s) B ltac:(lia) (ceil_covers (e - s) b ltac:(lia) B)).
Qed.

Lemma flat3_length : forall l, length (flat3 l) = (3 * length l)%nat.
Proof.
  induction l as [|p l IH]; [reflexivity|]. unfold flat3 in *. cbn [flat_map app length]. rewrite IH. cbn [length]. lia.
Qed.

Lemma triples_flat3 : forall l, triples (length l) (flat3 l) = l.
Proof.
  induction l as [|[[i s] e] l IH]; [reflexivity|]. unfold flat3 in *. cbn [flat_map app length triples fst snd].
  rewrite IH. reflexivity.
Qed.

Lemma lookup_vector_right : forall l D d, lookup_vector (Z.of_nat (length l)) l D d = (Done (flat3 l), d).
Proof.
  intros l D d. unfold lookup_vector. destruct (Z.ltb_spec (Z.of_nat (length l)) 0); [lia|].
  destruct (Z.ltb_spec (Z.of_nat (length l)) (Z.of_nat (length l))); [lia|].
  rewrite Nat2Z.id, Nat.sub_diag. cbn [Nat.mul repeat]. rewrite app_nil_r. reflexivity.
Qed.

(** A range without rows, when the copy of the ranges failed. *)
Lemma zero_blocks : forall b D d n ranges acc, 0 < b -> Forall (fun i => (2 * i + 1 < n)%nat) ranges ->
  count_blocks b (repeat 0 n) ranges acc D d = (Done acc, d)
  /\ entries b (repeat 0 n) ranges D d = (Done [], d).
Proof.
  intros b D d n ranges. induction ranges as [|i ranges IH]; intros acc B F.
  - split; reflexivity.
  - inversion F as [|? ? H F']; subst.
    assert (E : forall k, (k < n)%nat -> nth_error (repeat 0 n) k = Some 0).
    { intros k K. rewrite nth_error_nth' with (d := 0) by (rewrite repeat_length; exact K). rewrite nth_repeat. reflexivity. }
    cbn [count_blocks entries]. unfold bind, element. rewrite !E by lia. unfold ret.
    destruct (Z.eqb_spec b 0); [lia|]. rewrite Z.sub_diag, Z.quot_0_l, Z.rem_0_l by lia. cbn [Z.eqb].
    rewrite !Z.add_0_r. destruct (IH acc B F') as [H1 H2]. split; [exact H1|].
    rewrite H2. reflexivity.
Qed.

(** ** Programs *)

Definition wp {A} (p : prog A) (D : driver) (d : device) (Q : A -> device -> Prop) (E : device -> Prop) : Prop :=
  match p D d with
  | (Done a, d') => Q a d'
  | (Thrown, d') => E d'
  | (Exited, d') => E d'
  | (Undefined, _) => False
  end.

Lemma wp_bind : forall {A B} (p : prog A) (k : A -> prog B) D d Q E,
  wp p D d (fun a d' => wp (k a) D d' Q E) E -> wp (bind p k) D d Q E.
Proof.
  intros A B p k D d Q E H. unfold wp in *. unfold bind. destruct (p D d) as [[a| | |] d']; exact H.
Qed.

Lemma wp_ret : forall {A} (a : A) D d (Q : A -> device -> Prop) E, Q a d -> wp (ret a) D d Q E.
Proof. intros. assumption. Qed.

Lemma wp_mono : forall {A} (p : prog A) D d (Q R : A -> device -> Prop) E,
  wp p D d Q E -> (forall a d', Q a d' -> R a d') -> wp p D d R E.
Proof.
  intros A p D d Q R E H I. unfold wp in *. destruct (p D d) as [[a| | |] d']; auto.
Qed.

Lemma wp_eq : forall {A} (p : prog A) D d a (Q : A -> device -> Prop) E, p D d = (Done a, d) -> Q a d -> wp p D d Q E.
Proof. intros A p D d a Q E H I. unfold wp. rewrite H. exact I. Qed.

Section Steps.
Variables (D : driver) (d0 : device) (good : event -> Prop).
Hypothesis alloc_D : allocator D.
Hypothesis good_allocated : forall a n, good (Allocated a n).
Hypothesis good_freed : forall a, good (Freed a).

(** The blocks allocated and not freed, and the events, since [d0]. *)
Definition state (own : list (Z * Z)) (new : list event) (d : device) : Prop :=
  live d = own ++ live d0 /\ sane d /\ (time d0 <= time d)%nat
  /\ events d = events d0 ++ new /\ Forall good new /\ balanced new
  /\ (forall b, In b own -> In (Allocated (fst b) (snd b)) new).

Definition failed (d : device) : Prop := exists t, (time d0 <= t < time d)%nat /\ fails D t = true.
Definition ended (d : device) : Prop := (exists own new, state own new d) /\ failed d.

Definition tick (d : device) : device :=
  {| live := live d; bytes := bytes d; time := S (time d); events := events d |}.

Lemma state_tick : forall own new d, state own new d -> state own new (tick d).
Proof.
  intros own new d (H1 & H2 & H3 & H4). split; [exact H1|]. split; [exact H2|].
  split; [cbn; lia|]. exact H4.
Qed.

Lemma ended_tick : forall own new d, state own new d -> fails D (time d) = true -> ended (tick d).
Proof.
  intros own new d S F. split; [exists own, new; apply state_tick; exact S|].
  exists (time d). destruct S as (_ & _ & T & _). cbn. split; [lia|exact F].
Qed.

(** A call that the driver accepts. *)
Lemma wp_call : forall {A} (effect : driver -> device -> option (A * device)) own new d a d' (Q : A -> device -> Prop),
  state own new d -> effect D (tick d) = Some (a, d') -> Q a d' ->
  wp (safe (call effect)) D d Q ended /\ wp (safe_exit (call effect)) D d Q ended.
Proof.
  intros A effect own new d a d' Q S H I. unfold wp, safe, safe_exit, bind, call. fold (tick d).
  destruct (fails D (time d)) eqn:F.
  - pose proof (ended_tick _ _ _ S F). split; assumption.
  - rewrite H. split; exact I.
Qed.

Lemma wp_plain : forall own new d (Q : unit -> device -> Prop), state own new d ->
  (forall d', state own new d' -> live d' = live d -> bytes d' = bytes d -> Q tt d') ->
  wp (safe plain) D d Q ended /\ wp (safe_exit plain) D d Q ended.
Proof.
  intros own new d Q S H. unfold plain. eapply wp_call; [exact S|reflexivity|].
  apply H; [apply state_tick; exact S|reflexivity|reflexivity].
Qed.

Lemma balanced_add : forall l e, balanced l -> (forall a, e <> Freed a) -> balanced (l ++ [e]).
Proof.
  intros l e B N a H. apply in_app_or in H. destruct H as [H|[H|[]]]; [|destruct (N _ H)].
  destruct (B _ H) as [n I]. exists n. apply in_or_app. left. exact I.
Qed.

Lemma wp_alloc : forall n own new d (Q : Z -> device -> Prop), 0 < n -> state own new d ->
  (forall a d', state ((a, n) :: own) (new ++ [Allocated a n]) d' -> bytes d' = bytes d -> 0 < a ->
     (forall b, In b (live d) -> fst b <> a) -> live d' = (a, n) :: live d -> Q a d') ->
  wp (safe (mem_alloc n)) D d Q ended.
Proof.
  intros n own new d Q N S H. unfold mem_alloc.
  destruct (alloc_D (time (tick d)) (live (tick d)) n N) as [P A].
  set (a := place D (time (tick d)) (live (tick d)) n) in *.
  refine (proj1 (wp_call _ own new d a
     {| live := (a, n) :: live d; bytes := bytes d; time := time (tick d);
        events := events d ++ [Allocated a n] |} Q S _ _)).
  - destruct (Z.eqb_spec n 0); [lia|]. reflexivity.
  - destruct S as (S1 & (S2 & S2') & S3 & S4 & S5 & S6 & S7). apply H.
    + split; [cbn [live]; rewrite S1; reflexivity|]. split.
      * split; cbn [live]; constructor; [|exact S2|cbn; exact N|exact S2'].
        apply Forall_forall. intros b B. exact (A b B).
      * split; [cbn; lia|]. split; [cbn [events]; rewrite S4, <- app_assoc; reflexivity|].
        split; [apply Forall_app; split; [exact S5|constructor; [apply good_allocated|constructor]]|].
        split; [apply balanced_add; [exact S6|discriminate]|].
        intros b [<-|B]; apply in_or_app; [right; left; reflexivity|left; apply S7; exact B].
    + reflexivity.
    + exact P.
    + intros b B E. rewrite Forall_forall in S2'. specialize (S2' _ B). destruct (A b B); lia.
    + reflexivity.
Qed.

Lemma own_addresses : forall o1 a n o2 d, sane d -> live d = (o1 ++ (a, n) :: o2) ++ live d0 ->
  Forall (fun b => fst b <> a) o1.
Proof.
  intros o1 a n o2 d [S P] L. rewrite L, <- app_assoc in S, P. cbn [app] in S, P.
  destruct (separate_app _ _ _ S) as (_ & F & _). apply Forall_app in P. destruct P as [P1 P2]. inversion P2; subst.
  rewrite Forall_forall in *. intros b B E. specialize (F b B). specialize (P1 b B). cbn [fst snd] in *.
  destruct F; lia.
Qed.

Lemma wp_free : forall o1 a n o2 new d (Q : unit -> device -> Prop), state (o1 ++ (a, n) :: o2) new d ->
  (forall d', state (o1 ++ o2) (new ++ [Freed a]) d' -> bytes d' = bytes d -> Q tt d') ->
  wp (safe (mem_free a)) D d Q ended /\ wp (safe_exit (mem_free a)) D d Q ended.
Proof.
  intros o1 a n o2 new d Q S H. unfold mem_free. pose proof S as S0.
  destruct S as (S1 & S2 & S3 & S4 & S5 & S6 & S7).
  pose proof (own_addresses _ _ _ _ _ S2 S1) as F.
  eapply wp_call with (d' := {| live := (o1 ++ o2) ++ live d0; bytes := bytes d; time := time (tick d);
                                events := events d ++ [Freed a] |}); [exact S0| |].
  - cbn [live tick]. rewrite S1, <- app_assoc. cbn [app]. rewrite release_app by exact F.
    rewrite <- app_assoc. reflexivity.
  - apply H; [|reflexivity]. destruct S2 as [S2 S2'].
    rewrite S1, <- app_assoc in S2, S2'. cbn [app] in S2, S2'.
    split; [reflexivity|]. split.
    + split; cbn [live]; rewrite <- app_assoc; [apply (separate_app _ _ _ S2)|].
      apply Forall_app in S2'. destruct S2' as [P1 P2]. inversion P2; subst. apply Forall_app. split; assumption.
    + split; [cbn; lia|]. split; [cbn [events]; rewrite S4, <- app_assoc; reflexivity|].
      split; [apply Forall_app; split; [exact S5|constructor; [apply good_freed|constructor]]|]. split.
      * intros b B. apply in_app_or in B. destruct B as [B|[B|[]]].
        -- destruct (S6 _ B) as [k K]. exists k. apply in_or_app. left. exact K.
        -- injection B as <-. exists n. apply in_or_app. left. apply (S7 (a, n)). apply in_elt.
      * intros b B. apply in_or_app. left. apply S7. apply in_app_or in B. apply in_or_app.
        destruct B; [left|right; right]; assumption.
Qed.

Lemma wp_copy_to : forall dst l n own new d (Q : unit -> device -> Prop), Z.of_nat (length l) = n -> state own new d ->
  within (live d) dst n \/ n = 0 ->
  (forall d', state own new d' -> bytes d' = write (bytes d) dst l -> live d' = live d -> Q tt d') ->
  wp (safe (copy_to dst (Host l) n)) D d Q ended.
Proof.
  intros dst l n own new d Q L S W H. unfold copy_to.
  destruct (Z.ltb_spec (Z.of_nat (length l)) n); [lia|].
  eapply wp_call with (d' := {| live := live d; bytes := write (bytes d) dst l; time := time (tick d); events := events d |});
    [exact S| |].
  - cbn [live tick bytes events]. replace ((n =? 0) || inside (live d) dst n) with true.
    + rewrite <- L, Nat2Z.id, firstn_all. reflexivity.
    + symmetry. apply orb_true_intro. destruct W as [W|W]; [right; apply inside_within; exact W|left; apply Z.eqb_eq; exact W].
  - apply H; [|reflexivity|reflexivity]. destruct S as (S1 & S2 & S3 & S4). split; [exact S1|].
    split; [exact S2|]. split; [cbn; lia|exact S4].
Qed.

Lemma wp_copy_from : forall src n own new d (Q : list byte -> device -> Prop), state own new d ->
  within (live d) src n -> (forall d', state own new d' -> bytes d' = bytes d -> live d' = live d ->
     Q (read (bytes d) src (Z.to_nat n)) d') ->
  wp (safe (copy_from src n)) D d Q ended.
Proof.
  intros src n own new d Q S W H. unfold copy_from.
  eapply wp_call with (d' := tick d); [exact S| |].
  - cbn [live tick bytes]. replace (inside (live d) src n) with true by (symmetry; apply inside_within; exact W).
    rewrite orb_true_r. reflexivity.
  - apply H; [apply state_tick; exact S|reflexivity|reflexivity].
Qed.

(** The copy that is not checked. *)
Lemma wp_copy_unchecked : forall src n own new d (Q : option (list byte) -> device -> Prop), state own new d -> within (live d) src n ->
  (forall d', state own new d' -> bytes d' = bytes d -> live d' = live d ->
     Q (Some (read (bytes d) src (Z.to_nat n))) d') ->
  (forall d', state own new d' -> failed d' -> Q None d') ->
  wp (copy_from src n) D d Q ended.
Proof.
  intros src n own new d Q S W H N. unfold copy_from, wp, call. fold (tick d).
  destruct (fails D (time d)) eqn:F.
  - apply N; [apply state_tick; exact S|]. apply (ended_tick _ _ _ S F).
  - cbn [live tick bytes]. replace (inside (live d) src n) with true by (symmetry; apply inside_within; exact W).
    rewrite orb_true_r. apply H; [apply state_tick; exact S|reflexivity|reflexivity].
Qed.

(** An empty allocation after a failure. *)
Lemma wp_alloc_none : forall own new d (Q : Z -> device -> Prop), state own new d -> failed d -> wp (safe (mem_alloc 0)) D d Q ended.
Proof.
  intros own new d Q S (t & T & F). unfold wp, safe, bind, mem_alloc, call. fold (tick d).
  assert (E : ended (tick d)).
  { split; [exists own, new; apply state_tick; exact S|]. exists t. cbn. split; [lia|exact F]. }
  destruct (fails D (time d)); exact E.
Qed.

Lemma wp_get : forall name own new d (Q : unit -> device -> Prop), In name (kernels D) -> state own new d ->
  (forall d', state own new d' -> bytes d' = bytes d -> live d' = live d -> Q tt d') ->
  wp (safe (get_function name)) D d Q ended.
Proof.
  intros name own new d Q I S H. unfold get_function. eapply wp_call with (d' := tick d); [exact S| |].
  - replace (existsb (String.eqb name) (kernels D)) with true; [reflexivity|].
    symmetry. apply existsb_exists. exists name. split; [exact I|apply String.eqb_refl].
  - apply H; [apply state_tick; exact S|reflexivity|reflexivity].
Qed.

Lemma wp_launch : forall name gx gy b params own new d (Q : unit -> device -> Prop), gx <> 0 -> gy <> 0 -> b <> 0 -> state own new d ->
  (forall t, good (Launched t name gx gy b params (live d) (bytes d))) ->
  (forall t d', state own (new ++ [Launched t name gx gy b params (live d) (bytes d)]) d' ->
     bytes d' = run D t name params (bytes d) -> live d' = live d -> Q tt d') ->
  wp (safe (launch name gx gy b params)) D d Q ended.
Proof.
  intros name gx gy b params own new d Q GX GY B S G H. unfold launch.
  eapply wp_call with (d' := {| live := live d; bytes := run D (Datatypes.S (time d)) name params (bytes d); time := Datatypes.S (time d);
     events := events d ++ [Launched (Datatypes.S (time d)) name gx gy b params (live d) (bytes d)] |}); [exact S| |].
  - destruct (Z.eqb_spec gx 0); [contradiction|]. destruct (Z.eqb_spec gy 0); [contradiction|].
    destruct (Z.eqb_spec b 0); [contradiction|]. reflexivity.
  - apply H with (t := Datatypes.S (time d)); [|reflexivity|reflexivity].
    destruct S as (S1 & S2 & S3 & S4 & S5 & S6 & S7).
    split; [exact S1|]. split; [exact S2|]. split; [cbn; lia|].
    split; [cbn [events]; rewrite S4, <- app_assoc; reflexivity|].
    split; [apply Forall_app; split; [exact S5|constructor; [apply G|constructor]]|].
    split; [apply balanced_add; [exact S6|discriminate]|].
    intros c C. apply in_or_app. left. apply S7. exact C.
Qed.

Lemma wp_context : forall own new d (Q : unit -> device -> Prop), state own new d ->
  (forall d', state own new d' -> live d' = live d -> bytes d' = bytes d -> Q tt d') ->
  wp set_context D d Q ended.
Proof.
  intros own new d Q S H. unfold set_context.
  apply wp_bind. eapply wp_plain; [exact S|]. intros d1 S1 L1 B1.
  apply wp_bind. assert (K : forall d2, state own new d2 -> live d2 = live d -> bytes d2 = bytes d ->
    wp (safe_exit plain) D d2 Q ended).
  { intros d2 S2 L2 B2. eapply wp_plain; [exact S2|]. intros d3 S3 L3 B3. apply H; [exact S3|congruence|congruence]. }
  unfold wp at 1. destruct (current D (time d1)).
  - cbn [ret]. apply K; assumption.
  - fold (wp (safe_exit plain) D d1 (fun _ d' => wp (safe_exit plain) D d' Q ended) ended).
    eapply wp_plain; [exact S1|]. intros d2 S2 L2 B2. apply K; [exact S2|congruence|congruence].
Qed.

End Steps.
