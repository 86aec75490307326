(** * Proofs for C62: the arguments and the tables *)

From Coq Require Import ZArith String List Bool Lia.
From Verif Require Import GpuMemory GpuMemorySpec C62Proofs.
Import ListNotations.
Open Scope list_scope.
Open Scope Z_scope.

(** ** Contents of a live block *)

Definition kept (d : device) (p a : Z) (l : list byte) : Prop :=
  exists n, In (p, n) (live d) /\ p <= a /\ a + Z.of_nat (length l) <= p + n /\ holds (bytes d) a l.

Lemma kept_write : forall d d' p a l p' n' dst w, sane d -> kept d p a l -> In (p', n') (live d) ->
  p' <= dst -> dst + Z.of_nat (length w) <= p' + n' -> p <> p' ->
  bytes d' = write (bytes d) dst w -> live d' = live d -> kept d' p a l.
Proof.
  intros d d' p a l p' n' dst w [S _] (n & I & H1 & H2 & H) I' W1 W2 N B L.
  exists n. rewrite L, B. split; [exact I|]. split; [exact H1|]. split; [exact H2|].
  apply holds_write_apart; [exact H|].
  destruct (separate_two _ _ _ S I' I) as [E|A]; [injection E; intros; subst; contradiction|].
  cbn [fst snd] in A. destruct A; [left|right]; lia.
Qed.

Lemma kept_same : forall d d' p a l, kept d p a l -> bytes d' = bytes d -> incl (live d) (live d') -> kept d' p a l.
Proof.
  intros d d' p a l (n & I & H1 & H2 & H) B L. exists n. rewrite B. split; [apply L; exact I|]. auto.
Qed.

Lemma kept_new : forall d p n l m, In (p, n) (live d) -> Z.of_nat (length l) = n ->
  bytes d = write m p l -> kept d p p l.
Proof.
  intros d p n l m I L B. exists n. split; [exact I|]. split; [lia|]. split; [lia|]. rewrite B. apply holds_write.
Qed.

Lemma kept_holds : forall d p a l, kept d p a l -> holds (bytes d) a l.
Proof. intros d p a l (n & _ & _ & _ & H). exact H. Qed.

Lemma kept_fresh : forall d p a l x, kept d p a l -> (forall b, In b (live d) -> fst b <> x) -> p <> x.
Proof. intros d p a l x (n & I & _) F. exact (F _ I). Qed.

(** ** Arguments *)

Lemma Forall2_mono : forall {A B} (P Q : A -> B -> Prop) l k, (forall a b, P a b -> Q a b) ->
  Forall2 P l k -> Forall2 Q l k.
Proof. intros A B P Q l k H F. induction F; constructor; auto. Qed.

Lemma Forall2_map_right : forall {A B C} (f : B -> C) (P : A -> B -> Prop) (Q : A -> C -> Prop) l k,
  (forall a b, P a b -> Q a (f b)) -> Forall2 P l k -> Forall2 Q l (map f k).
Proof. intros A B C f P Q l k H F. induction F; constructor; auto. Qed.

Lemma arguments_more : forall q bl bl' m x y, arguments q bl m x y -> incl bl bl' -> arguments q bl' m x y.
Proof.
  intros q bl bl' m x y (l & H1 & H2 & H3 & H4) I. exists l. split; [exact H1|].
  split; [eapply within_incl; eassumption|]. split.
  - eapply Forall2_mono; [|exact H3]. intros p a. destruct a as [h|z]; [|auto].
    intros (A & B & C & E). split; [exact A|]. split; [eapply within_incl; eassumption|]. auto.
  - destruct (out q); [|exact H4]. destruct H4 as [A B]. split; [eapply within_incl; eassumption|exact B].
Qed.

Section Load.
Variables (D : driver) (d0 : device) (good : event -> Prop).
Hypothesis alloc_D : allocator D.
Hypothesis good_allocated : forall a n, good (Allocated a n).
Hypothesis good_freed : forall a, good (Freed a).

Notation state := (state d0 good).
Notation ended := (ended D d0 good).

Lemma addresses_map : forall l d, addresses (map Device l) D d = (Done l, d).
Proof.
  induction l as [|a l IH]; intros d; [reflexivity|]. cbn [map addresses]. unfold bind. rewrite IH. reflexivity.
Qed.

Lemma state_sane : forall own new d, state own new d -> sane d.
Proof. intros own new d (_ & S & _). exact S. Qed.

Lemma state_live : forall own new d, state own new d -> live d = own ++ live d0.
Proof. intros own new d (L & _). exact L. Qed.

Lemma load_device : forall buffer q own new d (Q : Z * Z -> device -> Prop),
  device_data q -> (0 < length (args q))%nat -> In (buffer, 8 * Z.of_nat (length (args q))) (live d) -> state own new d ->
  (forall d' w out_d, state own new d' -> live d' = live d -> bytes d' = write (bytes d) buffer w ->
     Z.of_nat (length w) = 8 * Z.of_nat (length (args q)) ->
     arguments q (live d') (bytes d') buffer out_d -> Q (buffer, out_d) d') ->
  wp (load_args_from_device buffer q) D d Q ended.
Proof.
  intros buffer q own new d Q (_ & (l & a & EA & EO) & Sz) NA I S H. unfold load_args_from_device.
  rewrite EO. apply wp_bind. eapply wp_eq; [rewrite EA; apply addresses_map|].
  apply wp_bind. rewrite size_t_small by lia. rewrite EA, map_length in *.
  eapply wp_copy_to with (own := own) (new := new); [|exact S| |].
  - rewrite words_length. lia.
  - left. exists (buffer, 8 * Z.of_nat (length l)). split; [exact I|]. cbn [fst snd]. lia.
  - intros d' S' B' L'. apply wp_ret. apply H with (w := words l); [exact S'|exact L'|exact B'|rewrite words_length; lia|].
    exists l. rewrite EA, map_length, B', L'. split; [apply holds_write|].
    split; [exists (buffer, 8 * Z.of_nat (length l)); split; [exact I|cbn [fst snd]; lia]|].
    split; [|rewrite EO; reflexivity]. apply Forall2_map_right with (P := eq); [intros x y E; exact E|].
    clear. induction l as [|x l IH]; constructor; [reflexivity|exact IH].
Qed.

(** Copies of consecutive arrays in one block. *)
Lemma load_each_right : forall ts lo arrays sizes p n own new d dataloc (Q : list Z -> device -> Prop),
  0 < ts -> Forall2 (fun l k => Z.of_nat (length l) = ts * k /\ 0 <= k < 2 ^ 31) arrays sizes ->
  p <= lo -> lo <= dataloc -> dataloc + ts * total sizes <= p + n -> ts * total sizes < 2 ^ 64 ->
  In (p, n) (live d) -> state own new d ->
  (forall ph d', state own new d' -> live d' = live d ->
     (forall a l, holds (bytes d) a l -> a + Z.of_nat (length l) <= dataloc -> holds (bytes d') a l) ->
     length ph = length arrays ->
     Forall2 (fun a l => holds (bytes d') a l /\ dataloc <= a /\ a + Z.of_nat (length l) <= dataloc + ts * total sizes) ph arrays ->
     Q ph d') ->
  wp (load_each ts dataloc (combine (map Host arrays) sizes)) D d Q ended.
Proof.
  intros ts lo arrays. induction arrays as [|l arrays IH]; intros sizes p n own new d dataloc Q TS F LO L1 L2 L3 I S H.
  - inversion F; subst. cbn [map combine load_each]. apply wp_ret. apply H; [exact S|reflexivity| |reflexivity|constructor].
    intros; assumption.
  - inversion F as [|? k ? sizes' [F1 F2] F']; subst. cbn [map combine load_each].
    cbn [total fold_right] in L2, L3. fold (total sizes') in L2, L3.
    assert (T' : 0 <= total sizes').
    { clear - F'. induction F' as [|? ? ? ? [_ B] ? IH]; cbn [total fold_right]; [lia|]. fold (total l'). lia. }
    assert (0 <= ts * k) by nia. assert (0 <= ts * total sizes') by nia.
    assert (EQ : ts * (k + total sizes') = ts * k + ts * total sizes') by nia. rewrite EQ in L2, L3.
    apply wp_bind. rewrite size_t_small by lia.
    eapply wp_copy_to with (own := own) (new := new); [exact F1|exact S| |].
    + left. exists (p, n). split; [exact I|]. cbn [fst snd]. lia.
    + intros d1 S1 B1 V1. apply wp_bind.
      eapply IH with (own := own) (new := new) (p := p) (n := n); try eassumption; try lia.
      * rewrite V1. exact I.
      * intros ph d2 S2 V2 K2 N2 F2'. apply wp_ret. apply H; [exact S2|congruence| |cbn [length]; lia|].
        -- intros a w W A. apply K2; [|lia]. rewrite B1. apply holds_write_apart; [exact W|right; lia].
        -- cbn [total fold_right]. fold (total sizes'). rewrite EQ. constructor.
           ++ split; [apply K2; [rewrite B1; apply holds_write|lia]|lia].
           ++ eapply Forall2_mono; [|exact F2']. intros a w (W & A & C). split; [exact W|lia].
Qed.

Lemma load_host : forall q own new d (Q : Z * Z -> device -> Prop),
  0 < type_size q -> (0 < length (args q))%nat -> host_data q -> state own new d ->
  (forall p n out_d d', state ((p, n) :: own) (new ++ [Allocated p n]) d' -> live d' = (p, n) :: live d ->
     out_d = p + 8 * Z.of_nat (length (args q)) ->
     out_d + type_size q * product (shape_out q) <= p + n ->
     arguments q (live d') (bytes d') p out_d -> Q (p, out_d) d') ->
  wp (load_args_from_host q (int_product (shape_out q))) D d Q ended.
Proof.
  intros q own new d Q TS NA (_ & _ & _ & arrays & h & EA & EO & F & PO & LO & Sz) S H.
  unfold load_args_from_host. rewrite int_product_small by exact PO.
  assert (FS : Forall2 (fun l k => Z.of_nat (length l) = type_size q * k /\ 0 <= k < 2 ^ 31) arrays (map product (arg_shapes q))).
  { clear - F. induction F; constructor; assumption. }
  assert (ES : map int_product (arg_shapes q) = map product (arg_shapes q)).
  { clear - F. induction F as [|? ? ? ? [_ B] ? IH]; [reflexivity|]. cbn [map]. rewrite IH, int_product_small by exact B. reflexivity. }
  rewrite ES, fold_total. set (sizes := map product (arg_shapes q)) in *.
  assert (T0 : 0 <= total sizes).
  { clear - FS. induction FS as [|? ? ? ? [_ B] ? IH]; cbn [total fold_right]; [lia|]. fold (total l'). lia. }
  assert (EQ : type_size q * (product (shape_out q) + total sizes)
               = type_size q * product (shape_out q) + type_size q * total sizes) by nia.
  assert (0 <= type_size q * product (shape_out q)) by nia. assert (0 <= type_size q * total sizes) by nia.
  set (nargs := Z.of_nat (length (args q))) in *. assert (0 < nargs) by (unfold nargs; lia).
  rewrite EQ in *. set (so := type_size q * product (shape_out q)) in *. set (sa := type_size q * total sizes) in *.
  rewrite size_t_small by lia.
  apply wp_bind. eapply wp_alloc with (own := own) (new := new); [assumption|assumption|lia|exact S|].
  intros p d1 S1 B1 P1 _ L1.
  apply wp_bind. rewrite EA.
  eapply load_each_right with (lo := p) (p := p) (n := 8 * nargs + (so + sa)) (own := (p, 8 * nargs + (so + sa)) :: own)
     (new := new ++ [Allocated p (8 * nargs + (so + sa))]); try eassumption; try lia.
  - rewrite L1. left. reflexivity.
  - intros ph d2 S2 L2 K2 N2 F2. apply wp_bind. rewrite size_t_small by lia.
    assert (NP : Z.of_nat (length (words ph)) = nargs * 8).
    { rewrite words_length, N2. unfold nargs. rewrite EA, map_length. lia. }
    eapply wp_copy_to with (own := (p, 8 * nargs + (so + sa)) :: own)
      (new := new ++ [Allocated p (8 * nargs + (so + sa))]); [exact NP|exact S2| |].
    + left. exists (p, 8 * nargs + (so + sa)). split; [rewrite L2, L1; left; reflexivity|]. cbn [fst snd]. lia.
    + intros d3 S3 B3 L3. apply wp_ret. apply H with (n := 8 * nargs + (so + sa));
        [exact S3|congruence|reflexivity|fold so; lia|].
      assert (I3 : In (p, 8 * nargs + (so + sa)) (live d3)) by (rewrite L3, L2, L1; left; reflexivity).
      exists ph. fold nargs so. split; [rewrite B3; apply holds_write|].
      split; [exists (p, 8 * nargs + (so + sa)); split; [exact I3|cbn [fst snd]; lia]|]. split.
      * rewrite EA. eapply Forall2_map_right; [|exact F2]. fold sa. intros a l (W & A1 & A2). cbv beta.
        split; [rewrite B3; apply holds_write_apart; [exact W|left; lia]|].
        split; [exists (p, 8 * nargs + (so + sa)); split; [exact I3|cbn [fst snd]; lia]|].
        split; right; lia.
      * rewrite EO. split; [exists (p, 8 * nargs + (so + sa)); split; [exact I3|cbn [fst snd]; lia]|].
        right. lia.
Qed.
End Load.
