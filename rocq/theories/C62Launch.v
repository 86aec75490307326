(** * Proofs for C62: tables, kernels and launch *)

From Coq Require Import ZArith String List Bool Lia.
From Verif Require Import GpuMemory GpuMemorySpec C62Proofs C62Load.
Import ListNotations.
Open Scope list_scope.
Open Scope Z_scope.

Definition finish (q : request) (nranges bs : Z) (rx : list Z) (s y : device_pointer) : prog tables :=
  let ranges := seq 0 (Z.to_nat nranges) in
  let! n := count_blocks bs rx ranges 0 in
  let! l := entries bs rx ranges in
  let! lookup := lookup_vector n l in
  let! t := allocate (8 * 3 * n) in
  copy_from_host t (Host (words lookup)) (8 * 3 * n) ;;
  let! o := offsets_pointer (batch q) n lookup in
  ret {| nblocks := n; lookup_d := t; slices_d := s; ranges_d := y; offsets_d := o |}.

Definition destroys (q : request) (t : tables) : prog unit :=
  destroy (lookup_d t) ;;
  destroy (slices_d t) ;;
  destroy (ranges_d t) ;;
  (match batch q with Some _ => destroy (offsets_d t) | None => ret tt end).

Lemma flat_rows_length : forall b (l : list (Z * Z * Z)),
  (forall i s, Z.of_nat (length (offset_row b i s)) = sizevars b) ->
  Z.of_nat (length (flat_map (fun t => offset_row b (fst (fst t)) (snd (fst t))) l)) = Z.of_nat (length l) * sizevars b.
Proof.
  intros b l H. induction l as [|t l IH]; [reflexivity|]. cbn [flat_map length].
  rewrite app_length, Nat2Z.inj_add, IH, H. lia.
Qed.

Lemma batch_words_pairs : forall b m, batch_words b m = pairs (intervals (nbatches b) m).
Proof.
  intros b m. unfold batch_words, pairs, intervals. rewrite flat_map_concat_map, flat_map_concat_map, map_map. reflexivity.
Qed.

Lemma intervals_length : forall n m, length (intervals n m) = Z.to_nat n.
Proof. intros. unfold intervals. rewrite map_length, seq_length. reflexivity. Qed.

Lemma pairs_small : forall rx, Forall (fun p => 0 <= fst p <= snd p /\ snd p < 2 ^ 62) rx ->
  Forall (fun z => 0 <= z < 2 ^ 63) (pairs rx).
Proof.
  intros rx F. induction F as [|p rx H F IH]; [constructor|]. unfold pairs in *. cbn [flat_map app].
  repeat (constructor; [lia|]). exact IH.
Qed.

Section Launch.
Variables (D : driver) (d0 : device) (buffer : Z) (q : request) (rx : list (Z * Z)) (sl : list Z) (ry : list (Z * Z)).
Hypothesis alloc_D : allocator D.
Hypothesis geo : geometry D q.
Hypothesis comp : compiled D q.

Notation good := (right_launch D q rx sl ry).
Notation state := (state d0 good).
Notation ended := (ended D d0 good).

Lemma g_alloc : forall a n, good (Allocated a n).
Proof. intros. exact I. Qed.
Lemma g_free : forall a, good (Freed a).
Proof. intros. exact I. Qed.
Hint Resolve g_alloc g_free alloc_D : gm.

(** ** Kernels *)

Lemma run_1d_right : forall own new d arg_d out_d (Q : unit -> device -> Prop),
  state own new d -> tag_2d q = false -> (sparse_request q = false \/ tag_zero q = true) ->
  arguments q (live d) (bytes d) arg_d out_d ->
  (forall e t d', is_launch e = true -> state own (new ++ [e]) d' -> live d' = live d ->
     e = Launched t "GpuConv1DOnDevice" (ceiling (nx_of q) (block_size D q)) 1 (block_size D q)
           [nx_of q; ny_of q; out_d; arg_d] (live d) (bytes d) ->
     bytes d' = run D t "GpuConv1DOnDevice" [nx_of q; ny_of q; out_d; arg_d] (bytes d) -> Q tt d') ->
  wp (run_1d (nx_of q) (ny_of q) (block_size D q) arg_d out_d) D d Q ended.
Proof.
  intros own new d arg_d out_d Q S T2 Z0 A H. pose proof (block_size_right D q geo) as TH.
  pose proof geo as (_ & _ & _ & _ & _ & _ & _ & NX & _).
  assert (B : 0 < block_size D q) by apply TH. unfold run_1d.
  destruct (Z.eqb_spec (block_size D q) 0); [lia|]. apply wp_bind.
  eapply wp_get with (own := own) (new := new).
  - apply comp. rewrite T2. destruct Z0 as [-> | ->]; [cbn; auto|]. rewrite andb_false_r. cbn. auto.
  - exact S.
  - intros d1 S1 B1 L1. pose proof (ceiling_covers _ _ NX B) as C. pose proof (covers_range _ _ _ B (proj1 NX) C).
    eapply wp_launch with (own := own) (new := new); [lia|lia|lia|exact S1| |].
    + intros t. rewrite B1, L1. split; [rewrite <- L1; apply (state_sane _ _ _ _ _ S1)|]. split; [exact TH|].
      left. split; [reflexivity|]. split; [exact T2|]. split; [exact Z0|]. split; [reflexivity|]. split; [exact C|].
      exists arg_d, out_d. split; [reflexivity|exact A].
    + intros t d2 S2 B2 L2. rewrite B1, L1 in *. eapply H with (t := t); [|exact S2|congruence|reflexivity|exact B2]. reflexivity.
Qed.

Lemma run_2d_right : forall own new d arg_d out_d (Q : unit -> device -> Prop),
  state own new d -> tag_2d q = true ->
  arguments q (live d) (bytes d) arg_d out_d ->
  (forall new' e1 e2 a t' d', state own (new ++ [new'; e1; e2; Freed a]) d' ->
     is_launch new' = false -> is_launch e1 = true -> is_launch e2 = true ->
     (forall l, filter is_launch l = [e1; e2] -> kernels_run D q l) ->
     (exists gx gy b params blocks m, e2 = Launched t' "reduce2D" gx gy b params blocks m
        /\ bytes d' = run D t' "reduce2D" params m /\ nth_error params 1 = Some out_d) -> Q tt d') ->
  wp (run_2d q (nx_of q) (ny_of q) (block_size D q) arg_d out_d) D d Q ended.
Proof.
  intros own new d arg_d out_d Q S T2 A H. pose proof (block_size_right D q geo) as TH.
  pose proof geo as (TS & _ & _ & _ & _ & _ & _ & NX & NY & DR & ND & SZ).
  assert (B : 0 < block_size D q) by apply TH. unfold run_2d. set (bs := block_size D q) in *.
  destruct (Z.eqb_spec bs 0); [lia|].
  pose proof (ceiling_covers _ _ NX B) as C1. pose proof (covers_range _ _ _ B (proj1 NX) C1) as R1.
  pose proof (ceiling_covers _ _ NY B) as C2. pose proof (covers_range _ _ _ B (proj1 NY) C2) as R2.
  assert (N3 : 0 < nx_of q * dimred q < 2 ^ 32) by nia.
  pose proof (ceiling_covers _ _ N3 B) as C3. pose proof (covers_range _ _ _ B (proj1 N3) C3) as R3.
  set (gy := ceiling (ny_of q) bs) in *. set (nd := nx_of q * dimred q) in *.
  assert (SB : 0 < type_size q * (nd * gy) < 2 ^ 64).
  { split; [nia|]. eapply Z.le_lt_trans; [|exact SZ]. apply Z.mul_le_mono_nonneg_l; [lia|]. apply Z.mul_le_mono_nonneg_l; lia. }
  apply wp_bind. rewrite size_t_small by lia.
  eapply wp_alloc with (own := own) (new := new); [eauto with gm|eauto with gm|lia|exact S|].
  intros outB d1 S1 B1 P1 _ L1.
  apply wp_bind. eapply wp_get; [apply comp; rewrite T2; cbn; auto|exact S1|]. intros d2 S2 B2 L2.
  assert (I2 : incl (live d) (live d2)) by (rewrite L2, L1; intros x X; right; exact X).
  assert (O2 : In (outB, type_size q * (nd * gy)) (live d2)) by (rewrite L2, L1; left; reflexivity).
  assert (A2 : arguments q (live d2) (bytes d2) arg_d out_d).
  { rewrite B2, B1. eapply arguments_more; eassumption. }
  apply wp_bind. eapply wp_launch with (d := d2); [lia|lia|lia|exact S2| |].
  - intros t. split; [apply (state_sane _ _ _ _ _ S2)|]. split; [exact TH|]. right. right. left.
    split; [reflexivity|]. split; [exact T2|]. split; [exact C1|]. split; [exact C2|].
    exists outB, arg_d, out_d. split; [reflexivity|]. split; [exact A2|]. exact O2.
  - intros t d3 S3 B3 L3.
    apply wp_bind. eapply wp_plain; [exact S3|]. intros d4 S4 L4 B4.
    apply wp_bind. eapply wp_get; [apply comp; rewrite T2; cbn; auto|exact S4|]. intros d5 S5 B5 L5.
    apply wp_bind. eapply wp_launch with (d := d5); [lia|lia|lia|exact S5| |].
    + intros t'. split; [apply (state_sane _ _ _ _ _ S5)|]. split; [exact TH|]. right. right. right.
      split; [reflexivity|]. split; [exact T2|]. split; [reflexivity|]. split; [exact C3|].
      exists outB, out_d, gy. split; [reflexivity|]. split; [exact C2|].
      rewrite L5, L4, L3. split; [exact O2|]. destruct A2 as (l & _ & _ & _ & A4).
      destruct (out q); [exact (proj1 A4)|exact A4].
    + intros t' d6 S6 B6 L6. rewrite <- !app_assoc in S6. cbn [app] in S6.
      eapply wp_free with (o1 := []) (o2 := own); [exact g_free|exact S6|].
      intros d7 S7 B7. rewrite <- !app_assoc in S7. cbn [app] in S7. eapply H with (t' := t');
        [exact S7|reflexivity|reflexivity|reflexivity| |].
      * intros l E. unfold kernels_run. rewrite T2. rewrite B5, B4, B3 in E. do 16 eexists. exact E.
      * do 6 eexists. split; [reflexivity|]. split; [rewrite B7; exact B6|]. reflexivity.
Qed.

(** ** Tables *)

Definition made (t : tables) (table : list (Z * Z * Z)) (own' : list (Z * Z)) (d' : device) : Prop :=
  cuts (block_size D q) 0 rx table /\ nblocks t = Z.of_nat (length table) /\ 0 < nblocks t < 2 ^ 32
  /\ (exists p, p <> buffer /\ kept d' p (ptr (lookup_d t)) (words (flat3 table)))
  /\ (exists p, p <> buffer /\ kept d' p (ptr (slices_d t)) (words sl))
  /\ (exists p, p <> buffer /\ kept d' p (ptr (ranges_d t)) (words (pairs ry)))
  /\ (match batch q with
      | Some bt => exists p, p <> buffer /\ kept d' p (ptr (offsets_d t))
                     (words (flat_map (fun e => offset_row bt (fst (fst e)) (snd (fst e))) table))
      | None => True
      end)
  /\ (forall d2 new2 (Q : unit -> device -> Prop), state own' new2 d2 ->
        (forall d3 l, state [] (new2 ++ l) d3 -> bytes d3 = bytes d2 -> Forall (fun e => exists a, e = Freed a) l -> Q tt d3) ->
        wp (destroys q t) D d2 Q ended).

Definition quiet (l : list event) : Prop := filter is_launch l = [].

Lemma quiet_app : forall l e, quiet l -> is_launch e = false -> quiet (l ++ [e]).
Proof. intros l e Q E. unfold quiet in *. rewrite filter_app, Q. cbn. rewrite E. reflexivity. Qed.

Lemma wp_destroy_owned : forall a n o1 o2 new d (Q : unit -> device -> Prop), 0 < a -> state (o1 ++ (a, n) :: o2) new d ->
  (forall d', state (o1 ++ o2) (new ++ [Freed a]) d' -> bytes d' = bytes d -> Q tt d') ->
  wp (destroy {| ptr := a; owned := true |}) D d Q ended.
Proof.
  intros a n o1 o2 new d Q P S H. unfold destroy. cbn [ptr owned]. destruct (Z.eqb_spec a 0); [lia|]. cbn [andb negb].
  eapply wp_free; [exact g_free|exact S|]. exact H.
Qed.

(** Reading the number of blocks and the table. *)
Lemma table_steps : forall b d, 0 < b -> proper_ranges rx -> exists table,
  count_blocks b (pairs rx) (seq 0 (length rx)) 0 D d = (Done (Z.of_nat (length table)), d)
  /\ (forall d', entries b (pairs rx) (seq 0 (length rx)) D d' = (Done table, d'))
  /\ cuts b 0 rx table /\ 0 < Z.of_nat (length table) < 2 ^ 32.
Proof.
  intros b d B (F & T & L).
  assert (F' : Forall (fun p => fst p <= snd p) rx) by (eapply Forall_impl; [|exact F]; cbv beta; lia).
  destruct (entries_right b D d B rx [] F' 0) as (l & E & C & K & T1 & T2). cbn [app length] in *.
  exists l. split; [exact K|]. split; [|split; [exact C|]; specialize (T2 (proj1 T)); lia].
  intros d'. destruct (entries_right b D d' B rx [] F' 0) as (l' & E' & C' & K' & _). cbn [app length] in *.
  assert (l' = l); [|subst; exact E'].
  clear - C C' B F'. revert l l' C C'. generalize (Z.of_nat 0). induction rx as [|[s e] r IH]; intros i l l' C C'.
  - inversion C; inversion C'; subst. reflexivity.
  - inversion C as [|? ? ? ? l1 l2 X Y]; inversion C' as [|? ? ? ? k1 k2 X' Y']; subst. inversion F'; subst.
    f_equal; [|eapply IH; eassumption]. clear - X X'. revert k1 X'.
    induction X as [s|s e l U X IX]; intros k X'; inversion X'; subst; try lia; [reflexivity|]. f_equal. apply IX. assumption.
Qed.

Lemma finish_user : forall d s y ps py new, proper_ranges rx -> batch q = None ->
  In (buffer, 8 * Z.of_nat (length (args q))) (live d) -> state [] new d -> quiet new ->
  ps <> buffer -> kept d ps (ptr s) (words sl) -> py <> buffer -> kept d py (ptr y) (words (pairs ry)) ->
  owned s = false -> owned y = false -> forall (Q : tables -> device -> Prop),
  (forall t table own' new' d', state own' new' d' -> quiet new' -> incl (live d) (live d') -> made t table own' d' -> Q t d') ->
  wp (finish q (Z.of_nat (length rx)) (block_size D q) (pairs rx) s y) D d Q ended.
Proof.
  intros d s y ps py new PR EB IB S QU NS KS NY KY OS OY Q H.
  assert (B : 0 < block_size D q) by apply (block_size_right D q geo).
  destruct (table_steps (block_size D q) d B PR) as (table & E1 & E2 & C & T). unfold finish. rewrite Nat2Z.id. cbv zeta.
  apply wp_bind. eapply wp_eq; [exact E1|]. apply wp_bind. eapply wp_eq; [apply E2|].
  apply wp_bind. eapply wp_eq; [apply lookup_vector_right|].
  apply wp_bind. unfold allocate. apply wp_bind. rewrite size_t_small by lia.
  eapply wp_alloc with (own := []) (new := new); [eauto with gm|eauto with gm|lia|exact S|].
  intros a d1 S1 B1 P1 F1 L1. apply wp_ret.
  assert (LN : Z.of_nat (length (words (flat3 table))) = 8 * 3 * Z.of_nat (length table))
    by (rewrite words_length, flat3_length; lia).
  apply wp_bind. unfold copy_from_host. cbn [ptr]. rewrite size_t_small by lia.
  eapply wp_copy_to; [exact LN|exact S1| |].
  { left. exists (a, 8 * 3 * Z.of_nat (length table)). split; [rewrite L1; left; reflexivity|]. cbn [fst snd]. lia. }
  intros d2 S2 B2 L2. rewrite EB. cbn [offsets_pointer]. apply wp_bind. apply wp_ret. apply wp_ret.
  assert (I1 : incl (live d) (live d1)) by (rewrite L1; intros x X; right; exact X).
  eapply H with (table := table); [exact S2|apply quiet_app; [exact QU|reflexivity]|rewrite L2; exact I1|].
  split; [exact C|]. split; [reflexivity|]. split; [exact T|]. cbn [lookup_d slices_d ranges_d offsets_d ptr].
  assert (KP : forall p x l, kept d p x l -> kept d2 p x l).
  { intros p x l K. pose proof (kept_fresh _ _ _ _ _ K F1) as NE.
    eapply kept_write with (p' := a) (n' := 8 * 3 * Z.of_nat (length table)) (dst := a);
      [apply (state_sane _ _ _ _ _ S1)|eapply kept_same; eassumption|rewrite L1; left; reflexivity|lia| |exact NE|exact B2|exact L2].
    rewrite LN. lia. }
  split; [exists a; split|].
  { intros ->. apply (F1 _ IB). reflexivity. }
  { eapply kept_new; [rewrite L2, L1; left; reflexivity|exact LN|exact B2]. }
  split; [exists ps; split; [exact NS|apply KP; exact KS]|].
  split; [exists py; split; [exact NY|apply KP; exact KY]|].
  rewrite EB. split; [exact I|].
  intros d3 new3 R S3 HR. unfold destroys. cbn [lookup_d slices_d ranges_d].
  apply wp_bind. eapply wp_destroy_owned with (o1 := []) (o2 := []); [exact P1|exact S3|].
  intros d4 S4 B4. unfold destroy at 1. rewrite OS. cbn [andb]. apply wp_bind. apply wp_ret.
  unfold destroy. rewrite OY. cbn [andb]. apply wp_bind. apply wp_ret. rewrite EB. apply wp_ret.
  eapply HR; [exact S4|exact B4|]. constructor; [eexists; reflexivity|constructor].
Qed.

Lemma tables_right : forall sp new d (Q : tables -> device -> Prop), device_data q ->
  In (buffer, 8 * Z.of_nat (length (args q))) (live d) ->
  (match batch q, user q with Some b, None => sp = batch_sparse b | None, Some u => sp = u | _, _ => False end) ->
  pattern q buffer d rx sl ry -> proper_ranges rx -> state [] new d -> quiet new ->
  (forall t table own' new' d', state own' new' d' -> quiet new' -> incl (live d) (live d') -> made t table own' d' -> Q t d') ->
  wp (range_preprocess_from_device q sp (block_size D q)) D d Q ended.
Proof.
  intros sp new d Q DD IB SP PT PR S QU H.
  assert (B : 0 < block_size D q) by apply (block_size_right D q geo).
  pose proof PR as (F & T & L). pose proof (pairs_small _ F) as PS.
  unfold range_preprocess_from_device.
  set (nranges := if tag_i q then nranges_y sp else nranges_x sp).
  set (ranges_x := if tag_i q then ranges_j sp else ranges_i sp).
  set (slices_x := if tag_i q then slices_j sp else slices_i sp).
  set (ranges_y := if tag_i q then redranges_i sp else redranges_j sp). cbv zeta.
  unfold pattern in PT. destruct (batch q) as [b|] eqn:EB; destruct (user q) as [u|] eqn:EU; try contradiction; subst sp.
  - (* batches *)
    destruct PT as (Erx & Esl & Ery & OR & SV & BM & BN & NM & NN & OS).
    assert (NB : nranges = Z.of_nat (length rx)).
    { unfold nranges, batch_sparse. cbn [nranges_y nranges_x].
      assert (0 < nbatches b).
      { destruct (Z.le_gt_cases (nbatches b) 0) as [Le|]; [|lia]. exfalso.
        rewrite Erx in T. unfold intervals in T. replace (Z.to_nat (nbatches b)) with 0%nat in T by lia. cbn in T. lia. }
      rewrite Erx, intervals_length. destruct (tag_i q); lia. }
    assert (ERX : ranges_x = Host (words (pairs rx))).
    { unfold ranges_x, batch_sparse. cbn. rewrite Erx. destruct (tag_i q); rewrite batch_words_pairs; reflexivity. }
    assert (ESL : slices_x = Host (words sl)).
    { unfold slices_x, batch_sparse. cbn. rewrite Esl. destruct (tag_i q); reflexivity. }
    assert (ERY : ranges_y = Host (words (pairs ry))).
    { unfold ranges_y, batch_sparse. cbn. rewrite Ery. destruct (tag_i q); rewrite batch_words_pairs; reflexivity. }
    assert (NSL : length sl = length rx).
    { rewrite Esl, Erx, map_length, seq_length, intervals_length. reflexivity. }
    assert (NRY : length ry = length rx) by (rewrite Ery, Erx, !intervals_length; reflexivity).
    rewrite ERX, ESL, ERY, NB. set (nr := Z.of_nat (length rx)) in *.
    assert (NR : 0 < nr).
    { unfold nr. destruct rx; [cbn in T; lia|cbn [length]; lia]. }
    apply wp_bind. apply wp_bind. cbn [host_words]. apply wp_ret.
    replace (decode (Z.to_nat (2 * nr)) (words (pairs rx))) with (pairs rx).
    2:{ rewrite <- (decode_words (pairs rx) PS) at 1. f_equal. rewrite pairs_length. unfold nr. lia. }
    assert (L1' : Z.of_nat (length (words sl)) = 8 * nr) by (rewrite words_length, NSL; unfold nr; lia).
    assert (L2' : Z.of_nat (length (words (pairs ry))) = 8 * 2 * nr) by (rewrite words_length, pairs_length, NRY; unfold nr; lia).
    apply wp_bind. unfold allocate at 1. apply wp_bind. rewrite (size_t_small (8 * nr)) by lia.
    eapply wp_alloc with (own := []) (new := new); [eauto with gm|eauto with gm|lia|exact S|].
    intros s d1 S1 B1 P1 F1 V1. apply wp_ret. unfold copy_from_host at 1. cbn [ptr]. apply wp_bind.
    rewrite (size_t_small (8 * nr)) by lia.
    eapply wp_copy_to; [exact L1'|exact S1|left; exists (s, 8 * nr); split; [rewrite V1; left; reflexivity|cbn [fst snd]; lia]|].
    intros d2 S2 B2 V2.
    assert (K2 : kept d2 s s (words sl)) by (eapply kept_new; [rewrite V2, V1; left; reflexivity|exact L1'|exact B2]).
    apply wp_bind. unfold allocate at 1. apply wp_bind. rewrite (size_t_small (8 * 2 * nr)) by lia.
    eapply wp_alloc; [eauto with gm|eauto with gm|lia|exact S2|].
    intros y d3 S3 B3 P3 F3 V3. apply wp_ret. unfold copy_from_host at 1. cbn [ptr]. apply wp_bind.
    rewrite (size_t_small (8 * 2 * nr)) by lia.
    eapply wp_copy_to; [exact L2'|exact S3|left; exists (y, 8 * 2 * nr); split; [rewrite V3; left; reflexivity|cbn [fst snd]; lia]|].
    intros d4 S4 B4 V4.
    assert (K4 : kept d4 y y (words (pairs ry))) by (eapply kept_new; [rewrite V4, V3; left; reflexivity|exact L2'|exact B4]).
    assert (K4s : kept d4 s s (words sl)).
    { pose proof (kept_fresh _ _ _ _ _ K2 F3) as NE.
      eapply kept_write with (p' := y) (n' := 8 * 2 * nr) (dst := y);
        [apply (state_sane _ _ _ _ _ S3)|eapply kept_same; [exact K2|exact B3|rewrite V3; intros x X; right; exact X]
        |rewrite V3; left; reflexivity|lia|rewrite L2'; lia|exact NE|exact B4|exact V4]. }
    apply wp_ret. cbn [fst snd].
    destruct (table_steps (block_size D q) d4 B PR) as (table & E1 & E2 & C & TT).
    replace (Z.to_nat nr) with (length rx) by (unfold nr; lia).
    apply wp_bind. eapply wp_eq; [exact E1|]. apply wp_bind. eapply wp_eq; [apply E2|].
    apply wp_bind. eapply wp_eq; [apply lookup_vector_right|]. set (n := Z.of_nat (length table)) in *.
    assert (LN : Z.of_nat (length (words (flat3 table))) = 8 * 3 * n) by (rewrite words_length, flat3_length; unfold n; lia).
    apply wp_bind. unfold allocate. apply wp_bind. rewrite (size_t_small (8 * 3 * n)) by lia.
    eapply wp_alloc; [eauto with gm|eauto with gm|lia|exact S4|].
    intros a d5 S5 B5 P5 F5 V5. apply wp_ret. unfold copy_from_host. cbn [ptr]. apply wp_bind.
    rewrite (size_t_small (8 * 3 * n)) by lia.
    eapply wp_copy_to; [exact LN|exact S5|left; exists (a, 8 * 3 * n); split; [rewrite V5; left; reflexivity|cbn [fst snd]; lia]|].
    intros d6 S6 B6 V6.
    assert (K6 : kept d6 a a (words (flat3 table))) by (eapply kept_new; [rewrite V6, V5; left; reflexivity|exact LN|exact B6]).
    assert (KP6 : forall p x l, kept d4 p x l -> kept d6 p x l).
    { intros p x l K. pose proof (kept_fresh _ _ _ _ _ K F5) as NE.
      eapply kept_write with (p' := a) (n' := 8 * 3 * n) (dst := a);
        [apply (state_sane _ _ _ _ _ S5)|eapply kept_same; [exact K|exact B5|rewrite V5; intros z X; right; exact X]
        |rewrite V5; left; reflexivity|lia|rewrite LN; lia|exact NE|exact B6|exact V6]. }
    apply wp_bind. cbn [offsets_pointer]. apply wp_bind. unfold build_offset_tables.
    set (rows_ := flat_map (fun t => offset_row b (fst (fst t)) (snd (fst t))) (triples (Z.to_nat n) (flat3 table))).
    assert (ER : rows_ = flat_map (fun t => offset_row b (fst (fst t)) (snd (fst t))) table).
    { unfold rows_. unfold n. rewrite Nat2Z.id, triples_flat3. reflexivity. }
    assert (LO : Z.of_nat (length (words rows_)) = 8 * n * sizevars b).
    { rewrite words_length, ER. pose proof (flat_rows_length b table OR) as FL. fold n in FL. lia. }
    assert (SO : 0 < 8 * n * sizevars b < 2 ^ 64).
    { split; [nia|]. eapply Z.le_lt_trans; [|exact OS]. apply Z.mul_le_mono_nonneg_r; lia. }
    cbv zeta. rewrite size_t_small by lia. apply wp_bind.
    eapply wp_alloc; [eauto with gm|eauto with gm|lia|exact S6|].
    intros o d7 S7 B7 P7 F7 V7. apply wp_bind.
    eapply wp_copy_to; [exact LO|exact S7|left; exists (o, 8 * n * sizevars b); split; [rewrite V7; left; reflexivity|cbn [fst snd]; lia]|].
    intros d8 S8 B8 V8. apply wp_ret. apply wp_ret. apply wp_ret.
    assert (KP8 : forall p x l, kept d6 p x l -> kept d8 p x l).
    { intros p x l K. pose proof (kept_fresh _ _ _ _ _ K F7) as NE.
      eapply kept_write with (p' := o) (n' := 8 * n * sizevars b) (dst := o);
        [apply (state_sane _ _ _ _ _ S7)|eapply kept_same; [exact K|exact B7|rewrite V7; intros z X; right; exact X]
        |rewrite V7; left; reflexivity|lia|rewrite LO; lia|exact NE|exact B8|exact V8]. }
    assert (I8 : incl (live d) (live d8)).
    { rewrite V8, V7, V6, V5, V4, V3, V2, V1. intros x X. do 4 right. exact X. }
    assert (I2 : incl (live d) (live d2)) by (rewrite V2, V1; intros x X; right; exact X).
    assert (I4 : incl (live d) (live d4)) by (rewrite V4, V3, V2, V1; intros x X; do 2 right; exact X).
    assert (I6 : incl (live d) (live d6)) by (rewrite V6, V5, V4, V3, V2, V1; intros x X; do 3 right; exact X).
    eapply H with (table := table); [exact S8| |exact I8|].
    { repeat (apply quiet_app; [|reflexivity]). exact QU. }
    split; [exact C|]. split; [reflexivity|]. split; [exact TT|]. cbn [lookup_d slices_d ranges_d offsets_d ptr].
    split; [exists a; split; [intros ->; exact (F5 _ (I4 _ IB) eq_refl)|apply KP8; exact K6]|].
    split; [exists s; split; [intros ->; exact (F1 _ IB eq_refl)|apply KP8, KP6; exact K4s]|].
    split; [exists y; split; [intros ->; exact (F3 _ (I2 _ IB) eq_refl)|apply KP8, KP6; exact K4]|].
    rewrite EB. split.
    { exists o. split; [intros ->; exact (F7 _ (I6 _ IB) eq_refl)|]. rewrite <- ER.
      eapply kept_new; [rewrite V8, V7; left; reflexivity|exact LO|exact B8]. }
    intros d9 new9 R S9 HR. unfold destroys. cbn [lookup_d slices_d ranges_d offsets_d]. rewrite EB.
    apply wp_bind. eapply wp_destroy_owned with (o1 := [(o, 8 * n * sizevars b)]) (o2 := [(y, 8 * 2 * nr); (s, 8 * nr)]);
      [exact P5|exact S9|]. intros e1 T1 U1.
    apply wp_bind. eapply wp_destroy_owned with (o1 := [(o, 8 * n * sizevars b); (y, 8 * 2 * nr)]) (o2 := []);
      [exact P1|exact T1|]. intros e2 T2 U2.
    apply wp_bind. eapply wp_destroy_owned with (o1 := [(o, 8 * n * sizevars b)]) (o2 := []);
      [exact P3|exact T2|]. intros e3 T3 U3.
    eapply wp_destroy_owned with (o1 := []) (o2 := []); [exact P7|exact T3|]. intros e4 T4 U4.
    rewrite <- !app_assoc in T4. eapply HR; [exact T4|congruence|].
    repeat (constructor; [eexists; reflexivity|]). constructor.
  - (* ranges of the user *)
    destruct PT as (ax & ash & ay & PQ & HX & WX & FK). inversion FK as [|? ? (ps & ns & I1 & I2 & I3 & I4 & I5) FK']; subst.
    inversion FK' as [|? ? (py & ny & J1 & J2 & J3 & J4 & J5) _]; subst. cbn [fst snd] in *.
    assert (PX : ranges_x = Device ax /\ slices_x = Device ash /\ ranges_y = Device ay /\ nranges = Z.of_nat (length rx)).
    { unfold ranges_x, slices_x, ranges_y, nranges. destruct (tag_i q); exact PQ. }
    destruct PX as (-> & -> & -> & ->). set (nr := Z.of_nat (length rx)) in *.
    assert (KS : kept d ps ash (words sl)).
    { exists ns. rewrite words_length. split; [exact I1|]. split; [exact I2|]. split; [lia|exact I5]. }
    assert (KY : kept d py ay (words (pairs ry))).
    { exists ny. rewrite words_length. split; [exact J1|]. split; [exact J2|]. split; [lia|exact J5]. }
    assert (NR : 0 < nr).
    { unfold nr. destruct rx; [cbn in T; lia|cbn [length]; lia]. }
    apply wp_bind. apply wp_bind. rewrite size_t_small by lia.
    eapply wp_copy_unchecked; [exact S| | |].
    + replace (8 * 2 * nr) with (16 * nr) by lia. exact WX.
    + intros d1 S1 B1 V1. cbn [set_from_device]. apply wp_bind. apply wp_ret. apply wp_bind. apply wp_ret. apply wp_ret.
      cbn [fst snd].
      replace (read (bytes d) ax (Z.to_nat (8 * 2 * nr))) with (words (pairs rx)).
      2:{ rewrite <- (read_holds _ _ _ HX) at 1. f_equal. rewrite words_length, pairs_length. unfold nr. lia. }
      replace (decode (Z.to_nat (2 * nr)) (words (pairs rx))) with (pairs rx).
      2:{ rewrite <- (decode_words (pairs rx) PS) at 1. f_equal. rewrite pairs_length. unfold nr. lia. }
      rewrite <- EB. fold (finish q nr (block_size D q) (pairs rx) {| ptr := ash; owned := false |} {| ptr := ay; owned := false |}).
      eapply finish_user with (ps := ps) (py := py) (new := new); try eassumption; try reflexivity; cbn [ptr].
      * rewrite V1. exact IB.
      * eapply kept_same; [exact KS|exact B1|rewrite V1; apply incl_refl].
      * eapply kept_same; [exact KY|exact B1|rewrite V1; apply incl_refl].
      * intros t table own' new' d' X1 X2 X3 X4. rewrite V1 in X3. eapply H; eassumption.
    + intros d1 S1 FL. cbn [set_from_device]. apply wp_bind. apply wp_ret. apply wp_bind. apply wp_ret. apply wp_ret.
      cbn [fst snd].
      assert (ZF : Forall (fun i => (2 * i + 1 < Z.to_nat (2 * nr))%nat) (seq 0 (Z.to_nat nr))).
      { apply Forall_forall. intros i X. apply in_seq in X. lia. }
      destruct (zero_blocks (block_size D q) D d1 _ _ 0 B ZF) as [Z1 Z2].
      apply wp_bind. eapply wp_eq; [exact Z1|]. apply wp_bind. eapply wp_eq; [exact Z2|].
      apply wp_bind. apply wp_ret. apply wp_bind. unfold allocate. apply wp_bind.
      eapply wp_alloc_none; eassumption.
Qed.
End Launch.
