(** Proofs about the K-min reductions. *)

From Coq Require Import ZArith Reals Arith Lia Lra List Bool Sorted Permutation.
From Verif Require Import Result XReal Reductions ReductionSpec RedLoops C06Proofs.
Import ListNotations.

Lemma to_of_long : forall z, to_long (of_long z) = z.
Proof.
  intros z. unfold to_long, of_long. assert (G : forall z, Int_part (IZR z) = z).
  { intros y. unfold Int_part. rewrite <- (tech_up (IZR y) (y + 1)).
    - lia.
    - apply IZR_lt. lia.
    - rewrite plus_IZR. lra. }
  destruct (Rlt_dec (IZR z) 0); [|apply G]. rewrite <- opp_IZR. rewrite G. lia.
Qed.

Lemma cell_inj : forall f k k' t t', k < f -> k' < f -> k + t * f = k' + t' * f -> k = k' /\ t = t'.
Proof.
  intros f k k' t t' Hk Hk' E.
  assert (t = t').
  { assert (A : (k + t * f) / f = t) by (rewrite Nat.div_add by lia; rewrite Nat.div_small; lia).
    assert (B : (k' + t' * f) / f = t') by (rewrite Nat.div_add by lia; rewrite Nat.div_small; lia).
    congruence. }
  subst. split; lia.
Qed.

(** Component k of the accumulator holds the list L of K slots. *)
Definition slot (acc : cells) (f k s : nat) : xr * xr :=
  (acc (k + (2 * s) * f), acc (k + (2 * s + 1) * f)).
Definition cellpair (e : xr * Z) : xr * xr := (fst e, of_long (snd e)).
Definition holds (K f k : nat) (acc : cells) (g : nat -> xr * Z) : Prop :=
  forall s, s < K -> slot acc f k s = cellpair (g s).

Lemma upd_slot : forall f k k' s s' acc v i, k < f -> k' < f ->
  slot (upd (upd acc (k + (2 * s) * f) v) (k + (2 * s + 1) * f) i) f k' s' =
  if Nat.eqb k' k && Nat.eqb s' s then (v, i) else slot acc f k' s'.
Proof.
  intros f k k' s s' acc v i Hk Hk'. unfold slot.
  destruct (Nat.eqb_spec k' k) as [->|N]; cbn [andb].
  - destruct (Nat.eqb_spec s' s) as [->|N'].
    + rewrite upd_same. rewrite upd_other by (intros E; apply cell_inj in E; lia). now rewrite upd_same.
    + rewrite !upd_other by (intros E; apply cell_inj in E; lia). reflexivity.
  - rewrite !upd_other by (intros E; apply cell_inj in E; lia). reflexivity.
Qed.

Lemma kmin_insert_spec : forall K f k x ind n acc g, k < f -> n <= K ->
  holds K f k acc g ->
  let r := kmin_insert K f k x ind n acc in
  (exists m, m <= n /\
     (forall s, s < m -> xltb x (fst (g s)) = false \/ s < pred m) /\
     (forall s, m <= s < n -> xltb x (fst (g s)) = true) /\
     (0 < m -> xltb x (fst (g (pred m))) = false) /\
     holds K f k r (fun s => if s <? m then g s else
                             if n <? s then g s else
                             if m =? n then g s else
                             if s =? m then (x, ind) else g (pred s))) /\
  (forall k' s, k' < f -> k' <> k -> slot r f k' s = slot acc f k' s).
Proof.
  intros K f k x ind n. induction n as [|s IH]; intros acc g Hk Hn Hg; cbn [kmin_insert].
  - split.
    + exists 0. split; [lia|]. split; [lia|]. split; [lia|]. split; [lia|].
      intros s Hs. rewrite (Hg s Hs). destruct (0 <? s) eqn:E1, (s <? 0) eqn:E2; try reflexivity.
    + reflexivity.
  - assert (E1 : k + s * (2 * f) = k + (2 * s) * f) by lia.
    assert (E2 : k + s * (2 * f) + f = k + (2 * s + 1) * f) by lia.
    assert (E3 : k + s * (2 * f) + 2 * f = k + (2 * S s) * f) by lia.
    assert (E4 : k + s * (2 * f) + 2 * f + f = k + (2 * S s + 1) * f) by lia.
    rewrite E4, E3, E2, E1.
    assert (Gs : slot acc f k s = cellpair (g s)) by (apply Hg; lia).
    assert (G1 : acc (k + 2 * s * f) = fst (g s)) by exact (f_equal fst Gs).
    assert (G2 : acc (k + (2 * s + 1) * f) = of_long (snd (g s))) by exact (f_equal snd Gs).
    rewrite G1, G2. rewrite to_of_long.
    destruct (xltb x (fst (g s))) eqn:L.
    + set (acc2 := if k + (2 * s) * f <? k + 2 * f * (K - 1) then _ else _).
      set (g2 := fun t => if t =? s then (x, ind) else if t =? S s then g s else g t).
      assert (H2 : holds K f k acc2 g2).
      { intros t Ht. unfold acc2, g2. destruct (Nat.ltb_spec (k + (2 * s) * f) (k + 2 * f * (K - 1))) as [Q|Q].
        - rewrite upd_slot by assumption. rewrite upd_slot by assumption. rewrite Nat.eqb_refl. cbn [andb].
          destruct (Nat.eqb_spec t (S s)); [destruct (Nat.eqb_spec t s); [lia|reflexivity]|].
          destruct (Nat.eqb_spec t s); [reflexivity|]. apply Hg; assumption.
        - rewrite upd_slot by assumption. rewrite Nat.eqb_refl. cbn [andb].
          destruct (Nat.eqb_spec t s); [reflexivity|].
          destruct (Nat.eqb_spec t (S s)); [exfalso; nia|]. apply Hg; assumption. }
      assert (H3 : forall k' t, k' < f -> k' <> k -> slot acc2 f k' t = slot acc f k' t).
      { intros k' t Hk' Hne. unfold acc2. destruct (k + (2 * s) * f <? k + 2 * f * (K - 1));
          rewrite ?upd_slot by assumption; destruct (Nat.eqb_spec k' k); try lia; reflexivity. }
      destruct (IH acc2 g2 Hk) as [[m [M1 [M2 [M3 [M4 M5]]]]] O]; [lia|exact H2|].
      assert (Gt : forall t, t < s -> g2 t = g t).
      { intros t Ht. unfold g2. destruct (Nat.eqb_spec t s); [lia|]. destruct (Nat.eqb_spec t (S s)); [lia|reflexivity]. }
      split.
      * exists m. split; [lia|]. split.
        { intros t Ht. destruct (M2 t Ht) as [A|A]; [left|right; assumption]. rewrite Gt in A by lia. exact A. }
        split.
        { intros t Ht. destruct (Nat.eq_dec t s) as [->|Q]; [exact L|]. rewrite <- (Gt t) by lia. apply M3. lia. }
        split.
        { intros Hm. rewrite <- (Gt (pred m)) by lia. apply M4; assumption. }
        intros t Ht. rewrite (M5 t Ht). f_equal.
        destruct (Nat.ltb_spec t m); [apply Gt; lia|].
        destruct (Nat.eqb_spec m (S s)); [lia|].
        destruct (Nat.ltb_spec (S s) t).
        { destruct (Nat.ltb_spec s t); [|lia]. unfold g2. destruct (Nat.eqb_spec t s); [lia|].
          destruct (Nat.eqb_spec t (S s)); [lia|reflexivity]. }
        destruct (Nat.ltb_spec s t).
        { assert (t = S s) by lia. subst t. destruct (Nat.eqb_spec (S s) m); [lia|].
          unfold g2. destruct (Nat.eqb_spec (S s) s); [lia|]. rewrite Nat.eqb_refl. reflexivity. }
        destruct (Nat.eqb_spec m s).
        { assert (t = s) by lia. subst t. destruct (Nat.eqb_spec s m); [|lia].
          unfold g2. rewrite Nat.eqb_refl. reflexivity. }
        destruct (Nat.eqb_spec t m); [reflexivity|]. apply Gt. lia.
      * intros k' t Hk' Hne. rewrite (O k' t Hk' Hne). apply H3; assumption.
    + split.
      * exists (S s). split; [lia|]. split.
        { intros t Ht. destruct (Nat.eq_dec t s) as [->|Q]; [left; exact L|right; cbn; lia]. }
        split; [lia|]. split; [intros _; exact L|].
        intros t Ht. rewrite Nat.eqb_refl. rewrite (Hg t Ht).
        destruct (t <? S s), (S s <? t); reflexivity.
      * reflexivity.
Qed.

(** One step of the reduction on all components. *)
Lemma kmin_short_spec : forall K f acc xi ind (g : nat -> nat -> xr * Z),
  (forall k, k < f -> holds K f k acc (g k)) ->
  forall k, k < f -> exists m, m <= K /\
     (forall s, m <= s < K -> xltb (xi k) (fst (g k s)) = true) /\
     (0 < m -> xltb (xi k) (fst (g k (pred m))) = false) /\
     holds K f k (kmin_short K f acc xi ind)
       (fun s => if s <? m then g k s else if s =? m then (xi k, ind) else g k (pred s)).
Proof.
  intros K f acc xi ind g H. unfold kmin_short.
  assert (G : forall n, n <= f ->
    let r := for_up n (fun k a => kmin_insert K f k (xi k) ind K a) acc in
    (forall k, k < n -> exists m, m <= K /\
     (forall s, m <= s < K -> xltb (xi k) (fst (g k s)) = true) /\
     (0 < m -> xltb (xi k) (fst (g k (pred m))) = false) /\
     holds K f k r
       (fun s => if s <? m then g k s else if s =? m then (xi k, ind) else g k (pred s))) /\
    (forall k, n <= k < f -> holds K f k r (g k))).
  { induction n; intros Hn; cbv zeta; cbn [for_up].
    - split; [lia|]. intros; apply H; lia.
    - destruct IHn as [A B]; [lia|]. set (r := for_up n _ acc) in *.
      destruct (kmin_insert_spec K f n (xi n) ind K r (g n)) as [[m [M1 [_ [M3 [M4 M5]]]]] O];
        [lia|lia|apply B; lia|]. split.
      + intros k Hk. destruct (Nat.eq_dec k n) as [->|Q].
        * exists m. split; [assumption|]. split; [assumption|]. split; [assumption|].
          intros s Hs. rewrite (M5 s Hs). f_equal.
          destruct (s <? m) eqn:X; [reflexivity|]. apply Nat.ltb_ge in X.
          destruct (Nat.ltb_spec K s); [lia|]. destruct (Nat.eqb_spec m K); [lia|reflexivity].
        * destruct (A k) as [m' [A1 [A2 [A3 A4]]]]; [lia|]. exists m'. repeat split; try assumption.
          intros s Hs. rewrite <- (A4 s Hs). apply O; lia.
      + intros k Hk s Hs. rewrite <- (B k ltac:(lia) s Hs). apply O; lia. }
  apply (G f); lia.
Qed.

(** ** Lists *)
Lemma lex_trans : forall a b c, lex a b -> lex b c -> lex a c.
Proof.
  intros [a i] [b j] [c k] [A|[A A']] [B|[B B']]; unfold lex; cbn [fst snd] in *; subst; auto.
  - left; eapply xlt_trans; eassumption.
  - right. split; [reflexivity|lia].
Qed.

Lemma SS_app : forall (A : Type) (R : A -> A -> Prop) l1 l2,
  StronglySorted R (l1 ++ l2) <->
  StronglySorted R l1 /\ StronglySorted R l2 /\ forall a b, In a l1 -> In b l2 -> R a b.
Proof.
  induction l1; cbn; intros l2.
  - split; [intros H; repeat split; [constructor|assumption|tauto]|tauto].
  - split.
    + intros H. inversion H; subst. apply IHl1 in H2. destruct H2 as [P [Q T]].
      rewrite Forall_app in H3. destruct H3 as [F1 F2]. rewrite Forall_forall in F1, F2. repeat split.
      * constructor; [assumption|]. now apply Forall_forall.
      * assumption.
      * intros x y [->|Hx] Hy; auto.
    + intros [P [Q T]]. inversion P; subst. constructor.
      * apply IHl1. repeat split; auto.
      * apply Forall_app. split; [assumption|]. apply Forall_forall. auto.
Qed.

Lemma SS_split : forall (A : Type) (R : A -> A -> Prop) n l, StronglySorted R l ->
  StronglySorted R (firstn n l) /\ StronglySorted R (skipn n l) /\
  forall a b, In a (firstn n l) -> In b (skipn n l) -> R a b.
Proof. intros A R n l H. apply SS_app. now rewrite firstn_skipn. Qed.

Lemma nth_error_map_seq : forall (A : Type) (g : nat -> A) n s, s < n ->
  nth_error (map g (seq 0 n)) s = Some (g s).
Proof.
  intros. rewrite nth_error_map. rewrite (nth_error_nth' _ 0) by (rewrite seq_length; lia).
  rewrite seq_nth by lia. reflexivity.
Qed.

Lemma list_eq_nth : forall (A : Type) (l l' : list A),
  (forall s, nth_error l s = nth_error l' s) -> l = l'.
Proof.
  induction l; destruct l'; intros H; try reflexivity; try (specialize (H 0); discriminate).
  f_equal; [specialize (H 0); cbn in H; congruence|]. apply IHl. intros s. apply (H (S s)).
Qed.

Lemma nth_error_firstn' : forall (A : Type) (l : list A) n s,
  nth_error (firstn n l) s = if s <? n then nth_error l s else None.
Proof.
  induction l; intros [|n] [|s]; cbn [firstn nth_error]; try reflexivity.
  - destruct (S s <? S n); reflexivity.
  - rewrite IHl. reflexivity.
Qed.
Lemma nth_error_skipn' : forall (A : Type) (l : list A) n s,
  nth_error (skipn n l) s = nth_error l (n + s).
Proof. induction l; intros [|n] s; cbn; try reflexivity; [destruct s; reflexivity|apply IHl]. Qed.

Definition insert_at (K m : nat) (e : xr * Z) (L : list (xr * Z)) : list (xr * Z) :=
  firstn K (firstn m L ++ e :: skipn m L).

Lemma insert_at_fun : forall K m e g, m <= K ->
  map (fun s => if s <? m then g s else if s =? m then e else g (pred s)) (seq 0 K) =
  insert_at K m e (map g (seq 0 K)).
Proof.
  intros K m e g Hm. unfold insert_at. apply list_eq_nth. intros s.
  rewrite nth_error_firstn'. destruct (Nat.ltb_spec s K) as [Hs|Hs].
  - rewrite nth_error_map_seq by assumption.
    assert (Lm : length (firstn m (map g (seq 0 K))) = m)
      by (rewrite firstn_length, map_length, seq_length; lia).
    destruct (Nat.ltb_spec s m).
    + rewrite nth_error_app1 by lia. rewrite nth_error_firstn'.
      destruct (Nat.ltb_spec s m); [|lia]. now rewrite nth_error_map_seq.
    + rewrite nth_error_app2 by lia. rewrite Lm. destruct (Nat.eqb_spec s m).
      * subst. now rewrite Nat.sub_diag.
      * replace (s - m) with (S (s - m - 1)) by lia. cbn [nth_error]. rewrite nth_error_skipn'.
        replace (m + (s - m - 1)) with (pred s) by lia. rewrite nth_error_map_seq by lia. reflexivity.
  - apply nth_error_None. rewrite map_length, seq_length. lia.
Qed.

(** Inserting one more element. *)
Lemma k_smallest_step : forall K l L x j m,
  k_smallest K l L -> (forall p, In p l -> (snd p < j)%Z) ->
  (forall p, In p l -> fst p <> NaN) -> x <> NaN -> x <> PInf -> m <= K ->
  (forall s v, m <= s < K -> nth_error L s = Some v -> xltb x (fst v) = true) ->
  (0 < m -> forall v, nth_error L (pred m) = Some v -> xltb x (fst v) = false) ->
  k_smallest K (l ++ [(x, j)]) (insert_at K m (x, j) L).
Proof.
  intros K l L x j m [taken [left [HP [HT [HL [HS HX]]]]]] Hj Hnan Hx Hx' Hm Hge Hlt.
  assert (Htl : forall p, In p taken -> In p l).
  { intros p Hp. eapply Permutation_in; [apply Permutation_sym; exact HP|]. apply in_or_app; auto. }
  set (T := length taken) in *.
  assert (Lpos : forall s, s < T -> nth_error L s = nth_error taken s).
  { intros s Hs. rewrite HL. apply nth_error_app1. assumption. }
  assert (Lpad : forall s, T <= s < K -> nth_error L s = Some (PInf, 0%Z)).
  { intros s Hs. rewrite HL. rewrite nth_error_app2 by (fold T; lia). fold T.
    rewrite (nth_error_nth' _ (PInf, 0%Z)) by (rewrite repeat_length; lia).
    rewrite nth_repeat. reflexivity. }
  assert (HmT : m <= T).
  { destruct (le_lt_dec m T) as [|Q]; [assumption|]. exfalso.
    specialize (Hlt ltac:(lia) _ (Lpad (pred m) ltac:(lia))). cbn in Hlt.
    destruct x; try discriminate; congruence. }
  set (ins := firstn m taken ++ (x, j) :: skipn m taken).
  assert (Hins : StronglySorted lex ins).
  { destruct (SS_split _ _ m _ HS) as [S1 [S2 S3]].
    apply SS_app. split; [assumption|]. split.
    - constructor; [assumption|]. apply Forall_forall. intros v Hv. left. cbn [fst].
      apply In_nth_error in Hv. destruct Hv as [s Hv]. rewrite nth_error_skipn' in Hv.
      apply xltb_spec. assert (m + s < T) by (apply nth_error_Some; congruence).
      apply (Hge (m + s)); [lia|]. rewrite Lpos by assumption. assumption.
    - intros a b Ha [Hb|Hb]; [|apply S3; assumption]. subst b.
      assert (Ha' : In a taken) by (rewrite <- (firstn_skipn m taken); apply in_or_app; auto).
      assert (Hxa : xle (fst a) x).
      { destruct m as [|m']; [destruct Ha|].
        destruct (nth_error taken m') as [v|] eqn:Ev;
          [|apply nth_error_None in Ev; fold T in Ev; lia].
        assert (Hv : xltb x (fst v) = false) by (apply Hlt; [lia|]; cbn; rewrite Lpos by lia; assumption).
        assert (Hva : a = v \/ lex a v).
        { apply In_nth_error in Ha. destruct Ha as [s Hs]. rewrite nth_error_firstn' in Hs.
          destruct (Nat.ltb_spec s (S m')) as [Q|Q]; [|discriminate].
          destruct (Nat.eq_dec s m') as [->|Q']; [left; congruence|right].
          destruct (SS_split _ _ m' _ HS) as [_ [_ S6]]. apply S6.
          - apply (nth_error_In _ s). rewrite nth_error_firstn'. destruct (Nat.ltb_spec s m'); [assumption|lia].
          - apply (nth_error_In _ 0). rewrite nth_error_skipn'. rewrite Nat.add_0_r. assumption. }
        assert (Hv' : xle (fst v) x).
        { apply xltb_false; [assumption| |assumption]. apply Hnan. apply Htl. eapply nth_error_In; eassumption. }
        destruct Hva as [->|[Hl|[Hl _]]]; [assumption| |rewrite Hl; assumption].
        eapply xle_trans; [left; exact Hl|assumption]. }
      destruct Hxa as [Hxa|[Hxa _]]; [left; assumption|right]. split; [assumption|].
      cbn. apply Hj. apply Htl. assumption. }
  assert (Pins : Permutation ins ((x, j) :: taken)).
  { unfold ins. rewrite <- (firstn_skipn m taken) at 3. apply Permutation_sym. apply Permutation_cons_app. reflexivity. }
  assert (Lins : length ins = S T) by (rewrite (Permutation_length Pins); reflexivity).
  assert (Perm0 : Permutation (l ++ [(x, j)]) (ins ++ left)).
  { rewrite Pins. cbn. rewrite <- HP. symmetry. apply Permutation_cons_append. }
  assert (Lnew : insert_at K m (x, j) L = firstn K (ins ++ repeat (PInf, 0%Z) (K - length l))).
  { unfold insert_at, ins. rewrite HL. rewrite (firstn_app m taken), (skipn_app m taken). fold T.
    replace (m - T) with 0 by lia. cbn [firstn skipn]. rewrite app_nil_r. rewrite <- app_assoc. reflexivity. }
  destruct (le_lt_dec K (length l)) as [Q|Q].
  - (* full *)
    assert (HTK : T = K) by lia.
    exists (firstn K ins), (skipn K ins ++ left).
    destruct (SS_split _ _ K _ Hins) as [S1 [S2 S3]].
    split; [rewrite app_assoc, firstn_skipn; assumption|].
    split; [rewrite firstn_length, app_length; cbn; lia|].
    split.
    { rewrite Lnew. replace (K - length l) with 0 by lia.
      rewrite app_length. replace (K - (length l + length [(x, j)])) with 0 by (cbn; lia). cbn [repeat].
      now rewrite !app_nil_r. }
    split; [assumption|].
    intros a b Ha Hb. apply in_app_or in Hb. destruct Hb as [Hb|Hb]; [apply S3; assumption|].
    destruct (Nat.eq_dec m K) as [->|HmK].
    + unfold ins in Ha. rewrite firstn_app in Ha.
      rewrite firstn_length in Ha. fold T in Ha. replace (K - min K T) with 0 in Ha by lia.
      cbn [firstn] in Ha. rewrite app_nil_r in Ha. rewrite firstn_firstn in Ha.
      apply HX; [|assumption]. rewrite <- (firstn_skipn (min K K) taken). apply in_or_app. auto.
    + destruct (nth_error ins K) as [c|] eqn:Ec; [|apply nth_error_None in Ec; lia].
      assert (Hac : lex a c).
      { apply S3; [assumption|]. apply (nth_error_In _ 0). rewrite nth_error_skipn'.
        rewrite Nat.add_0_r. assumption. }
      eapply lex_trans; [exact Hac|]. apply HX; [|assumption].
      unfold ins in Ec. rewrite nth_error_app2 in Ec by (rewrite firstn_length; lia).
      rewrite firstn_length in Ec. fold T in Ec. replace (K - min m T) with (S (K - m - 1)) in Ec by lia.
      cbn [nth_error] in Ec. rewrite nth_error_skipn' in Ec. eapply nth_error_In; eassumption.
  - (* not full *)
    assert (HTl : T = length l) by lia.
    assert (left = []).
    { apply Permutation_length in HP. rewrite app_length in HP. fold T in HP.
      destruct left; [reflexivity|cbn in HP; lia]. }
    subst left.
    exists ins, []. split; [assumption|]. split; [rewrite app_length; cbn; lia|]. split.
    { rewrite Lnew. rewrite app_length. cbn [length].
      replace (K - length l) with (S (K - (length l + 1))) by lia.
      rewrite firstn_app. rewrite firstn_all2 by lia. rewrite Lins. f_equal.
      rewrite HTl. replace (K - S (length l)) with (K - (length l + 1)) by lia.
      set (n := K - (length l + 1)). cbn [repeat].
      replace ((PInf, 0%Z) :: repeat (PInf, 0%Z) n) with (repeat (PInf, 0%Z) (S n)) by reflexivity.
      replace (S n) with (n + 1) by lia. rewrite repeat_app. rewrite firstn_app.
      rewrite repeat_length. rewrite firstn_all2 by (rewrite repeat_length; lia).
      rewrite Nat.sub_diag. cbn. now rewrite app_nil_r. }
    split; [assumption|]. intros a b _ [].
Qed.

(** ** The whole run *)

Definition flip2 (p : Z * xr) : xr * Z := (snd p, fst p).
Definition col2 (k : nat) (l : list (Z * cells)) : list (xr * Z) := map flip2 (column k l).

(** Component k of the accumulator holds the K smallest elements of l. *)
Definition kinv (K f : nat) (acc : cells) (l : list (Z * cells)) : Prop :=
  forall k, k < f -> exists g, holds K f k acc g /\ k_smallest K (col2 k l) (map g (seq 0 K)).

Lemma col2_app : forall k l z x, col2 k (l ++ [(z, x)]) = col2 k l ++ [(x k, z)].
Proof. intros. unfold col2, column. rewrite !map_app. reflexivity. Qed.

Lemma choose_fin : forall (A : Type) (P : nat -> A -> Prop) (d : A) n,
  (forall k, k < n -> exists a, P k a) -> exists h : nat -> A, forall k, k < n -> P k (h k).
Proof.
  intros A P d n. induction n; intros H; [exists (fun _ => d); lia|].
  destruct IHn as [h Hh]; [intros; apply H; lia|]. destruct (H n) as [a Ha]; [lia|].
  exists (fun k => if k =? n then a else h k). intros k Hk.
  destruct (Nat.eqb_spec k n); [subst; assumption|apply Hh; lia].
Qed.

Lemma kinv_step : forall K f acc l z x, kinv K f acc l ->
  finite_seq f (l ++ [(z, x)]) -> kinv K f (kmin_short K f acc x z) (l ++ [(z, x)]).
Proof.
  intros K f acc l z x HI [HF1 HF2] k Hk.
  destruct (choose_fin _ (fun k g => holds K f k acc g /\ k_smallest K (col2 k l) (map g (seq 0 K)))
     (fun _ => (NaN, 0%Z)) f HI) as [G HG].
  destruct (kmin_short_spec K f acc x z G) with (k := k) as [m [M1 [M2 [M3 M4]]]];
    [intros; apply HG; assumption|assumption|].
  eexists. split; [exact M4|]. rewrite insert_at_fun by assumption. rewrite col2_app.
  assert (Hz : forall y w, In (y, w) l -> (y < z)%Z).
  { intros y w Hy. rewrite map_app in HF1. apply SS_app in HF1. destruct HF1 as [_ [_ H]].
    apply H; [apply in_map_iff; exists (y, w); auto|left; reflexivity]. }
  destruct (HF2 z x) with (k := k) as [N1 N2];
    [apply in_or_app; right; left; reflexivity|assumption|].
  apply k_smallest_step; try assumption.
  - apply HG; assumption.
  - intros p Hp. unfold col2, column in Hp. rewrite map_map in Hp. apply in_map_iff in Hp.
    destruct Hp as [[y w] [<- Hp]]. cbn. eapply Hz; eassumption.
  - intros p Hp. unfold col2, column in Hp. rewrite map_map in Hp. apply in_map_iff in Hp.
    destruct Hp as [[y w] [<- Hp]]. cbn.
    destruct (HF2 y w) with (k := k); [apply in_or_app; left; assumption|assumption|assumption].
  - intros s v Hs E. rewrite nth_error_map_seq in E by lia. inversion E. apply M2. assumption.
  - intros Hm v E. rewrite nth_error_map_seq in E by lia. inversion E. apply M3. assumption.
Qed.

Lemma kmin_init_slot : forall K f k s, k < f -> s < K -> slot (kmin_init K f) f k s = (PInf, Fin 0).
Proof.
  intros K f k s Hk Hs. unfold kmin_init.
  assert (G : forall n, n <= f ->
    forall k s, k < n -> s < K ->
    slot (for_up n (fun k a =>
      for_up K (fun s a =>
      let l := k + s * (2 * f) in
      upd (upd a l PInf) (l + f) (Fin 0)) a) (fun _ => NaN)) f k s = (PInf, Fin 0)).
  { induction n; intros Hn k' s' Hk' Hs'; [lia|]. cbn [for_up].
    set (a := for_up n _ _) in *.
    assert (G2 : forall m, 
      let r := for_up m (fun s a => let l := n + s * (2 * f) in upd (upd a l PInf) (l + f) (Fin 0)) a in
      (forall s, s < m -> slot r f n s = (PInf, Fin 0)) /\
      (forall k' s, k' < f -> k' <> n -> slot r f k' s = slot a f k' s)).
    { induction m; cbv zeta; cbn [for_up]; [split; [lia|reflexivity]|].
      destruct IHm as [A B]. set (r := for_up m _ a) in *. cbv zeta.
      replace (n + m * (2 * f) + f) with (n + (2 * m + 1) * f) by lia.
      replace (n + m * (2 * f)) with (n + (2 * m) * f) by lia. split.
      - intros t Ht. rewrite upd_slot by lia. rewrite Nat.eqb_refl. cbn [andb].
        destruct (Nat.eqb_spec t m); [reflexivity|apply A; lia].
      - intros k2 t Hk2 Hne. rewrite upd_slot by lia. destruct (Nat.eqb_spec k2 n); [lia|].
        cbn [andb]. apply B; lia. }
    destruct (G2 K) as [A B]. destruct (Nat.eq_dec k' n) as [->|Q]; [apply A; assumption|].
    rewrite B by lia. apply IHn; lia. }
  apply (G f); lia.
Qed.

Lemma kinv_init : forall K f, kinv K f (kmin_init K f) [].
Proof.
  intros K f k Hk. exists (fun _ => (PInf, 0%Z)). split.
  - intros s Hs. rewrite kmin_init_slot by assumption. reflexivity.
  - exists [], []. cbn. split; [constructor|]. split; [now rewrite Nat.min_0_r|]. split.
    + rewrite Nat.sub_0_r. generalize 0. induction K; intros n; cbn; [reflexivity|]. now rewrite IHK.
    + split; [constructor|intros a b []].
Qed.

Lemma kinv_run : forall K f o l l0 acc, kinv K f acc l0 -> finite_seq f (l0 ++ l) ->
  kinv K f (run (KMin_Red o K f) l acc) (l0 ++ l).
Proof.
  intros K f o l. induction l as [|[z x] l IH]; intros l0 acc HI HF.
  - rewrite app_nil_r. exact HI.
  - unfold run in *. cbn [fold_left rshort KMin_Red fst snd].
    replace (l0 ++ (z, x) :: l) with ((l0 ++ [(z, x)]) ++ l) in * by (rewrite <- app_assoc; reflexivity).
    cbn [rshort KMin_Red] in IH. apply IH; [|assumption]. apply kinv_step; [assumption|].
    destruct HF as [F1 F2]. split.
    + rewrite map_app in F1. apply SS_app in F1. tauto.
    + intros; eapply F2; [apply in_or_app; left|]; eassumption.
Qed.

(** Output layout. *)
Lemma kmin_final_cell : forall o K f acc k s, k < f -> s < K -> o <> OBoth ->
  kmin_final o K f acc (k + s * f) =
  acc (match o with OArg => k + (2 * s + 1) * f | _ => k + (2 * s) * f end).
Proof.
  intros o K f acc k s Hk Hs Ho.
  set (src := fun k s => match o with OArg => k + s * (2 * f) + f | _ => k + s * (2 * f) end).
  assert (E : kmin_final o K f acc = for_up f (fun k out =>
      fst (for_up K (fun s (st : cells * nat) =>
        let (out, p) := st in (upd out p (acc (src k s)), p + f)) (out, k))) (fun _ => NaN)).
  { destruct o; [congruence| |]; reflexivity. }
  rewrite E. clear E.
  assert (G : forall n, n <= f -> forall k' s', k' < n -> s' < K ->
    for_up n (fun k out =>
      fst (for_up K (fun s (st : cells * nat) =>
        let (out, p) := st in (upd out p (acc (src k s)), p + f)) (out, k))) (fun _ => NaN) (k' + s' * f)
    = acc (src k' s')).
  { induction n; intros Hn k' s' Hk' Hs'; [lia|]. cbn [for_up]. set (a := for_up n _ _) in *.
    assert (G2 : forall m,
      let st := for_up m (fun s (st : cells * nat) =>
        let (out, p) := st in (upd out p (acc (src n s)), p + f)) (a, n) in
      snd st = n + m * f /\
      (forall s, s < m -> fst st (n + s * f) = acc (src n s)) /\
      (forall k' s, k' < f -> k' <> n -> fst st (k' + s * f) = a (k' + s * f))).
    { induction m; cbv zeta; cbn [for_up]; [cbn; split; [lia|split; [lia|reflexivity]]|].
      destruct IHm as [A [B C]]. destruct (for_up m _ (a, n)) as [out p]. cbn [fst snd] in *. subst p.
      split; [lia|]. split.
      - intros t Ht. destruct (Nat.eq_dec t m) as [->|Q]; [apply upd_same|].
        rewrite upd_other; [apply B; lia|]. intros E. apply cell_inj in E; lia.
      - intros k2 t Hk2 Hne. rewrite upd_other; [apply C; assumption|]. intros E. apply cell_inj in E; lia. }
    destruct (G2 K) as [_ [A B]]. destruct (Nat.eq_dec k' n) as [->|Q]; [apply A; assumption|].
    rewrite B by lia. apply IHn; lia. }
  rewrite (G f); [|lia|assumption|assumption]. unfold src. destruct o; f_equal; lia.
Qed.

Lemma kmin_correct : forall K f l, finite_seq f l -> forall k, k < f ->
  let out o := rfinal (KMin_Red o K f) (run (KMin_Red o K f) l (rinit (KMin_Red o K f))) in
  exists L, k_smallest K (map (fun p => (snd p k, fst p)) l) L /\ length L = K /\
    forall s v i, nth_error L s = Some (v, i) ->
      out OVal (s * f + k) = v /\ out OArg (s * f + k) = of_long i /\
      out OBoth (2 * s * f + k) = v /\ out OBoth ((2 * s + 1) * f + k) = of_long i.
Proof.
  intros K f l HF k Hk. cbv zeta.
  assert (HR : forall o, run (KMin_Red o K f) l (rinit (KMin_Red o K f)) =
    run (KMin_Red OBoth K f) l (rinit (KMin_Red OBoth K f))) by reflexivity.
  cbv beta. rewrite (HR OVal), (HR OArg).
  set (acc := run (KMin_Red OBoth K f) l (rinit (KMin_Red OBoth K f))).
  destruct (kinv_run K f OBoth l [] _ (kinv_init K f) HF k Hk) as [g [H1 H2]].
  fold acc in H1. cbn [rinit KMin_Red] in acc.
  exists (map g (seq 0 K)). split.
  { replace (map (fun p => (snd p k, fst p)) l) with (col2 k l); [exact H2|].
    unfold col2, column. rewrite map_map. reflexivity. }
  split; [now rewrite map_length, seq_length|].
  intros s v i Hs. 
  assert (Hlt : s < K).
  { assert (nth_error (map g (seq 0 K)) s <> None) by congruence. apply nth_error_Some in H.
    rewrite map_length, seq_length in H. assumption. }
  rewrite nth_error_map_seq in Hs by assumption. inversion Hs as [Hg].
  specialize (H1 s Hlt). rewrite Hg in H1. unfold slot, cellpair in H1. cbn [fst snd] in H1.
  change (run (KMin_Red OBoth K f) l (rinit (KMin_Red OBoth K f))) with acc in H1.
  assert (A : acc (k + 2 * s * f) = v) by exact (f_equal fst H1).
  assert (B : acc (k + (2 * s + 1) * f) = of_long i) by exact (f_equal snd H1).
  cbn [rfinal KMin_Red].
  replace (s * f + k) with (k + s * f) by lia.
  rewrite !kmin_final_cell by (assumption || discriminate).
  rewrite A, B. cbn [kmin_final].
  replace (2 * s * f + k) with (k + 2 * s * f) by lia.
  replace ((2 * s + 1) * f + k) with (k + (2 * s + 1) * f) by lia. auto.
Qed.

(** +inf among the values: the slots keep the index 0 of the padding. *)
Lemma kmin_inf : exists l, good_seq 1 l /\
  let out o := rfinal (KMin_Red o 2 1) (run (KMin_Red o 2 1) l (rinit (KMin_Red o 2 1))) in
  ~ exists L, k_smallest 2 (map (fun p => (snd p 0, fst p)) l) L /\ length L = 2 /\
    forall s v i, nth_error L s = Some (v, i) -> out OVal (s * 1 + 0) = v /\ out OArg (s * 1 + 0) = of_long i.
Proof.
  exists (dense 2 (fun j _ => match j with 0 => Fin 1 | _ => PInf end)). split.
  - split; [apply dense_sorted|]. intros z x Hx k Hk. cbn in Hx.
    destruct Hx as [E|[E|[]]]; inversion E; discriminate.
  - cbv zeta. intros [L [[taken [left [HP [HT [HL [HS _]]]]]] [HLen H]]].
    cbn in HP, HT, HL. 
    assert (left = []).
    { apply Permutation_length in HP. rewrite app_length in HP. cbn in HP.
      destruct left; [reflexivity|cbn in HP; lia]. }
    subst left. rewrite app_nil_r in HL. rewrite app_nil_r in HP. subst L.
    destruct taken as [|a [|[v i] [|]]]; try (cbn in HT; lia).
    assert (Hin : In (v, i) [(Fin 1, 0%Z); (PInf, 1%Z)]).
    { eapply Permutation_in; [apply Permutation_sym; exact HP|]. right; left; reflexivity. }
    destruct Hin as [E|[E|[]]]; injection E as <- <-; destruct (H 1 _ _ eq_refl) as [H1 H2].
    + cbn in H1. discriminate H1.
    + assert (H3 : of_long (to_long (of_long 0)) = of_long 1) by exact H2.
      rewrite to_of_long in H3. unfold of_long in H3. injection H3 as H3. apply eq_IZR in H3. discriminate.
Qed.
