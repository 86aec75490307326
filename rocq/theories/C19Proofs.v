(** Proofs for C19. *)

From Coq Require Import ZArith Reals Lia Lra List Bool Sorted.
From Verif Require Import Result RangesConv Clusters ClusterSpec.
Import ListNotations.

(** ** Compact labels *)

Lemma insert_in x l z : In z (insert x l) <-> z = x \/ In z l.
Proof.
  induction l as [|y l IH]; cbn; [intuition|].
  destruct (Z.ltb_spec x y); [cbn; intuition|]. destruct (Z.eqb_spec x y).
  - subst. cbn. intuition.
  - cbn. rewrite IH. intuition.
Qed.
Lemma insert_sorted x l : StronglySorted Z.lt l -> StronglySorted Z.lt (insert x l).
Proof.
  induction 1 as [|y l HS IH HF]; cbn; [repeat constructor|].
  destruct (Z.ltb_spec x y).
  - constructor; [constructor; assumption|]. constructor; [assumption|].
    rewrite Forall_forall in *. intros z Hz. specialize (HF z Hz). lia.
  - destruct (Z.eqb_spec x y); [constructor; assumption|]. constructor; [exact IH|].
    rewrite Forall_forall in *. intros z Hz. apply insert_in in Hz as [->|Hz]; [lia|]. exact (HF z Hz).
Qed.
Lemma unique_in l z : In z (unique l) <-> In z l.
Proof. induction l as [|x l IH]; [cbn; tauto|]. cbn. rewrite insert_in, IH. intuition. Qed.
Lemma unique_sorted l : StronglySorted Z.lt (unique l).
Proof. induction l as [|x l IH]; [constructor|]. apply insert_sorted, IH. Qed.

Lemma max_fold l : forall m, (m <= fold_left Z.max l m)%Z /\ forall x, In x l -> (x <= fold_left Z.max l m)%Z.
Proof.
  induction l as [|y l IH]; intros m; cbn; [split; [lia|contradiction]|].
  destruct (IH (Z.max m y)) as (H1 & H2). split; [lia|]. intros z [<-|Hz]; [lia|apply H2; exact Hz].
Qed.

Lemma assign_ok len ix : StronglySorted Z.lt ix -> (forall i, In i ix -> (0 <= i < len)%Z) ->
  forall foo v, exists foo', assign len foo ix v = Ok foo' /\
    (forall z, ~ In z ix -> foo' z = foo z) /\
    (forall q, (q < length ix)%nat -> foo' (nth q ix 0%Z) = (v + Z.of_nat q)%Z).
Proof.
  induction 1 as [|i ix HS IH HF]; intros Hb foo v.
  - exists foo. split; [reflexivity|]. split; [reflexivity|]. cbn; lia.
  - cbn [assign]. unfold py_index.
    pose proof (Hb i (or_introl eq_refl)) as Hi.
    rewrite (proj2 (Z.leb_le 0 i)) by lia. rewrite (proj2 (Z.ltb_lt i len)) by lia. cbn [andb rbind].
    destruct (IH ltac:(intros; apply Hb; right; assumption) (fun z => if Z.eqb z i then v else foo z) (v + 1)%Z)
      as (foo' & E & Hout & Hin).
    exists foo'. split; [exact E|]. split.
    + intros z Hz. rewrite Hout by (intros Hz'; apply Hz; right; exact Hz').
      destruct (Z.eqb_spec z i); [|reflexivity]. subst. exfalso. apply Hz. left; reflexivity.
    + intros [|q] Hq; cbn [nth].
      * rewrite Hout; [rewrite Z.eqb_refl; lia|].
        intros Hz. rewrite Forall_forall in HF. specialize (HF i Hz). lia.
      * cbn in Hq. rewrite Hin by lia. lia.
Qed.

Lemma sorted_nth l : StronglySorted Z.lt l -> forall p q, (p < q)%nat -> (q < length l)%nat ->
  (nth p l 0 < nth q l 0)%Z.
Proof.
  induction 1 as [|x l HS IH HF]; intros p q Hpq Hq; cbn in Hq; [lia|].
  destruct q as [|q]; [lia|]. cbn [nth]. destruct p as [|p].
  - rewrite Forall_forall in HF. apply HF, nth_In. lia.
  - apply IH; lia.
Qed.

Lemma compact_ok junk lab : lab <> [] -> (forall l, In l lab -> (0 <= l)%Z) ->
  exists rank, compact junk lab = Ok (map rank lab) /\
    (forall a b, In a lab -> In b lab -> (rank a = rank b <-> a = b)) /\
    compact_range (map rank lab).
Proof.
  intros Hne H0. unfold compact.
  assert (HU : forall z, In z (unique lab) <-> In z lab) by (intros; apply unique_in).
  pose proof (unique_sorted lab) as HS.
  destruct (unique lab) as [|u0 us] eqn:Eu.
  { destruct lab as [|l lab]; [contradiction|]. destruct (proj2 (HU l) (or_introl eq_refl)). }
  set (u := u0 :: us) in *. set (len := (fold_left Z.max us u0 + 1)%Z).
  assert (HB : forall i, In i u -> (0 <= i < len)%Z).
  { intros i Hi. split; [apply H0, HU, Hi|]. unfold len. destruct (max_fold us u0) as (G1 & G2).
    destruct Hi as [<-|Hi]; [lia|]. specialize (G2 i Hi). lia. }
  destruct (assign_ok len u HS HB junk 0%Z) as (foo & E & _ & Hfoo). rewrite E. cbn [rbind].
  exists foo.
  assert (HR : mapr (fun l => do q <- py_index len l; Ok (foo q)) lab = Ok (map foo lab)).
  { assert (G : forall l, (forall z, In z l -> In z lab) ->
      mapr (fun l => do q <- py_index len l; Ok (foo q)) l = Ok (map foo l)).
    { induction l as [|z l IH]; intros Hl; [reflexivity|]. cbn [mapr map].
      unfold py_index at 1. pose proof (HB z (proj2 (HU z) (Hl z (or_introl eq_refl)))) as Hz.
      rewrite (proj2 (Z.leb_le 0 z)) by lia. rewrite (proj2 (Z.ltb_lt z len)) by lia. cbn [andb rbind].
      rewrite IH by (intros; apply Hl; right; assumption). reflexivity. }
    apply G. auto. }
  split; [exact HR|].
  assert (HP : forall a, In a lab -> exists p, (p < length u)%nat /\ nth p u 0%Z = a).
  { intros a Ha. apply HU in Ha. exact (In_nth _ _ 0%Z Ha). }
  split.
  - intros a b Ha Hb. split; [|congruence]. destruct (HP a Ha) as (p & Hp & <-), (HP b Hb) as (q & Hq & <-).
    rewrite !Hfoo by assumption. intros Heq. f_equal. lia.
  - exists (length u). intros l. split.
    + intros Hl. apply in_map_iff in Hl as (a & <- & Ha). destruct (HP a Ha) as (p & Hp & <-).
      rewrite Hfoo by exact Hp. lia.
    + intros Hl. apply in_map_iff. exists (nth (Z.to_nat l) u 0%Z).
      rewrite Hfoo by lia. split; [lia|]. apply HU, nth_In. lia.
Qed.

(** ** Codes of the cells *)

Lemma wrap_id b n : (1 <= b)%Z -> (- 2 ^ (b - 1) <= n < 2 ^ (b - 1))%Z -> wrap b n = n.
Proof.
  intros Hb H. unfold wrap.
  assert (E : (2 ^ b = 2 * 2 ^ (b - 1))%Z) by (rewrite <- Z.pow_succ_r by lia; f_equal; lia).
  rewrite Z.mod_small by lia. lia.
Qed.

Lemma min_fold l : forall m, (fold_left Z.min l m <= m)%Z /\ (forall x, In x l -> (fold_left Z.min l m <= x)%Z) /\
  (fold_left Z.min l m = m \/ In (fold_left Z.min l m) l).
Proof.
  induction l as [|y l IH]; intros m; cbn; [repeat split; [lia|contradiction|left; reflexivity]|].
  destruct (IH (Z.min m y)) as (H1 & H2 & H3). repeat split.
  - lia.
  - intros z [<-|Hz]; [lia|apply H2; exact Hz].
  - destruct H3 as [H3|H3]; [|right; right; exact H3]. rewrite H3.
    destruct (Z.min_spec m y) as [(_ & ->)|(_ & ->)]; auto.
Qed.

(** Label of a cell before compaction. *)
Definition code (bits : Z) (w c : list Z) : Z :=
  fold_left (fun s v => wrap 64 (s + v)) (map2 (fun x y => wrap bits (wrap bits x * y)) c w) 0%Z.

(** Labels for distinct, bounded codes. *)
Lemma labels_ok bits junk D w cells : weights D = Ok w -> cells <> [] ->
  (forall c, In c cells -> (- 2 ^ 62 <= code bits w c < 2 ^ 62)%Z) ->
  exists lab, grid_labels bits junk D cells = Ok lab /\ length lab = length cells /\ compact_range lab /\
    forall p q, (p < length cells)%nat -> (q < length cells)%nat ->
      (nth p lab 0%Z = nth q lab 0%Z <-> code bits w (nth p cells []) = code bits w (nth q cells [])).
Proof.
  intros Ew Hne Hb. unfold grid_labels. rewrite Ew. cbn [rbind].
  change (map (fun c => fold_left _ _ 0%Z) cells) with (map (code bits w) cells).
  unfold minimum. destruct (map (code bits w) cells) as [|l0 ls] eqn:El.
  { destruct cells; [contradiction|discriminate]. }
  cbn [rbind]. set (m := fold_left Z.min ls l0).
  destruct (min_fold ls l0) as (M1 & M2 & M3). fold m in M1, M2, M3.
  rewrite <- El.
  assert (HM : exists c, In c cells /\ code bits w c = m).
  { assert (In m (map (code bits w) cells)) as Hm by (rewrite El; destruct M3 as [->|M3]; [left; reflexivity|right; exact M3]).
    apply in_map_iff in Hm as (c & <- & Hc). exists c; auto. }
  destruct HM as (cm & Hcm & Ecm). pose proof (Hb cm Hcm) as Bm. rewrite Ecm in Bm.
  assert (HL : forall c, In c cells -> (m <= code bits w c)%Z).
  { intros c Hc. assert (In (code bits w c) (l0 :: ls)) as [<-|H] by (rewrite <- El; apply in_map; exact Hc); [exact M1|].
    apply M2; exact H. }
  assert (HW : forall c, In c cells -> wrap 64 (code bits w c - m) = (code bits w c - m)%Z).
  { intros c Hc. pose proof (Hb c Hc). pose proof (HL c Hc). apply wrap_id; [lia|].
    change (64 - 1)%Z with 63%Z. change (2 ^ 63)%Z with (2 * 2 ^ 62)%Z. lia. }
  destruct (compact_ok junk (map (fun l => wrap 64 (l - m)) (map (code bits w) cells))) as (rank & E & Hinj & Hcr).
  { destruct cells; [contradiction|discriminate]. }
  { intros l Hl. rewrite map_map in Hl. apply in_map_iff in Hl as (c & <- & Hc). rewrite HW by exact Hc.
    pose proof (HL c Hc). lia. }
  rewrite E. eexists; split; [reflexivity|]. split; [rewrite !map_length; reflexivity|]. split; [exact Hcr|].
  intros p q Hp Hq. rewrite !map_map.
  set (g := fun c => rank (wrap 64 (code bits w c - m))).
  rewrite (nth_indep _ 0%Z (g [])) by (rewrite map_length; exact Hp).
  rewrite (nth_indep _ 0%Z (g []) (n := q)) by (rewrite map_length; exact Hq).
  rewrite !map_nth. unfold g.
  set (cp := nth p cells []). set (cq := nth q cells []).
  assert (Hcp : In cp cells) by (apply nth_In; exact Hp).
  assert (Hcq : In cq cells) by (apply nth_In; exact Hq).
  rewrite Hinj by (rewrite map_map; apply in_map_iff; eexists; split; [reflexivity|assumption]).
  rewrite !HW by assumption. lia.
Qed.

(** ** Cells *)

Lemma floor_spec x k : (IZR k <= x < IZR k + 1)%R <-> floor x = k.
Proof.
  unfold floor. split.
  - intros (H1 & H2). assert (k + 1 = up x)%Z; [|lia]. apply tech_up; rewrite plus_IZR; lra.
  - intros <-. destruct (archimed x) as (H1 & H2). rewrite minus_IZR. lra.
Qed.

Lemma cell_floor o s x k : (0 < s)%R -> ((o + IZR k * s <= x < o + (IZR k + 1) * s)%R <-> floor ((x - o) / s) = k).
Proof.
  intros Hs. rewrite <- floor_spec. split; intros (H1 & H2); split.
  - apply (Rmult_le_reg_r s); [exact Hs|]. unfold Rdiv. rewrite Rmult_assoc, Rinv_l by lra. lra.
  - apply (Rmult_lt_reg_r s); [exact Hs|]. unfold Rdiv. rewrite Rmult_assoc, Rinv_l by lra. lra.
  - apply (Rmult_le_compat_r s) in H1; [|lra]. unfold Rdiv in H1. rewrite Rmult_assoc, Rinv_l in H1 by lra. lra.
  - apply (Rmult_lt_compat_r s) in H2; [|lra]. unfold Rdiv in H2. rewrite Rmult_assoc, Rinv_l in H2 by lra. lra.
Qed.

(** Cells of a point, one integer per coordinate. *)
Definition cell_of (o s : nat -> R) (p : list R) (d : nat) : Z := floor ((nth d p 0 - o d) / s d)%R.

Lemma same_cell_floor D o s p q : (forall d, (d < D)%nat -> (0 < s d)%R) ->
  (same_cell D o s p q <-> forall d, (d < D)%nat -> cell_of o s p d = cell_of o s q d).
Proof.
  intros Hs. split.
  - intros (k & Hp & Hq) d Hd. unfold cell_of. specialize (Hp d Hd). specialize (Hq d Hd).
    apply cell_floor in Hp, Hq; try (apply Hs; exact Hd). congruence.
  - intros H. exists (cell_of o s p). split; intros d Hd; apply cell_floor; try (apply Hs; exact Hd); [reflexivity|].
    symmetry. apply H. exact Hd.
Qed.

Lemma map2_nth {A B C} (h : A -> B -> C) a0 b0 c0 : forall a b d, (d < length a)%nat -> (d < length b)%nat ->
  nth d (map2 h a b) c0 = h (nth d a a0) (nth d b b0).
Proof.
  induction a as [|x a IH]; intros [|y b] [|d]; cbn; intros; try lia; auto. apply IH; lia.
Qed.
Lemma map2_length {A B C} (h : A -> B -> C) : forall a b, length (map2 h a b) = Nat.min (length a) (length b).
Proof. induction a as [|x a IH]; intros [|y b]; cbn; auto. Qed.

Lemma map_nth_f {A B} (f : A -> B) l n a b : (n < length l)%nat -> nth n (map f l) b = f (nth n l a).
Proof. intros H. rewrite (nth_indep _ b (f a)) by (rewrite map_length; exact H). apply map_nth. Qed.

(** Codes are distinct for bounded cells. *)
Lemma numpy_code D w c c' : weights D = Ok w -> length c = D -> length c' = D ->
  (forall d, (d < D)%nat -> (- 2 ^ 40 <= nth d c 0 < 2 ^ 40 /\ - 2 ^ 40 <= nth d c' 0 < 2 ^ 40)%Z) ->
  (forall d, (1 <= d < D)%nat -> (Z.abs (nth d c 0 - nth d c' 0) < 2 ^ 10)%Z) ->
  (- 2 ^ 62 <= code 64 w c < 2 ^ 62)%Z /\
  (code 64 w c = code 64 w c' <-> forall d, (d < D)%nat -> nth d c 0%Z = nth d c' 0%Z).
Proof.
  intros Ew Hc Hc' Hb Hs.
  assert (W : forall n, (- 2 ^ 63 <= n < 2 ^ 63)%Z -> wrap 64 n = n) by (intros; apply wrap_id; [lia|exact H]).
  destruct D as [|[|[|[|D]]]]; cbn in Ew; try discriminate; injection Ew as <-.
  - destruct c as [|a [|? ?]], c' as [|a' [|? ?]]; try discriminate.
    pose proof (Hb 0%nat ltac:(lia)) as B0. cbn in B0. unfold code; cbn [map2 fold_left].
    rewrite (W a), (W a') by lia. rewrite (W (a * _)%Z), (W (a' * _)%Z) by lia. rewrite !W by lia.
    split; [lia|]. split.
    + intros E [|d] Hd; [cbn; lia|lia].
    + intros H. specialize (H 0%nat ltac:(lia)). cbn in H. lia.
  - destruct c as [|a [|b [|? ?]]], c' as [|a' [|b' [|? ?]]]; try discriminate.
    pose proof (Hb 0%nat ltac:(lia)) as B0. pose proof (Hb 1%nat ltac:(lia)) as B1. pose proof (Hs 1%nat ltac:(lia)) as S1.
    cbn in B0, B1, S1. unfold code; cbn [map2 fold_left].
    rewrite (W a), (W b), (W a'), (W b') by lia.
    rewrite (W (a * _)%Z), (W (b * _)%Z), (W (a' * _)%Z), (W (b' * _)%Z) by lia.
    rewrite (W (0 + _)%Z), (W (0 + a' * _)%Z) by lia. rewrite !W by lia. split; [lia|]. split.
    + intros E [|[|d]] Hd; cbn; lia.
    + intros H. pose proof (H 0%nat ltac:(lia)) as H0. pose proof (H 1%nat ltac:(lia)) as H1. cbn in H0, H1. lia.
  - destruct c as [|a [|b [|e [|? ?]]]], c' as [|a' [|b' [|e' [|? ?]]]]; try discriminate.
    pose proof (Hb 0%nat ltac:(lia)) as B0. pose proof (Hb 1%nat ltac:(lia)) as B1. pose proof (Hb 2%nat ltac:(lia)) as B2.
    pose proof (Hs 1%nat ltac:(lia)) as S1. pose proof (Hs 2%nat ltac:(lia)) as S2.
    cbn in B0, B1, B2, S1, S2. unfold code; cbn [map2 fold_left].
    rewrite (W a), (W b), (W e), (W a'), (W b'), (W e') by lia.
    rewrite (W (a * _)%Z), (W (b * _)%Z), (W (e * _)%Z), (W (a' * _)%Z), (W (b' * _)%Z), (W (e' * _)%Z) by lia.
    rewrite (W (0 + _)%Z), (W (0 + a' * _)%Z) by lia.
    rewrite (W (0 + a * _ + _)%Z), (W (0 + a' * _ + _)%Z) by lia. rewrite !W by lia. split; [lia|]. split.
    + intros E [|[|[|d]]] Hd; cbn; lia.
    + intros H. pose proof (H 0%nat ltac:(lia)) as H0. pose proof (H 1%nat ltac:(lia)) as H1.
      pose proof (H 2%nat ltac:(lia)) as H2. cbn in H0, H1, H2. lia.
Qed.

Lemma wrap_mul b x y : (1 <= b)%Z -> wrap b (wrap b x * y) = wrap b (x * y).
Proof.
  intros Hb. unfold wrap.
  assert (E : exists k, ((x + 2 ^ (b - 1)) mod 2 ^ b = x + 2 ^ (b - 1) + k * 2 ^ b)%Z).
  { exists (- ((x + 2 ^ (b - 1)) / 2 ^ b))%Z. pose proof (Z.div_mod (x + 2 ^ (b - 1)) (2 ^ b)). lia. }
  destruct E as (k & ->).
  replace ((x + 2 ^ (b - 1) + k * 2 ^ b - 2 ^ (b - 1)) * y + 2 ^ (b - 1))%Z with
    (x * y + 2 ^ (b - 1) + (k * y) * 2 ^ b)%Z by ring.
  rewrite Z.mod_add by (apply Z.pow_nonzero; lia). reflexivity.
Qed.

Lemma wrap32_pos n : (0 <= n < 2 ^ 32)%Z -> wrap 32 n = (if n <? 2 ^ 31 then n else n - 2 ^ 32)%Z.
Proof.
  intros H. destruct (Z.ltb_spec n (2 ^ 31)).
  - apply wrap_id; [lia|]. change (32 - 1)%Z with 31%Z. lia.
  - unfold wrap. change (32 - 1)%Z with 31%Z.
    replace (n + 2 ^ 31)%Z with ((n - 2 ^ 31) + 1 * 2 ^ 32)%Z by lia.
    rewrite Z.mod_add by lia. rewrite Z.mod_small by lia. lia.
Qed.

Lemma torch_code D w c c' : weights D = Ok w -> length c = D -> length c' = D ->
  (0 <= nth 0 c 0 < 2 ^ (42 - 10 * Z.of_nat D) /\ 0 <= nth 0 c' 0 < 2 ^ (42 - 10 * Z.of_nat D))%Z ->
  (forall d, (1 <= d < D)%nat -> (0 <= nth d c 0 < 2 ^ 10 /\ 0 <= nth d c' 0 < 2 ^ 10)%Z) ->
  (- 2 ^ 62 <= code 32 w c < 2 ^ 62)%Z /\
  (code 32 w c = code 32 w c' <-> forall d, (d < D)%nat -> nth d c 0%Z = nth d c' 0%Z).
Proof.
  intros Ew Hc Hc' B0 Hs.
  assert (W : forall n, (- 2 ^ 63 <= n < 2 ^ 63)%Z -> wrap 64 n = n) by (intros; apply wrap_id; [lia|exact H]).
  assert (V : forall n, (- 2 ^ 31 <= n < 2 ^ 31)%Z -> wrap 32 n = n) by (intros; apply wrap_id; [lia|exact H]).
  destruct D as [|[|[|[|D]]]]; cbn in Ew; try discriminate; injection Ew as <-; cbn in B0.
  - destruct c as [|a [|? ?]], c' as [|a' [|? ?]]; try discriminate. cbn in B0.
    unfold code; cbn [map2 fold_left]. rewrite !wrap_mul by lia. rewrite !wrap32_pos by lia.
    destruct (Z.ltb_spec (a * 1) (2 ^ 31)), (Z.ltb_spec (a' * 1) (2 ^ 31));
    rewrite !W by lia; (split; [lia|]; split; [intros E [|d] Hd; [cbn; lia|lia]|
      intros H'; specialize (H' 0%nat ltac:(lia)); cbn in H'; lia]).
  - destruct c as [|a [|b [|? ?]]], c' as [|a' [|b' [|? ?]]]; try discriminate.
    pose proof (Hs 1%nat ltac:(lia)) as S1. cbn in B0, S1. unfold code; cbn [map2 fold_left].
    rewrite !wrap_mul by lia. rewrite (V (b * _)%Z), (V (b' * _)%Z) by lia. rewrite !wrap32_pos by lia.
    set (A := (if (a * 1024 <? 2 ^ 31)%Z then _ else _)). set (A' := (if (a' * 1024 <? 2 ^ 31)%Z then _ else _)).
    assert (HA : (A = a * 1024 /\ a * 1024 < 2 ^ 31 \/ A = a * 1024 - 2 ^ 32 /\ 2 ^ 31 <= a * 1024)%Z).
    { unfold A. destruct (Z.ltb_spec (a * 1024) (2 ^ 31)); lia. }
    assert (HA' : (A' = a' * 1024 /\ a' * 1024 < 2 ^ 31 \/ A' = a' * 1024 - 2 ^ 32 /\ 2 ^ 31 <= a' * 1024)%Z).
    { unfold A'. destruct (Z.ltb_spec (a' * 1024) (2 ^ 31)); lia. }
    clearbody A A'. rewrite (W (0 + A)%Z), (W (0 + A')%Z) by lia. rewrite !W by lia. split; [lia|]. split.
    + intros E [|[|d]] Hd; cbn; lia.
    + intros H. pose proof (H 0%nat ltac:(lia)) as H0. pose proof (H 1%nat ltac:(lia)) as H1. cbn in H0, H1. lia.
  - destruct c as [|a [|b [|e [|? ?]]]], c' as [|a' [|b' [|e' [|? ?]]]]; try discriminate.
    pose proof (Hs 1%nat ltac:(lia)) as S1. pose proof (Hs 2%nat ltac:(lia)) as S2. cbn in B0, S1, S2.
    unfold code; cbn [map2 fold_left].
    rewrite !wrap_mul by lia. rewrite (V (b * _)%Z), (V (b' * _)%Z), (V (e * _)%Z), (V (e' * _)%Z) by lia.
    rewrite !wrap32_pos by lia.
    set (A := (if (a * 1048576 <? 2 ^ 31)%Z then _ else _)). set (A' := (if (a' * 1048576 <? 2 ^ 31)%Z then _ else _)).
    assert (HA : (A = a * 1048576 /\ a * 1048576 < 2 ^ 31 \/ A = a * 1048576 - 2 ^ 32 /\ 2 ^ 31 <= a * 1048576)%Z).
    { unfold A. destruct (Z.ltb_spec (a * 1048576) (2 ^ 31)); lia. }
    assert (HA' : (A' = a' * 1048576 /\ a' * 1048576 < 2 ^ 31 \/ A' = a' * 1048576 - 2 ^ 32 /\ 2 ^ 31 <= a' * 1048576)%Z).
    { unfold A'. destruct (Z.ltb_spec (a' * 1048576) (2 ^ 31)); lia. }
    clearbody A A'. rewrite (W (0 + A)%Z), (W (0 + A')%Z) by lia.
    rewrite (W (0 + A + _)%Z), (W (0 + A' + _)%Z) by lia. rewrite !W by lia. split; [lia|]. split.
    + intros E [|[|[|d]]] Hd; cbn; lia.
    + intros H. pose proof (H 0%nat ltac:(lia)) as H0. pose proof (H 1%nat ltac:(lia)) as H1.
      pose proof (H 2%nat ltac:(lia)) as H2. cbn in H0, H1, H2. lia.
Qed.

(** ** Statements *)

Lemma floor_bounds x a b : (IZR a <= x < IZR b)%R -> (a <= floor x < b)%Z.
Proof.
  intros (H1 & H2). pose proof (proj2 (floor_spec x (floor x)) eq_refl) as (G1 & G2). split.
  - assert (IZR a < IZR (floor x + 1))%R by (rewrite plus_IZR; lra). apply lt_IZR in H. lia.
  - apply lt_IZR. lra.
Qed.

Lemma weights_ok D : (1 <= D <= 3)%nat -> exists w, weights D = Ok w /\ length w = D.
Proof. intros H. destruct D as [|[|[|[|D]]]]; try lia; eexists; split; reflexivity. Qed.

Lemma div_bounds x s a b : (0 < s)%R -> (a * s <= x < b * s)%R -> (a <= x / s < b)%R.
Proof.
  intros Hs (H1 & H2). assert (E : x = (x / s * s)%R) by (field; lra). split.
  - apply (Rmult_le_reg_r s); lra.
  - apply (Rmult_lt_reg_r s); lra.
Qed.

Lemma numpy_grid junk D x size : (1 <= D <= 3)%nat -> x <> [] -> (forall p, In p x -> length p = D) ->
  length size = D -> (forall d, (d < D)%nat -> (0 < nth d size 0)%R) ->
  (forall p d, In p x -> (d < D)%nat -> (- 2 ^ 40 * nth d size 0 <= nth d p 0 < 2 ^ 40 * nth d size 0)%R) ->
  (forall p q d, In p x -> In q x -> (1 <= d < D)%nat -> (Rabs (nth d p 0 - nth d q 0) <= 1023 * nth d size 0)%R) ->
  exists lab, grid_cluster junk D x size = Ok lab /\ length lab = length x /\ compact_range lab /\
    forall a b, (a < length x)%nat -> (b < length x)%nat ->
      (nth a lab 0%Z = nth b lab 0%Z <->
       same_cell D (fun _ => 0%R) (fun d => nth d size 0%R) (nth a x []) (nth b x [])).
Proof.
  intros HD Hne Hlen Hsz Hpos Hb Hs. destruct (weights_ok D HD) as (w & Ew & Hw).
  set (s := fun d => nth d size 0%R). set (o := fun _ : nat => 0%R).
  set (cl := fun p => map2 (fun a s => floor (a / s)) p size).
  assert (Hcl : forall p, In p x -> length (cl p) = D).
  { intros p Hp. unfold cl. rewrite map2_length, Hlen, Hsz by exact Hp. lia. }
  assert (Hnth : forall p d, In p x -> (d < D)%nat -> nth d (cl p) 0%Z = cell_of o s p d).
  { intros p d Hp Hd. unfold cl. rewrite (map2_nth _ 0%R 0%R) by (rewrite ?(Hlen p Hp), ?Hsz; exact Hd).
    unfold cell_of, o, s. rewrite Rminus_0_r. reflexivity. }
  assert (Hbd : forall p d, In p x -> (d < D)%nat -> (- 2 ^ 40 <= nth d (cl p) 0 < 2 ^ 40)%Z).
  { intros p d Hp Hd. rewrite Hnth by assumption. unfold cell_of, o. rewrite Rminus_0_r. apply floor_bounds.
    apply div_bounds; [apply Hpos; exact Hd|]. unfold s.
    assert (P : IZR (2 ^ 40) = (2 ^ 40)%R) by (symmetry; exact (pow_IZR 2 40)). rewrite opp_IZR, P.
    apply Hb; assumption. }
  assert (Hsp : forall p q d, In p x -> In q x -> (1 <= d < D)%nat -> (Z.abs (nth d (cl p) 0 - nth d (cl q) 0) < 2 ^ 10)%Z).
  { intros p q d Hp Hq Hd. rewrite !Hnth by (auto; lia).
    assert (G : forall p q, In p x -> In q x -> (cell_of o s p d - cell_of o s q d < 1024)%Z).
    { clear p q Hp Hq. intros p q Hp Hq. pose proof (Hs p q d Hp Hq Hd) as H.
      apply (Rle_trans _ _ _ (Rle_abs _)) in H. unfold cell_of, o. rewrite !Rminus_0_r.
      pose proof (proj2 (floor_spec (nth d p 0 / s d)%R _) eq_refl) as (G1 & G2).
      pose proof (proj2 (floor_spec (nth d q 0 / s d)%R _) eq_refl) as (G3 & G4).
      assert (Hsd : (0 < s d)%R) by (apply Hpos; lia).
      assert ((nth d p 0 - nth d q 0) / s d <= 1023)%R.
      { apply (Rmult_le_reg_r (s d)); [exact Hsd|]. unfold Rdiv. rewrite Rmult_assoc, Rinv_l by lra. unfold s in *. lra. }
      apply lt_IZR. rewrite minus_IZR. unfold Rdiv in *. rewrite Rmult_minus_distr_r in *. lra. }
    pose proof (G p q Hp Hq). pose proof (G q p Hq Hp). lia. }
  destruct (labels_ok 64 junk D w (map cl x) Ew) as (lab & E & HL & HC & HE).
  { destruct x; [contradiction|discriminate]. }
  { intros c Hc. apply in_map_iff in Hc as (p & <- & Hp).
    destruct (numpy_code D w (cl p) (cl p) Ew) as (H & _); auto. }
  exists lab. split; [exact E|]. rewrite map_length in HL. split; [exact HL|]. split; [exact HC|].
  intros a b Ha Hb'. rewrite map_length in HE. rewrite HE by assumption.
  rewrite !(map_nth_f cl x _ [] []) by assumption.
  set (p := nth a x []). set (q := nth b x []).
  assert (Hp : In p x) by (apply nth_In; exact Ha). assert (Hq : In q x) by (apply nth_In; exact Hb').
  destruct (numpy_code D w (cl p) (cl q) Ew) as (_ & H); auto.
  rewrite H. rewrite same_cell_floor by exact Hpos. split; intros G d Hd.
  - rewrite <- !Hnth by assumption. apply G; exact Hd.
  - rewrite !Hnth by assumption. apply G; exact Hd.
Qed.

Lemma rmin_fold l : forall m, (fold_left Rmin l m <= m)%R /\ (forall x, In x l -> (fold_left Rmin l m <= x)%R) /\
  (fold_left Rmin l m = m \/ In (fold_left Rmin l m) l).
Proof.
  induction l as [|y l IH]; intros m; cbn; [repeat split; [lra|contradiction|left; reflexivity]|].
  destruct (IH (Rmin m y)) as (H1 & H2 & H3). pose proof (Rmin_l m y). pose proof (Rmin_r m y). repeat split.
  - lra.
  - intros z [<-|Hz]; [lra|apply H2; exact Hz].
  - destruct H3 as [H3|H3]; [|right; right; exact H3]. rewrite H3. unfold Rmin. destruct (Rle_dec m y); auto.
Qed.

Lemma column_min_ok x d : x <> [] -> exists m, column_min x d = Ok m /\
  (forall p, In p x -> (m <= nth d p 0)%R) /\ exists p, In p x /\ nth d p 0%R = m.
Proof.
  intros Hne. unfold column_min, rminimum. destruct (map (fun p => nth d p 0%R) x) as [|y l] eqn:E.
  { destruct x; [contradiction|discriminate]. }
  destruct (rmin_fold l y) as (H1 & H2 & H3). eexists; split; [reflexivity|]. split.
  - intros p Hp. assert (In (nth d p 0%R) (y :: l)) as [<-|H] by (rewrite <- E; apply (in_map (fun p => nth d p 0%R)); exact Hp);
      [exact H1|apply H2; exact H].
  - assert (In (fold_left Rmin l y) (map (fun p => nth d p 0%R) x)) as H.
    { rewrite E. destruct H3 as [->|H3]; [left; reflexivity|right; exact H3]. }
    apply in_map_iff in H as (p & Ep & Hp). exists p; auto.
Qed.

Lemma mapr_column_min x : x <> [] -> forall ds, exists o, mapr (column_min x) ds = Ok o /\ length o = length ds /\
  forall k, (k < length ds)%nat -> column_min x (nth k ds 0%nat) = Ok (nth k o 0%R).
Proof.
  intros Hne. induction ds as [|d ds (o & E & L & H)]; [exists []; repeat split; cbn; lia|].
  destruct (column_min_ok x d Hne) as (m & Em & _). exists (m :: o). cbn [mapr]. rewrite Em. cbn [rbind]. rewrite E.
  repeat split; [cbn; congruence|]. intros [|k] Hk; [exact Em|]. cbn in Hk. apply H. lia.
Qed.

Lemma torch_grid junk D x size : (1 <= D <= 3)%nat -> x <> [] -> (forall p, In p x -> length p = D) ->
  length size = D -> (forall d, (d < D)%nat -> (0 < nth d size 0)%R) ->
  (forall p q, In p x -> In q x -> (nth 0 p 0 - nth 0 q 0 < 2 ^ (42 - 10 * D) * nth 0 size 0)%R) ->
  (forall p q d, In p x -> In q x -> (1 <= d < D)%nat -> (nth d p 0 - nth d q 0 < 1024 * nth d size 0)%R) ->
  exists lab o, grid_cluster_torch junk D x size = Ok lab /\ smallest D o x /\
    length lab = length x /\ compact_range lab /\
    forall a b, (a < length x)%nat -> (b < length x)%nat ->
      (nth a lab 0%Z = nth b lab 0%Z <-> same_cell D o (fun d => nth d size 0%R) (nth a x []) (nth b x [])).
Proof.
  intros HD Hne Hlen Hsz Hpos H0 Hs. destruct (weights_ok D HD) as (w & Ew & Hw).
  destruct (mapr_column_min x Hne (seq 0 D)) as (ol & Eo & Lo & Ho). rewrite seq_length in *.
  set (o := fun d => nth d ol 0%R).
  assert (HO : smallest D o x).
  { intros d Hd. specialize (Ho d Hd). rewrite seq_nth in Ho by exact Hd. cbn in Ho.
    destruct (column_min_ok x d Hne) as (m & Em & H1 & H2). rewrite Em in Ho. injection Ho as ->. split; assumption. }
  set (s := fun d => nth d size 0%R).
  set (cl := fun p => map2 (fun a s => floor (a / s)) (map2 (fun a m => (a - m)%R) p ol) size).
  assert (Hcl : forall p, In p x -> length (cl p) = D).
  { intros p Hp. unfold cl. rewrite !map2_length, Hlen, Hsz by exact Hp. lia. }
  assert (Hnth : forall p d, In p x -> (d < D)%nat -> nth d (cl p) 0%Z = cell_of o s p d).
  { intros p d Hp Hd. unfold cl. rewrite (map2_nth _ 0%R 0%R) by (rewrite ?map2_length, ?(Hlen p Hp), ?Hsz; lia).
    rewrite (map2_nth _ 0%R 0%R) by (rewrite ?(Hlen p Hp); lia). reflexivity. }
  assert (Hrng : forall p d b, In p x -> (d < D)%nat -> (forall q, In q x -> (nth d p 0 - nth d q 0 < IZR b * s d)%R) ->
    (0 <= nth d (cl p) 0 < b)%Z).
  { intros p d b Hp Hd Hlt. rewrite Hnth by assumption. unfold cell_of. apply floor_bounds. apply div_bounds; [apply Hpos; exact Hd|].
    destruct (HO d Hd) as (G1 & q & Hq & Eq). specialize (G1 p Hp). specialize (Hlt q Hq). rewrite Eq in Hlt. lra. }
  assert (B0 : forall p, In p x -> (0 <= nth 0 (cl p) 0 < 2 ^ (42 - 10 * Z.of_nat D))%Z).
  { intros p Hp. apply Hrng; [exact Hp|lia|]. intros q Hq. unfold s.
    replace (IZR (2 ^ (42 - 10 * Z.of_nat D))) with (2 ^ (42 - 10 * D))%R; [apply H0; assumption|].
    rewrite pow_IZR. f_equal. f_equal. lia. }
  assert (BS : forall p d, In p x -> (1 <= d < D)%nat -> (0 <= nth d (cl p) 0 < 2 ^ 10)%Z).
  { intros p d Hp Hd. apply Hrng; [exact Hp|lia|]. intros q Hq. change (IZR (2 ^ 10)) with 1024%R.
    apply Hs; assumption. }
  destruct (labels_ok 32 junk D w (map cl x) Ew) as (lab & E & HL & HC & HE).
  { destruct x; [contradiction|discriminate]. }
  { intros c Hc. apply in_map_iff in Hc as (p & <- & Hp).
    destruct (torch_code D w (cl p) (cl p) Ew) as (H & _); auto. }
  exists lab, o. split.
  { unfold grid_cluster_torch. rewrite Ew. cbn [rbind]. rewrite Eo. cbn [rbind]. exact E. }
  split; [exact HO|]. rewrite map_length in HL. split; [exact HL|]. split; [exact HC|].
  intros a b Ha Hb'. rewrite map_length in HE. rewrite HE by assumption.
  rewrite !(map_nth_f cl x _ [] []) by assumption.
  set (p := nth a x []). set (q := nth b x []).
  assert (Hp : In p x) by (apply nth_In; exact Ha). assert (Hq : In q x) by (apply nth_In; exact Hb').
  destruct (torch_code D w (cl p) (cl q) Ew) as (_ & H); auto.
  rewrite H. rewrite same_cell_floor by exact Hpos. split; intros G d Hd.
  - rewrite <- !Hnth by assumption. apply G; exact Hd.
  - rewrite !Hnth by assumption. apply G; exact Hd.
Qed.

(** ** Collisions *)

Lemma floor_Z n : floor (IZR n) = n.
Proof. apply floor_spec. lra. Qed.
Lemma floor_1 n : floor (IZR n / 1) = n.
Proof. unfold Rdiv. rewrite Rinv_1, Rmult_1_r. apply floor_Z. Qed.
Lemma floor_10 n : floor ((IZR n - 0) / 1) = n.
Proof. rewrite Rminus_0_r. apply floor_1. Qed.

Lemma numpy_collision junk : exists lab,
  grid_cluster junk 2 [[0; 1024]; [1; 0]]%R [1; 1]%R = Ok lab /\ nth 0 lab 0%Z = nth 1 lab 0%Z /\
  ~ same_cell 2 (fun _ => 0%R) (fun _ => 1%R) [0; 1024]%R [1; 0]%R.
Proof.
  unfold grid_cluster. cbn [map map2]. rewrite !floor_1. eexists; split; [cbv; reflexivity|]. split; [reflexivity|].
  rewrite same_cell_floor by (intros; lra). intros H. specialize (H 1%nat ltac:(lia)). unfold cell_of in H.
  cbn [nth] in H. rewrite !floor_10 in H. discriminate.
Qed.

Lemma torch_collision junk : exists lab,
  grid_cluster_torch junk 3 [[0; 0; 0]; [4096; 0; 0]]%R [1; 1; 1]%R = Ok lab /\ nth 0 lab 0%Z = nth 1 lab 0%Z /\
  ~ same_cell 3 (fun _ => 0%R) (fun _ => 1%R) [0; 0; 0]%R [4096; 0; 0]%R.
Proof.
  unfold grid_cluster_torch.
  assert (E : mapr (column_min [[0; 0; 0]; [4096; 0; 0]]%R) (seq 0 3) = Ok [0; 0; 0]%R).
  { cbn. unfold Rmin. destruct (Rle_dec 0 4096); [|lra]. destruct (Rle_dec 0 0); [reflexivity|lra]. }
  rewrite E. cbn [weights rbind map map2].
  rewrite !floor_10. eexists; split; [cbv; reflexivity|]. split; [reflexivity|].
  rewrite same_cell_floor by (intros; lra). intros H. specialize (H 0%nat ltac:(lia)). unfold cell_of in H.
  cbn [nth] in H. rewrite !floor_10 in H. discriminate.
Qed.

Lemma no_dimension junk D x size : (D = 0 \/ 4 <= D)%nat ->
  grid_cluster junk D x size = PyErr /\ grid_cluster_torch junk D x size = PyErr.
Proof. intros H. destruct D as [|[|[|[|D]]]]; try lia; split; reflexivity. Qed.
