(** Proofs about the merge of K-min accumulators. *)

From Coq Require Import ZArith Reals Arith Lia Lra List Bool Sorted Permutation.
From Verif Require Import Result XReal Reductions ReductionSpec RedLoops C06Proofs C07Proofs.
Import ListNotations.

(** ** The loop *)
Fixpoint mergeK (n : nat) (A B : list (xr * Z)) : list (xr * Z) :=
  match n with
  | O => []
  | S m => match A, B with
           | a :: A', b :: B' => if xltb (fst b) (fst a) then b :: mergeK m A B' else a :: mergeK m A' B
           | _, _ => []
           end
  end.

Lemma skipn_cons : forall (A : Type) (l : list A) n d, n < length l ->
  skipn n l = nth n l d :: skipn (S n) l.
Proof. induction l; intros [|n] d H; cbn in *; try lia; [reflexivity|]. apply IHl. lia. Qed.

Lemma merge_loop : forall K f k acc xi out ga gb, k < f ->
  holds K f k acc ga -> holds K f k xi gb ->
  let L := mergeK K (map ga (seq 0 K)) (map gb (seq 0 K)) in
  let st := for_up K (kmin_merge_body f k acc xi) (out, k, k) in
  length L = K /\
  (forall s v, nth_error L s = Some v -> slot (fst (fst st)) f k s = cellpair v) /\
  (forall k' s, k' < f -> k' <> k -> slot (fst (fst st)) f k' s = slot out f k' s).
Proof.
  intros K f k acc xi out ga gb Hk HA HB. cbv zeta.
  set (A := map ga (seq 0 K)). set (B := map gb (seq 0 K)).
  assert (LA : length A = K) by (unfold A; rewrite map_length, seq_length; reflexivity).
  assert (LB : length B = K) by (unfold B; rewrite map_length, seq_length; reflexivity).
  assert (NA : forall s d, s < K -> nth s A d = ga s).
  { intros. unfold A. apply nth_error_nth. apply nth_error_map_seq. assumption. }
  assert (NB : forall s d, s < K -> nth s B d = gb s).
  { intros. unfold B. apply nth_error_nth. apply nth_error_map_seq. assumption. }
  assert (G : forall n, n <= K ->
    let st := for_up n (kmin_merge_body f k acc xi) (out, k, k) in
    exists P Q pre, P + Q = n /\ snd (fst st) = k + 2 * P * f /\ snd st = k + 2 * Q * f /\
      length pre = n /\
      mergeK K A B = pre ++ mergeK (K - n) (skipn Q A) (skipn P B) /\
      (forall s v, nth_error pre s = Some v -> slot (fst (fst st)) f k s = cellpair v) /\
      (forall k' s, k' < f -> k' <> k -> slot (fst (fst st)) f k' s = slot out f k' s)).
  { induction n; intros Hn; cbv zeta; cbn [for_up].
    - exists 0, 0, []. cbn [fst snd length app skipn]. rewrite Nat.sub_0_r.
      repeat split; try lia. intros [|s] v E; discriminate.
    - destruct IHn as [P [Q [pre [E1 [E2 [E3 [E4 [E5 [E6 E7]]]]]]]]]; [lia|].
      destruct (for_up n _ (out, k, k)) as [[o p] q]. cbn [fst snd] in *. subst p q.
      unfold kmin_merge_body. 
      assert (SA : slot acc f k Q = cellpair (ga Q)) by (apply HA; lia).
      assert (SB : slot xi f k P = cellpair (gb P)) by (apply HB; lia).
      assert (A1 : acc (k + 2 * Q * f) = fst (ga Q)) by exact (f_equal fst SA).
      assert (A2 : acc (k + 2 * Q * f + f) = of_long (snd (ga Q))).
      { replace (k + 2 * Q * f + f) with (k + (2 * Q + 1) * f) by lia. exact (f_equal snd SA). }
      assert (B1 : xi (k + 2 * P * f) = fst (gb P)) by exact (f_equal fst SB).
      assert (B2 : xi (k + 2 * P * f + f) = of_long (snd (gb P))).
      { replace (k + 2 * P * f + f) with (k + (2 * P + 1) * f) by lia. exact (f_equal snd SB). }
      rewrite A1, A2, B1, B2.
      assert (KA : skipn Q A = ga Q :: skipn (S Q) A).
      { rewrite (skipn_cons _ A Q (NaN, 0%Z)) by lia. now rewrite NA by lia. }
      assert (KB : skipn P B = gb P :: skipn (S P) B).
      { rewrite (skipn_cons _ B P (NaN, 0%Z)) by lia. now rewrite NB by lia. }
      assert (KK : K - n = S (K - S n)) by lia.
      rewrite KK in E5. cbn [mergeK] in E5. rewrite KA, KB in E5.
      replace (k + n * (2 * f) + f) with (k + (2 * n + 1) * f) by lia.
      replace (k + n * (2 * f)) with (k + 2 * n * f) by lia.
      assert (Hsl : forall e o s v, (forall s v, nth_error pre s = Some v -> slot o f k s = cellpair v) ->
         nth_error (pre ++ [e]) s = Some v ->
         slot (upd (upd o (k + 2 * n * f) (fst e)) (k + (2 * n + 1) * f) (of_long (snd e))) f k s = cellpair v).
      { intros e o' s v Ho Hs. rewrite upd_slot by assumption. rewrite Nat.eqb_refl. cbn [andb].
        destruct (Nat.eqb_spec s n).
        - subst s. rewrite nth_error_app2 in Hs by lia. rewrite E4, Nat.sub_diag in Hs. inversion Hs. reflexivity.
        - apply Ho. destruct (le_lt_dec n s).
          + rewrite nth_error_app2 in Hs by lia. destruct (s - length pre) as [|[|?]] eqn:Z; cbn in Hs; try discriminate; lia.
          + rewrite nth_error_app1 in Hs by lia. assumption. }
      destruct (xltb (fst (gb P)) (fst (ga Q))) eqn:L; cbn [fst snd].
      + exists (S P), Q, (pre ++ [gb P]). split; [lia|]. split; [lia|]. split; [lia|].
        split; [rewrite app_length; cbn; lia|]. split.
        { rewrite <- app_assoc. cbn [app]. rewrite KA. exact E5. }
        split; [intros s v Hs; apply Hsl; assumption|].
        intros k' s Hk' Hne. rewrite upd_slot by assumption. destruct (Nat.eqb_spec k' k); [lia|]. cbn [andb]. apply E7; assumption.
      + exists P, (S Q), (pre ++ [ga Q]). split; [lia|]. split; [lia|]. split; [lia|].
        split; [rewrite app_length; cbn; lia|]. split.
        { rewrite <- app_assoc. cbn [app]. rewrite KB. exact E5. }
        split; [intros s v Hs; apply Hsl; assumption|].
        intros k' s Hk' Hne. rewrite upd_slot by assumption. destruct (Nat.eqb_spec k' k); [lia|]. cbn [andb]. apply E7; assumption. }
  destruct (G K (le_n K)) as [P [Q [pre [_ [_ [_ [E4 [E5 [E6 E7]]]]]]]]].
  rewrite Nat.sub_diag in E5. cbn [mergeK] in E5. rewrite app_nil_r in E5. rewrite E5.
  split; [assumption|]. split; assumption.
Qed.

Lemma kmin_merge_cells : forall K f acc xi (ga gb : nat -> nat -> xr * Z),
  (forall k, k < f -> holds K f k acc (ga k)) -> (forall k, k < f -> holds K f k xi (gb k)) ->
  forall k, k < f ->
  let L := mergeK K (map (ga k) (seq 0 K)) (map (gb k) (seq 0 K)) in
  length L = K /\
  forall s v, nth_error L s = Some v -> slot (kmin_merge K f acc xi) f k s = cellpair v.
Proof.
  intros K f acc xi ga gb HA HB k Hk. cbv zeta. unfold kmin_merge.
  set (out := for_up f (fun k out => fst (fst (for_up K (kmin_merge_body f k acc xi) (out, k, k))))
    (fun _ => NaN)).
  assert (G : forall n, n <= f -> forall k, k < n ->
     let L := mergeK K (map (ga k) (seq 0 K)) (map (gb k) (seq 0 K)) in
     length L = K /\ forall s v, nth_error L s = Some v ->
     slot (for_up n (fun k out =>
       fst (fst (for_up K (kmin_merge_body f k acc xi) (out, k, k)))) (fun _ => NaN)) f k s = cellpair v).
  { clear k Hk. induction n; intros Hn k Hk; [lia|]. cbv zeta. cbn [for_up].
    set (o := for_up n _ _) in *.
    destruct (Nat.eq_dec k n) as [->|Q].
    - destruct (merge_loop K f n acc xi o (ga n) (gb n)) as [M1 [M2 M3]];
        [lia|apply HA; lia|apply HB; lia|]. split; assumption.
    - destruct (merge_loop K f n acc xi o (ga n) (gb n)) as [M1 [M2 M3]];
        [lia|apply HA; lia|apply HB; lia|].
      destruct (IHn ltac:(lia) k ltac:(lia)) as [I1 I2]. split; [assumption|].
      intros s v Hs. rewrite M3 by lia. apply I2; assumption. }
  destruct (G f (le_n f) k Hk) as [G1 G2]. split; [exact G1|]. intros s v Hs.
  assert (Hs' : s < K) by (rewrite <- G1; apply nth_error_Some; congruence).
  rewrite <- (G2 s v Hs). fold out. unfold slot.
  destruct (for_up_cell (2 * K * f) (fun q => q) (fun q _ => out q) acc) as [C _].
  - intros; assumption.
  - intros; reflexivity.
  - rewrite (C (k + 2 * s * f)) by nia. rewrite (C (k + (2 * s + 1) * f)) by nia. reflexivity.
Qed.

(** ** Lists *)
Lemma xr_dec : forall x y : xr, {x = y} + {x <> y}.
Proof.
  intros [a| | |] [b| | |]; try (right; discriminate); try (left; reflexivity).
  destruct (Req_EM_T a b); [left; congruence|right; congruence].
Qed.
Lemma xrz_dec : forall x y : xr * Z, {x = y} + {x <> y}.
Proof.
  intros [a i] [b j]. destruct (xr_dec a b); [|right; congruence].
  destruct (Z.eq_dec i j); [left; congruence|right; congruence].
Qed.

Fixpoint merge (l1 : list (xr * Z)) : list (xr * Z) -> list (xr * Z) :=
  fix aux l2 :=
    match l1, l2 with
    | [], _ => l2
    | _, [] => l1
    | a :: l1', b :: l2' => if xltb (fst b) (fst a) then b :: aux l2' else a :: merge l1' l2
    end.

Lemma merge_nil_r : forall l, merge l [] = l.
Proof. destruct l; reflexivity. Qed.
Lemma merge_nil_l : forall l, merge [] l = l.
Proof. destruct l; reflexivity. Qed.
Lemma merge_cons : forall a l1 b l2, merge (a :: l1) (b :: l2) =
  if xltb (fst b) (fst a) then b :: merge (a :: l1) l2 else a :: merge l1 (b :: l2).
Proof. reflexivity. Qed.

Definition pad : xr * Z := (PInf, 0%Z).

Lemma mergeK_merge : forall n ta tb na nb,
  (forall p, In p ta -> xlt (fst p) PInf) -> (forall p, In p tb -> xlt (fst p) PInf) ->
  n <= length ta + na -> n <= length tb + nb ->
  mergeK n (ta ++ repeat pad na) (tb ++ repeat pad nb) =
  firstn n (merge ta tb ++ repeat pad (na + nb)).
Proof.
  induction n; intros ta tb na nb Ha Hb La Lb; [reflexivity|].
  destruct ta as [|a ta], tb as [|b tb].
  - destruct na as [|na], nb as [|nb]; try (cbn in *; lia). cbn [mergeK app repeat].
    change (xltb (fst pad) (fst pad)) with false. cbn iota.
    change (pad :: repeat pad nb) with ([] ++ repeat pad (S nb)).
    change (repeat pad na) with ([] ++ repeat pad na) at 1.
    rewrite IHn by (cbn in *; auto; lia). rewrite merge_nil_l. cbn. reflexivity.
  - destruct na as [|na]; [cbn in *; lia|]. cbn [mergeK app repeat].
    assert (E : xltb (fst b) (fst pad) = true) by (apply xltb_spec; apply Hb; left; reflexivity).
    rewrite E. change (pad :: repeat pad na) with ([] ++ repeat pad (S na)).
    rewrite IHn; [|intros p []|intros; apply Hb; right; assumption|cbn in *; lia|cbn in *; lia].
    rewrite !merge_nil_l. reflexivity.
  - destruct nb as [|nb]; [cbn in *; lia|]. cbn [mergeK app repeat].
    assert (E : xltb (fst pad) (fst a) = false) by (destruct (fst a); reflexivity).
    rewrite E. change (pad :: repeat pad nb) with ([] ++ repeat pad (S nb)).
    rewrite IHn; [|intros; apply Ha; right; assumption|intros p []|cbn in *; lia|cbn in *; lia].
    rewrite !merge_nil_r. reflexivity.
  - cbn [mergeK app]. rewrite merge_cons. destruct (xltb (fst b) (fst a)).
    + change (a :: ta ++ repeat pad na) with ((a :: ta) ++ repeat pad na).
      rewrite IHn; [|assumption|intros; apply Hb; right; assumption|cbn in *; lia|cbn in *; lia]. reflexivity.
    + change (b :: tb ++ repeat pad nb) with ((b :: tb) ++ repeat pad nb).
      rewrite IHn; [|intros; apply Ha; right; assumption|assumption|cbn in *; lia|cbn in *; lia]. reflexivity.
Qed.

Lemma merge_perm : forall l1 l2, Permutation (merge l1 l2) (l1 ++ l2).
Proof.
  induction l1 as [|a l1 IH1]; intros l2; [rewrite merge_nil_l; reflexivity|].
  induction l2 as [|b l2 IH2]; [rewrite merge_nil_r, app_nil_r; reflexivity|].
  rewrite merge_cons. destruct (xltb (fst b) (fst a)).
  - rewrite IH2. apply Permutation_middle.
  - rewrite IH1. reflexivity.
Qed.

Lemma merge_sorted : forall l1 l2, StronglySorted lex l1 -> StronglySorted lex l2 ->
  (forall p q, In p l1 -> In q l2 -> (snd p < snd q)%Z) ->
  (forall p, In p l1 \/ In p l2 -> fst p <> NaN) ->
  StronglySorted lex (merge l1 l2).
Proof.
  induction l1 as [|a l1 IH1]; intros l2 S1 S2 HI HN; [rewrite merge_nil_l; assumption|].
  induction l2 as [|b l2 IH2]; [rewrite merge_nil_r; assumption|].
  rewrite merge_cons. inversion S1; inversion S2; subst. rewrite Forall_forall in *.
  destruct (xltb (fst b) (fst a)) eqn:E.
  - constructor.
    + apply IH2; [assumption| |]; intros; [apply HI|apply HN]; cbn in *; tauto.
    + apply Forall_forall. intros x Hx. eapply Permutation_in in Hx; [|apply merge_perm].
      apply in_app_or in Hx. assert (lex b a) by (left; apply xltb_spec; assumption).
      destruct Hx as [[<-|Hx]|Hx]; auto. eapply lex_trans; [eassumption|auto].
  - constructor.
    + apply IH1; [assumption|constructor; [assumption|now apply Forall_forall]| |]; intros; [apply HI|apply HN]; cbn in *; tauto.
    + apply Forall_forall. intros x Hx. eapply Permutation_in in Hx; [|apply merge_perm].
      apply in_app_or in Hx.
      assert (lex a b).
      { apply xltb_false in E; [|apply HN; right; left; reflexivity|apply HN; left; left; reflexivity].
        destruct E as [E|[E _]]; [left; assumption|right; split; [assumption|]].
        apply HI; left; reflexivity. }
      destruct Hx as [Hx|[<-|Hx]]; auto. eapply lex_trans; [eassumption|auto].
Qed.

Lemma lex_irrefl : forall a, ~ lex a a.
Proof. intros a [H|[_ H]]; [apply (xlt_irrefl _ H)|lia]. Qed.
Lemma lex_NoDup : forall l, StronglySorted lex l -> NoDup l.
Proof.
  induction l; intros H; constructor; inversion H; subst; auto.
  intros Hin. rewrite Forall_forall in H3. apply (lex_irrefl a). auto.
Qed.

Lemma merge_k_smallest : forall K l1 l2 A B,
  k_smallest K l1 A -> k_smallest K l2 B ->
  (forall p q, In p l1 -> In q l2 -> (snd p < snd q)%Z) ->
  (forall p, In p l1 \/ In p l2 -> fst p <> NaN /\ fst p <> PInf) ->
  k_smallest K (l1 ++ l2) (mergeK K A B).
Proof.
  intros K l1 l2 A B [ta [la [PA [TA [EA [SA XA]]]]]] [tb [lb [PB [TB [EB [SB XB]]]]]] HI HN.
  assert (Ia : forall p, In p ta \/ In p la -> In p l1).
  { intros p Hp. eapply Permutation_in; [apply Permutation_sym; exact PA|]. apply in_or_app; tauto. }
  assert (Ib : forall p, In p tb \/ In p lb -> In p l2).
  { intros p Hp. eapply Permutation_in; [apply Permutation_sym; exact PB|]. apply in_or_app; tauto. }
  assert (Hfin : forall p, In p l1 \/ In p l2 -> xlt (fst p) PInf).
  { intros p Hp. destruct (HN p Hp). destruct (fst p); cbn; congruence || exact I. }
  assert (Ll1 : length l1 = length ta + length la) by (rewrite (Permutation_length PA), app_length; reflexivity).
  assert (Ll2 : length l2 = length tb + length lb) by (rewrite (Permutation_length PB), app_length; reflexivity).
  fold pad in EA, EB. rewrite EA, EB.
  rewrite mergeK_merge; [|intros; apply Hfin; auto|intros; apply Hfin; auto|lia|lia].
  set (M := merge ta tb).
  assert (PM : Permutation M (ta ++ tb)) by apply merge_perm.
  assert (SM : StronglySorted lex M).
  { apply merge_sorted; try assumption.
    - intros; apply HI; auto.
    - intros p [Hp|Hp]; apply HN; auto. }
  assert (LM : length M = length ta + length tb) by (rewrite (Permutation_length PM), app_length; reflexivity).
  destruct (SS_split _ _ K _ SM) as [S1 [S2 S3]].
  exists (firstn K M), (skipn K M ++ la ++ lb). split; [|split; [|split; [|split]]].
  - rewrite app_assoc, firstn_skipn. rewrite PM, PA, PB.
    rewrite <- !app_assoc. apply Permutation_app_head. rewrite !app_assoc.
    apply Permutation_app_tail. apply Permutation_app_comm.
  - rewrite firstn_length, app_length. lia.
  - rewrite firstn_app. f_equal. rewrite app_length.
    fold pad. set (r := K - length l1 + (K - length l2)).
    replace (K - (length l1 + length l2)) with (min (K - length M) r) by lia.
    generalize (K - length M). generalize r. clear. induction r; intros [|n]; cbn; try reflexivity.
    f_equal. apply IHr.
  - assumption.
  - assert (pig : forall (t l : list (xr * Z)) a, StronglySorted lex t -> incl t M -> K <= length t ->
       In a (firstn K M) -> ~ In a t -> exists c, In c t /\ lex a c).
    { intros t l a St Ht Lt Ha Hat.
      destruct (Forall_Exists_dec (fun c => In c (firstn K M))
        (fun c => in_dec xrz_dec c (firstn K M)) t) as [F|E].
      - exfalso. assert (ND : NoDup (a :: t)) by (constructor; [assumption|apply lex_NoDup; assumption]).
        assert (IC : incl (a :: t) (firstn K M)).
        { intros x [<-|Hx]; [assumption|]. rewrite Forall_forall in F. auto. }
        pose proof (NoDup_incl_length ND IC) as Q. rewrite firstn_length in Q. cbn in Q. lia.
      - apply Exists_exists in E. destruct E as [c [Hc Hn]]. exists c. split; [assumption|].
        apply S3; [assumption|]. specialize (Ht c Hc). rewrite <- (firstn_skipn K M) in Ht.
        apply in_app_or in Ht. tauto. }
    assert (ia : incl ta M) by (intros x Hx; eapply Permutation_in; [apply Permutation_sym; exact PM|apply in_or_app; auto]).
    assert (ib : incl tb M) by (intros x Hx; eapply Permutation_in; [apply Permutation_sym; exact PM|apply in_or_app; auto]).
    intros a b Ha Hb. apply in_app_or in Hb. destruct Hb as [Hb|Hb]; [apply S3; assumption|].
    assert (dec : forall (x : xr * Z) t, {In x t} + {~ In x t}).
    { intros. apply in_dec. apply xrz_dec. }
    apply in_app_or in Hb. destruct Hb as [Hb|Hb].
    + destruct (dec a ta); [apply XA; assumption|].
      assert (0 < length la) by (destruct la; [destruct Hb|cbn; lia]).
      destruct (pig ta la a) as [c [C1 C2]]; try assumption; [lia|].
      eapply lex_trans; [exact C2|apply XA; assumption].
    + destruct (dec a tb); [apply XB; assumption|].
      assert (0 < length lb) by (destruct lb; [destruct Hb|cbn; lia]).
      destruct (pig tb lb a) as [c [C1 C2]]; try assumption; [lia|].
      eapply lex_trans; [exact C2|apply XB; assumption].
Qed.

(** The specification determines the list. *)
Lemma taken_unique : forall t1 t2 r1 r2, StronglySorted lex t1 -> StronglySorted lex t2 ->
  (forall a b, In a t1 -> In b r1 -> lex a b) -> (forall a b, In a t2 -> In b r2 -> lex a b) ->
  Permutation (t1 ++ r1) (t2 ++ r2) -> length t1 = length t2 -> t1 = t2.
Proof.
  induction t1 as [|a t1 IH]; intros [|b t2] r1 r2 S1 S2 X1 X2 P L; try discriminate; [reflexivity|].
  inversion S1; inversion S2; subst. rewrite Forall_forall in *.
  assert (E : a = b).
  { destruct (xrz_dec a b) as [|N]; [assumption|]. exfalso.
    assert (lex b a).
    { assert (Ha : In a ((b :: t2) ++ r2)) by (eapply Permutation_in; [exact P|left; reflexivity]).
      destruct Ha as [Ha|Ha]; [congruence|]. apply in_app_or in Ha. destruct Ha; [auto|].
      apply X2; [left; reflexivity|assumption]. }
    assert (lex a b).
    { assert (Hb : In b ((a :: t1) ++ r1)) by (eapply Permutation_in; [apply Permutation_sym; exact P|left; reflexivity]).
      destruct Hb as [Hb|Hb]; [congruence|]. apply in_app_or in Hb. destruct Hb; [auto|].
      apply X1; [left; reflexivity|assumption]. }
    apply (lex_irrefl a). eapply lex_trans; eassumption. }
  subst b. f_equal. apply (IH t2 r1 r2); try assumption.
  - intros; apply X1; [right|]; assumption.
  - intros; apply X2; [right|]; assumption.
  - cbn in P. eapply Permutation_cons_inv; exact P.
  - cbn in L. lia.
Qed.

Lemma k_smallest_unique : forall K l A B, k_smallest K l A -> k_smallest K l B -> A = B.
Proof.
  intros K l A B [ta [la [PA [TA [EA [SA XA]]]]]] [tb [lb [PB [TB [EB [SB XB]]]]]].
  subst A B. f_equal. eapply (taken_unique ta tb la lb); try assumption; [|congruence].
  rewrite <- PA. assumption.
Qed.

(** ** Merging two runs *)
Lemma kmin_merge_run : forall o K f l1 l2 acc1 acc2,
  finite_seq f (l1 ++ l2) -> kinv K f acc1 l1 -> kinv K f acc2 l2 ->
  kinv K f (kmin_merge K f acc1 acc2) (l1 ++ l2) /\
  forall p, p < 2 * K * f ->
    kmin_merge K f acc1 acc2 p = run (KMin_Red o K f) (l1 ++ l2) (rinit (KMin_Red o K f)) p.
Proof.
  intros o K f l1 l2 acc1 acc2 HF H1 H2.
  assert (HI : kinv K f (kmin_merge K f acc1 acc2) (l1 ++ l2)).
  { intros k Hk.
    destruct (choose_fin _ (fun k g => holds K f k acc1 g /\ k_smallest K (col2 k l1) (map g (seq 0 K)))
       (fun _ => (NaN, 0%Z)) f H1) as [G1 HG1].
    destruct (choose_fin _ (fun k g => holds K f k acc2 g /\ k_smallest K (col2 k l2) (map g (seq 0 K)))
       (fun _ => (NaN, 0%Z)) f H2) as [G2 HG2].
    destruct (kmin_merge_cells K f acc1 acc2 G1 G2) with (k := k) as [M1 M2];
      [intros; apply HG1; assumption|intros; apply HG2; assumption|assumption|].
    set (L := mergeK K _ _) in *.
    exists (fun s => nth s L (NaN, 0%Z)). split.
    - intros s Hs. apply M2. apply nth_error_nth'. lia.
    - replace (map (fun s => nth s L (NaN, 0%Z)) (seq 0 K)) with L.
      + destruct HF as [F1 F2]. rewrite map_app in F1. apply SS_app in F1. destruct F1 as [_ [_ F1]].
        unfold col2, column. rewrite !map_app. apply merge_k_smallest.
        * apply HG1; assumption.
        * apply HG2; assumption.
        * intros p q Hp Hq. rewrite map_map in Hp, Hq. apply in_map_iff in Hp, Hq.
          destruct Hp as [x [<- Hp]], Hq as [y [<- Hq]]. cbn. apply F1; apply in_map; assumption.
        * intros p Hp. rewrite !map_map in Hp. rewrite !in_map_iff in Hp.
          destruct Hp as [[[z x] [<- Hp]]|[[z x] [<- Hp]]]; cbn; apply (F2 z x); try assumption;
            apply in_or_app; auto.
      + apply list_eq_nth. intros s. destruct (le_lt_dec K s) as [Q|Q].
        * rewrite (proj2 (nth_error_None L s)) by lia. symmetry. apply nth_error_None.
          rewrite map_length, seq_length. lia.
        * rewrite nth_error_map_seq by assumption. apply nth_error_nth'. lia. }
  split; [assumption|].
  intros p Hp. pose proof (kinv_run K f o (l1 ++ l2) [] _ (kinv_init K f) HF) as HR.
  cbn [app] in HR. cbn [rinit KMin_Red]. 
  set (k := p mod f). set (t := p / f).
  assert (Hf : f <> 0) by lia.
  assert (Hk : k < f) by (apply Nat.mod_upper_bound; assumption).
  assert (Ep : p = k + t * f) by (unfold k, t; pose proof (Nat.div_mod p f Hf); lia).
  assert (Ht : t < 2 * K) by nia.
  destruct (HI k Hk) as [g1 [A1 A2]]. destruct (HR k Hk) as [g2 [B1 B2]].
  pose proof (k_smallest_unique _ _ _ _ A2 B2) as E.
  assert (Eg : forall s, s < K -> g1 s = g2 s).
  { intros s Hs. assert (X : nth_error (map g1 (seq 0 K)) s = nth_error (map g2 (seq 0 K)) s) by now rewrite E.
    rewrite !nth_error_map_seq in X by assumption. congruence. }
  set (s := t / 2).
  assert (Hs : s < K) by (apply Nat.div_lt_upper_bound; lia).
  assert (Es : slot (kmin_merge K f acc1 acc2) f k s = slot (run (KMin_Red o K f) (l1 ++ l2) (kmin_init K f)) f k s).
  { rewrite (A1 s Hs), (B1 s Hs), (Eg s Hs). reflexivity. }
  rewrite Ep. pose proof (Nat.div_mod t 2 ltac:(lia)) as Dt. pose proof (Nat.mod_upper_bound t 2 ltac:(lia)) as Mt.
  fold s in Dt. destruct (t mod 2) as [|[|?]]; [| |lia].
  - replace t with (2 * s) by lia. exact (f_equal fst Es).
  - replace t with (2 * s + 1) by lia. exact (f_equal snd Es).
Qed.

Lemma kmin_merge_correct : forall o K f l1 l2, finite_seq f (l1 ++ l2) ->
  forall p, p < 2 * K * f ->
    kmin_merge K f (run (KMin_Red o K f) l1 (rinit (KMin_Red o K f)))
                   (run (KMin_Red o K f) l2 (rinit (KMin_Red o K f))) p =
    run (KMin_Red o K f) (l1 ++ l2) (rinit (KMin_Red o K f)) p.
Proof.
  intros o K f l1 l2 HF. apply kmin_merge_run; [assumption| |].
  - apply (kinv_run K f o l1 [] _ (kinv_init K f)). destruct HF as [F1 F2]. split.
    + rewrite map_app in F1. apply SS_app in F1. tauto.
    + intros; eapply F2; [apply in_or_app; left|]; eassumption.
  - apply (kinv_run K f o l2 [] _ (kinv_init K f)). destruct HF as [F1 F2]. split.
    + rewrite map_app in F1. apply SS_app in F1. tauto.
    + intros; eapply F2; [apply in_or_app; right|]; eassumption.
Qed.

(** Any number of consecutive pieces, merged from left to right starting from the initial
    accumulator, as done by the second kernel of the two-dimensional GPU scheme. *)
Lemma kmin_pieces_correct : forall o K f (ls : list (list (Z * cells))), finite_seq f (concat ls) ->
  forall p, p < 2 * K * f ->
    fold_left (kmin_merge K f) (map (fun l => run (KMin_Red o K f) l (rinit (KMin_Red o K f))) ls)
      (rinit (KMin_Red o K f)) p =
    run (KMin_Red o K f) (concat ls) (rinit (KMin_Red o K f)) p.
Proof.
  intros o K f ls HF.
  assert (G : forall ls l0 acc, finite_seq f (l0 ++ concat ls) -> kinv K f acc l0 ->
    (forall p, p < 2 * K * f -> acc p = run (KMin_Red o K f) l0 (rinit (KMin_Red o K f)) p) ->
    forall p, p < 2 * K * f ->
    fold_left (kmin_merge K f) (map (fun l => run (KMin_Red o K f) l (rinit (KMin_Red o K f))) ls) acc p =
    run (KMin_Red o K f) (l0 ++ concat ls) (rinit (KMin_Red o K f)) p).
  { clear. induction ls as [|l ls IH]; intros l0 acc HF HI HE p Hp; cbn [map fold_left concat].
    - rewrite app_nil_r. apply HE; assumption.
    - cbn [concat] in HF. rewrite app_assoc in *.
      assert (HF' : finite_seq f (l0 ++ l)).
      { destruct HF as [F1 F2]. split.
        - rewrite map_app in F1. apply SS_app in F1. tauto.
        - intros; eapply F2; [apply in_or_app; left|]; eassumption. }
      assert (Hl : kinv K f (run (KMin_Red o K f) l (rinit (KMin_Red o K f))) l).
      { apply (kinv_run K f o l [] _ (kinv_init K f)). destruct HF' as [F1 F2]. split.
        - rewrite map_app in F1. apply SS_app in F1. tauto.
        - intros; eapply F2; [apply in_or_app; right|]; eassumption. }
      destruct (kmin_merge_run o K f l0 l acc _ HF' HI Hl) as [A B].
      apply IH; assumption. }
  intros p Hp. apply (G ls [] _); [assumption|apply kinv_init|reflexivity|assumption].
Qed.
