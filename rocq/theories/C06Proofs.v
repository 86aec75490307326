(** Proofs about min/max/argmin/argmax reductions. *)

From Coq Require Import ZArith Reals Arith Lia Lra List Bool Sorted.
From Verif Require Import Result XReal Reductions ReductionSpec RedLoops.
Import ListNotations.

Lemma xltb_spec : forall x y, xltb x y = true <-> xlt x y.
Proof.
  intros [a| | |] [b| | |]; simpl; try (split; intros; (discriminate || tauto || reflexivity)).
  destruct (Rlt_dec a b); split; intros; (discriminate || tauto || reflexivity).
Qed.
Lemma xltb_false : forall x y, x <> NaN -> y <> NaN -> xltb x y = false -> xle y x.
Proof.
  intros [a| | |] [b| | |] Hx Hy H; unfold xle; simpl in *; try congruence; try tauto;
    try (right; split; congruence).
  destruct (Rlt_dec a b); [discriminate|]. destruct (Rtotal_order b a) as [L|[L|L]];
    [left; exact L|right; subst; split; congruence|lra].
Qed.
Lemma xlt_trans : forall x y z, xlt x y -> xlt y z -> xlt x z.
Proof. intros [a| | |] [b| | |] [c| | |]; simpl; try tauto; intros; lra. Qed.
Lemma xlt_irrefl : forall x, ~ xlt x x.
Proof. intros [a| | |]; simpl; try tauto. lra. Qed.
Lemma xle_refl : forall x, x <> NaN -> xle x x.
Proof. intros; right; auto. Qed.
Lemma xle_trans : forall x y z, xle x y -> xle y z -> xle x z.
Proof.
  intros x y z [A|[A A']] [B|[B B']]; subst; unfold xle; auto.
  left; eapply xlt_trans; eauto.
Qed.
Lemma xlt_le_trans : forall x y z, xlt x y -> xle y z -> xlt x z.
Proof. intros x y z A [B|[B _]]; [eapply xlt_trans; eauto|now subst]. Qed.
Lemma xle_lt_trans : forall x y z, xle x y -> xlt y z -> xlt x z.
Proof. intros x y z [A|[A _]] B; [eapply xlt_trans; eauto|now subst]. Qed.

(** One component of the accumulator: value and index. *)
Definition step1 (mx : bool) (s : xr * xr) (p : Z * xr) : xr * xr :=
  if better mx (snd p) (fst s) then (snd p, of_long (fst p)) else s.

Lemma optarg_short_cells : forall mx d acc xi ind k, k < d ->
  (optarg_short mx d acc xi ind k, optarg_short mx d acc xi ind (d + k)) =
  step1 mx (acc k, acc (d + k)) (ind, xi k).
Proof.
  intros mx d acc xi ind k Hk. unfold optarg_short.
  assert (G : forall n, n <= d ->
    let a := for_up n (fun k a => if better mx (xi k) (a k)
                       then upd (upd a k (xi k)) (d + k) (of_long ind) else a) acc in
    (forall k, k < n -> (a k, a (d + k)) = step1 mx (acc k, acc (d + k)) (ind, xi k)) /\
    (forall k, n <= k < d -> a k = acc k /\ a (d + k) = acc (d + k))).
  { induction n; intros Hn; cbv zeta; cbn [for_up].
    - split; [lia|]. intros; split; reflexivity.
    - destruct IHn as [A B]; [lia|]. destruct (B n) as [B1 B2]; [lia|]. split.
      + intros j Hj. destruct (Nat.eq_dec j n) as [->|Hjn].
        * rewrite B1. unfold step1. cbn [fst snd].
          destruct (better mx (xi n) (acc n)).
          -- rewrite upd_other by lia. rewrite upd_same. rewrite upd_same. reflexivity.
          -- rewrite B1, B2. reflexivity.
        * rewrite B1. destruct (better mx (xi n) (acc n)).
          -- rewrite !(upd_other _ _ _ _) by lia. apply A. lia.
          -- apply A; lia.
      + intros j Hj. rewrite B1. destruct (better mx (xi n) (acc n)).
        * rewrite !(upd_other _ _ _ _) by lia. apply B; lia.
        * apply B; lia. }
  apply (G d); lia.
Qed.

Lemma opt_pair_cells : forall mx d acc xi k, k < d ->
  opt_pair mx d acc xi k = if better mx (xi k) (acc k) then xi k else acc k.
Proof.
  intros mx d acc xi k Hk. unfold opt_pair.
  assert (G : forall n, n <= d ->
    let a := for_up n (fun k a => if better mx (xi k) (a k) then upd a k (xi k) else a) acc in
    (forall k, k < n -> a k = if better mx (xi k) (acc k) then xi k else acc k) /\
    (forall k, n <= k -> a k = acc k)).
  { induction n; intros Hn; cbv zeta; cbn [for_up].
    - split; [lia|]. intros; reflexivity.
    - destruct IHn as [A B]; [lia|]. pose proof (B n (le_n n)) as B1. split.
      + intros j Hj. rewrite B1. destruct (Nat.eq_dec j n) as [->|Hjn].
        * destruct (better mx (xi n) (acc n)); [apply upd_same|exact B1].
        * destruct (better mx (xi n) (acc n)); [rewrite upd_other by lia|]; apply A; lia.
      + intros j Hj. rewrite B1. destruct (better mx (xi n) (acc n)); [rewrite upd_other by lia|]; apply B; lia. }
  apply (G d); lia.
Qed.

Lemma optarg_run : forall mx o d k l acc, k < d ->
  (run (OptArg_Red mx o d) l acc k, run (OptArg_Red mx o d) l acc (d + k)) =
  fold_left (step1 mx) (column k l) (acc k, acc (d + k)).
Proof.
  intros mx o d k l; induction l as [|[z x] l IH]; intros acc Hk; cbn; [reflexivity|].
  unfold run in *. cbn in IH. rewrite IH by assumption.
  rewrite optarg_short_cells by assumption. reflexivity.
Qed.

Lemma opt_run : forall mx d k l acc, k < d ->
  run (Opt_Red mx d) l acc k =
  fst (fold_left (step1 mx) (column k l) (acc k, Fin 0)).
Proof.
  intros mx d k l acc Hk. generalize (Fin 0). revert acc.
  induction l as [|[z x] l IH]; intros acc i; cbn; [reflexivity|].
  unfold run in *. cbn in IH. 
  unfold step1 at 2. cbn [fst snd].
  destruct (better mx (x k) (acc k)) eqn:E.
  - rewrite (IH _ (of_long z)). rewrite opt_pair_cells by assumption. rewrite E. reflexivity.
  - rewrite (IH _ i). rewrite opt_pair_cells by assumption. rewrite E. reflexivity.
Qed.

(** The scalar fold finds the first optimum. *)
Definition strictly (mx : bool) (x y : xr) : Prop := if mx then xlt y x else xlt x y.
Lemma better_true : forall mx x y, better mx x y = true <-> strictly mx x y.
Proof. intros [] x y; apply xltb_spec. Qed.
Lemma better_false : forall mx x y, x <> NaN -> y <> NaN -> better mx x y = false -> as_good mx y x.
Proof. intros [] x y Hx Hy H; unfold as_good; apply xltb_false; assumption. Qed.
Lemma strictly_good : forall mx x y z, strictly mx x y -> as_good mx y z -> as_good mx x z.
Proof.
  intros [] x y z A B; unfold strictly, as_good in *.
  - left. eapply xle_lt_trans; eassumption.
  - left. eapply xlt_le_trans; eassumption.
Qed.
Lemma strictly_neq : forall mx x y z, strictly mx x y -> as_good mx y z -> x <> z.
Proof.
  intros [] x y z A B E; unfold strictly, as_good in *; subst z.
  - apply (xlt_irrefl y). eapply xlt_le_trans; eassumption.
  - apply (xlt_irrefl x). eapply xlt_le_trans; eassumption.
Qed.
Lemma good_refl : forall mx x, x <> NaN -> as_good mx x x.
Proof. intros [] x H; apply xle_refl; assumption. Qed.
Lemma strictly_nan : forall mx x y, strictly mx x y -> x <> NaN.
Proof. intros [] [a| | |] [b| | |]; simpl; intros; try congruence; tauto. Qed.
Lemma worst_good : forall mx x, x <> NaN -> as_good mx x (worst mx).
Proof.
  intros [] [a| | |] H; unfold as_good, worst, xle; simpl; try (left; exact I); try congruence;
  right; split; congruence.
Qed.

Lemma fold_best : forall mx l done v i,
  StronglySorted Z.lt (map fst (done ++ l)) ->
  (forall p, In p l -> snd p <> NaN) ->
  first_best mx done i v -> v <> NaN ->
  exists i' v', fold_left (step1 mx) l (v, of_long i) = (v', of_long i') /\
                first_best mx (done ++ l) i' v'.
Proof.
  intros mx l. induction l as [|[z x] l IH]; intros done v i HS HN HB Hv.
  - exists i, v. rewrite app_nil_r. auto.
  - cbn [fold_left]. unfold step1 at 2. cbn [fst snd].
    assert (Hx : x <> NaN) by (apply (HN (z, x)); left; reflexivity).
    replace (done ++ (z, x) :: l) with ((done ++ [(z, x)]) ++ l) by (rewrite <- app_assoc; reflexivity).
    replace (done ++ (z, x) :: l) with ((done ++ [(z, x)]) ++ l) in HS by (rewrite <- app_assoc; reflexivity).
    assert (Hz : forall j w, In (j, w) done -> (j < z)%Z).
    { intros j w Hj. rewrite map_app in HS.
      assert (HS' : StronglySorted Z.lt (map fst (done ++ [(z, x)]))).
      { clear -HS. induction (map fst (done ++ [(z, x)])) as [|a m IHm]; [constructor|].
        cbn in HS. inversion HS; subst. constructor; [apply IHm; assumption|].
        rewrite Forall_app in H2. tauto. }
      rewrite map_app in HS'. cbn in HS'.
      assert (Hin : In j (map fst done)) by (apply in_map_iff; exists (j, w); auto).
      clear -HS' Hin. induction (map fst done) as [|a m IHm]; [destruct Hin|].
      cbn in HS'. inversion HS'; subst. destruct Hin as [->|Hin]; [|apply IHm; assumption].
      rewrite Forall_app in H2. destruct H2 as [_ H2]. inversion H2; assumption. }
    destruct HB as [HB1 HB2].
    destruct (better mx x v) eqn:E.
    + apply IH; [exact HS|intros; apply HN; right; assumption| |assumption].
      apply better_true in E. split; [apply in_or_app; right; left; reflexivity|].
      intros j w Hj. apply in_app_or in Hj. destruct Hj as [Hj|[Hj|[]]].
      * destruct (HB2 j w Hj) as [G1 G2]. split; [eapply strictly_good; eassumption|].
        intros ->. exfalso. eapply strictly_neq; [exact E|exact G1|reflexivity].
      * inversion Hj; subst. split; [apply good_refl; assumption|lia].
    + apply IH; [exact HS|intros; apply HN; right; assumption| |assumption].
      split; [apply in_or_app; left; assumption|].
      intros j w Hj. apply in_app_or in Hj. destruct Hj as [Hj|[Hj|[]]]; [apply HB2; assumption|].
      inversion Hj; subst. split; [apply better_false; assumption|].
      intros _. specialize (Hz i v HB1). lia.
Qed.

(** From the initial accumulator (worst, 0): either nothing beats it, or the optimum. *)
Lemma fold_init : forall mx l,
  StronglySorted Z.lt (map fst l) ->
  (forall p, In p l -> snd p <> NaN) ->
  (fold_left (step1 mx) l (worst mx, Fin 0) = (worst mx, Fin 0) /\
   (forall p, In p l -> snd p = worst mx)) \/
  exists i v, fold_left (step1 mx) l (worst mx, Fin 0) = (v, of_long i) /\ first_best mx l i v.
Proof.
  intros mx l. 
  assert (G : forall l done, StronglySorted Z.lt (map fst (done ++ l)) ->
     (forall p, In p l -> snd p <> NaN) -> (forall p, In p done -> snd p = worst mx) ->
     (fold_left (step1 mx) l (worst mx, Fin 0) = (worst mx, Fin 0) /\
       (forall p, In p (done ++ l) -> snd p = worst mx)) \/
     exists i v, fold_left (step1 mx) l (worst mx, Fin 0) = (v, of_long i) /\ first_best mx (done ++ l) i v).
  { clear l. induction l as [|[z x] l IH]; intros done HS HN HD.
    - left. split; [reflexivity|]. rewrite app_nil_r. assumption.
    - cbn [fold_left]. unfold step1 at 2 4. cbn [fst snd].
      replace (done ++ (z, x) :: l) with ((done ++ [(z, x)]) ++ l) by (rewrite <- app_assoc; reflexivity).
      replace (done ++ (z, x) :: l) with ((done ++ [(z, x)]) ++ l) in HS by (rewrite <- app_assoc; reflexivity).
      assert (Hx : x <> NaN) by (apply (HN (z, x)); left; reflexivity).
      destruct (better mx x (worst mx)) eqn:E.
      + right. apply fold_best; [exact HS|intros; apply HN; right; assumption| |assumption].
        apply better_true in E.
        split; [apply in_or_app; right; left; reflexivity|].
        intros j w Hj. apply in_app_or in Hj. destruct Hj as [Hj|[Hj|[]]].
        * specialize (HD _ Hj). cbn in HD. subst w. split.
          -- eapply strictly_good; [exact E|]. apply good_refl. destruct mx; discriminate.
          -- intros Ew. exfalso. eapply strictly_neq; [exact E|apply (good_refl mx (worst mx)); destruct mx; discriminate|]. congruence.
        * inversion Hj; subst. split; [apply good_refl; assumption|lia].
      + apply IH; [exact HS|intros; apply HN; right; assumption|].
        intros p Hp. apply in_app_or in Hp. destruct Hp as [Hp|[Hp|[]]]; [apply HD; assumption|].
        subst p. cbn. apply better_false in E; [|assumption|destruct mx; discriminate].
        destruct mx, x as [a| | |]; unfold as_good, worst, xle in E; simpl in E;
          try reflexivity; destruct E as [E|[E _]]; try tauto; discriminate E. }
  intros HS HN. destruct (G l [] HS HN) as [H|H]; [intros p []| |]; cbn in H; auto.
Qed.

(** ** The statements *)

Lemma good_column : forall d l k, good_seq d l -> k < d ->
  StronglySorted Z.lt (map fst (column k l)) /\ forall p, In p (column k l) -> snd p <> NaN.
Proof.
  intros d l k [H1 H2] Hk. split.
  - unfold column. rewrite map_map. exact H1.
  - intros p Hp. apply in_map_iff in Hp. destruct Hp as [[z x] [<- Hx]]. cbn. eapply H2; eassumption.
Qed.

(** min+argmin (max+argmax) *)
Lemma optarg_correct : forall mx d l, good_seq d l -> forall k, k < d ->
  (exists z x, In (z, x) l /\ x k <> worst mx) ->
  let out := rfinal (OptArg_Red mx OBoth d) (run (OptArg_Red mx OBoth d) l (rinit (OptArg_Red mx OBoth d))) in
  let arg := rfinal (OptArg_Red mx OArg d) (run (OptArg_Red mx OArg d) l (rinit (OptArg_Red mx OArg d))) in
  let opt := rfinal (Opt_Red mx d) (run (Opt_Red mx d) l (rinit (Opt_Red mx d))) in
  exists i, first_best mx (column k l) i (out k) /\ out (d + k) = of_long i /\
            arg k = of_long i /\ opt k = out k.
Proof.
  intros mx d l Hl k Hk [z [x [Hx Hw]]]. cbv zeta. cbn [rfinal OptArg_Red Opt_Red optarg_final].
  destruct (good_column d l k Hl Hk) as [HS HN].
  pose proof (optarg_run mx OBoth d k l (optarg_init mx d) Hk) as E1.
  pose proof (optarg_run mx OArg d k l (optarg_init mx d) Hk) as E2.
  pose proof (opt_run mx d k l (fun _ => worst mx) Hk) as E3.
  assert (I1 : optarg_init mx d k = worst mx).
  { unfold optarg_init. destruct (Nat.ltb_spec k d); [reflexivity|lia]. }
  assert (I2 : optarg_init mx d (d + k) = Fin 0).
  { unfold optarg_init. destruct (Nat.ltb_spec (d + k) d); [lia|reflexivity]. }
  rewrite I1, I2 in E1, E2. cbn beta in E3.
  destruct (fold_init mx (column k l) HS HN) as [[_ A]|[i [v [A B]]]].
  - exfalso. apply Hw. apply (A (z, x k)). apply in_map_iff. exists (z, x). auto.
  - rewrite A in E1, E2, E3. cbn [rinit OptArg_Red Opt_Red].
    inversion E1 as [[E1a E1b]]. inversion E2 as [[E2a E2b]]. exists i.
    rewrite E1a, E1b, E2b, E3. cbn [fst]. auto.
Qed.

Lemma dense_sorted : forall n F, StronglySorted Z.lt (map fst (dense n F)).
Proof.
  intros n F. unfold dense. rewrite map_map. cbn. generalize 0.
  induction n; intros s; cbn; [constructor|]. constructor; [apply IHn|].
  apply Forall_forall. intros z Hz. apply in_map_iff in Hz. destruct Hz as [j [<- Hj]].
  apply in_seq in Hj. lia.
Qed.

Lemma optarg_dense : forall mx d n F, (forall j k, j < n -> k < d -> F j k <> NaN) -> forall k, k < d ->
  let out := rfinal (OptArg_Red mx OBoth d) (run (OptArg_Red mx OBoth d) (dense n F) (rinit (OptArg_Red mx OBoth d))) in
  let arg := rfinal (OptArg_Red mx OArg d) (run (OptArg_Red mx OArg d) (dense n F) (rinit (OptArg_Red mx OArg d))) in
  let opt := rfinal (Opt_Red mx d) (run (Opt_Red mx d) (dense n F) (rinit (Opt_Red mx d))) in
  (n = 0 -> out k = worst mx /\ out (d + k) = Fin 0 /\ arg k = Fin 0 /\ opt k = worst mx) /\
  (0 < n -> exists i, i < n /\ out k = F i k /\ out (d + k) = of_long (Z.of_nat i) /\
    arg k = of_long (Z.of_nat i) /\ opt k = F i k /\
    (forall j, j < n -> as_good mx (F i k) (F j k)) /\
    (forall j, j < i -> F j k <> F i k)).
Proof.
  intros mx d n F HF k Hk. cbv zeta. cbn [rfinal OptArg_Red Opt_Red optarg_final].
  assert (Hl : good_seq d (dense n F)).
  { split; [apply dense_sorted|]. intros z x Hx q Hq. apply in_map_iff in Hx.
    destruct Hx as [j [E Hj]]. inversion E; subst. apply HF; [|assumption]. apply in_seq in Hj. lia. }
  destruct (good_column d _ k Hl Hk) as [HS HN].
  pose proof (optarg_run mx OBoth d k (dense n F) (optarg_init mx d) Hk) as E1.
  pose proof (optarg_run mx OArg d k (dense n F) (optarg_init mx d) Hk) as E2.
  pose proof (opt_run mx d k (dense n F) (fun _ => worst mx) Hk) as E3.
  assert (I1 : optarg_init mx d k = worst mx).
  { unfold optarg_init. destruct (Nat.ltb_spec k d); [reflexivity|lia]. }
  assert (I2 : optarg_init mx d (d + k) = Fin 0).
  { unfold optarg_init. destruct (Nat.ltb_spec (d + k) d); [lia|reflexivity]. }
  rewrite I1, I2 in E1, E2. cbn beta in E3. cbn [rinit OptArg_Red Opt_Red].
  assert (Hin : forall j, j < n -> In (Z.of_nat j, F j k) (column k (dense n F))).
  { intros j Hj. unfold column, dense. rewrite map_map. cbn. apply in_map_iff. exists j.
    split; [reflexivity|]. apply in_seq. lia. }
  assert (Hinv : forall z w, In (z, w) (column k (dense n F)) -> exists j, j < n /\ z = Z.of_nat j /\ w = F j k).
  { intros z w H. unfold column, dense in H. rewrite map_map in H. cbn in H. apply in_map_iff in H.
    destruct H as [j [E Hj]]. inversion E. apply in_seq in Hj. exists j. split; [lia|auto]. }
  split.
  - intros ->. cbn. rewrite I1, I2. auto.
  - intros Hn. destruct (fold_init mx (column k (dense n F)) HS HN) as [[A B]|[i [v [A B]]]].
    + rewrite A in E1, E2, E3. inversion E1 as [[E1a E1b]]. inversion E2 as [[E2a E2b]].
      assert (W : forall j, j < n -> F j k = worst mx) by (intros j Hj; apply (B _ (Hin j Hj))).
      exists 0. rewrite E1a, E1b, E2b, E3, (W 0 Hn). cbn [fst]. repeat split; try lia.
      intros j Hj. rewrite (W j Hj). apply good_refl. destruct mx; discriminate.
    + rewrite A in E1, E2, E3. inversion E1 as [[E1a E1b]]. inversion E2 as [[E2a E2b]].
      destruct B as [B1 B2]. destruct (Hinv _ _ B1) as [j [Hj [-> ->]]].
      exists j. rewrite E1a, E1b, E2b, E3. cbn [fst]. repeat split; try assumption.
      * intros q Hq. apply (B2 (Z.of_nat q)). apply Hin; assumption.
      * intros q Hq E. destruct (B2 (Z.of_nat q) (F q k)) as [_ G]; [apply Hin; lia|].
        specialize (G E). lia.
Qed.
