(** Proofs for C44: soft dynamic time warping. *)

From Coq Require Import Reals List Bool Arith Lia Lra Permutation.
From Verif Require Import Result Tensordot C36Proofs SoftDTW SoftDTWSpec BSplineSpec C43Proofs.
Import ListNotations.
Local Open Scope R_scope.

(** ** The list of alignments *)

Fixpoint als (i : nat) : nat -> list (list (nat * nat)) :=
  match i with
  | O => fix col j := match j with O => [[(0, 0)%nat]] | S j' => map (cons (0%nat, S j')) (col j') end
  | S i' => fix col j := match j with
      | O => map (cons (S i', 0%nat)) (als i' 0%nat)
      | S j' => map (cons (S i', S j')) (als i' j' ++ als i' (S j') ++ col j') end
  end.

Lemma als_00 : als 0 0 = [[(0, 0)%nat]]. Proof. reflexivity. Qed.
Lemma als_S0 : forall i, als (S i) 0 = map (cons (S i, 0%nat)) (als i 0). Proof. reflexivity. Qed.
Lemma als_0S : forall j, als 0 (S j) = map (cons (0%nat, S j)) (als 0 j). Proof. reflexivity. Qed.
Lemma als_SS : forall i j, als (S i) (S j) = map (cons (S i, S j)) (als i j ++ als i (S j) ++ als (S i) j). Proof. reflexivity. Qed.

Lemma als_sound : forall i j p, In p (als i j) -> alignment i j p.
Proof.
  induction i as [|i IHi]; induction j as [|j IHj]; intros p.
  - rewrite als_00. intros [<-|[]]. constructor.
  - rewrite als_0S, in_map_iff. intros (q & <- & H). constructor. auto.
  - rewrite als_S0, in_map_iff. intros (q & <- & H). constructor. auto.
  - rewrite als_SS, in_map_iff. intros (q & <- & H). rewrite !in_app_iff in H. destruct H as [H|[H|H]].
    + apply al_both. auto.
    + apply al_first. auto.
    + apply al_second. auto.
Qed.

Lemma als_complete : forall i j p, alignment i j p -> In p (als i j).
Proof.
  intros i j p H. induction H as [|i j p H IH|i j p H IH|i j p H IH].
  - now left.
  - destruct j; [rewrite als_S0|rewrite als_SS]; apply in_map; auto. rewrite !in_app_iff. auto.
  - destruct i; [rewrite als_0S|rewrite als_SS]; apply in_map; auto. rewrite !in_app_iff. auto.
  - rewrite als_SS. apply in_map. rewrite !in_app_iff. auto.
Qed.

Lemma als_head : forall i j p, In p (als i j) -> hd_error p = Some (i, j).
Proof. intros i j p H. apply als_sound in H. destruct H; reflexivity. Qed.

Lemma NoDup_app2 : forall A (l1 l2 : list A), NoDup l1 -> NoDup l2 -> (forall a, In a l1 -> ~ In a l2) -> NoDup (l1 ++ l2).
Proof.
  intros A l1 l2 H1 H2 D. induction H1 as [|a l1 N H1 IH]; cbn; auto. constructor.
  - rewrite in_app_iff. intros [H|H]; [auto|]. apply (D a); cbn; auto.
  - apply IH. intros b Hb. apply D. cbn; auto.
Qed.

Lemma NoDup_cons_map : forall A (a : A) l, NoDup l -> NoDup (map (cons a) l).
Proof.
  intros A a l H. induction H as [|b l N H IH]; cbn; constructor; auto.
  rewrite in_map_iff. intros (q & E & Hq). injection E as ->. auto.
Qed.

Lemma als_nodup : forall i j, NoDup (als i j).
Proof.
  induction i as [|i IHi]; induction j as [|j IHj].
  - rewrite als_00. repeat constructor. intros [].
  - rewrite als_0S. now apply NoDup_cons_map.
  - rewrite als_S0. now apply NoDup_cons_map.
  - rewrite als_SS. apply NoDup_cons_map. apply NoDup_app2; auto; [apply NoDup_app2; auto|].
    + intros p Hp Hq. apply als_head in Hp, Hq. rewrite Hp in Hq. injection Hq. lia.
    + intros p Hp. rewrite in_app_iff. intros [Hq|Hq]; apply als_head in Hp, Hq; rewrite Hp in Hq; injection Hq; lia.
Qed.

Theorem als_all : forall n m, all_alignments n m (als (n - 1) (m - 1)).
Proof. intros n m. split; [apply als_nodup|]. intros p. split; [apply als_sound|apply als_complete]. Qed.

Lemma total_perm : forall f L L', Permutation L L' -> total f L = total f L'.
Proof. intros f L L' H. induction H; cbn; try lra. Qed.

Lemma all_perm : forall n m L, all_alignments n m L -> Permutation L (als (n - 1) (m - 1)).
Proof.
  intros n m L [N H]. destruct (als_all n m) as [N' H']. apply NoDup_Permutation; auto.
  intros p. rewrite H, H'. tauto.
Qed.

Lemma total_app : forall f L L', total f (L ++ L') = total f L + total f L'.
Proof. induction L; cbn; intros; [lra|rewrite IHL; lra]. Qed.

Lemma total_ext : forall f g L, (forall p, f p = g p) -> total f L = total g L.
Proof. induction L; cbn; intros H; [reflexivity|]. now rewrite H, IHL. Qed.

Lemma total_map : forall f a L, total f (map (cons a) L) = total (fun p => f (a :: p)) L.
Proof. induction L; cbn; auto. now rewrite IHL. Qed.

Lemma total_scale : forall f c L, total (fun p => c * f p) L = c * total f L.
Proof. induction L; cbn; [lra|]. rewrite IHL. lra. Qed.

Lemma total_plus : forall f g L, total (fun p => f p + g p) L = total f L + total g L.
Proof. induction L; cbn; [lra|]. rewrite IHL. lra. Qed.

(** ** Sums over alignments *)

Section Values.
Variables (x y : nat -> R) (gamma : R).
Hypothesis gamma_nz : gamma <> 0.

Definition dd (i j : nat) : R := (x i - y j) * (x i - y j).
Definition ee (i j : nat) : R := exp (- dd i j / gamma).
Definition wgt (p : list (nat * nat)) : R := exp (- cost x y p / gamma).
Definition zz (i j : nat) : R := total wgt (als i j).
Definition rv (i j : nat) : R := - gamma * ln (zz i j).

Lemma wgt_cons : forall i j p, wgt ((i, j) :: p) = ee i j * wgt p.
Proof. intros. unfold wgt, ee. rewrite <- exp_plus. f_equal. cbn [cost]. fold (dd i j). field. auto. Qed.

Lemma tot_cons : forall i j L, total wgt (map (cons (i, j)) L) = ee i j * total wgt L.
Proof. intros. rewrite total_map, <- total_scale. apply total_ext. intros. apply wgt_cons. Qed.

Lemma zz_00 : zz 0 0 = ee 0 0.
Proof. unfold zz. rewrite als_00. cbn [total]. rewrite wgt_cons. unfold wgt. cbn. replace (- 0 / gamma) with 0 by (field; auto). rewrite exp_0. lra. Qed.
Lemma zz_S0 : forall i, zz (S i) 0 = ee (S i) 0 * zz i 0.
Proof. intros. unfold zz. now rewrite als_S0, tot_cons. Qed.
Lemma zz_0S : forall j, zz 0 (S j) = ee 0 (S j) * zz 0 j.
Proof. intros. unfold zz. now rewrite als_0S, tot_cons. Qed.
Lemma zz_SS : forall i j, zz (S i) (S j) = ee (S i) (S j) * (zz i j + zz i (S j) + zz (S i) j).
Proof. intros. unfold zz. rewrite als_SS, tot_cons, !total_app. lra. Qed.

Lemma ee_pos : forall i j, 0 < ee i j. Proof. intros. apply exp_pos. Qed.
Lemma zz_pos : forall i j, 0 < zz i j.
Proof.
  induction i as [|i IHi]; induction j as [|j IHj].
  - rewrite zz_00. apply ee_pos.
  - rewrite zz_0S. apply Rmult_lt_0_compat; auto using ee_pos.
  - rewrite zz_S0. apply Rmult_lt_0_compat; auto using ee_pos.
  - rewrite zz_SS. apply Rmult_lt_0_compat; auto using ee_pos. pose proof (IHi j). pose proof (IHi (S j)). lra.
Qed.

Lemma exp_rv : forall i j, exp (- rv i j / gamma) = zz i j.
Proof.
  intros. unfold rv. replace (- (- gamma * ln (zz i j)) / gamma) with (ln (zz i j)) by (field; auto).
  apply exp_ln, zz_pos.
Qed.

Lemma rv_mult : forall i j s, 0 < s -> - gamma * ln (ee i j * s) = dd i j - gamma * ln s.
Proof. intros. rewrite ln_mult; auto using ee_pos. unfold ee. rewrite ln_exp. field. auto. Qed.

Lemma rv_00 : rv 0 0 = dd 0 0.
Proof. unfold rv. rewrite zz_00. unfold ee. rewrite ln_exp. field. auto. Qed.
Lemma rv_S0 : forall i, rv (S i) 0 = dd (S i) 0 + rv i 0.
Proof. intros. unfold rv. rewrite zz_S0, rv_mult by apply zz_pos. lra. Qed.
Lemma rv_0S : forall j, rv 0 (S j) = dd 0 (S j) + rv 0 j.
Proof. intros. unfold rv. rewrite zz_0S, rv_mult by apply zz_pos. lra. Qed.

Lemma rv_P0 : forall i, (1 <= i)%nat -> rv i 0 = dd i 0 + rv (i - 1) 0.
Proof. intros [|i] H; [lia|]. replace (S i - 1)%nat with i by lia. apply rv_S0. Qed.
Lemma rv_0P : forall j, (1 <= j)%nat -> rv 0 j = dd 0 j + rv 0 (j - 1).
Proof. intros [|j] H; [lia|]. replace (S j - 1)%nat with j by lia. apply rv_0S. Qed.

Lemma soft_rv : forall mn i j i' j' k l, soft gamma mn (rv i j) (rv i' j') (rv k l) = - gamma * ln (zz i j + zz i' j' + zz k l).
Proof.
  intros. unfold soft.
  assert (forall i j, exp ((mn - rv i j) / gamma) = exp (mn / gamma) * zz i j) as H.
  { intros a b. rewrite <- exp_rv, <- exp_plus. f_equal. field. auto. }
  rewrite !H, <- !Rmult_plus_distr_l.
  pose proof (zz_pos i j). pose proof (zz_pos i' j'). pose proof (zz_pos k l).
  rewrite ln_mult by (apply exp_pos || lra). rewrite ln_exp. field. auto.
Qed.

Lemma rv_SS : forall i j mn, rv (S i) (S j) = dd (S i) (S j) + soft gamma mn (rv i j) (rv i (S j)) (rv (S i) j).
Proof.
  intros. rewrite soft_rv. unfold rv. rewrite zz_SS.
  pose proof (zz_pos i j). pose proof (zz_pos i (S j)). pose proof (zz_pos (S i) j).
  rewrite rv_mult by lra. lra.
Qed.

(** ** The code of the value *)

Variable fminf : R -> R -> R.

Theorem value_ok : forall n m rjm1, (0 < n)%nat -> (0 < m)%nat ->
  value_code fminf n m x y gamma rjm1 = Ok (rv (n - 1) (m - 1)).
Proof.
  intros n m rjm1 Pn Pm. unfold value_code. rewrite !read_ok by lia. cbn [rbind].
  match goal with |- context [for_from (n - 1) 1 ?body ?s0] =>
    destruct (for_inv _ (fun i (s : R * R * (nat -> R)) => fst (fst s) = rv (i - 1) 0 /\ snd (fst s) = rv (i - 1) 0
      /\ forall k, (k < i - 1)%nat -> snd s k = rv k 0) body (n - 1) 1 s0) as ([[rij rim] ra] & E & I1 & I2 & I3) end.
  { cbn. rewrite rv_00. repeat split; auto. intros; lia. }
  { intros i [[a b] q] B (I1 & I2 & I3). cbn [fst snd] in *. rewrite !read_ok by lia. cbn [rbind]. rewrite write_ok by lia. cbn [rbind].
    eexists. split; [reflexivity|]. cbn [fst snd]. replace (i + 1 - 1)%nat with (S (i - 1)) by lia. rewrite rv_S0.
    replace (S (i - 1)) with i by lia. unfold dd. rewrite I2. repeat split; auto. intros k Lk.
    destruct (Nat.eqb_spec k (i - 1)) as [->|N]; auto. apply I3. lia. }
  rewrite E. clear E. cbn [rbind fst snd] in *. rewrite write_ok by lia. cbn [rbind].
  match goal with |- context [for_from (m - 1) 1 ?body ?s0] =>
    destruct (for_inv _ (fun j (s : R * R * (nat -> R)) => fst (fst s) = rv (n - 1) (j - 1)
      /\ forall k, (k < n)%nat -> snd s k = rv k (j - 1)) body (m - 1) 1 s0) as (s & E & J1 & J2) end.
  { cbn [fst snd]. replace (1 + (n - 1) - 1)%nat with (n - 1)%nat in * by lia. split; [auto|].
    intros k Lk. destruct (Nat.eqb_spec k (n - 1)) as [->|N]; auto. apply I3. lia. }
  2:{ rewrite E. cbn [rbind]. f_equal. rewrite J1. f_equal. lia. }
  clear I1 I2 I3 rij rim ra.
  intros j [[a b] q] B (J1 & J2). cbn [fst snd] in *. rewrite !read_ok by lia. cbn [rbind].
  match goal with |- context [for_from (n - 1) 1 ?body ?s0] =>
    destruct (for_inv _ (fun i (s : R * R * (nat -> R)) => fst (fst s) = rv (i - 1) j /\ snd (fst s) = rv (i - 1) j
      /\ (forall k, (k < i - 1)%nat -> snd s k = rv k j) /\ (forall k, (i - 1 <= k < n)%nat -> snd s k = rv k (j - 1)))
      body (n - 1) 1 s0) as ([[rij rim] ra] & E & I1 & I2 & I3 & I4) end.
  { cbn [fst snd]. replace (1 - 1)%nat with 0%nat by lia. rewrite (rv_0P j) by lia.
    rewrite J2 by lia. unfold dd. repeat split; auto; intros; try lia. apply J2. lia. }
  { clear J1 J2 q a b. intros i [[a b] q] Bi (I1 & I2 & I3 & I4). cbn [fst snd] in *. rewrite !read_ok by lia. cbn [rbind].
    rewrite write_ok by lia. cbn [rbind]. eexists. split; [reflexivity|]. cbn [fst snd].
    rewrite !I4 by lia. rewrite I2. replace (i + 1 - 1)%nat with i by lia.
    set (mn := min3 _ _ _ _). pose proof (rv_SS (i - 1) (j - 1) mn) as H.
    replace (S (i - 1)) with i in H by lia. replace (S (j - 1)) with j in H by lia. unfold dd in H. rewrite H.
    repeat split; auto; intros k Lk; destruct (Nat.eqb_spec k (i - 1)) as [->|N]; auto; try lia; [apply I3|apply I4]; lia. }
  rewrite E. cbn [rbind fst snd] in *. rewrite write_ok by lia. cbn [rbind]. eexists. split; [reflexivity|]. cbn [fst snd].
  replace (1 + (n - 1) - 1)%nat with (n - 1)%nat in * by lia. replace (j + 1 - 1)%nat with j by lia.
  split; auto. intros k Lk. destruct (Nat.eqb_spec k (n - 1)) as [->|N]; auto. apply I3. lia.
Qed.

(** ** The matrix of the gradient *)

Lemma idx : forall n m i j, (i < n)%nat -> (j < m)%nat -> (j * n + i < n * m)%nat.
Proof. intros. nia. Qed.

Lemma idx_inj : forall n i j i' j', (i < n)%nat -> (i' < n)%nat -> (j * n + i = j' * n + i')%nat -> i = i' /\ j = j'.
Proof. intros. assert (j = j') by nia. subst. lia. Qed.

Theorem fill_ok : forall n m r, (0 < n)%nat -> (0 < m)%nat ->
  exists r', fill_code fminf n m x y gamma r = Ok r' /\ forall i j, (i < n)%nat -> (j < m)%nat -> r' (j * n + i)%nat = rv i j.
Proof.
  intros n m r Pn Pm. unfold fill_code. rewrite !read_ok by lia. cbn [rbind]. rewrite write_ok by nia. cbn [rbind].
  match goal with |- context [for_from (n - 1) 1 ?body ?s0] =>
    destruct (for_inv _ (fun i (r : nat -> R) => forall k, (k < i)%nat -> r k = rv k 0) body (n - 1) 1 s0) as (r1 & E & I1) end.
  { intros k Lk. replace k with 0%nat by lia. cbn. now rewrite rv_00. }
  { intros i q B I. rewrite !read_ok by nia. cbn [rbind]. rewrite write_ok by nia. eexists. split; [reflexivity|].
    intros k Lk. cbn beta. destruct (Nat.eqb_spec k i) as [->|N]; [|apply I; lia].
    rewrite I by lia. rewrite (rv_P0 i) by lia. reflexivity. }
  rewrite E. cbn [rbind]. clear E.
  match goal with |- context [for_from (m - 1) 1 ?body ?s0] =>
    destruct (for_inv _ (fun j (r : nat -> R) => forall i' j', (i' < n)%nat -> (j' < j)%nat -> r (j' * n + i')%nat = rv i' j')
      body (m - 1) 1 s0) as (r2 & E & I2) end.
  { intros i' j' Li Lj. replace j' with 0%nat by lia. cbn [Nat.mul Nat.add]. apply I1. lia. }
  2:{ exists r2. split; [exact E|]. intros. apply I2; lia. }
  clear r1 I1. intros j q B I. rewrite !read_ok by nia. cbn [rbind]. rewrite write_ok by nia. cbn [rbind].
  match goal with |- context [for_from (n - 1) 1 ?body ?s0] =>
    destruct (for_inv _ (fun i (r : nat -> R) => (forall i' j', (i' < n)%nat -> (j' < j)%nat -> r (j' * n + i')%nat = rv i' j')
      /\ forall k, (k < i)%nat -> r (j * n + k)%nat = rv k j) body (n - 1) 1 s0) as (r2 & E & I2 & I3) end.
  - split.
    + intros i' j' Li Lj. cbn beta. destruct (Nat.eqb_spec (j' * n + i') (j * n)) as [H|N]; [nia|]. auto.
    + intros k Lk. replace k with 0%nat by lia. rewrite Nat.add_0_r, Nat.eqb_refl.
      replace ((j - 1) * n)%nat with ((j - 1) * n + 0)%nat by lia. rewrite I by lia.
      rewrite (rv_0P j) by lia. reflexivity.
  - clear q I. intros i q Bi (I2 & I3). cbv beta.
    rewrite <- !Nat.add_sub_assoc by lia.
    assert (forall i j, (i < n)%nat -> (j < m)%nat -> (j * n + i < n * m)%nat) as X by (intros; apply idx; auto).
    rewrite !read_ok by lia. cbn [rbind]. rewrite write_ok by (apply X; lia). cbn [rbind].
    rewrite !read_ok by (apply X; lia). cbn [rbind]. rewrite write_ok by (apply X; lia). eexists. split; [reflexivity|].
    rewrite Nat.eqb_refl.
    destruct (Nat.eqb_spec ((j - 1) * n + (i - 1)) (j * n + i)) as [H|_]; [apply idx_inj in H; lia|].
    destruct (Nat.eqb_spec ((j - 1) * n + i) (j * n + i)) as [H|_]; [apply idx_inj in H; lia|].
    destruct (Nat.eqb_spec (j * n + (i - 1)) (j * n + i)) as [H|_]; [lia|].
    rewrite !I2, !I3 by lia. set (mn := min3 _ _ _ _). pose proof (rv_SS (i - 1) (j - 1) mn) as H.
    replace (S (i - 1)) with i in H by lia. replace (S (j - 1)) with j in H by lia. unfold dd in H. rewrite <- H.
    split.
    + intros i' j' Li Lj. destruct (Nat.eqb_spec (j' * n + i') (j * n + i)) as [H'|_]; [destruct (idx_inj n i' j' i j); lia|]. auto.
    + intros k Lk. destruct (Nat.eqb_spec (j * n + k) (j * n + i)) as [H'|N]; [replace k with i by lia; reflexivity|]. apply I3. lia.
  - exists r2. split; [exact E|]. intros i' j' Li Lj. destruct (Nat.eq_dec j' j) as [->|N]; [apply I3|apply I2]; lia.
Qed.

End Values.
