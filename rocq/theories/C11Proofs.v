(** Proofs about the summation schemes. *)

From Coq Require Import ZArith Reals Arith Lia Lra List Bool.
From Verif Require Import Result Formula XReal Reductions CpuReduc SumSpec LseSpec RedLoops C09Proofs.
Import ListNotations.
Local Open Scope R_scope.

Lemma xadd_0_l : forall x, xadd (Fin 0) x = x.
Proof. destruct x; cbn; try reflexivity. f_equal. ring. Qed.
Lemma xadd_0_r : forall x, xadd x (Fin 0) = x.
Proof. destruct x; cbn; try reflexivity. f_equal. ring. Qed.
Lemma xadd_assoc : forall x y z, xadd (xadd x y) z = xadd x (xadd y z).
Proof. destruct x, y, z; cbn; try reflexivity. f_equal. ring. Qed.

Lemma sum_pair_cell : forall d a x k, (k < d)%nat -> sum_pair d a x k = xadd (a k) (x k).
Proof.
  intros d a x k Hk. unfold sum_pair.
  destruct (for_up_cell d (fun k => k) (fun k a => xadd (a k) (x k)) a) as [H _].
  - intros; assumption.
  - intros k' b Hk' Hb. f_equal. apply Hb. intros; lia.
  - apply (H k Hk).
Qed.

Lemma direct_row : forall d n F, exists out, cpu_row (Sum_Red d) direct_sum n F = Ok out /\
  forall k, (k < d)%nat -> out k = xsum n (fun j => F j k).
Proof.
  intros d n F. eexists. split; [reflexivity|]. intros k Hk. cbn [rfinal Sum_Red rshort rinit].
  induction n as [|n IH]; cbn [for_up xsum]; [reflexivity|].
  rewrite sum_pair_cell by assumption. rewrite IH. reflexivity.
Qed.

(** Any period. *)
Lemma block_loop : forall d per n F k, (k < d)%nat ->
  let st := for_up n (block_body (Sum_Red d) (sum_pair d) per F) (rinit (Sum_Red d), rinit (Sum_Red d)) in
  xadd (fst st k) (snd st k) = xsum n (fun j => F j k).
Proof.
  intros d per n F k Hk. cbv zeta. induction n as [|n IH]; cbn [for_up xsum].
  - cbn. f_equal. ring.
  - destruct (for_up n _ _) as [acc tmp]. cbn [fst snd] in IH.
    unfold block_body. cbn [rshort Sum_Red rinit]. destruct (((n + 1) mod per =? 0)%nat); cbn [fst snd].
    + rewrite xadd_0_r, sum_pair_cell, sum_pair_cell, <- xadd_assoc, IH by assumption. reflexivity.
    + rewrite sum_pair_cell, <- xadd_assoc, IH by assumption. reflexivity.
Qed.

Lemma block_row : forall d n F, exists out, cpu_row (Sum_Red d) block_sum n F = Ok out /\
  forall k, (k < d)%nat -> out k = xsum n (fun j => F j k).
Proof.
  intros d n F. unfold cpu_row. cbn [rpair Sum_Red].
  pose proof (block_loop d (period_accumulate n) n F) as G. cbv zeta in G.
  fold (Sum_Red d) in *. destruct (for_up n _ _) as [acc tmp].
  eexists. split; [reflexivity|]. intros k Hk. cbn [rfinal Sum_Red].
  rewrite sum_pair_cell by assumption. apply (G k Hk).
Qed.

(** Kahan. *)
Lemma sum_kahan_cell : forall d acc x tmp k, (k < d)%nat ->
  let a := xsub (x k) (tmp k) in
  let b := xadd (acc k) a in
  fst (sum_kahan d acc x tmp) k = b /\ snd (sum_kahan d acc x tmp) k = xsub (xsub b (acc k)) a.
Proof.
  intros d acc x tmp k Hk. cbv zeta. unfold sum_kahan.
  match goal with |- fst (for_up d ?b _) _ = _ /\ _ => set (body := b) end.
  assert (G : forall m,
    (forall q, (q < m)%nat -> fst (for_up m body (acc, tmp)) q = xadd (acc q) (xsub (x q) (tmp q)) /\
       snd (for_up m body (acc, tmp)) q =
         xsub (xsub (xadd (acc q) (xsub (x q) (tmp q))) (acc q)) (xsub (x q) (tmp q))) /\
    (forall q, (m <= q)%nat -> fst (for_up m body (acc, tmp)) q = acc q /\
                           snd (for_up m body (acc, tmp)) q = tmp q)).
  { induction m as [|m [A B]]; cbn [for_up]; [split; [lia|split; reflexivity]|].
    destruct (for_up m body (acc, tmp)) as [ac tm]. cbn [fst snd] in *. unfold body. cbn [fst snd].
    destruct (B m (le_n m)) as [B1 B2]. rewrite B1, B2. split.
    - intros q Hq. destruct (Nat.eq_dec q m) as [->|N].
      + rewrite !upd_same. split; reflexivity.
      + rewrite !upd_other by assumption. apply A. lia.
    - intros q Hq. rewrite !upd_other by lia. apply B. lia. }
  apply (G d). assumption.
Qed.

Definition finite_terms (d n : nat) (F : nat -> cells) (x : nat -> nat -> R) : Prop :=
  forall j k, (j < n)%nat -> (k < d)%nat -> F j k = Fin (x j k).

Lemma kahan_loop : forall d n F x m, finite_terms d n F x -> (m <= n)%nat ->
  let st := for_up m (fun j (st : cells * cells) => sum_kahan d (fst st) (F j) (snd st))
                   (rinit (Sum_Red d), fun _ => Fin 0) in
  forall k, (k < d)%nat -> fst st k = Fin (rsum m (fun j => x j k)) /\ snd st k = Fin 0.
Proof.
  intros d n F x m H. cbv zeta. induction m as [|m IH]; intros Hm k Hk; cbn [for_up rsum].
  - split; reflexivity.
  - destruct (IH ltac:(lia) k Hk) as [A B].
    destruct (for_up m _ _) as [acc tmp]. cbn [fst snd] in *.
    destruct (sum_kahan_cell d acc (F m) tmp k Hk) as [C D]. rewrite C, D, A, B, (H m k) by lia.
    cbn. split; f_equal; ring.
Qed.

Lemma kahan_row : forall d n F x, finite_terms d n F x ->
  exists out, cpu_row (Sum_Red d) kahan_scheme n F = Ok out /\
  forall k, (k < d)%nat -> out k = Fin (rsum n (fun j => x j k)).
Proof.
  intros d n F x H. eexists. split; [reflexivity|]. intros k Hk. cbn [rfinal Sum_Red].
  apply (kahan_loop d n F x n H (le_n n) k Hk).
Qed.

Lemma xsum_finite : forall n x y, (forall j, (j < n)%nat -> x j = Fin (y j)) -> xsum n x = Fin (rsum n y).
Proof.
  induction n as [|n IH]; intros x y H; cbn [xsum rsum]; [reflexivity|].
  rewrite (IH x y) by (intros; apply H; lia). rewrite (H n) by lia. reflexivity.
Qed.

Lemma schemes_sum : forall s d n F x, finite_terms d n F x ->
  exists out, cpu_row (Sum_Red d) s n F = Ok out /\
  forall k, (k < d)%nat -> out k = Fin (rsum n (fun j => x j k)).
Proof.
  intros s d n F x H. destruct s; [| |apply kahan_row; assumption].
  - destruct (direct_row d n F) as [out [E P]]. exists out. split; [assumption|]. intros k Hk.
    rewrite P by assumption. apply xsum_finite. intros; apply H; assumption.
  - destruct (block_row d n F) as [out [E P]]. exists out. split; [assumption|]. intros k Hk.
    rewrite P by assumption. apply xsum_finite. intros; apply H; assumption.
Qed.

Lemma direct_block : forall s d n F, s <> kahan_scheme ->
  exists out, cpu_row (Sum_Red d) s n F = Ok out /\
  forall k, (k < d)%nat -> out k = xsum n (fun j => F j k).
Proof. intros [] d n F H; [apply direct_row|apply block_row|congruence]. Qed.

(** Log-sum-exp. *)
Lemma is_max_unique : forall m m' l, is_max m l -> is_max m' l -> m = m'.
Proof.
  intros m m' l [[w Hw] A] [[w' Hw'] B]. specialize (A _ _ Hw'). specialize (B _ _ Hw). lra.
Qed.

Lemma schemes_lse : forall d n e, (0 < n)%nat -> (forall j, (j < n)%nat -> fst (e j) <> None) ->
  exists out1 out2,
    cpu_row (LSE_Red d) direct_sum n (lse_terms e) = Ok out1 /\
    cpu_row (LSE_Red d) block_sum n (lse_terms e) = Ok out2 /\
    forall p, (p <= d)%nat -> out1 p = out2 p.
Proof.
  intros d n e Hn H.
  destruct (direct_lse d n e Hn (H O Hn)) as [o1 [E1 [m1 [M1 [A1 B1]]]]].
  destruct (block_lse d n e Hn (fun j Hj _ => H j Hj)) as [o2 [E2 [m2 [M2 [A2 B2]]]]].
  exists o1, o2. split; [assumption|]. split; [assumption|].
  rewrite (is_max_unique _ _ _ M2 M1) in *.
  intros [|k] Hp; [congruence|]. rewrite B1, B2 by lia. reflexivity.
Qed.

(** Refutations. *)
Lemma kahan_lse_error : forall d n F,
  get_scheme true (Some kahan_scheme) = Ok kahan_scheme /\ cpu_row (LSE_Red d) kahan_scheme n F = PyErr.
Proof. intros. split; reflexivity. Qed.

Lemma kahan_infinite : forall d n F k, (k < d)%nat ->
  (forall j, (j < n)%nat -> F j k = if Nat.eqb j 0 then PInf else Fin 0) -> (2 <= n)%nat ->
  (exists out, cpu_row (Sum_Red d) direct_sum n F = Ok out /\ out k = PInf) /\
  (exists out, cpu_row (Sum_Red d) kahan_scheme n F = Ok out /\ out k = NaN).
Proof.
  intros d n F k Hk H Hn. split.
  - destruct (direct_row d n F) as [out [E P]]. exists out. split; [assumption|]. rewrite P by assumption.
    assert (G : forall m, (1 <= m <= n)%nat -> xsum m (fun j => F j k) = PInf).
    { induction m as [|m IH]; [lia|]. intros Hm. cbn [xsum]. rewrite H by lia.
      destruct (Nat.eqb_spec m 0) as [->|N]; [reflexivity|]. rewrite IH by lia. reflexivity. }
    apply G. lia.
  - eexists. split; [reflexivity|]. cbn [rfinal Sum_Red].
    assert (G : forall m, (1 <= m <= n)%nat ->
      let st := for_up m (fun j (st : cells * cells) => sum_kahan d (fst st) (F j) (snd st))
                   (rinit (Sum_Red d), fun _ => Fin 0) in
      snd st k = NaN /\ ((2 <= m)%nat -> fst st k = NaN)).
    { cbv zeta. induction m as [|m IH]; [lia|]. intros Hm. cbn [for_up].
      destruct (Nat.eq_dec m 0) as [->|N].
      - cbn [for_up fst snd]. destruct (sum_kahan_cell d (rinit (Sum_Red d)) (F O) (fun _ => Fin 0) k Hk) as [C D].
        rewrite D, H by lia. cbn. split; [reflexivity|lia].
      - destruct (IH ltac:(lia)) as [A _]. destruct (for_up m _ _) as [acc tmp]. cbn [fst snd] in *.
        destruct (sum_kahan_cell d acc (F m) tmp k Hk) as [C D]. rewrite C, D, A.
        unfold xsub. cbn [xopp].
        assert (Q : forall x, xadd x NaN = NaN) by (intros []; reflexivity).
        rewrite !Q. cbn. split; [|intros _; destruct (acc k); reflexivity].
        destruct (xopp (acc k)); reflexivity. }
    apply (G n); lia.
Qed.
