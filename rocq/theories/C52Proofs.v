(** * Rounding errors of the sums. *)

From Coq Require Import ZArith Reals Arith List Bool Lia Lra.
From Flocq Require Import Core Plus_error Relative.
From Verif Require Import Result Formula XReal Reductions CpuReduc C11Proofs SumRounding SumRoundingSpec.
Import ListNotations.
Local Open Scope R_scope.

(** ** One operation *)

Section Type_.

Variable t : ftype.
Hypothesis P : proper t.

Local Instance prec_pos : Prec_gt_0 (digits t).
Proof. unfold Prec_gt_0. destruct P. lia. Qed.

Lemma u_pos : 0 < unit_roundoff t.
Proof. unfold unit_roundoff. pose proof (bpow_gt_0 radix2 (- digits t + 1)). lra. Qed.

Lemma rep_0 : representable t 0.
Proof. apply generic_format_0. Qed.

Lemma rep_opp : forall x, representable t x -> representable t (- x).
Proof. intros. now apply generic_format_opp. Qed.

Lemma rep_nearest : forall x, representable t (nearest t x).
Proof. intros. apply generic_format_round; typeclasses eauto. Qed.

Lemma nearest_rep : forall x, representable t x -> nearest t x = x.
Proof. intros. apply round_generic; [typeclasses eauto|assumption]. Qed.

Lemma nearest_plus : forall x y, representable t x -> representable t y ->
  exists e, Rabs e <= unit_roundoff t /\ nearest t (x + y) = (x + y) * (1 + e).
Proof.
  intros x y X Y.
  destruct (FLT_plus_error_N_ex radix2 (least t) (digits t) (fun z => negb (Z.even z)) x y X Y)
    as (e & B & E).
  exists e. split; [|exact E]. unfold u_ro in B. fold (unit_roundoff t) in B.
  pose proof u_pos as U. eapply Rle_trans; [exact B|].
  apply (Rmult_le_reg_r (1 + unit_roundoff t)); [lra|]. unfold Rdiv.
  rewrite Rmult_assoc, Rinv_l by lra. nra.
Qed.

Lemma nearest_minus : forall x y, representable t x -> representable t y ->
  exists e, Rabs e <= unit_roundoff t /\ nearest t (x - y) = (x - y) * (1 + e).
Proof. intros x y X Y. apply (nearest_plus x (- y)); auto. now apply rep_opp. Qed.

Lemma nearest_close : forall x y, representable t x -> representable t y ->
  Rabs (nearest t (x + y) - (x + y)) <= unit_roundoff t * Rabs (x + y).
Proof.
  intros x y X Y. destruct (nearest_plus x y X Y) as (e & B & ->).
  replace ((x + y) * (1 + e) - (x + y)) with (e * (x + y)) by ring.
  rewrite Rabs_mult. apply Rmult_le_compat_r; [apply Rabs_pos|exact B].
Qed.

End Type_.

Lemma rep_narrower : forall t t' x, proper t -> proper t' -> narrower t t' ->
  representable t x -> representable t' x.
Proof.
  intros t t' x P P' [N1 N2] X. unfold representable in *.
  eapply generic_inclusion_mag; [|exact X]. intros _. unfold FLT_exp. lia.
Qed.

Lemma u_narrower : forall t t', narrower t t' -> unit_roundoff t' <= unit_roundoff t.
Proof.
  intros t t' [N _]. unfold unit_roundoff. apply Rmult_le_compat_l; [lra|]. apply bpow_le. lia.
Qed.

(** ** Multiples of the smallest number *)

Definition grid (e : Z) (x : R) : Prop := generic_format radix2 (FIX_exp e) x.

Lemma grid_0 : forall e, grid e 0.
Proof. intros. apply generic_format_0. Qed.

Lemma grid_plus : forall e x y, grid e x -> grid e y -> grid e (x + y).
Proof.
  intros e x y X Y.
  apply FIX_format_generic in X. apply FIX_format_generic in Y.
  destruct X as [[n a] -> E]. destruct Y as [[m b] -> E']. cbn in E, E'. subst a b.
  apply generic_format_FIX. exists (Float radix2 (n + m) e); [|reflexivity].
  unfold F2R; cbn. rewrite plus_IZR. ring.
Qed.

Lemma rep_grid : forall t x, representable t x -> grid (least t) x.
Proof.
  intros t x X. unfold representable in X. eapply generic_inclusion_mag; [|exact X].
  intros _. unfold FLT_exp, FIX_exp. lia.
Qed.

Lemma grid_nearest : forall t e x, proper t -> grid e x -> grid e (nearest t x).
Proof.
  intros t e x P X. pose proof (prec_pos t P). apply generic_round_generic; try typeclasses eauto. exact X.
Qed.

(** The conversion of a multiple of the smallest number has a relative error. *)
Lemma nearest_grid : forall t x, proper t -> grid (least t) x ->
  Rabs (nearest t x - x) <= unit_roundoff t * Rabs x.
Proof.
  intros t x P X. pose proof (prec_pos t P) as Pp. pose proof (u_pos t) as U.
  destruct (Rle_or_lt (bpow radix2 (least t + digits t - 1)) (Rabs x)) as [L|L].
  - apply relative_error_N_FLT; [destruct P; lia|exact L].
  - assert (representable t x) as X'.
    { unfold representable. eapply generic_inclusion_le with (fexp1 := FIX_exp (least t))
        (e2 := (least t + digits t - 1)%Z); try typeclasses eauto; [|lra|exact X].
      intros e E. unfold FLT_exp, FIX_exp. lia. }
    rewrite (nearest_rep t x X'). replace (x - x) with 0 by ring. rewrite Rabs_R0.
    apply Rmult_le_pos; [lra|apply Rabs_pos].
Qed.

(** ** Errors that compose *)

Definition apx (e a S T : R) : Prop := Rabs (a - S) <= (e - 1) * T /\ Rabs S <= T.

Lemma apx_exact : forall a T, Rabs a <= T -> apx 1 a a T.
Proof.
  intros a T H. split; [|exact H]. replace (a - a) with 0 by ring. rewrite Rabs_R0. lra.
Qed.

Lemma apx_weaken : forall e e' a S T, e <= e' -> apx e a S T -> apx e' a S T.
Proof.
  intros e e' a S T L [A B]. split; [|exact B]. pose proof (Rabs_pos S). nra.
Qed.

Lemma apx_step : forall u e r a S T, 0 <= u -> 1 <= e -> apx e a S T ->
  Rabs (r - a) <= u * Rabs a -> apx (e * (1 + u)) r S T.
Proof.
  intros u e r a S T U E [A B] H. split; [|exact B].
  assert (Rabs a <= Rabs S + Rabs (a - S)).
  { replace a with (S + (a - S)) at 1 by ring. apply Rabs_triang. }
  assert (Rabs (r - S) <= Rabs (r - a) + Rabs (a - S)).
  { replace (r - S) with ((r - a) + (a - S)) by ring. apply Rabs_triang. }
  nra.
Qed.

Lemma apx_sum : forall e a S T b S' T', apx e a S T -> apx e b S' T' -> apx e (a + b) (S + S') (T + T').
Proof.
  intros e a S T b S' T' [A B] [A' B']. split.
  - replace (a + b - (S + S')) with ((a - S) + (b - S')) by ring.
    eapply Rle_trans; [apply Rabs_triang|]. lra.
  - eapply Rle_trans; [apply Rabs_triang|]. lra.
Qed.

Lemma apx_within : forall e n x r, apx e r (sum n x) (sum n (fun j => Rabs (x j))) ->
  within (e - 1) n x r.
Proof. intros e n x r [A _]. exact A. Qed.

Lemma sum_split : forall n m x, sum (n + m) x = sum n x + sum m (fun i => x (n + i)%nat).
Proof.
  intros n m x. induction m as [|m IH]; cbn [sum].
  - rewrite Nat.add_0_r. ring.
  - rewrite Nat.add_succ_r. cbn [sum]. rewrite IH. ring.
Qed.

Lemma sum_ext : forall n x y, (forall j, (j < n)%nat -> x j = y j) -> sum n x = sum n y.
Proof.
  induction n as [|n IH]; intros x y H; cbn [sum]; [reflexivity|].
  rewrite (IH x y) by (intros; apply H; lia). rewrite H by lia. reflexivity.
Qed.

(** ** Direct sums *)

Definition direct (f : R -> R) (n : nat) (x : nat -> R) : R :=
  for_up n (fun j acc => f (acc + x j)) 0.

Lemma direct_S : forall f n x, direct f (S n) x = f (direct f n x + x n).
Proof. reflexivity. Qed.

Lemma direct_ext : forall f n x y, (forall j, (j < n)%nat -> x j = y j) -> direct f n x = direct f n y.
Proof.
  induction n as [|n IH]; intros x y H; [reflexivity|]. rewrite !direct_S, (IH x y), H by (try intros; try apply H; lia).
  reflexivity.
Qed.

Lemma pow_ge_1 : forall u n, 0 <= u -> 1 <= (1 + u) ^ n.
Proof.
  intros u n U. induction n as [|n IH]; cbn [pow]; [lra|]. nra.
Qed.

Lemma direct_rep : forall t n x, proper t -> representable t (direct (nearest t) n x).
Proof. intros t [|n] x P; [apply rep_0|rewrite direct_S; now apply rep_nearest]. Qed.

Lemma direct_grid : forall t e n x, proper t -> (forall j, (j < n)%nat -> grid e (x j)) ->
  grid e (direct (nearest t) n x).
Proof.
  intros t e n x P. induction n as [|n IH]; intros G; [apply grid_0|]. rewrite direct_S.
  apply grid_nearest; [exact P|]. apply grid_plus; [apply IH; intros|]; apply G; lia.
Qed.

Lemma direct_apx : forall t n x, proper t -> (forall j, (j < n)%nat -> representable t (x j)) ->
  apx ((1 + unit_roundoff t) ^ (n - 1)) (direct (nearest t) n x)
      (sum n x) (sum n (fun j => Rabs (x j))).
Proof.
  intros t n x P. pose proof (u_pos t) as U. induction n as [|n IH]; intros X.
  - cbn. apply apx_exact. rewrite Rabs_R0. lra.
  - rewrite direct_S. cbn [sum]. destruct n as [|n].
    + cbn [Nat.sub pow direct for_up sum]. rewrite nearest_rep; auto.
      * rewrite !Rplus_0_l. apply apx_exact. lra.
      * rewrite Rplus_0_l. apply X. lia.
    + replace (S (S n) - 1)%nat with (S (S n - 1)) by lia. rewrite <- tech_pow_Rmult, Rmult_comm.
      apply apx_step with (a := direct (nearest t) (S n) x + x (S n)).
      * lra.
      * apply pow_ge_1. lra.
      * apply apx_sum; [apply IH; intros; apply X; lia|].
        apply apx_weaken with (e := 1); [apply pow_ge_1; lra|]. apply apx_exact. lra.
      * apply nearest_close; auto. now apply direct_rep.
Qed.

(** ** Blocks *)

Lemma for_up_ext : forall {A} n (f g : nat -> A -> A) s,
  (forall j a, (j < n)%nat -> f j a = g j a) -> for_up n f s = for_up n g s.
Proof.
  induction n as [|n IH]; intros f g s H; [reflexivity|]. cbn [for_up].
  rewrite (IH f g) by (intros; apply H; lia). apply H. lia.
Qed.

Lemma for_up_add : forall {A} n m (f : nat -> A -> A) s,
  for_up (n + m) f s = for_up m (fun i => f (i + n)%nat) (for_up n f s).
Proof.
  induction m as [|m IH]; intros f s; [now rewrite Nat.add_0_r|].
  rewrite Nat.add_succ_r. cbn [for_up]. rewrite IH. f_equal. lia.
Qed.

Section Blocks.

Variables fa fd : R -> R.
Variable p : nat.
Hypothesis Hp : (0 < p)%nat.

Definition block (x : nat -> R) (q r : nat) : R := direct fd r (fun i => x (q * p + i)%nat).
Definition blocks (x : nat -> R) (q : nat) : R := direct fa q (fun b => block x b p).

Lemma dense_blocks : forall x n,
  for_up n (block_step fa fd p x) (0, 0) = (blocks x (n / p), block x (n / p) (n mod p)).
Proof.
  intros x n. induction n as [|n IH].
  - cbn [for_up]. rewrite Nat.div_0_l, Nat.mod_0_l by lia. reflexivity.
  - cbn [for_up]. rewrite IH. unfold block_step at 1, add_acc, add_tmp.
    pose proof (Nat.div_mod n p ltac:(lia)) as D. pose proof (Nat.mod_upper_bound n p ltac:(lia)) as M.
    set (q := (n / p)%nat) in *. set (r := (n mod p)%nat) in *.
    assert (fd (block x q r + x n) = block x q (S r)) as ->.
    { unfold block. rewrite direct_S. do 2 f_equal. f_equal. lia. }
    destruct (Nat.eq_dec (S r) p) as [E|E].
    + assert (S n / p = S q)%nat as -> by (symmetry; apply Nat.div_unique with (r := 0%nat); lia).
      assert (S n mod p = 0)%nat as -> by (symmetry; apply Nat.mod_unique with (q := S q); lia).
      replace (n + 1)%nat with (S n) by lia.
      assert (S n mod p = 0)%nat as -> by (symmetry; apply Nat.mod_unique with (q := S q); lia).
      cbn [Nat.eqb]. rewrite E. reflexivity.
    + assert (S n / p = q)%nat as -> by (symmetry; apply Nat.div_unique with (r := S r); lia).
      assert (S n mod p = S r)%nat as -> by (symmetry; apply Nat.mod_unique with (q := q); lia).
      replace (n + 1)%nat with (S n) by lia.
      assert (S n mod p = S r)%nat as -> by (symmetry; apply Nat.mod_unique with (q := q); lia).
      reflexivity.
Qed.

Lemma dense_block_row : forall x n,
  dense_row fa fd p block_sum n x = fd (fa (blocks x (n / p) + block x (n / p) (n mod p))).
Proof. intros. unfold dense_row. rewrite dense_blocks. reflexivity. Qed.

(** Tiles give the columns in order. *)
Lemma tiles_in_order : forall {A} (f : nat -> A -> A) n k s, (k <= (n + p - 1) / p)%nat ->
  for_up k (fun tile s => for_up (tile_size p n tile) (fun jrel => f (jrel + tile * p)%nat) s) s
  = for_up (Nat.min n (k * p)) f s.
Proof.
  intros A f n k s. induction k as [|k IH]; intros K.
  - cbn. now rewrite Nat.min_0_r.
  - cbn [for_up]. rewrite IH by lia.
    assert (k * p < n)%nat as L.
    { pose proof (Nat.div_mod (n + p - 1) p ltac:(lia)). 
      pose proof (Nat.mod_upper_bound (n + p - 1) p ltac:(lia)). nia. }
    replace (Nat.min n (k * p)) with (k * p)%nat by lia.
    unfold tile_size. rewrite <- for_up_add. f_equal. cbn [Nat.mul]. lia.
Qed.

Lemma tiles_all : forall {A} (f : nat -> A -> A) n s,
  for_up ((n + p - 1) / p)
    (fun tile s => for_up (tile_size p n tile) (fun jrel => f (jrel + tile * p)%nat) s) s
  = for_up n f s.
Proof.
  intros. rewrite tiles_in_order by lia. f_equal.
  pose proof (Nat.div_mod (n + p - 1) p ltac:(lia)). 
  pose proof (Nat.mod_upper_bound (n + p - 1) p ltac:(lia)). nia.
Qed.

(** The tiles of the GPU routine are the blocks of a dense loop of the same period. *)
Lemma gpu_dense : (forall y, fa (fa y + 0) = fa y) -> fa (0 + 0) = 0 ->
  forall s n x, gpu_float_row fa fd p s n x = dense_row fa fd p s n x.
Proof.
  intros I Z s n x. destruct s.
  - unfold gpu_float_row, dense_row. f_equal.
    apply (tiles_all (fun j acc => add_acc fa acc (x j))).
  - rewrite dense_block_row. unfold gpu_float_row. f_equal.
    pose proof (Nat.div_mod n p ltac:(lia)) as D. pose proof (Nat.mod_upper_bound n p ltac:(lia)) as M.
    set (q := (n / p)%nat) in *. set (r := (n mod p)%nat) in *.
    assert (forall k, (k <= q)%nat ->
      for_up k (fun tile acc => add_acc fa acc
        (for_up (tile_size p n tile) (fun jrel tmp => add_tmp fd tmp (x (jrel + tile * p)%nat)) 0)) 0
      = blocks x k) as B.
    { induction k as [|k IH]; intros K; [reflexivity|]. cbn [for_up]. rewrite IH by lia.
      unfold blocks. rewrite direct_S. unfold add_acc at 1. do 2 f_equal. unfold block, direct.
      replace (tile_size p n k) with p by (unfold tile_size; nia).
      apply for_up_ext. intros j a J. unfold add_tmp. do 3 f_equal. lia. }
    destruct (Nat.eq_dec r 0) as [E|E].
    + replace ((n + p - 1) / p)%nat with q by (apply Nat.div_unique with (r := (p - 1)%nat); lia).
      rewrite B by lia. rewrite E. unfold block. cbn [direct for_up].
      destruct q as [|q0]; [symmetry; exact Z|]. unfold blocks. rewrite direct_S. symmetry. apply I.
    + replace ((n + p - 1) / p)%nat with (S q) by (apply Nat.div_unique with (r := (r - 1)%nat); lia).
      cbn [for_up]. rewrite B by lia. unfold add_acc. do 2 f_equal. unfold block, direct.
      replace (tile_size p n q) with r by (unfold tile_size; nia).
      apply for_up_ext. intros j a J. unfold add_tmp. do 3 f_equal. lia.
  - unfold gpu_float_row, dense_row. do 2 f_equal.
    apply (tiles_all (fun j (st : R * R) => kahan_step fa fd (fst st) (x j) (snd st))).
Qed.

End Blocks.

Section Mixed.

Variables ta td : ftype.
Hypothesis Pa : proper ta.
Hypothesis Pd : proper td.
Hypothesis N : narrower td ta.
Let ua := unit_roundoff ta.
Let ud := unit_roundoff td.

Lemma mixed_direct_apx : forall n x, (forall j, (j < n)%nat -> representable td (x j)) ->
  apx ((1 + ua) ^ (n - 1) * (1 + ud)) (dense_row (nearest ta) (nearest td) 1 direct_sum n x)
      (sum n x) (sum n (fun j => Rabs (x j))).
Proof.
  intros n x X. pose proof (u_pos ta) as Ua. pose proof (u_pos td) as Ud.
  unfold dense_row. fold (direct (nearest ta) n x).
  apply apx_step with (a := direct (nearest ta) n x).
  - unfold ud. lra.
  - apply pow_ge_1. unfold ua. lra.
  - apply direct_apx; auto. intros j J. apply rep_narrower with td; auto.
  - apply nearest_grid; auto. apply direct_grid; auto. intros j J. apply rep_grid; auto.
Qed.

Variable p : nat.
Hypothesis Hp : (0 < p)%nat.
Variable n : nat.
Variable x : nat -> R.
Hypothesis X : forall j, (j < n)%nat -> representable td (x j).

Lemma block_rep : forall q r, representable td (block (nearest td) p x q r).
Proof. intros. now apply direct_rep. Qed.

Lemma block_apx : forall q r, (q * p + r <= n)%nat ->
  apx ((1 + ud) ^ (r - 1)) (block (nearest td) p x q r)
      (sum r (fun i => x (q * p + i)%nat)) (sum r (fun i => Rabs (x (q * p + i)%nat))).
Proof.
  intros q r L. apply (direct_apx td r (fun i => x (q * p + i)%nat)); auto.
  intros j J. apply X. lia.
Qed.

Lemma blocks_apx : forall q, (q * p <= n)%nat ->
  apx ((1 + ud) ^ (p - 1) * (1 + ua) ^ (q - 1)) (blocks (nearest ta) (nearest td) p x q)
      (sum (q * p) x) (sum (q * p) (fun j => Rabs (x j))).
Proof.
  pose proof (u_pos ta) as Ua. pose proof (u_pos td) as Ud. fold ua in Ua. fold ud in Ud.
  assert (1 <= (1 + ud) ^ (p - 1)) as G by (apply pow_ge_1; lra).
  induction q as [|q IH]; intros L.
  - cbn [Nat.mul sum Nat.sub pow]. unfold blocks. cbn [direct for_up].
    apply apx_weaken with (e := 1); [lra|]. apply apx_exact. rewrite Rabs_R0. lra.
  - unfold blocks. rewrite direct_S. fold (blocks (nearest ta) (nearest td) p x q).
    assert (representable ta (block (nearest td) p x q p)) as Rb
      by (apply rep_narrower with td; auto; apply block_rep).
    replace (S q * p)%nat with (q * p + p)%nat by lia. rewrite !sum_split.
    pose proof (block_apx q p ltac:(lia)) as B.
    destruct q as [|q0].
    + cbn [Nat.mul sum Nat.sub pow Nat.add] in *. unfold blocks. cbn [direct for_up].
      rewrite nearest_rep by (rewrite Rplus_0_l; exact Rb). rewrite Rmult_1_r, !Rplus_0_l. exact B.
    + set (q := S q0) in *. replace (S q - 1)%nat with (S (q - 1)) by lia. rewrite <- tech_pow_Rmult.
      replace ((1 + ud) ^ (p - 1) * ((1 + ua) * (1 + ua) ^ (q - 1)))
        with ((1 + ud) ^ (p - 1) * (1 + ua) ^ (q - 1) * (1 + ua)) by ring.
      assert (1 <= (1 + ua) ^ (q - 1)) as G' by (apply pow_ge_1; lra).
      apply apx_step with
        (a := blocks (nearest ta) (nearest td) p x q + block (nearest td) p x q p).
      * lra.
      * nra.
      * apply apx_sum; [apply IH; lia|]. apply apx_weaken with (2 := B). nra.
      * apply nearest_close; auto. now apply direct_rep.
Qed.

Lemma block_sum_apx :
  apx ((1 + ud) ^ (Nat.min n p - 1) * (1 + ua) ^ (n / p))
      (nearest ta (blocks (nearest ta) (nearest td) p x (n / p)
                   + block (nearest td) p x (n / p) (n mod p)))
      (sum n x) (sum n (fun j => Rabs (x j))).
Proof.
  pose proof (u_pos ta) as Ua. pose proof (u_pos td) as Ud. fold ua in Ua. fold ud in Ud.
  pose proof (Nat.div_mod n p ltac:(lia)) as D. pose proof (Nat.mod_upper_bound n p ltac:(lia)) as M.
  set (q := (n / p)%nat) in *. set (r := (n mod p)%nat) in *.
  assert (representable ta (block (nearest td) p x q r)) as Rb
    by (apply rep_narrower with td; auto; apply block_rep).
  pose proof (block_apx q r ltac:(lia)) as B.
  replace (sum n x) with (sum (q * p) x + sum r (fun i => x (q * p + i)%nat))
    by (rewrite <- sum_split; f_equal; lia).
  replace (sum n (fun j => Rabs (x j)))
    with (sum (q * p) (fun j => Rabs (x j)) + sum r (fun i => Rabs (x (q * p + i)%nat)))
    by (rewrite <- sum_split; f_equal; lia).
  destruct q as [|q0].
  - cbn [Nat.mul sum Nat.sub pow Nat.add] in *. unfold blocks. cbn [direct for_up].
    rewrite nearest_rep by (rewrite Rplus_0_l; exact Rb). rewrite Rmult_1_r, !Rplus_0_l.
    replace (Nat.min n p) with r by lia. exact B.
  - set (q := S q0) in *. assert (p <= n)%nat by nia. replace (Nat.min n p) with p by lia.
    pose proof (blocks_apx q ltac:(lia)) as BB.
    replace ((1 + ud) ^ (p - 1) * (1 + ua) ^ q)
      with ((1 + ud) ^ (p - 1) * (1 + ua) ^ (q - 1) * (1 + ua))
      by (replace ((1 + ua) ^ q) with ((1 + ua) ^ S (q - 1)) by (f_equal; lia); cbn [pow]; ring).
    assert (1 <= (1 + ud) ^ (p - 1)) as G by (apply pow_ge_1; lra).
    assert (1 <= (1 + ua) ^ (q - 1)) as G' by (apply pow_ge_1; lra).
    apply apx_step with (a := blocks (nearest ta) (nearest td) p x q + block (nearest td) p x q r).
    + lra.
    + nra.
    + apply apx_sum; [exact BB|]. apply apx_weaken with (2 := B).
      apply Rle_trans with ((1 + ud) ^ (p - 1)); [apply Rle_pow; [lra|lia]|nra].
    + apply nearest_close; auto. now apply direct_rep.
Qed.

Lemma block_sum_grid :
  grid (least td) (nearest ta (blocks (nearest ta) (nearest td) p x (n / p)
                   + block (nearest td) p x (n / p) (n mod p))).
Proof.
  apply grid_nearest; auto. apply grid_plus.
  - apply direct_grid; auto. intros. apply rep_grid, block_rep.
  - apply rep_grid, block_rep.
Qed.

Lemma mixed_block_apx :
  apx ((1 + ud) ^ (Nat.min n p - 1) * (1 + ua) ^ (n / p) * (1 + ud))
      (dense_row (nearest ta) (nearest td) p block_sum n x)
      (sum n x) (sum n (fun j => Rabs (x j))).
Proof.
  pose proof (u_pos ta) as Ua. pose proof (u_pos td) as Ud. fold ua in Ua. fold ud in Ud.
  rewrite dense_block_row by exact Hp.
  pose proof (pow_ge_1 ud (Nat.min n p - 1) ltac:(lra)). pose proof (pow_ge_1 ua (n / p) ltac:(lra)).
  apply apx_step with (a := nearest ta (blocks (nearest ta) (nearest td) p x (n / p)
                   + block (nearest td) p x (n / p) (n mod p))).
  - lra.
  - nra.
  - exact block_sum_apx.
  - apply nearest_grid; auto. exact block_sum_grid.
Qed.

End Mixed.

(** ** The theorems on direct and block sums *)

Lemma narrower_refl : forall t, narrower t t.
Proof. intros t. split; lia. Qed.

Lemma direct_row : forall fa fd p n x, dense_row fa fd p direct_sum n x = fd (direct fa n x).
Proof. reflexivity. Qed.

Lemma direct_same : forall t n x, proper t -> (forall j, (j < n)%nat -> representable t (x j)) ->
  within ((1 + unit_roundoff t) ^ (n - 1) - 1) n x
    (cpu_float_row (nearest t) (nearest t) direct_sum n x).
Proof.
  intros t n x P X. unfold cpu_float_row. rewrite direct_row.
  rewrite nearest_rep by now apply direct_rep. apply apx_within. now apply direct_apx.
Qed.

Lemma direct_mixed : forall ta td n x, proper ta -> proper td -> narrower td ta ->
  (forall j, (j < n)%nat -> representable td (x j)) ->
  within ((1 + unit_roundoff ta) ^ (n - 1) * (1 + unit_roundoff td) - 1) n x
    (cpu_float_row (nearest ta) (nearest td) direct_sum n x).
Proof. intros. apply apx_within. now apply mixed_direct_apx. Qed.

Lemma block_same : forall t p n x, proper t -> (0 < p)%nat ->
  (forall j, (j < n)%nat -> representable t (x j)) ->
  within ((1 + unit_roundoff t) ^ (Nat.min n p - 1 + n / p) - 1) n x
    (dense_row (nearest t) (nearest t) p block_sum n x).
Proof.
  intros t p n x P Hp X. rewrite dense_block_row by exact Hp.
  rewrite (nearest_rep t (nearest t _)) by now apply rep_nearest.
  apply apx_within. rewrite pow_add. apply block_sum_apx; auto. apply narrower_refl.
Qed.

Lemma period_pos : forall n, (0 < period_accumulate n)%nat.
Proof.
  intros n. unfold period_accumulate. destruct (Nat.ltb_spec n 10); [lia|].
  pose proof (Nat.sqrt_le_mono 1 n ltac:(lia)) as H0. change (Nat.sqrt 1) with 1%nat in H0. lia.
Qed.

(** The depth of the block scheme on CPU. *)
Lemma depth : forall n,
  (Nat.min n (period_accumulate n) - 1 + n / period_accumulate n <= 2 * Nat.sqrt n + 3)%nat.
Proof.
  intros n. unfold period_accumulate. destruct (Nat.ltb_spec n 10) as [L|L].
  - do 10 (destruct n as [|n]; [vm_compute; lia|]). lia.
  - pose proof (Nat.sqrt_spec n ltac:(lia)) as [S1 S2]. set (s := Nat.sqrt n) in *.
    assert (0 < s)%nat by nia.
    assert (n / s < s + 3)%nat by (apply Nat.div_lt_upper_bound; nia). lia.
Qed.

Lemma within_weaken : forall e e' n x r, e <= e' -> within e n x r -> within e' n x r.
Proof.
  intros e e' n x r L W. unfold within in *. eapply Rle_trans; [exact W|].
  apply Rmult_le_compat_r; [|exact L].
  clear. induction n as [|n IH]; cbn [sum]; [lra|]. pose proof (Rabs_pos (x n)). lra.
Qed.

Lemma block_cpu : forall t n x, proper t ->
  (forall j, (j < n)%nat -> representable t (x j)) ->
  within ((1 + unit_roundoff t) ^ (2 * Nat.sqrt n + 3) - 1) n x
    (cpu_float_row (nearest t) (nearest t) block_sum n x).
Proof.
  intros t n x P X. pose proof (u_pos t) as U.
  eapply within_weaken; [|apply (block_same t _ n x P (period_pos n) X)].
  pose proof (Rle_pow (1 + unit_roundoff t) _ _ ltac:(lra) (depth n)). lra.
Qed.

Lemma block_mixed : forall ta td p n x, proper ta -> proper td -> narrower td ta -> (0 < p)%nat ->
  (forall j, (j < n)%nat -> representable td (x j)) ->
  within ((1 + unit_roundoff td) ^ (Nat.min n p - 1) * (1 + unit_roundoff ta) ^ (n / p)
          * (1 + unit_roundoff td) - 1) n x
    (dense_row (nearest ta) (nearest td) p block_sum n x).
Proof. intros. apply apx_within. now apply mixed_block_apx. Qed.

Lemma gpu_rows : forall ta td B s n x, proper ta -> (0 < B)%nat ->
  gpu_float_row (nearest ta) (nearest td) B s n x = dense_row (nearest ta) (nearest td) B s n x.
Proof.
  intros ta td B s n x P HB. apply gpu_dense; [exact HB| |].
  - intros y. rewrite Rplus_0_r. apply nearest_rep. now apply rep_nearest.
  - rewrite Rplus_0_r. apply nearest_rep, rep_0.
Qed.

(** ** Compensated sums *)

Lemma Rabs_le_mult : forall a b A B, Rabs a <= A -> Rabs b <= B -> Rabs (a * b) <= A * B.
Proof.
  intros a b A B HA HB. rewrite Rabs_mult. apply Rmult_le_compat; auto using Rabs_pos.
Qed.

Lemma kahan_bounds : forall u s c x S T E h g m d,
  0 < u <= / 256 -> Rabs h <= u -> Rabs g <= u -> Rabs m <= u -> Rabs d <= u ->
  Rabs (s - c - S) <= E -> E <= T / 16 -> Rabs c <= 3 * u * T -> Rabs S <= T ->
  let y := (x - c) * (1 + h) in
  let t := (s + y) * (1 + g) in
  let c' := ((t - s) * (1 + m) - y) * (1 + d) in
  Rabs (t - c' - (S + x)) <= E + 2 * u * Rabs x + 11 * u * u * (T + Rabs x)
  /\ Rabs c' <= 3 * u * (T + Rabs x).
Proof.
  intros u s c x S T E h g m d U Hh Hg Hm Hd HE LE Hc HS y t c'.
  pose proof (Rabs_pos x) as X0. assert (0 <= T) as T0 by (pose proof (Rabs_pos S); lra).
  set (T' := T + Rabs x). assert (Rabs x <= T') as XT by (unfold T'; lra).
  assert (T <= T') as TT by (unfold T'; lra).
  assert (Rabs (x - c) <= Rabs x + 3 * u * T') as HA.
  { unfold Rminus. eapply Rle_trans; [apply Rabs_triang|]. rewrite Rabs_Ropp. nra. }
  set (A := Rabs x + 3 * u * T') in *.
  assert (0 <= A) as A0 by (unfold A; nra).
  assert (Rabs (1 + h) <= 1 + u) as H1
    by (eapply Rle_trans; [apply Rabs_triang|]; rewrite Rabs_R1; lra).
  assert (Rabs (1 + d) <= 1 + u) as D1
    by (eapply Rle_trans; [apply Rabs_triang|]; rewrite Rabs_R1; lra).
  assert (Rabs y <= (1 + u) * A) as HY
    by (unfold y; rewrite Rmult_comm; now apply Rabs_le_mult).
  assert (Rabs (s + y) <= 11 / 10 * T') as HW.
  { replace (s + y) with ((s - c - S) + (S + x) + h * (x - c)) by (unfold y; ring).
    assert (Rabs (h * (x - c)) <= u * A) by now apply Rabs_le_mult.
    assert (Rabs (S + x) <= T') by (eapply Rle_trans; [apply Rabs_triang|]; unfold T'; lra).
    assert (u * A <= / 256 * (T' * (1 + 3 / 256))).
    { apply Rmult_le_compat; try lra. unfold A. nra. }
    eapply Rle_trans; [apply Rabs_triang|]. 
    pose proof (Rabs_triang (s - c - S) (S + x)). lra. }
  set (W := 11 / 10 * T') in *. assert (0 <= W) as W0 by (unfold W; lra).
  assert (Rabs (g * (s + y)) <= u * W) as GW by now apply Rabs_le_mult.
  assert (Rabs (t - s) <= (1 + u) * A + u * W) as HT.
  { replace (t - s) with (y + g * (s + y)) by (unfold t; ring).
    eapply Rle_trans; [apply Rabs_triang|]. lra. }
  assert (Rabs (m * (t - s)) <= u * ((1 + u) * A + u * W)) as MT by now apply Rabs_le_mult.
  assert (A <= (1 + 3 / 256) * T') as AT by (unfold A; nra).
  split.
  - replace (t - c' - (S + x))
      with ((s - c - S) + (h * (x - c) + (- (d * (g * (s + y))) + - ((m * (t - s)) * (1 + d)))))
      by (unfold c', t, y; ring).
    assert (Rabs (h * (x - c)) <= u * A) by now apply Rabs_le_mult.
    assert (Rabs (d * (g * (s + y))) <= u * (u * W)) by now apply Rabs_le_mult.
    assert (Rabs ((m * (t - s)) * (1 + d)) <= u * ((1 + u) * A + u * W) * (1 + u))
      by now apply Rabs_le_mult.
    eapply Rle_trans; [apply Rabs_triang|].
    eapply Rle_trans; [apply Rplus_le_compat; [exact HE|apply Rabs_triang]|].
    eapply Rle_trans; [apply Rplus_le_compat_l, Rplus_le_compat; [eassumption|apply Rabs_triang]|].
    rewrite !Rabs_Ropp.
    apply Rle_trans with (E + (u * A + (u * (u * W) + u * ((1 + u) * A + u * W) * (1 + u)))); [lra|].
    apply Rplus_le_reg_l with (- E).
    unfold A, W.
    assert (u * Rabs x * (2 * u + u * u) <= 2 * u * u * T' + / 256 * (u * u * T')) as B1.
    { replace (2 * u * u * T' + / 256 * (u * u * T')) with (u * (u * T') * (2 + / 256)) by ring.
      replace (u * Rabs x * (2 * u + u * u)) with (u * (u * Rabs x) * (2 + u)) by ring.
      apply Rmult_le_compat; try nra. }
    assert (0 <= u * u * T') as B0 by nra.
    assert (u * (u * u * T') <= / 256 * (u * u * T')) as B2 by nra.
    assert (u * (u * (u * u * T')) <= / 256 * (/ 256 * (u * u * T'))) as B3.
    { apply Rmult_le_compat; nra. }
    nra.
  - assert (Rabs ((t - s) * (1 + m) - y) <= u * W + u * ((1 + u) * A + u * W)) as C.
    { replace ((t - s) * (1 + m) - y) with (g * (s + y) + m * (t - s)) by (unfold t; ring).
      eapply Rle_trans; [apply Rabs_triang|]. lra. }
    unfold c'. eapply Rle_trans; [apply Rabs_le_mult; [exact C|exact D1]|].
    replace ((u * W + u * ((1 + u) * A + u * W)) * (1 + u))
      with (u * ((W + (1 + u) * A + u * W) * (1 + u))) by ring.
    replace (3 * u * T') with (u * (3 * T')) by ring.
    apply Rmult_le_compat_l; [lra|].
    assert ((1 + u) * A <= (1 + / 256) * ((1 + 3 / 256) * T')) by (apply Rmult_le_compat; lra).
    assert (u * W <= / 256 * W) by (apply Rmult_le_compat_r; lra).
    apply Rle_trans with ((W + (1 + / 256) * ((1 + 3 / 256) * T') + / 256 * W) * (1 + / 256)).
    + apply Rmult_le_compat; try lra. assert (0 <= (1 + u) * A) by nra. assert (0 <= u * W) by nra. lra.
    + unfold W. lra.
Qed.

Section Kahan.

Variable t : ftype.
Hypothesis P : proper t.
Hypothesis D : (8 <= digits t)%Z.
Let u := unit_roundoff t.

Lemma u_small : 0 < u <= / 256.
Proof.
  split; [apply u_pos|]. unfold u, unit_roundoff.
  pose proof (bpow_le radix2 (- digits t + 1) (-7) ltac:(lia)) as H. cbn in H. lra.
Qed.

Definition compensated (n : nat) (x : nat -> R) : R * R :=
  for_up n (fun j (st : R * R) => kahan_step (nearest t) (nearest t) (fst st) (x j) (snd st)) (0, 0).

Lemma compensated_inv : forall n x, (forall j, (j < n)%nat -> representable t (x j)) ->
  INR n * u <= 1 ->
  let s := fst (compensated n x) in
  let c := snd (compensated n x) in
  let T := sum n (fun j => Rabs (x j)) in
  representable t s /\ representable t c
  /\ Rabs (s - c - sum n x) <= (2 * u + 11 * INR n * u * u) * T
  /\ Rabs c <= 3 * u * T /\ Rabs (sum n x) <= T.
Proof.
  intros n x. pose proof u_small as U. induction n as [|n IH]; intros X L.
  - cbn. repeat split; try (apply rep_0); replace (0 - 0 - 0) with 0 by ring; rewrite ?Rabs_R0; lra.
  - rewrite S_INR in L. pose proof (pos_INR n) as N0.
    destruct IH as (Rs & Rc & E & C & B); [intros; apply X; lia|nra|].
    cbv zeta. unfold compensated. cbn [for_up]. fold (compensated n x).
    cbn [sum]. set (s := fst (compensated n x)) in *. set (c := snd (compensated n x)) in *.
    set (T := sum n (fun j => Rabs (x j))) in *. set (S0 := sum n x) in *.
    unfold kahan_step. cbn [fst snd].
    destruct (nearest_minus t P (x n) c) as (h & Hh & Eh); auto. rewrite Eh.
    assert (representable t ((x n - c) * (1 + h))) as Ry by (rewrite <- Eh; now apply rep_nearest).
    destruct (nearest_plus t P s ((x n - c) * (1 + h))) as (g & Hg & Eg); auto. rewrite Eg.
    set (y := (x n - c) * (1 + h)) in *.
    assert (representable t ((s + y) * (1 + g))) as Rt by (rewrite <- Eg; now apply rep_nearest).
    set (r := (s + y) * (1 + g)) in *.
    destruct (nearest_minus t P r s) as (m & Hm & Em); auto. rewrite Em.
    assert (representable t ((r - s) * (1 + m))) as Rd by (rewrite <- Em; now apply rep_nearest).
    destruct (nearest_minus t P ((r - s) * (1 + m)) y) as (d & Hd & Ed); auto.
    assert (representable t (nearest t ((r - s) * (1 + m) - y))) as Rc' by now apply rep_nearest.
    rewrite (nearest_rep t _ Rc'). rewrite Ed in Rc' |- *.
    assert (0 <= T) as T0 by (pose proof (Rabs_pos S0); lra).
    assert (INR n * u * u <= u) as Q by nra.
    destruct (kahan_bounds u s c (x n) S0 T ((2 * u + 11 * INR n * u * u) * T) h g m d)
      as [K1 K2]; auto.
    { nra. }
    fold y in K1, K2. fold r in K1, K2.
    split; [exact Rt|]. split; [exact Rc'|]. split; [|split; [exact K2|]].
    + eapply Rle_trans; [exact K1|]. rewrite S_INR.
      pose proof (Rabs_pos (x n)) as X0.
      assert (0 <= INR n * u * u * Rabs (x n)) by (apply Rmult_le_pos; [apply Rmult_le_pos; [apply Rmult_le_pos|]|]; lra).
      nra.
    + eapply Rle_trans; [apply Rabs_triang|]. lra.
Qed.

Lemma compensated_within : forall n x, (forall j, (j < n)%nat -> representable t (x j)) ->
  INR n * u <= 1 ->
  within (5 * u + 11 * INR n * u * u) n x (fst (compensated n x)).
Proof.
  intros n x X L. destruct (compensated_inv n x X L) as (_ & _ & E & C & _).
  unfold within. set (s := fst (compensated n x)) in *. set (c := snd (compensated n x)) in *.
  replace (s - sum n x) with ((s - c - sum n x) + c) by ring.
  eapply Rle_trans; [apply Rabs_triang|]. lra.
Qed.

Lemma kahan_dense : forall p n x, (forall j, (j < n)%nat -> representable t (x j)) ->
  INR n * u <= 1 ->
  within (5 * u + 11 * INR n * u * u) n x (dense_row (nearest t) (nearest t) p kahan_scheme n x).
Proof.
  intros p n x X L. unfold dense_row. fold (compensated n x).
  rewrite nearest_rep; [now apply compensated_within|].
  now destruct (compensated_inv n x X L).
Qed.

End Kahan.

(** ** Ranges *)

Lemma fold_for_up : forall {A} (f : nat -> A -> A) l s,
  fold_left (fun s j => f j s) l s = for_up (length l) (fun i => f (nth i l O)) s.
Proof.
  intros A f l. induction l as [|a l IH] using rev_ind; intros s; [reflexivity|].
  rewrite fold_left_app, app_length, Nat.add_comm. cbn [length fold_left Nat.add for_up].
  rewrite IH. rewrite app_nth2, Nat.sub_diag by lia. cbn [nth]. f_equal.
  apply for_up_ext. intros j b J. now rewrite app_nth1.
Qed.

Lemma ranges_dense : forall fa fd s slices x, s <> block_sum ->
  ranges_float_row fa fd s slices x
  = dense_row fa fd 1 s (length (columns slices)) (fun i => x (nth i (columns slices) O)).
Proof.
  intros fa fd s slices x H. unfold ranges_float_row, dense_row. fold (columns slices). f_equal.
  destruct s; [|congruence|].
  - apply (fold_for_up (fun j acc => add_acc fa acc (x j))).
  - f_equal. apply (fold_for_up (fun j (st : R * R) => kahan_step fa fd (fst st) (x j) (snd st))).
Qed.

Lemma ranges_block_direct : forall ta td slices x, proper ta -> proper td -> narrower td ta ->
  ranges_float_row (nearest ta) (nearest td) block_sum slices x
  = direct (nearest td) (length (columns slices)) (fun i => x (nth i (columns slices) O)).
Proof.
  intros ta td slices x Pa Pd N. unfold ranges_float_row. fold (columns slices). unfold add_acc.
  rewrite (fold_for_up (fun j acc => add_tmp (nearest td) acc (x j))).
  match goal with |- nearest td (nearest ta (0 + ?d)) = _ => change d with
    (direct (nearest td) (length (columns slices)) (fun i => x (nth i (columns slices) O))) end.
  rewrite Rplus_0_l.
  pose proof (direct_rep td (length (columns slices)) (fun i => x (nth i (columns slices) O)) Pd) as Rd.
  rewrite (nearest_rep ta) by (apply rep_narrower with td; auto).
  now apply nearest_rep.
Qed.

Lemma ranges_block_same : forall ta td slices x, proper ta -> proper td -> narrower td ta ->
  ranges_float_row (nearest ta) (nearest td) block_sum slices x
  = ranges_float_row (nearest td) (nearest td) direct_sum slices x.
Proof.
  intros ta td slices x Pa Pd N. rewrite ranges_block_direct by assumption.
  rewrite ranges_dense by discriminate. rewrite direct_row.
  symmetry. apply nearest_rep. now apply direct_rep.
Qed.

Lemma columns_in : forall slices i, (i < length (columns slices))%nat ->
  exists p, In p slices /\ (fst p <= nth i (columns slices) O < snd p)%nat.
Proof.
  intros slices i L. pose proof (nth_In (columns slices) O L) as H. unfold columns in H at 2.
  apply in_flat_map in H. destruct H as (p & I & H). apply in_seq in H. exists p. split; [exact I|]. lia.
Qed.

Lemma ranges_direct : forall ta td slices x, proper ta -> proper td -> narrower td ta ->
  (forall j, representable td (x j)) ->
  within ((1 + unit_roundoff ta) ^ (length (columns slices) - 1) * (1 + unit_roundoff td) - 1)
    (length (columns slices)) (fun i => x (nth i (columns slices) O))
    (ranges_float_row (nearest ta) (nearest td) direct_sum slices x).
Proof.
  intros ta td slices x Pa Pd N X. rewrite ranges_dense by discriminate.
  apply apx_within. apply mixed_direct_apx; auto.
Qed.

Lemma ranges_kahan : forall t slices x, proper t -> (8 <= digits t)%Z ->
  (forall j, representable t (x j)) ->
  INR (length (columns slices)) * unit_roundoff t <= 1 ->
  within (5 * unit_roundoff t + 11 * INR (length (columns slices)) * unit_roundoff t * unit_roundoff t)
    (length (columns slices)) (fun i => x (nth i (columns slices) O))
    (ranges_float_row (nearest t) (nearest t) kahan_scheme slices x).
Proof.
  intros t slices x P D X L. rewrite ranges_dense by discriminate. apply kahan_dense; auto.
Qed.

(** ** A sum of ones *)

Section Ones.

Variable t : ftype.
Hypothesis P : proper t.

Lemma bpow_IZR : bpow radix2 (digits t) = IZR (2 ^ digits t).
Proof. destruct P. symmetry. apply (IZR_Zpower radix2). lia. Qed.

Lemma rep_int : forall k, (0 <= k <= 2 ^ digits t)%Z -> representable t (IZR k).
Proof.
  intros k K. pose proof (prec_pos t P) as Pp. destruct P as [P1 P2].
  destruct (Z.eq_dec k (2 ^ digits t)) as [->|E].
  - rewrite <- bpow_IZR. apply generic_format_bpow. unfold FLT_exp. lia.
  - apply generic_format_FLT. exists (Float radix2 k 0).
    + unfold F2R; cbn. ring.
    + cbn [Fnum]. rewrite Z.abs_eq by lia. change (Zpower radix2 (digits t)) with (2 ^ digits t)%Z. lia.
    + cbn. lia.
Qed.

Lemma stuck : nearest t (IZR (2 ^ digits t) + 1) = IZR (2 ^ digits t).
Proof.
  pose proof (prec_pos t P) as Pp. destruct P as [P1 P2].
  unfold nearest, round. rewrite <- bpow_IZR.
  assert (IZR (2 ^ (digits t - 1)) = bpow radix2 (digits t - 1)) as half_power
    by (apply (IZR_Zpower radix2); lia).
  set (x := bpow radix2 (digits t) + 1).
  assert (1 < bpow radix2 (digits t)) as B by (change 1 with (bpow radix2 0); apply bpow_lt; lia).
  assert (mag radix2 x = (digits t + 1)%Z :> Z) as M.
  { apply mag_unique. rewrite Rabs_pos_eq by (unfold x; lra).
    replace (digits t + 1 - 1)%Z with (digits t) by ring. rewrite bpow_plus_1.
    change (IZR radix2) with 2. unfold x. lra. }
  assert (cexp radix2 (FLT_exp (least t) (digits t)) x = 1%Z) as C
    by (unfold cexp; rewrite M; unfold FLT_exp; lia).
  unfold scaled_mantissa. rewrite C.
  assert (x * bpow radix2 (- (1)) = IZR (2 ^ (digits t - 1)) + / 2) as S.
  { unfold x. change (bpow radix2 (-(1))) with (/ 2).
    replace (bpow radix2 (digits t)) with (2 * IZR (2 ^ (digits t - 1))); [field|].
    rewrite half_power. change 2 with (IZR radix2). rewrite <- bpow_plus_1. f_equal. ring. }
  rewrite S.
  assert (Zfloor (IZR (2 ^ (digits t - 1)) + / 2) = (2 ^ (digits t - 1))%Z) as F
    by (apply Zfloor_imp; rewrite plus_IZR; lra).
  assert (ZnearestE (IZR (2 ^ (digits t - 1)) + / 2) = (2 ^ (digits t - 1))%Z) as Zn.
  { unfold Znearest. rewrite F.
    replace (IZR (2 ^ (digits t - 1)) + / 2 - IZR (2 ^ (digits t - 1))) with (/ 2) by ring.
    rewrite Rcompare_Eq by reflexivity.
    replace (Z.even (2 ^ (digits t - 1))) with true; [reflexivity|].
    symmetry. rewrite Z.even_pow by lia. reflexivity. }
  rewrite Zn. unfold F2R; cbn [Fnum Fexp].
  rewrite half_power. change (bpow radix2 1) with (IZR radix2).
  replace (bpow radix2 (digits t)) with (bpow radix2 (digits t - 1 + 1)) by (f_equal; ring).
  rewrite bpow_plus_1. ring.
Qed.

Lemma direct_ones : forall n,
  direct (nearest t) n (fun _ => 1) = IZR (Z.min (Z.of_nat n) (2 ^ digits t)).
Proof.
  destruct P as [P1 _].
  assert (0 < 2 ^ digits t)%Z as Pw by (apply Z.pow_pos_nonneg; lia).
  induction n as [|n IH].
  - cbn [direct for_up]. rewrite Z.min_l by lia. reflexivity.
  - rewrite direct_S, IH. destruct (Z_lt_le_dec (Z.of_nat n) (2 ^ digits t)) as [L|L].
    + rewrite !Z.min_l by lia. rewrite <- plus_IZR. replace (Z.of_nat n + 1)%Z with (Z.of_nat (S n)) by lia.
      apply nearest_rep, rep_int. lia.
    + rewrite !Z.min_r by lia. apply stuck.
Qed.

End Ones.

Lemma ranges_ones : forall ta td n, proper ta -> proper td -> narrower td ta ->
  ranges_float_row (nearest ta) (nearest td) block_sum [(O, n)] (fun _ => 1)
  = IZR (Z.min (Z.of_nat n) (2 ^ digits td)).
Proof.
  intros ta td n Pa Pd N. rewrite ranges_block_direct by assumption.
  assert (length (columns [(O, n)]) = n) as ->.
  { unfold columns. cbn [flat_map fst snd]. rewrite app_nil_r, seq_length. lia. }
  now apply direct_ones.
Qed.

Lemma cpu_ones : forall t n, proper t ->
  cpu_float_row (nearest t) (nearest t) direct_sum n (fun _ => 1)
  = IZR (Z.min (Z.of_nat n) (2 ^ digits t)).
Proof.
  intros t n P. unfold cpu_float_row. rewrite direct_row, direct_ones by exact P.
  apply nearest_rep, rep_int; [exact P|].
  assert (0 < 2 ^ digits t)%Z as Pw by (destruct P; apply Z.pow_pos_nonneg; lia). lia.
Qed.

(** ** Without rounding, the rows are those of C11 *)

Lemma exact_row : forall s d n (y : nat -> nat -> R) k, (k < d)%nat ->
  exists out, cpu_row (Sum_Red d) s n (fun j c => Fin (y j c)) = Ok out
    /\ out k = Fin (cpu_float_row exactly exactly s n (fun j => y j k)).
Proof.
  intros s d n y k K. destruct s; unfold cpu_row; cbn [rfinal rinit rshort rpair rkahan Sum_Red].
  - eexists. split; [reflexivity|]. unfold cpu_float_row, dense_row, exactly at 1.
    induction n as [|n IH]; [reflexivity|]. cbn [for_up]. rewrite sum_pair_cell by exact K.
    rewrite IH. reflexivity.
  - assert (forall p m, exists a b,
        for_up m (block_body (Sum_Red d) (sum_pair d) p (fun j c => Fin (y j c)))
          (fun _ => Fin 0, fun _ => Fin 0) = (a, b)
        /\ a k = Fin (fst (for_up m (block_step exactly exactly p (fun j => y j k)) (0, 0)))
        /\ b k = Fin (snd (for_up m (block_step exactly exactly p (fun j => y j k)) (0, 0)))) as H.
    { intros p m. induction m as [|m (a & b & E & Ea & Eb)].
      - eexists _, _. repeat split.
      - cbn [for_up]. rewrite E. unfold block_body, block_step at 1 3.
        destruct (for_up m (block_step exactly exactly p (fun j => y j k)) (0, 0)) as [acc tmp].
        cbn [fst snd] in Ea, Eb. cbn [rshort rinit Sum_Red].
        destruct ((m + 1) mod p =? 0)%nat; eexists _, _; (split; [reflexivity|]); cbn [fst snd];
          rewrite ?sum_pair_cell by exact K; rewrite ?Ea, ?Eb; split; reflexivity. }
    destruct (H (period_accumulate n) n) as (a & b & E & Ea & Eb).
    match goal with |- context [for_up n ?b ?s] => change (for_up n b s) with 
      (for_up n (block_body (Sum_Red d) (sum_pair d) (period_accumulate n) (fun j c => Fin (y j c)))
        (fun _ => Fin 0, fun _ => Fin 0)) end.
    rewrite E.
    eexists. split; [reflexivity|]. rewrite sum_pair_cell by exact K. rewrite Ea, Eb.
    unfold cpu_float_row, dense_row.
    destruct (for_up n (block_step exactly exactly (period_accumulate n) (fun j => y j k)) (0, 0)).
    reflexivity.
  - assert (forall m,
        let st := for_up m (fun j (st : cells * cells) => sum_kahan d (fst st) (fun c => Fin (y j c)) (snd st))
                    (fun _ => Fin 0, fun _ => Fin 0) in
        let r := for_up m (fun j (st : R * R) => kahan_step exactly exactly (fst st) (y j k) (snd st)) (0, 0) in
        fst st k = Fin (fst r) /\ snd st k = Fin (snd r)) as H.
    { induction m as [|m [Ea Eb]]; [split; reflexivity|]. cbn [for_up]. cbv zeta.
      destruct (sum_kahan_cell d
        (fst (for_up m (fun j (st : cells * cells) => sum_kahan d (fst st) (fun c => Fin (y j c)) (snd st))
                    (fun _ => Fin 0, fun _ => Fin 0))) (fun c => Fin (y m c))
        (snd (for_up m (fun j (st : cells * cells) => sum_kahan d (fst st) (fun c => Fin (y j c)) (snd st))
                    (fun _ => Fin 0, fun _ => Fin 0))) k K) as [Ka Kb].
      rewrite Ka, Kb, Ea, Eb. split; reflexivity. }
    eexists. split; [reflexivity|]. destruct (H n) as [H1 _]. exact H1.
Qed.

(** ** The accumulator of double precision and the block scheme *)

Lemma proper_half : proper half. Proof. split; cbn; lia. Qed.
Lemma proper_single : proper single. Proof. split; cbn; lia. Qed.
Lemma proper_double : proper double. Proof. split; cbn; lia. Qed.
Lemma narrower_single : narrower single double. Proof. split; cbn; lia. Qed.

Lemma rep_one : forall t, proper t -> representable t 1.
Proof.
  intros t P. apply (rep_int t P 1). split; [lia|].
  destruct P. apply (Z.pow_le_mono_r 2 0); lia.
Qed.

Lemma spike_rep : forall j, representable single (spike j).
Proof.
  intros j. unfold spike. destruct (j =? 0)%nat; [apply (rep_int single proper_single); cbn; lia|].
  destruct (j <=? 10)%nat; [apply rep_one, proper_single|apply rep_0].
Qed.

Lemma direct_stay : forall t n x a, representable t a -> (0 < n)%nat -> x O = a ->
  (forall j, (0 < j < n)%nat -> nearest t (a + x j) = a) -> direct (nearest t) n x = a.
Proof.
  intros t n x a A L E H. induction n as [|n IH]; [lia|]. rewrite direct_S. destruct n as [|n].
  - cbn [direct for_up]. rewrite E, Rplus_0_l. now apply nearest_rep.
  - rewrite IH by (try lia; intros; apply H; lia). apply H. lia.
Qed.

Lemma direct_zero : forall t n x, (forall j, (j < n)%nat -> x j = 0) -> direct (nearest t) n x = 0.
Proof.
  intros t n x H. induction n as [|n IH]; [reflexivity|]. rewrite direct_S, IH, H by (try lia; intros; apply H; lia).
  rewrite Rplus_0_r. apply nearest_rep, rep_0.
Qed.

Lemma spike_block : cpu_float_row (nearest double) (nearest single) block_sum 121 spike = IZR (2 ^ 24).
Proof.
  assert (representable single (IZR (2 ^ 24))) as S1 by (apply (rep_int single proper_single); cbn; lia).
  assert (representable double (IZR (2 ^ 24))) as S2 by (apply (rep_int double proper_double); cbn; lia).
  unfold cpu_float_row. change (period_accumulate 121) with 11%nat. rewrite dense_block_row by lia.
  change (121 / 11)%nat with 11%nat. change (121 mod 11)%nat with 0%nat.
  assert (block (nearest single) 11 spike 0 11 = IZR (2 ^ 24)) as B0.
  { unfold block. apply direct_stay; [exact S1|lia|reflexivity|]. intros j J. cbn [Nat.mul Nat.add].
    unfold spike. destruct (Nat.eqb_spec j 0); [lia|]. destruct (Nat.leb_spec j 10); [|lia].
    apply (stuck single proper_single). }
  assert (forall q, (0 < q)%nat -> block (nearest single) 11 spike q 11 = 0) as Bq.
  { intros q Q. unfold block. apply direct_zero. intros j J. unfold spike.
    destruct (Nat.eqb_spec (q * 11 + j) 0); [lia|]. destruct (Nat.leb_spec (q * 11 + j) 10); [lia|reflexivity]. }
  assert (blocks (nearest double) (nearest single) 11 spike 11 = IZR (2 ^ 24)) as BB.
  { unfold blocks. apply direct_stay; [exact S2|lia|exact B0|]. intros j J.
    rewrite Bq by lia. rewrite Rplus_0_r. now apply nearest_rep. }
  rewrite BB. change (block (nearest single) 11 spike 11 0) with 0. rewrite Rplus_0_r.
  rewrite (nearest_rep double) by exact S2. now apply nearest_rep.
Qed.

Lemma spike_direct :
  cpu_float_row (nearest double) (nearest single) direct_sum 121 spike = IZR (2 ^ 24 + 10).
Proof.
  unfold cpu_float_row. rewrite direct_row.
  assert (forall n, (0 < n)%nat ->
    direct (nearest double) n spike = IZR (2 ^ 24 + Z.of_nat (Nat.min n 11) - 1)) as H.
  { induction n as [|n IH]; intros L; [lia|]. rewrite direct_S. destruct n as [|n].
    - cbn [direct for_up]. unfold spike at 1. cbn [Nat.eqb]. rewrite Rplus_0_l.
      change (2 ^ 24 + Z.of_nat (Nat.min 1 11) - 1)%Z with (2 ^ 24)%Z.
      apply nearest_rep, (rep_int double proper_double). cbn. lia.
    - rewrite IH by lia. unfold spike. cbn [Nat.eqb]. destruct (Nat.leb_spec (S n) 10).
      + rewrite <- plus_IZR.
        replace (2 ^ 24 + Z.of_nat (Nat.min (S n) 11) - 1 + 1)%Z
          with (2 ^ 24 + Z.of_nat (Nat.min (S (S n)) 11) - 1)%Z by lia.
        apply nearest_rep, (rep_int double proper_double). cbn [digits double].
        change (2 ^ 53)%Z with 9007199254740992%Z. change (2 ^ 24)%Z with 16777216%Z. lia.
      + rewrite Rplus_0_r. replace (Nat.min (S (S n)) 11) with (Nat.min (S n) 11) by lia.
        apply nearest_rep, (rep_int double proper_double). cbn [digits double].
        change (2 ^ 53)%Z with 9007199254740992%Z. change (2 ^ 24)%Z with 16777216%Z. lia. }
  rewrite H by lia. change (2 ^ 24 + Z.of_nat (Nat.min 121 11) - 1)%Z with (2 ^ 24 + 10)%Z.
  apply nearest_rep. pose proof (prec_pos single proper_single).
  apply generic_format_FLT. exists (Float radix2 8388613 1).
  - unfold F2R; cbn. lra.
  - cbn. lia.
  - cbn. lia.
Qed.

Lemma spike_sum : sum 121 spike = IZR (2 ^ 24 + 10).
Proof.
  assert (forall n, (0 < n)%nat -> sum n spike = IZR (2 ^ 24 + Z.of_nat (Nat.min n 11) - 1)) as H.
  { induction n as [|n IH]; intros L; [lia|]. cbn [sum]. destruct n as [|n].
    - cbn [sum]. unfold spike. cbn [Nat.eqb]. rewrite Rplus_0_l. reflexivity.
    - rewrite IH by lia. unfold spike. cbn [Nat.eqb]. destruct (Nat.leb_spec (S n) 10).
      + rewrite <- plus_IZR. f_equal. lia.
      + rewrite Rplus_0_r. f_equal. lia. }
  rewrite H by lia. reflexivity.
Qed.

Lemma spike_all : (forall j, representable single (spike j))
  /\ sum 121 spike = IZR (2 ^ 24 + 10)
  /\ cpu_float_row (nearest double) (nearest single) direct_sum 121 spike = IZR (2 ^ 24 + 10)
  /\ cpu_float_row (nearest double) (nearest single) block_sum 121 spike = IZR (2 ^ 24).
Proof. exact (conj spike_rep (conj spike_sum (conj spike_direct spike_block))). Qed.

Lemma kahan_cpu : forall t n x, proper t -> (8 <= digits t)%Z ->
  (forall j, (j < n)%nat -> representable t (x j)) ->
  INR n * unit_roundoff t <= 1 ->
  within (5 * unit_roundoff t + 11 * INR n * unit_roundoff t * unit_roundoff t) n x
    (cpu_float_row (nearest t) (nearest t) kahan_scheme n x).
Proof. intros. now apply kahan_dense. Qed.

Lemma block_mixed_cpu : forall ta td n x, proper ta -> proper td -> narrower td ta ->
  (forall j, (j < n)%nat -> representable td (x j)) ->
  let p := period_accumulate n in
  within ((1 + unit_roundoff td) ^ (Nat.min n p - 1) * (1 + unit_roundoff ta) ^ (n / p)
          * (1 + unit_roundoff td) - 1) n x
    (cpu_float_row (nearest ta) (nearest td) block_sum n x).
Proof. intros. apply block_mixed; auto. apply period_pos. Qed.

Lemma gpu_block : forall t B n x, proper t -> (0 < B)%nat ->
  (forall j, (j < n)%nat -> representable t (x j)) ->
  within ((1 + unit_roundoff t) ^ (Nat.min n B - 1 + n / B) - 1) n x
    (gpu_float_row (nearest t) (nearest t) B block_sum n x).
Proof. intros. rewrite gpu_rows by assumption. now apply block_same. Qed.

Lemma gpu_others : forall ta td B s n x, proper ta -> (0 < B)%nat -> s <> block_sum ->
  gpu_float_row (nearest ta) (nearest td) B s n x = cpu_float_row (nearest ta) (nearest td) s n x.
Proof.
  intros ta td B s n x P HB S. rewrite gpu_rows by assumption. unfold cpu_float_row.
  destruct s; [reflexivity|congruence|reflexivity].
Qed.

Lemma ex_hypotheses : proper half /\ proper single /\ proper double /\ narrower single double
  /\ (8 <= digits single)%Z /\ (forall j, representable single (spike j))
  /\ representable half 1 /\ INR 121 * unit_roundoff single <= 1.
Proof.
  split; [exact proper_half|]. split; [exact proper_single|]. split; [exact proper_double|].
  split; [exact narrower_single|]. split; [cbn; lia|]. split; [exact spike_rep|].
  split; [apply rep_one, proper_half|].
  unfold unit_roundoff. rewrite INR_IZR_INZ. cbn. lra.
Qed.
