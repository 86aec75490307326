(** Proofs about the two-dimensional GPU routine. *)

From Coq Require Import ZArith Reals Arith Lia List Bool Permutation.
From Verif Require Import Result Formula SimplifyProofs XReal Reductions ReductionSpec RedLoops KernelSum KernelSumSpec
  SumSpec LseSpec Postprocess CpuReduc Loader LoaderProofs CpuConv CpuConvSpec GpuConv
  C06Proofs C09Proofs C11Proofs C12Proofs GpuProofs C13Proofs.
Import ListNotations.

(** ** The buffer of partial accumulators *)
Lemma consecutive_slices : forall base d nx n, nx <= n ->
  flat_map (fun i => if i <? nx then seq (base + i * d) d else []) (seq 0 n) = seq base (nx * d).
Proof.
  intros base d nx n H.
  assert (G : forall n, flat_map (fun i => if i <? nx then seq (base + i * d) d else []) (seq 0 n)
                        = seq base (Nat.min n nx * d)).
  { clear n H. induction n as [|n IH]; [reflexivity|].
    rewrite seq_S, flat_map_app, IH. cbn [Nat.add flat_map]. rewrite app_nil_r.
    destruct (Nat.ltb_spec n nx).
    - rewrite !Nat.min_l by lia. rewrite <- seq_app. f_equal. lia.
    - rewrite app_nil_r. f_equal. f_equal. lia. }
  rewrite G. f_equal. f_equal. lia.
Qed.

Lemma shift_seq : forall b e s, map (fun k => b + k) (seq s e) = seq (b + s) e.
Proof.
  induction e as [|e IH]; intros s; cbn [map seq]; [reflexivity|]. f_equal. rewrite IH. f_equal. lia.
Qed.

Lemma flat_map_ext' : forall (T U : Type) (g h : T -> list U) l, (forall x, In x l -> g x = h x) ->
  flat_map g l = flat_map h l.
Proof.
  induction l as [|x l IH]; intros H; cbn; [reflexivity|].
  rewrite (H x) by (left; reflexivity). rewrite IH by (intros; apply H; right; assumption). reflexivity.
Qed.

Lemma stores_2d_nodup : forall o m r f L A nx ny bd, nx <= blocks nx bd * bd ->
  NoDup (map fst (stores_2d o m r f L A nx ny bd)).
Proof.
  intros o m r f L A nx ny bd H. unfold stores_2d. rewrite map_flat_map.
  apply (slices_nodup (nx * rdimred r)). intros y _. left. rewrite map_flat_map.
  rewrite <- (consecutive_slices (y * (nx * rdimred r)) (rdimred r) nx (blocks nx bd * bd) H).
  apply flat_map_ext'. intros i _. destruct (i <? nx); [|reflexivity]. cbv zeta.
  rewrite map_map. cbn [fst]. rewrite shift_seq, Nat.add_0_r. f_equal. lia.
Qed.

Lemma buffer_2d : forall o m r f L A nx ny bd junk i y k, orders_ok o -> 1 <= bd ->
  i < nx -> y < blocks ny bd -> k < rdimred r ->
  perform_stores (store_order o (stores_2d o m r f L A nx ny bd)) junk ((i + y * nx) * rdimred r + k) =
  thread_2d r f L A bd ny i y
    (perform A (load_order o (i / bd) y (block_copies L bd ny y)) (jshared m (i / bd))) (jregs m i) k.
Proof.
  intros o m r f L A nx ny bd junk i y k [Ol Os] Hb Hi Hy Hk.
  destruct (tiles_bounds bd nx Hb) as [Hg _]. rewrite <- blocks_tiles in Hg by assumption.
  set (v := thread_2d r f L A bd ny i y _ _ k).
  replace ((i + y * nx) * rdimred r + k) with (fst (y * rdimred r * nx + i * rdimred r + k, v)) by (cbn [fst]; lia).
  change v with (snd (y * rdimred r * nx + i * rdimred r + k, v)) at 2.
  apply (stores_hit (stores_2d o m r f L A nx ny bd)); [apply Os|apply stores_2d_nodup; assumption|].
  unfold stores_2d. apply in_flat_map. exists y. split; [apply in_seq; lia|].
  apply in_flat_map. exists i. split; [apply in_seq; lia|].
  assert (E : (i <? nx) = true) by (apply Nat.ltb_lt; assumption). rewrite E. cbv zeta.
  apply in_map_iff. exists k. split; [reflexivity|apply in_seq; lia].
Qed.

(** The partial accumulator of columns [y*bd, y*bd + bd) of row i. *)
Definition piece (r : reduction) (bd ny y : nat) (F : nat -> cells) : cells :=
  for_up (Nat.min bd (ny - y * bd)) (fun j acc => rshort r acc (F (y * bd + j)) (Z.of_nat (y * bd + j))) (rinit r).

Lemma thread_2d_piece : forall decl f tagI r A bd ny i y l x regs,
  declared decl f -> wf f -> categories decl -> tagI <= 1 -> reduction_of (dim f) r ->
  Permutation l (block_copies (loader f tagI) bd ny y) ->
  thread_2d r f (loader f tagI) A bd ny i y (perform A l x) regs = piece r bd ny y (terms decl A f tagI i).
Proof.
  intros decl f tagI r A bd ny i y l x regs D W C T R P. unfold thread_2d, piece. cbv zeta.
  apply for_up_ext. intros j acc Hj. rewrite (Nat.mul_comm bd y).
  apply (short_local (dim f)); [assumption|]. apply tile_fout_terms; try assumption.
  intros a d q Ha Hq. eapply loaded_row; eauto; try lia. apply (vars_cat_nodup decl f (1 - tagI) D).
Qed.

Definition pair_local (r : reduction) (pair : cells -> cells -> cells) : Prop :=
  forall acc x y, same_below (rdimred r) x y -> pair acc x = pair acc y.

Lemma gpu_2d : forall decl f r pair tagI A M N bd o m junkB out,
  declared decl f -> wf f -> categories decl -> tagI <= 1 -> reduction_of (dim f) r ->
  rpair r = Ok pair -> pair_local r pair -> 1 <= rdimred r ->
  orders_ok o -> 1 <= bd -> 0 < out_rows tagI M N -> 0 < red_terms tagI M N ->
  exists out', launch_2d o m junkB r block_sum f tagI A M N bd out = Ok out' /\
    (forall n k, n < out_rows tagI M N -> k < rdim r ->
       out' (n * rdim r + k) =
       rfinal r (for_up (blocks (red_terms tagI M N) bd) (fun y acc =>
                   pair acc (piece r bd (red_terms tagI M N) y (terms decl A f tagI n))) (rinit r)) k) /\
    (forall q, out_rows tagI M N * rdim r <= q -> out' q = out q).
Proof.
  intros decl f r pair tagI A M N bd o m junkB out D W C T R Ep Lp Hd O Hb Hx Hy.
  unfold launch_2d.
  assert (E : (if Nat.eqb tagI 1 then (N, M) else (M, N)) = (out_rows tagI M N, red_terms tagI M N)).
  { destruct tagI as [|[|]]; [reflexivity|reflexivity|lia]. }
  rewrite E, (table_complete decl) by assumption. cbn [code_2d]. rewrite Ep. cbn [rbind].
  set (nx := out_rows tagI M N) in *. set (ny := red_terms tagI M N) in *.
  assert (Pos : forall n, 0 < n -> blocks n bd <> 0).
  { intros n Hn Z. destruct (tiles_bounds bd n Hb) as [Hg _]. rewrite <- blocks_tiles in Hg by assumption.
    rewrite Z in Hg. lia. }
  assert (E0 : (bd =? 0) || (blocks nx bd =? 0) || (blocks ny bd =? 0) = false).
  { rewrite !orb_false_iff. repeat split; apply Nat.eqb_neq; [lia| |]; apply Pos; assumption. }
  rewrite E0. eexists. split; [reflexivity|].
  set (inB := perform_stores (store_order o (stores_2d o m r f (loader f tagI) A nx ny bd)) junkB).
  assert (Hg : nx <= blocks (nx * rdimred r) bd * bd).
  { destruct (tiles_bounds bd (nx * rdimred r) Hb) as [Hg _]. rewrite <- blocks_tiles in Hg by assumption. nia. }
  destruct (grid_output (blocks (nx * rdimred r) bd * bd) nx (rdim r)
              (fun tid => rfinal r (reduce_2d r pair inB (blocks ny bd) nx tid))
              (store_order o (grid_stores (blocks (nx * rdimred r) bd * bd) nx (rdim r)
                 (fun tid => rfinal r (reduce_2d r pair inB (blocks ny bd) nx tid)))) out Hg (proj2 O _)) as [H1 H2].
  split; [|exact H2]. intros n k Hn Hk. etransitivity; [exact (H1 n k Hn Hk)|]. f_equal. f_equal.
  unfold reduce_2d. apply for_up_ext. intros y acc Hy'. apply Lp. intros q Hq. unfold inB.
  rewrite buffer_2d by assumption.
  rewrite (thread_2d_piece decl); [reflexivity|assumption..|]. apply (proj1 O).
Qed.

(** ** Sum *)
Lemma piece_sum : forall d bd ny y F k, k < d ->
  piece (Sum_Red d) bd ny y F k = xsum (Nat.min bd (ny - y * bd)) (fun j => F (y * bd + j) k).
Proof.
  intros d bd ny y F k Hk. unfold piece. cbn [rshort rinit Sum_Red].
  generalize (Nat.min bd (ny - y * bd)) as n. induction n as [|n IH]; cbn [for_up xsum]; [reflexivity|].
  rewrite sum_pair_cell by assumption. rewrite IH. reflexivity.
Qed.

Lemma pieces_sum : forall d bd ny F k m, 1 <= bd -> k < d -> m <= blocks ny bd ->
  for_up m (fun y acc => sum_pair d acc (piece (Sum_Red d) bd ny y F)) (rinit (Sum_Red d)) k =
  xsum (Nat.min ny (m * bd)) (fun j => F j k).
Proof.
  intros d bd ny F k m Hb Hk Hm. rewrite blocks_tiles in Hm by assumption.
  induction m as [|m IH]; cbn [for_up]; [rewrite Nat.min_0_r; reflexivity|].
  specialize (IH ltac:(lia)). pose proof (tile_lt bd ny m Hb ltac:(lia)) as Lt.
  destruct (tile_min bd ny m Lt) as [E1 E2]. rewrite E2, xsum_add.
  rewrite sum_pair_cell, IH, E1, piece_sum by assumption. reflexivity.
Qed.

Lemma sum_pair_local : forall d, pair_local (Sum_Red d) (sum_pair d).
Proof.
  intros d acc x y H. unfold sum_pair. apply for_up_ext. intros k t Hk. rewrite (H k) by exact Hk. reflexivity.
Qed.

Lemma gpu2d_sum : forall decl f tagI A M N bd o m junkB out,
  declared decl f -> wf f -> categories decl -> tagI <= 1 ->
  orders_ok o -> 1 <= bd -> 0 < out_rows tagI M N -> 0 < red_terms tagI M N ->
  exists out', launch_2d o m junkB (Sum_Red (dim f)) block_sum f tagI A M N bd out = Ok out' /\
    (forall n k, n < out_rows tagI M N -> k < dim f ->
       out' (n * dim f + k) =
       Fin (reduce_sum decl (contiguous decl A) M N {| sformula := f; stagI := tagI |} n k)) /\
    (forall q, out_rows tagI M N * dim f <= q -> out' q = out q).
Proof.
  intros decl f tagI A M N bd o m junkB out D W C T O Hb Hx Hy.
  destruct (gpu_2d decl f (Sum_Red (dim f)) (sum_pair (dim f)) tagI A M N bd o m junkB out D W C T (RSum _)
              eq_refl (sum_pair_local _) (SimplifyProofs.dim_pos f W) O Hb Hx Hy) as [out' [E [H1 H2]]].
  exists out'. split; [exact E|]. split; [|exact H2]. intros n k Hn Hk.
  cbn [rdim Sum_Red rfinal] in H1. rewrite (H1 n k Hn Hk).
  rewrite pieces_sum by (try assumption; lia).
  rewrite blocks_tiles, tiles_all by assumption.
  set (x := fun j => eval f (match tagI with O => point decl (contiguous decl A) n j
                             | _ => point decl (contiguous decl A) j n end) k).
  rewrite (xsum_finite _ _ x).
  - f_equal. unfold reduce_sum. cbn [stagI sformula]. destruct tagI; reflexivity.
  - reflexivity.
Qed.

(** ** Log-sum-exp *)
Lemma lse_pair_local' : forall w, pair_local (LSE_Red w) (lse_pair w).
Proof. intros w acc x y H. apply lse_pair_local. exact H. Qed.

Lemma piece_lse : forall w bd ny y e, 1 <= bd -> y * bd < ny -> (forall j, j < ny -> fst (e j) <> None) ->
  lrep w (piece (LSE_Red w) bd ny y (lse_terms e)) (taken (Nat.min bd (ny - y * bd)) (fun j => e (y * bd + j))).
Proof.
  intros w bd ny y e Hb Hy H. unfold piece. cbn [rshort rinit LSE_Red].
  apply (lse_run w _ (fun j => e (y * bd + j))); [lia|]. apply H. lia.
Qed.

Lemma pieces_lse : forall w bd ny e m, 1 <= bd -> (forall j, j < ny -> fst (e j) <> None) -> m <= blocks ny bd ->
  let acc := for_up m (fun y acc => lse_pair w acc (piece (LSE_Red w) bd ny y (lse_terms e))) (rinit (LSE_Red w)) in
  (m = 0 /\ lempty w acc) \/ (0 < m /\ lrep w acc (taken (Nat.min ny (m * bd)) e)).
Proof.
  intros w bd ny e m Hb H Hm. cbv zeta. rewrite blocks_tiles in Hm by assumption.
  induction m as [|m IH]; cbn [for_up]; [left; split; [reflexivity|apply lempty_init]|].
  right. split; [lia|]. specialize (IH ltac:(lia)). pose proof (tile_lt bd ny m Hb ltac:(lia)) as Lt.
  destruct (tile_min bd ny m Lt) as [E1 E2]. rewrite E2, taken_add. rewrite E1 in IH.
  pose proof (piece_lse w bd ny m e Hb Lt H) as P. destruct IH as [[-> Em]|[_ Rm]].
  - cbn [Nat.mul taken seq map app]. apply lse_merge_init_l; [exact Em|exact P].
  - apply lse_merge; [exact Rm|exact P].
Qed.

Lemma piece_local : forall d r bd ny y F G, reduction_of d r ->
  (forall j, j < ny -> same_below d (F j) (G j)) -> piece r bd ny y F = piece r bd ny y G.
Proof.
  intros d r bd ny y F G R H. unfold piece. apply for_up_ext. intros j acc Hj.
  apply (short_local d); [assumption|]. apply H. lia.
Qed.

Lemma gpu2d_lse : forall decl f w tagI A M N bd o m junkB out,
  declared decl f -> wf f -> categories decl -> tagI <= 1 -> orders_ok o -> 1 <= bd ->
  0 < out_rows tagI M N -> 0 < red_terms tagI M N -> dim f = S w ->
  exists out', launch_2d o m junkB (LSE_Red w) block_sum f tagI A M N bd out = Ok out' /\
    (forall n k, n < out_rows tagI M N -> k < w ->
       let es := taken (red_terms tagI M N) (entry_of decl A f tagI n) in
       (0 < exp_sum k es)%R ->
       lse_post (fun q => out' (n * S w + q)) k = Fin (ln (exp_sum k es))) /\
    (forall q, out_rows tagI M N * S w <= q -> out' q = out q).
Proof.
  intros decl f w tagI A M N bd o m junkB out D W C T O Hb Hx Hy Dw.
  destruct (gpu_2d decl f (LSE_Red w) (lse_pair w) tagI A M N bd o m junkB out D W C T (RLse _ _ Dw)
              eq_refl (lse_pair_local' _) ltac:(cbn; lia) O Hb Hx Hy) as [out' [E [H1 H2]]].
  exists out'. split; [exact E|]. split; [|exact H2]. intros n k Hn Hk es Hp.
  cbn [rdim LSE_Red rfinal] in H1. unfold lse_post. rewrite (H1 n 0), (H1 n (S k)) by lia.
  set (ny := red_terms tagI M N) in *.
  rewrite (for_up_ext _ (blocks ny bd) _ (fun y acc =>
     lse_pair w acc (piece (LSE_Red w) bd ny y (lse_terms (entry_of decl A f tagI n))))).
  - apply (rep_log w _ es k); [|assumption|assumption].
    destruct (pieces_lse w bd ny (entry_of decl A f tagI n) (blocks ny bd) Hb) as [[Z _]|[_ R]].
    + intros j Hj. destruct tagI; discriminate.
    + lia.
    + exfalso. rewrite blocks_tiles in Z by assumption. destruct (tiles_bounds bd ny Hb). rewrite Z in *. lia.
    + rewrite blocks_tiles in R |- * by assumption. rewrite tiles_all in R by assumption. exact R.
  - intros y acc _.
    rewrite (piece_local (S w) (LSE_Red w) bd ny y (terms decl A f tagI n)
               (lse_terms (entry_of decl A f tagI n))); [reflexivity|constructor; reflexivity|].
    intros j Hj. apply terms_lse. assumption.
Qed.

(** ** Reductions and schemes without two-dimensional code *)
Lemma no_code_2d : forall o m junkB r s f tagI A M N bd out out',
  (forall p, code_2d r s <> Ok p) -> launch_2d o m junkB r s f tagI A M N bd out <> Ok out'.
Proof.
  intros o m junkB r s f tagI A M N bd out out' H. unfold launch_2d.
  destruct (if Nat.eqb tagI 1 then (N, M) else (M, N)) as [nx ny].
  destruct (table_ok f _); [|discriminate].
  destruct (code_2d r s) as [p| | |]; cbn; try discriminate. exfalso. apply (H p). reflexivity.
Qed.

Lemma direct_2d : forall o m junkB r f tagI A M N bd out out',
  launch_2d o m junkB r direct_sum f tagI A M N bd out <> Ok out'.
Proof.
  intros. apply no_code_2d. intros p. cbn [code_2d]. destruct (rpair r); cbn; discriminate.
Qed.
Lemma kahan_2d : forall o m junkB r f tagI A M N bd out out',
  launch_2d o m junkB r kahan_scheme f tagI A M N bd out <> Ok out'.
Proof.
  intros. apply no_code_2d. intros p. cbn [code_2d]. destruct (rkahan r); discriminate.
Qed.

Lemma other_2d : forall opt s o m junkB r f tagI A M N bd out out',
  get_scheme false opt = Ok s ->
  launch_2d o m junkB r s f tagI A M N bd out <> Ok out'.
Proof.
  intros opt s o m junkB r f tagI A M N bd out out' H.
  assert (s = direct_sum) by (destruct opt as [[]|]; cbn in H; congruence). subst. apply direct_2d.
Qed.

Lemma schemes_2d : forall o m junkB r f tagI A M N bd out out',
  launch_2d o m junkB r direct_sum f tagI A M N bd out <> Ok out' /\
  launch_2d o m junkB r kahan_scheme f tagI A M N bd out <> Ok out'.
Proof. intros. split; [apply direct_2d|apply kahan_2d]. Qed.
