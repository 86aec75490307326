(** Proofs about the one-dimensional GPU routine. *)

From Coq Require Import ZArith Reals Arith Lia List Bool Permutation.
From Verif Require Import Result Formula XReal Reductions ReductionSpec RedLoops KernelSum KernelSumSpec
  SumSpec LseSpec Postprocess CpuReduc Loader LoaderProofs CpuConv CpuConvSpec GpuConv
  C06Proofs C09Proofs C11Proofs C12Proofs GpuProofs.
Import ListNotations.

(** ** Tiled reductions *)
Lemma tiled_flat : forall r op bd ny m F tmp,
  (forall st, final_op op st = st) -> (forall t, block_init op t = t) ->
  tiled r op bd ny m F tmp =
  for_up (Nat.min ny (m * bd)) (fun j st => accumulate op st (F j) (Z.of_nat j)) (rinit r, first_init op tmp).
Proof.
  intros r op bd ny m F tmp Hf Hb. unfold tiled.
  rewrite <- (tiled_prefix _ bd ny (fun j st => accumulate op st (F j) (Z.of_nat j)) _ m).
  apply for_up_ext. intros tile [a t] Ht. rewrite Hf, Hb. cbn [fst snd]. apply for_up_ext.
  intros j st _. rewrite (Nat.add_comm j). reflexivity.
Qed.

Lemma tiles_all : forall bd ny, 1 <= bd -> Nat.min ny (tiles bd ny * bd) = ny.
Proof. intros bd ny H. destruct (tiles_bounds bd ny H). lia. Qed.

Lemma run_dense : forall r n F,
  for_up n (fun j acc => rshort r acc (F j) (Z.of_nat j)) (rinit r) = run r (dense n F) (rinit r).
Proof.
  intros r n F. induction n as [|n IH]; [reflexivity|].
  cbn [for_up]. rewrite IH. unfold dense. rewrite seq_S, map_app. unfold run. rewrite fold_left_app. reflexivity.
Qed.

Lemma tiled_direct : forall r op bd ny F tmp, 1 <= bd -> scheme_code r direct_sum = Ok op ->
  fst (tiled r op bd ny (tiles bd ny) F tmp) = run r (dense ny F) (rinit r).
Proof.
  intros r op bd ny F tmp H E. cbn [scheme_code] in E. inversion E; subst. clear E.
  rewrite tiled_flat by reflexivity. rewrite tiles_all by assumption. cbn [accumulate first_init].
  rewrite <- run_dense. induction ny as [|n IH]; cbn [for_up fst]; [reflexivity|]. rewrite IH. reflexivity.
Qed.

Lemma xsum_add : forall m n x, xsum (m + n) x = xadd (xsum m x) (xsum n (fun j => x (m + j))).
Proof.
  induction n as [|n IH]; intros x; cbn [xsum].
  - rewrite Nat.add_0_r, xadd_0_r. reflexivity.
  - rewrite Nat.add_succ_r. cbn [xsum]. rewrite IH, xadd_assoc. reflexivity.
Qed.

Lemma tile_min : forall bd ny m, m * bd < ny ->
  Nat.min ny (m * bd) = m * bd /\ Nat.min ny (S m * bd) = m * bd + Nat.min bd (ny - m * bd).
Proof. intros. split; [lia|]. cbn. lia. Qed.

Lemma tiled_block_sum : forall d op bd ny F tmp m k, 1 <= bd ->
  scheme_code (Sum_Red d) block_sum = Ok op -> k < d -> m <= tiles bd ny ->
  fst (tiled (Sum_Red d) op bd ny m F tmp) k = xsum (Nat.min ny (m * bd)) (fun j => F j k).
Proof.
  intros d op bd ny F tmp m k Hb E Hk. cbn [scheme_code rpair Sum_Red] in E. cbn in E. inversion E; subst. clear E.
  unfold tiled. cbn [final_op block_init accumulate first_init].
  induction m as [|m IH]; intros Hm; cbn [for_up].
  - rewrite Nat.min_0_r. reflexivity.
  - specialize (IH ltac:(lia)). pose proof (tile_lt bd ny m Hb ltac:(lia)) as Lt.
    destruct (tile_min bd ny m Lt) as [E1 E2]. rewrite E2, xsum_add.
    set (st := for_up m _ _) in *. rewrite E1 in IH. cbn [fst snd rshort Sum_Red].
    set (inner := for_up (Nat.min bd (ny - m * bd)) _ _).
    assert (I : fst inner = fst st /\ snd inner k = xsum (Nat.min bd (ny - m * bd)) (fun j => F (m * bd + j) k)).
    { unfold inner. generalize (Nat.min bd (ny - m * bd)) as n. induction n as [|n IHn]; cbn [for_up xsum fst snd]; [split; reflexivity|].
      destruct IHn as [I1 I2]. split; [assumption|]. rewrite sum_pair_cell by assumption. rewrite I2. reflexivity. }
    destruct I as [I1 I2]. rewrite sum_pair_cell by assumption. rewrite I1, I2, IH. reflexivity.
Qed.

Lemma tiled_sum : forall s d op bd ny F tmp x k, 1 <= bd -> scheme_code (Sum_Red d) s = Ok op ->
  finite_terms d ny F x -> k < d ->
  fst (tiled (Sum_Red d) op bd ny (tiles bd ny) F tmp) k = Fin (rsum ny (fun j => x j k)).
Proof.
  intros s d op bd ny F tmp x k Hb E H Hk. destruct s.
  - rewrite (tiled_direct (Sum_Red d) op bd ny F tmp Hb E). rewrite <- run_dense.
    destruct (direct_row d ny F) as [out [E' P]]. cbn [cpu_row rfinal Sum_Red] in E'.
    assert (E2 : out = for_up ny (fun j acc => rshort (Sum_Red d) acc (F j) (Z.of_nat j)) (rinit (Sum_Red d))) by congruence.
    rewrite <- E2, (P k Hk). apply xsum_finite. intros j Hj. apply H; assumption.
  - rewrite tiled_block_sum by (try assumption; lia). rewrite tiles_all by assumption.
    apply xsum_finite. intros j Hj. apply H; assumption.
  - cbn in E. inversion E; subst. rewrite tiled_flat by reflexivity. rewrite tiles_all by assumption.
    cbn [accumulate first_init]. apply (kahan_loop d ny F x ny H (le_n ny) k Hk).
Qed.

Lemma taken_add : forall m n e, taken (m + n) e = taken m e ++ taken n (fun j => e (m + j)).
Proof.
  intros m n e. induction n as [|n IH]; [rewrite Nat.add_0_r; unfold taken at 3; cbn; rewrite app_nil_r; reflexivity|].
  rewrite Nat.add_succ_r, !taken_S, IH, app_assoc. reflexivity.
Qed.

(** A nonempty sequence of updates from the initial state. *)
Lemma lse_run : forall w n e, 0 < n -> fst (e 0) <> None ->
  lrep w (for_up n (fun j acc => lse_pair w acc (lse_terms e j)) lse_init) (taken n e).
Proof.
  intros w n e Hn H0. destruct n as [|n]; [lia|]. clear Hn. induction n as [|n IH]; cbn [for_up].
  - apply lrep_start; [apply lempty_init|assumption].
  - rewrite taken_S. apply lrep_update. exact IH.
Qed.

Lemma tiled_block_lse : forall w op bd ny e tmp m, 1 <= bd ->
  scheme_code (LSE_Red w) block_sum = Ok op -> (forall j, j < ny -> j mod bd = 0 -> fst (e j) <> None) ->
  m <= tiles bd ny ->
  let acc := fst (tiled (LSE_Red w) op bd ny m (lse_terms e) tmp) in
  (m = 0 /\ lempty w acc) \/ (0 < m /\ lrep w acc (taken (Nat.min ny (m * bd)) e)).
Proof.
  intros w op bd ny e tmp m Hb E H. cbn in E. inversion E; subst. clear E. cbv zeta.
  unfold tiled. cbn [final_op block_init accumulate first_init].
  induction m as [|m IH]; intros Hm; cbn [for_up].
  - left. split; [reflexivity|apply lempty_init].
  - right. split; [lia|]. specialize (IH ltac:(lia)). pose proof (tile_lt bd ny m Hb ltac:(lia)) as Lt.
    destruct (tile_min bd ny m Lt) as [E1 E2]. rewrite E2, taken_add.
    set (st := for_up m _ _) in *. rewrite E1 in IH. cbn [fst snd rshort LSE_Red].
    set (n := Nat.min bd (ny - m * bd)) in *. assert (Hn : 0 < n) by lia.
    set (inner := for_up n _ _).
    assert (I : fst inner = fst st /\
      snd inner = for_up n (fun j acc => lse_pair w acc (lse_terms (fun j => e (m * bd + j)) j)) lse_init).
    { unfold inner. clear. induction n as [|n IHn]; cbn [for_up fst snd]; [split; reflexivity|].
      destruct IHn as [I1 I2]. split; [assumption|]. rewrite I2. reflexivity. }
    destruct I as [I1 I2].
    assert (R : lrep w (snd inner) (taken n (fun j => e (m * bd + j)))).
    { rewrite I2. apply lse_run; [assumption|]. rewrite Nat.add_0_r. apply H; [lia|].
      apply Nat.mod_mul. lia. }
    rewrite I1. destruct IH as [[-> Em]|[_ Rm]].
    + cbn [Nat.mul taken seq map app]. apply lse_merge_init_l; [exact Em|exact R].
    + apply lse_merge; assumption.
Qed.

Lemma tiled_lse : forall s w op bd ny e tmp, 1 <= bd -> scheme_code (LSE_Red w) s = Ok op ->
  0 < ny -> (forall j, j < ny -> fst (e j) <> None) ->
  lrep w (fst (tiled (LSE_Red w) op bd ny (tiles bd ny) (lse_terms e) tmp)) (taken ny e).
Proof.
  intros s w op bd ny e tmp Hb E Hn H. destruct s; [| |discriminate].
  - rewrite (tiled_direct (LSE_Red w) op bd ny _ tmp Hb E), <- run_dense. cbn [rshort rinit LSE_Red].
    apply lse_run; auto.
  - destruct (tiled_block_lse w op bd ny e tmp (tiles bd ny) Hb E) as [[Z _]|[_ R]]; [auto|lia| |].
    + destruct (tiles_bounds bd ny Hb). rewrite Z in *. lia.
    + rewrite tiles_all in R by assumption. exact R.
Qed.

Lemma tiled_local : forall d r s op bd ny m F G tmp, 1 <= bd -> m <= tiles bd ny ->
  reduction_of d r -> scheme_code r s = Ok op ->
  (forall j, j < ny -> same_below d (F j) (G j)) ->
  tiled r op bd ny m F tmp = tiled r op bd ny m G tmp.
Proof.
  intros d r s op bd ny m F G tmp Hb Hm R E H. unfold tiled. apply for_up_ext. intros tile st Ht. f_equal.
  apply for_up_ext. intros j st' Hj. eapply ops_local; [exact R|exact E|]. apply H. lia.
Qed.

(** ** Output *)
Lemma row_stores_fst : forall d i v, map fst (row_stores d i v) = seq (i * d) d.
Proof.
  intros d i v. unfold row_stores. rewrite map_map. cbn [fst].
  assert (G : forall e s, map (fun x => i * d + x) (seq s e) = seq (i * d + s) e).
  { induction e as [|e IH]; intros s; cbn [map seq]; [reflexivity|]. f_equal. rewrite IH. f_equal. lia. }
  rewrite G, Nat.add_0_r. reflexivity.
Qed.

(** Rows written by the threads of a grid. *)
Definition grid_stores (n nx d : nat) (v : nat -> cells) : list store :=
  flat_map (fun i => if i <? nx then row_stores d i (v i) else []) (seq 0 n).
Lemma grid_output : forall n nx d v l out, nx <= n -> Permutation l (grid_stores n nx d v) ->
  (forall i k, i < nx -> k < d -> perform_stores l out (i * d + k) = v i k) /\
  (forall q, nx * d <= q -> perform_stores l out q = out q).
Proof.
  intros n nx d v l out Hn P.
  assert (ND : NoDup (map fst (grid_stores n nx d v))).
  { unfold grid_stores. rewrite map_flat_map. apply (slices_nodup d). intros i Hi.
    destruct (i <? nx); [left; apply row_stores_fst|right; reflexivity]. }
  split.
  - intros i k Hi Hk. change (i * d + k) with (fst (i * d + k, v i k)).
    change (v i k) with (snd (i * d + k, v i k)) at 2. apply (stores_hit _ _ _ _ P ND).
    unfold grid_stores. apply in_flat_map. exists i. split; [apply in_seq; lia|].
    assert (E : (i <? nx) = true) by (apply Nat.ltb_lt; assumption). rewrite E.
    unfold row_stores. apply in_map_iff. exists k. split; [reflexivity|apply in_seq; lia].
  - intros q Hq. apply (stores_miss _ _ _ _ P). unfold grid_stores. rewrite map_flat_map. intros I.
    apply in_flat_map in I. destruct I as [i [_ I]]. destruct (Nat.ltb_spec i nx) as [Hi|Hi]; [|contradiction].
    rewrite row_stores_fst in I. apply in_seq in I.
    assert ((i + 1) * d <= nx * d) by (apply Nat.mul_le_mono_r; lia). lia.
Qed.

Lemma gpu_1d : forall decl f r s op tagI A M N bd o m out,
  declared decl f -> wf f -> categories decl -> tagI <= 1 -> reduction_of (dim f) r ->
  scheme_code r s = Ok op -> orders_ok o -> 1 <= bd -> 0 < out_rows tagI M N ->
  exists out', launch_1d o m r s f tagI A M N bd out = Ok out' /\
    (forall n k, n < out_rows tagI M N -> k < rdim r ->
       out' (n * rdim r + k) =
       rfinal r (fst (tiled r op bd (red_terms tagI M N) (tiles bd (red_terms tagI M N))
                        (terms decl A f tagI n) (jtmp m n))) k) /\
    (forall q, out_rows tagI M N * rdim r <= q -> out' q = out q).
Proof.
  intros decl f r s op tagI A M N bd o m out D W C T R Eop [Ol Os] Hb Hx.
  unfold launch_1d.
  assert (E : (if Nat.eqb tagI 1 then (N, M) else (M, N)) = (out_rows tagI M N, red_terms tagI M N)).
  { destruct tagI as [|[|]]; [reflexivity|reflexivity|lia]. }
  rewrite E, (table_complete decl) by assumption. rewrite Eop. cbn [rbind].
  set (nx := out_rows tagI M N) in *. set (ny := red_terms tagI M N) in *.
  destruct (tiles_bounds bd nx Hb) as [Hg _]. rewrite <- blocks_tiles in Hg by assumption.
  assert (E0 : (bd =? 0) || (blocks nx bd =? 0) = false).
  { apply orb_false_iff. split; apply Nat.eqb_neq; [lia|]. intros Z. rewrite Z in Hg. lia. }
  rewrite E0. eexists. split; [reflexivity|].
  set (v := fun i => rfinal r (fst (thread_1d r op f (loader f tagI) A bd ny i
     (fun tile => shared (load_order o (i / bd)) (loader f tagI) A bd ny tile (jshared m (i / bd))) (jregs m i) (jtmp m i)))).
  destruct (grid_output (blocks nx bd * bd) nx (rdim r) v
              (store_order o (stores_1d o m r op f (loader f tagI) A nx ny bd)) out Hg (Os _)) as [H1 H2].
  split; [|exact H2]. intros n k Hn Hk. rewrite (H1 n k Hn Hk). unfold v.
  rewrite (thread_1d_terms decl f tagI r s op A bd ny n _ _ _ D W C T R Eop); [reflexivity|].
  intros tile t a d q Ht Hj Ha Hq. apply shared_row; try assumption.
  - intros n' l. apply Ol.
  - apply (vars_cat_nodup decl f (1 - tagI) D).
Qed.

(** ** Statements *)
Lemma gpu_sum : forall decl f s tagI A M N bd o m out,
  declared decl f -> wf f -> categories decl -> tagI <= 1 ->
  orders_ok o -> 1 <= bd -> 0 < out_rows tagI M N ->
  exists out', launch_1d o m (Sum_Red (dim f)) s f tagI A M N bd out = Ok out' /\
    (forall n k, n < out_rows tagI M N -> k < dim f ->
       out' (n * dim f + k) =
       Fin (reduce_sum decl (contiguous decl A) M N {| sformula := f; stagI := tagI |} n k)) /\
    (forall q, out_rows tagI M N * dim f <= q -> out' q = out q).
Proof.
  intros decl f s tagI A M N bd o m out D W C T O Hb Hx.
  assert (Eop : exists op, scheme_code (Sum_Red (dim f)) s = Ok op) by (destruct s; cbn; eauto).
  destruct Eop as [op Eop].
  destruct (gpu_1d decl f (Sum_Red (dim f)) s op tagI A M N bd o m out D W C T (RSum _) Eop O Hb Hx)
    as [out' [E [H1 H2]]].
  exists out'. split; [exact E|]. split; [|exact H2]. intros n k Hn Hk.
  cbn [rdim Sum_Red rfinal] in H1. rewrite (H1 n k Hn Hk).
  set (x := fun j k => eval f (match tagI with O => point decl (contiguous decl A) n j
                               | _ => point decl (contiguous decl A) j n end) k).
  rewrite (tiled_sum s (dim f) op bd (red_terms tagI M N) (terms decl A f tagI n) (jtmp m n) x k Hb Eop).
  - f_equal. unfold reduce_sum. cbn [stagI sformula]. destruct tagI; reflexivity.
  - intros j q _ _. reflexivity.
  - assumption.
Qed.

Lemma gpu_direct : forall decl f r tagI A M N bd o m out,
  declared decl f -> wf f -> categories decl -> tagI <= 1 -> reduction_of (dim f) r ->
  orders_ok o -> 1 <= bd -> 0 < out_rows tagI M N ->
  exists out', launch_1d o m r direct_sum f tagI A M N bd out = Ok out' /\
    (forall n k, n < out_rows tagI M N -> k < rdim r ->
       out' (n * rdim r + k) =
       rfinal r (run r (dense (red_terms tagI M N) (terms decl A f tagI n)) (rinit r)) k) /\
    (forall q, out_rows tagI M N * rdim r <= q -> out' q = out q).
Proof.
  intros decl f r tagI A M N bd o m out D W C T R O Hb Hx.
  destruct (gpu_1d decl f r direct_sum _ tagI A M N bd o m out D W C T R eq_refl O Hb Hx)
    as [out' [E [H1 H2]]].
  exists out'. split; [exact E|]. split; [|exact H2]. intros n k Hn Hk. rewrite (H1 n k Hn Hk).
  rewrite tiled_direct by (try assumption; reflexivity). reflexivity.
Qed.

Lemma terms_lse : forall decl A f tagI n j w, dim f = S w ->
  same_below (S w) (terms decl A f tagI n j) (lse_terms (entry_of decl A f tagI n) j).
Proof. intros decl A f tagI n j w H [|q] Hq; destruct tagI; reflexivity. Qed.

Lemma gpu_lse : forall decl f s w tagI A M N bd o m out,
  declared decl f -> wf f -> categories decl -> tagI <= 1 -> orders_ok o -> 1 <= bd ->
  0 < out_rows tagI M N -> dim f = S w -> s <> kahan_scheme -> 0 < red_terms tagI M N ->
  exists out', launch_1d o m (LSE_Red w) s f tagI A M N bd out = Ok out' /\
    (forall n k, n < out_rows tagI M N -> k < w ->
       let es := taken (red_terms tagI M N) (entry_of decl A f tagI n) in
       (0 < exp_sum k es)%R ->
       lse_post (fun q => out' (n * S w + q)) k = Fin (ln (exp_sum k es))) /\
    (forall q, out_rows tagI M N * S w <= q -> out' q = out q).
Proof.
  intros decl f s w tagI A M N bd o m out D W C T O Hb Hx Dw Hs Hr.
  assert (Eop : exists op, scheme_code (LSE_Red w) s = Ok op) by (destruct s; cbn; eauto; congruence).
  destruct Eop as [op Eop].
  destruct (gpu_1d decl f (LSE_Red w) s op tagI A M N bd o m out D W C T (RLse _ _ Dw) Eop O Hb Hx)
    as [out' [E [H1 H2]]].
  exists out'. split; [exact E|]. split; [|exact H2]. intros n k Hn Hk es Hp.
  cbn [rdim LSE_Red rfinal] in H1. unfold lse_post. rewrite (H1 n 0), (H1 n (S k)) by lia.
  rewrite (tiled_local (dim f) (LSE_Red w) s op bd (red_terms tagI M N) _ (terms decl A f tagI n)
             (lse_terms (entry_of decl A f tagI n)) (jtmp m n) Hb (le_n _) (RLse _ _ Dw) Eop).
  - apply (rep_log w _ es k); [|assumption|assumption].
    apply (tiled_lse s w op); try assumption. intros j Hj. destruct tagI; discriminate.
  - intros j Hj. rewrite Dw. apply terms_lse. assumption.
Qed.

(** Every assignment of a load phase stays inside the shared array of bd*dimy cells and reads an
    existing row of an argument. *)
Lemma loads_in_bounds : forall decl f tagI bd ny tile c, declared decl f -> tagI <= 1 ->
  In c (block_copies (loader f tagI) bd ny tile) ->
  dst c < bd * dims (varsJ (loader f tagI)) /\
  snd (decl (src c)) = 1 - tagI /\ spos c < ny * fst (decl (src c)).
Proof.
  intros decl f tagI bd ny tile c D T H. unfold block_copies in H. apply in_flat_map in H.
  destruct H as [t [Ht H]]. apply in_seq in Ht. unfold thread_copies in H.
  destruct (Nat.ltb_spec (tile * bd + t) ny) as [Hj|Hj]; [|contradiction]. split.
  - assert (I : In (dst c) (map dst (load_copies (varsJ (loader f tagI)) (fun _ => tile * bd + t) 0 (t * dims (varsJ (loader f tagI))))))
      by (apply in_map; assumption).
    rewrite load_copies_dst in I. apply in_seq in I.
    assert ((t + 1) * dims (varsJ (loader f tagI)) <= bd * dims (varsJ (loader f tagI))) by (apply Nat.mul_le_mono_r; lia). lia.
  - destruct (load_copies_src _ _ _ _ _ H) as [d [v [Hs [Hv [u Es]]]]].
    apply vars_cat_in in Hs. apply (vars_declared decl f D) in Hs. rewrite Hs. cbn [fst snd].
    split; [reflexivity|]. rewrite Es.
    assert ((tile * bd + t + 1) * d <= ny * d) by (apply Nat.mul_le_mono_r; lia). lia.
Qed.

Lemma block_size_pos : forall cbs mt sm dimY sz, 1 <= cbs -> 1 <= mt ->
  (1 <= block_size cbs mt sm dimY sz <-> 1 <= sm /\ dimY * sz <= sm).
Proof.
  intros cbs mt sm dimY sz H1 H2. unfold block_size. set (x := Nat.max 1 (dimY * sz)).
  assert (Hx : 1 <= x) by lia. split.
  - intros H. assert (D : 1 <= sm / x) by lia. assert (x * 1 <= sm); [|lia].
    etransitivity; [|apply (Nat.mul_div_le sm x); lia]. apply Nat.mul_le_mono_l. assumption.
  - intros H. assert (1 <= sm / x); [|lia]. apply Nat.div_le_lower_bound; lia.
Qed.

Lemma block_size_fits : forall cbs mt sm dimY sz,
  block_size cbs mt sm dimY sz * (dimY * sz) <= sm.
Proof.
  intros cbs mt sm dimY sz. unfold block_size. set (x := Nat.max 1 (dimY * sz)).
  transitivity (sm / x * x).
  - apply Nat.mul_le_mono; lia.
  - rewrite Nat.mul_comm. apply Nat.mul_div_le. lia.
Qed.

(** Large rows: no thread. *)
Lemma launch_block_zero : forall o m r s f tagI A M N out out',
  launch_1d o m r s f tagI A M N 0 out <> Ok out'.
Proof.
  intros. unfold launch_1d. destruct (if Nat.eqb tagI 1 then (N, M) else (M, N)) as [nx ny].
  destruct (table_ok f _); [|discriminate]. destruct (scheme_code r s); cbn; discriminate.
Qed.

Lemma wide_rows : forall d A M N o m out out', 48 * 1024 < d * 4 ->
  launch_1d o m (Sum_Red d) block_sum (Var 0 d 1) 0 A M N
    (block_size 192 1024 (48 * 1024) (dims (varsJ (loader (Var 0 d 1) 0))) 4) out <> Ok out'.
Proof.
  intros d A M N o m out out' H.
  assert (E : dims (varsJ (loader (Var 0 d 1) 0)) = d) by (cbn; lia). rewrite E.
  generalize dependent (48 * 1024). intros sm H.
  assert (Z : block_size 192 1024 sm d 4 = 0).
  { destruct (block_size_pos 192 1024 sm d 4) as [P _]; [lia|lia|].
    destruct (block_size 192 1024 sm d 4); [reflexivity|]. destruct (P ltac:(lia)). lia. }
  rewrite Z. apply launch_block_zero.
Qed.

Lemma block_sizes : forall cbs mt sm dimY sz, 1 <= cbs -> 1 <= mt ->
  block_size cbs mt sm dimY sz * (dimY * sz) <= sm /\ (1 <= block_size cbs mt sm dimY sz <-> 1 <= sm /\ dimY * sz <= sm).
Proof. intros. split; [apply block_size_fits|apply block_size_pos; assumption]. Qed.
