(** Proofs about the dense CPU routine. *)

From Coq Require Import ZArith Reals Arith Lia List Bool Permutation.
From Verif Require Import Result Formula XReal Reductions ReductionSpec RedLoops KernelSum KernelSumSpec
  SumSpec LseSpec Postprocess CpuReduc Loader LoaderProofs CpuConv CpuConvSpec C06Proofs C07Proofs C09Proofs C11Proofs.
Import ListNotations.

(** ** Rows of the output *)
Lemma write_row_spec : forall d i v out,
  (forall k, k < d -> write_row d i v out (i * d + k) = v k) /\
  (forall q, q < i * d \/ i * d + d <= q -> write_row d i v out q = out q).
Proof.
  intros d i v out. unfold write_row.
  destruct (for_up_cell d (fun k => i * d + k) (fun k _ => v k) out) as [H1 H2].
  - intros; lia.
  - reflexivity.
  - split; [exact H1|]. intros q Hq. apply H2. intros; lia.
Qed.

Lemma row_disjoint : forall d i j k, i <> j -> k < d -> i * d + k < j * d \/ j * d + d <= i * d + k.
Proof.
  intros d i j k N K. destruct (Nat.lt_ge_cases i j).
  - left. assert ((i + 1) * d <= j * d) by (apply Nat.mul_le_mono_r; lia). lia.
  - right. assert ((j + 1) * d <= i * d) by (apply Nat.mul_le_mono_r; lia). lia.
Qed.

(** ** Reductions read the formula only below its dimension *)
Definition same_below (d : nat) (x y : cells) : Prop := forall k, k < d -> x k = y k.

Lemma kmin_insert_local : forall K fdim k x y ind n acc, x = y ->
  kmin_insert K fdim k x ind n acc = kmin_insert K fdim k y ind n acc.
Proof. intros; subst; reflexivity. Qed.

Lemma lse_pair_local : forall w acc x y, same_below (S w) x y -> lse_pair w acc x = lse_pair w acc y.
Proof.
  intros w acc x y H. unfold lse_pair, lse_exponent. rewrite (H 0) by lia.
  destruct (xltb (y 0) (acc 0)).
  - apply for_up_ext. intros. rewrite H by lia. reflexivity.
  - f_equal. apply for_up_ext. intros. rewrite H by lia. reflexivity.
Qed.

Lemma short_local : forall d r acc x y z, reduction_of d r -> same_below d x y ->
  rshort r acc x z = rshort r acc y z.
Proof.
  intros d r acc x y z R H. destruct R; cbn [rshort Sum_Red Opt_Red OptArg_Red KMin_Red LSE_Red].
  - unfold sum_pair. apply for_up_ext. intros. rewrite H by assumption. reflexivity.
  - unfold opt_pair. apply for_up_ext. intros. rewrite H by assumption. reflexivity.
  - unfold optarg_short. apply for_up_ext. intros. rewrite H by assumption. reflexivity.
  - unfold kmin_short. apply for_up_ext. intros. rewrite H by assumption. reflexivity.
  - subst. apply lse_pair_local. assumption.
Qed.

Lemma kahan_local : forall d r kh acc x y tmp, reduction_of d r -> rkahan r = Ok kh -> same_below d x y ->
  kh acc x tmp = kh acc y tmp.
Proof.
  intros d r kh acc x y tmp R E H.
  destruct R; cbn [rkahan Sum_Red Opt_Red OptArg_Red KMin_Red LSE_Red] in E; try discriminate.
  assert (E' : kh = sum_kahan d) by congruence. subst kh.
  unfold sum_kahan. apply for_up_ext. intros k [a t] Hk. rewrite H by assumption. reflexivity.
Qed.

Lemma cpu_row_local : forall d r s n F G, reduction_of d r ->
  (forall j, j < n -> same_below d (F j) (G j)) -> cpu_row r s n F = cpu_row r s n G.
Proof.
  intros d r s n F G R H. destruct s; cbn [cpu_row].
  - do 2 f_equal. apply for_up_ext. intros. eapply short_local; eauto.
  - destruct (rpair r) as [p| | |]; try reflexivity.
    rewrite (for_up_ext _ n (block_body r p (period_accumulate n) F) (block_body r p (period_accumulate n) G)); [reflexivity|].
    intros k [a t] Hk. unfold block_body. rewrite (short_local d r t (F k) (G k)); auto.
  - destruct (rkahan r) as [kh| | |] eqn:E; try reflexivity.
    do 3 f_equal. apply for_up_ext. intros k st Hk. eapply kahan_local; eauto.
Qed.

Lemma available_row : forall r s n F, available r s -> exists v, cpu_row r s n F = Ok v.
Proof.
  intros r s n F H. destruct s; cbn [available cpu_row] in *.
  - eexists; reflexivity.
  - destruct H as [p ->]. destruct (for_up n _ _). eexists; reflexivity.
  - destruct H as [p ->]. eexists; reflexivity.
Qed.

(** ** The loop over rows, in any order *)
Lemma conv_rows_spec : forall r s f L A ny order out, available r s -> NoDup order ->
  exists out', conv_rows r s f L A ny order out = Ok out' /\
    (forall i, In i order -> exists v, cpu_row r s ny (fout f L A i) = Ok v /\
       forall k, k < rdim r -> out' (i * rdim r + k) = v k) /\
    (forall q, (forall i k, In i order -> k < rdim r -> q <> i * rdim r + k) -> out' q = out q).
Proof.
  intros r s f L A ny. induction order as [|i order IH]; intros out Av ND; cbn [conv_rows].
  - exists out. split; [reflexivity|]. split; [intros i []|reflexivity].
  - inversion ND as [|? ? Ni ND']; subst. destruct (available_row r s ny (fout f L A i) Av) as [v E].
    rewrite E. cbn. destruct (IH (write_row (rdim r) i v out) Av ND') as [out' [E' [H1 H2]]].
    exists out'. split; [assumption|]. destruct (write_row_spec (rdim r) i v out) as [W1 W2]. split.
    + intros i' [<-|Hi]; [|apply H1; assumption]. exists v. split; [assumption|]. intros k Hk.
      rewrite H2; [apply W1; assumption|]. intros i' k' Hi' Hk' Eq.
      assert (i <> i') by congruence. destruct (row_disjoint (rdim r) i i' k); lia.
    + intros q Hq. rewrite H2 by (intros; apply Hq; [right; assumption|assumption]).
      apply W2. destruct (Nat.lt_ge_cases q (i * rdim r)); [left; assumption|right].
      destruct (Nat.lt_ge_cases q (i * rdim r + rdim r)); [|assumption].
      exfalso. apply (Hq i (q - i * rdim r)); [left; reflexivity|lia|lia].
Qed.

(** ** Values of the formula *)
Lemma fout_terms : forall decl f tagI A n m, declared decl f -> wf f -> categories decl -> tagI <= 1 ->
  same_below (dim f) (fout f (loader f tagI) A n m) (terms decl A f tagI n m).
Proof.
  intros decl f tagI A n m D W C T k Hk. unfold fout, terms. f_equal.
  assert (C' : forall i d c, In (i, d, c) (vars f) -> c <= 2).
  { intros i d c Hi. apply (vars_declared decl f D) in Hi. specialize (C i). rewrite Hi in C. exact C. }
  destruct (direct_table_env decl f tagI A n m D T C') as [_ Ag].
  apply eval_agree; [assumption| |assumption]. intros i d c Hi q Hq. rewrite (Ag i d c Hi q Hq).
  pose proof (C' i d c Hi) as Hc. pose proof (vars_declared decl f D i d c Hi) as Hd.
  unfold loop_row. rewrite Hd. cbn [fst snd].
  destruct tagI as [|[|]]; [| |lia]; unfold point, contiguous, row; rewrite Hd; cbn [fst snd];
    destruct c as [|[|[|]]]; try lia; reflexivity.
Qed.

Lemma seq_all : forall n i, In i (seq 0 n) <-> i < n.
Proof. intros. rewrite in_seq. lia. Qed.

Lemma dense_cpu : forall decl f r s tagI A M N schedule out,
  declared decl f -> wf f -> categories decl -> tagI <= 1 ->
  reduction_of (dim f) r -> available r s -> complete schedule ->
  exists out', launch_cpu schedule r s f tagI A M N out = Ok out' /\
    (forall n, n < out_rows tagI M N ->
       exists v, cpu_row r s (red_terms tagI M N) (terms decl A f tagI n) = Ok v /\
         forall k, k < rdim r -> out' (n * rdim r + k) = v k) /\
    (forall q, out_rows tagI M N * rdim r <= q -> out' q = out q).
Proof.
  intros decl f r s tagI A M N schedule out D W C T R Av Sc.
  assert (C' : forall i d c, In (i, d, c) (vars f) -> c <= 2).
  { intros i d c Hi. apply (vars_declared decl f D) in Hi. specialize (C i). rewrite Hi in C. exact C. }
  unfold launch_cpu.
  assert (E : (if Nat.eqb tagI 1 then (N, M) else (M, N)) = (out_rows tagI M N, red_terms tagI M N)).
  { destruct tagI as [|[|]]; [reflexivity|reflexivity|lia]. }
  rewrite E. destruct (direct_table_env decl f tagI A 0 0 D T C') as [Ok0 _]. rewrite Ok0.
  set (nx := out_rows tagI M N). set (ny := red_terms tagI M N).
  assert (P : forall i, In i (schedule nx) <-> i < nx).
  { intros i. rewrite <- seq_all. split; apply Permutation_in; [|apply Permutation_sym]; apply Sc. }
  assert (ND : NoDup (schedule nx)).
  { eapply Permutation_NoDup; [apply Permutation_sym, Sc|apply seq_NoDup]. }
  destruct (conv_rows_spec r s f (loader f tagI) A ny (schedule nx) out Av ND) as [out' [E' [H1 H2]]].
  exists out'. split; [assumption|]. split.
  - intros n Hn. destruct (H1 n) as [v [Ev Hv]]; [apply P; assumption|]. exists v. split; [|assumption].
    rewrite <- Ev. symmetry. apply (cpu_row_local (dim f)); [assumption|]. intros j Hj.
    apply fout_terms; assumption.
  - intros q Hq. apply H2. intros i k Hi Hk Eq. apply P in Hi.
    assert ((i + 1) * rdim r <= nx * rdim r) by (apply Nat.mul_le_mono_r; lia). lia.
Qed.

(** direct_sum is the sequential run of C06 and C07. *)
Lemma direct_run : forall r n F,
  cpu_row r direct_sum n F = Ok (rfinal r (run r (dense n F) (rinit r))).
Proof.
  intros r n F. cbn [cpu_row]. do 2 f_equal. induction n as [|n IH]; [reflexivity|].
  cbn [for_up]. rewrite IH. unfold dense. rewrite seq_S, map_app. unfold run. rewrite fold_left_app. reflexivity.
Qed.

(** Sums. *)
Lemma dense_sum : forall decl f s tagI A M N schedule out,
  declared decl f -> wf f -> categories decl -> tagI <= 1 -> complete schedule ->
  exists out', launch_cpu schedule (Sum_Red (dim f)) s f tagI A M N out = Ok out' /\
    (forall n k, n < out_rows tagI M N -> k < dim f ->
       out' (n * dim f + k) =
       Fin (reduce_sum decl (contiguous decl A) M N {| sformula := f; stagI := tagI |} n k)) /\
    (forall q, out_rows tagI M N * dim f <= q -> out' q = out q).
Proof.
  intros decl f s tagI A M N schedule out D W C T Sc.
  destruct (dense_cpu decl f (Sum_Red (dim f)) s tagI A M N schedule out D W C T) as [out' [E [H1 H2]]].
  - constructor.
  - destruct s; cbn; eauto.
  - assumption.
  - exists out'. split; [assumption|]. split; [|exact H2]. intros n k Hn Hk.
    destruct (H1 n Hn) as [v [Ev Hv]]. cbn [rdim Sum_Red] in Hv. rewrite (Hv k Hk).
    set (x := fun j k => eval f (match tagI with O => point decl (contiguous decl A) n j
                                 | _ => point decl (contiguous decl A) j n end) k).
    destruct (schemes_sum s (dim f) (red_terms tagI M N) (terms decl A f tagI n) x) as [v' [Ev' Hv']].
    + intros j q _ _. reflexivity.
    + rewrite Ev in Ev'. assert (v = v') by congruence. subst v'. rewrite Hv' by assumption.
      f_equal. unfold reduce_sum. cbn [stagI sformula]. destruct tagI; reflexivity.
Qed.

(** Other reductions with direct_sum (their only scheme). *)
Lemma dense_direct : forall decl f r tagI A M N schedule out,
  declared decl f -> wf f -> categories decl -> tagI <= 1 ->
  reduction_of (dim f) r -> complete schedule ->
  exists out', launch_cpu schedule r direct_sum f tagI A M N out = Ok out' /\
    (forall n k, n < out_rows tagI M N -> k < rdim r ->
       out' (n * rdim r + k) =
       rfinal r (run r (dense (red_terms tagI M N) (terms decl A f tagI n)) (rinit r)) k) /\
    (forall q, out_rows tagI M N * rdim r <= q -> out' q = out q).
Proof.
  intros decl f r tagI A M N schedule out D W C T R Sc.
  destruct (dense_cpu decl f r direct_sum tagI A M N schedule out D W C T R I Sc) as [out' [E [H1 H2]]].
  exists out'. split; [assumption|]. split; [|assumption]. intros n k Hn Hk.
  destruct (H1 n Hn) as [v [Ev Hv]]. rewrite direct_run in Ev. rewrite (Hv k Hk).
  assert (Ev' : v = rfinal r (run r (dense (red_terms tagI M N) (terms decl A f tagI n)) (rinit r))) by congruence.
  rewrite Ev'. reflexivity.
Qed.

(** Log-sum-exp of Concat(f, w): every row. *)
Lemma dense_lse : forall decl f s w tagI A M N schedule out,
  declared decl f -> wf f -> categories decl -> tagI <= 1 -> complete schedule ->
  dim f = S w -> s <> kahan_scheme -> 0 < red_terms tagI M N ->
  exists out', launch_cpu schedule (LSE_Red w) s f tagI A M N out = Ok out' /\
    (forall n k, n < out_rows tagI M N -> k < w ->
       let es := taken (red_terms tagI M N) (entry_of decl A f tagI n) in
       (0 < exp_sum k es)%R ->
       lse_post (fun q => out' (n * S w + q)) k = Fin (ln (exp_sum k es))) /\
    (forall q, out_rows tagI M N * S w <= q -> out' q = out q).
Proof.
  intros decl f s w tagI A M N schedule out D W C T Sc Dw Hs Hn.
  destruct (dense_cpu decl f (LSE_Red w) s tagI A M N schedule out D W C T) as [out' [E [H1 H2]]].
  - constructor. assumption.
  - destruct s; cbn; eauto; congruence.
  - assumption.
  - exists out'. split; [assumption|]. split; [|exact H2]. intros n k Hrow Hk es Hp.
    destruct (H1 n Hrow) as [v [Ev Hv]].
    destruct (user_logsumexp s w (red_terms tagI M N) (entry_of decl A f tagI n) Hn) as [v' [Ev' Hv']].
    + intros j Hj. destruct tagI; discriminate.
    + assumption.
    + rewrite (cpu_row_local (S w) (LSE_Red w) s _ (terms decl A f tagI n) (lse_terms (entry_of decl A f tagI n))) in Ev.
      * assert (v = v') by congruence. subst v'. unfold es. rewrite <- (Hv' k Hk Hp). unfold lse_post.
        cbn [rdim LSE_Red] in Hv. rewrite <- (Hv (S k)), <- (Hv 0) by lia. reflexivity.
      * constructor. reflexivity.
      * intros j Hj [|q] Hq; destruct tagI; reflexivity.
Qed.

(** ** Zero outputs *)
Lemma assign_zero_rows : forall d order out,
  let out' := fold_left (fun o i => for_up d (fun k o => upd o (i * d + k) (Fin 0)) o) order out in
  (forall i k, In i order -> k < d -> out' (i * d + k) = Fin 0) /\
  (forall q, (forall i k, In i order -> k < d -> q <> i * d + k) -> out' q = out q).
Proof.
  intros d. induction order as [|i order IH]; intros out; cbn [fold_left]; cbv zeta.
  - split; [intros i k []|reflexivity].
  - destruct (IH (for_up d (fun k o => upd o (i * d + k) (Fin 0)) out)) as [H1 H2].
    destruct (write_row_spec d i (fun _ => Fin 0) out) as [W1 W2]. unfold write_row in W1, W2. split.
    + intros i' k [<-|Hi] Hk; [|apply H1; assumption].
      destruct (in_dec Nat.eq_dec i order) as [Hi|Hi]; [apply H1; assumption|].
      rewrite H2; [apply W1; assumption|]. intros i' k' Hi' Hk' Eq.
      assert (i <> i') by congruence. destruct (row_disjoint d i i' k); lia.
    + intros q Hq. rewrite H2 by (intros; apply Hq; [right; assumption|assumption]).
      apply W2. destruct (Nat.lt_ge_cases q (i * d)); [left; assumption|right].
      destruct (Nat.lt_ge_cases q (i * d + d)); [|assumption].
      exfalso. apply (Hq i (q - i * d)); [left; reflexivity|lia|lia].
Qed.

Lemma fold_mul_acc : forall l a, fold_left Nat.mul l a = a * fold_right Nat.mul 1 l.
Proof. induction l as [|x l IH]; intros a; cbn; [lia|]. rewrite IH. lia. Qed.

Lemma zero_output : forall schedule shape d out, complete schedule ->
  (forall q, q < fold_right Nat.mul 1 shape * d -> assign_zero schedule shape d out q = Fin 0) /\
  (forall q, fold_right Nat.mul 1 shape * d <= q -> assign_zero schedule shape d out q = out q).
Proof.
  intros schedule shape d out Sc. unfold assign_zero. rewrite fold_mul_acc, Nat.mul_1_l.
  set (n := fold_right Nat.mul 1 shape).
  assert (P : forall i, In i (schedule n) <-> i < n).
  { intros i. rewrite <- seq_all. split; apply Permutation_in; [|apply Permutation_sym]; apply Sc. }
  destruct (assign_zero_rows d (schedule n) out) as [H1 H2]. split.
  - intros q Hq. destruct d as [|d]; [lia|].
    pose proof (Nat.div_mod q (S d) ltac:(lia)) as Dm. rewrite Dm, Nat.mul_comm. apply H1.
    + apply P. apply Nat.div_lt_upper_bound; lia.
    + apply Nat.mod_upper_bound. lia.
  - intros q Hq. apply H2. intros i k Hi Hk Eq. apply P in Hi.
    assert ((i + 1) * d <= n * d) by (apply Nat.mul_le_mono_r; lia). lia.
Qed.

(** Optimum and first index in every row. *)
Lemma dense_optimum : forall decl f mx tagI A M N schedule out,
  declared decl f -> wf f -> categories decl -> tagI <= 1 -> complete schedule ->
  exists out', launch_cpu schedule (OptArg_Red mx OBoth (dim f)) direct_sum f tagI A M N out = Ok out' /\
    (forall n k, n < out_rows tagI M N -> k < dim f -> 0 < red_terms tagI M N ->
       exists i, i < red_terms tagI M N /\
         out' (n * (2 * dim f) + k) = terms decl A f tagI n i k /\
         out' (n * (2 * dim f) + dim f + k) = of_long (Z.of_nat i) /\
         (forall j, j < red_terms tagI M N -> as_good mx (terms decl A f tagI n i k) (terms decl A f tagI n j k)) /\
         (forall j, j < i -> terms decl A f tagI n j k <> terms decl A f tagI n i k)) /\
    (forall q, out_rows tagI M N * (2 * dim f) <= q -> out' q = out q).
Proof.
  intros decl f mx tagI A M N schedule out D W C T Sc.
  destruct (dense_direct decl f (OptArg_Red mx OBoth (dim f)) tagI A M N schedule out D W C T (ROptArg _ _ _) Sc)
    as [out' [E [H1 H2]]].
  exists out'. split; [exact E|]. split; [|exact H2]. intros n k Hn Hk Hr.
  destruct (optarg_dense mx (dim f) (red_terms tagI M N) (terms decl A f tagI n)) with (k := k) as [_ G].
  - intros j q _ _. discriminate.
  - assumption.
  - destruct (G Hr) as [i [Hi [O1 [O2 [_ [_ [B1 B2]]]]]]]. exists i. split; [assumption|].
    cbn [rdim OptArg_Red] in H1. split; [rewrite H1 by lia; exact O1|]. split; [|split; assumption].
    rewrite <- Nat.add_assoc, H1 by lia. exact O2.
Qed.
