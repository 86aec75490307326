(** Proofs for C53: block-sparse and batched reductions by chunks. *)

From Coq Require Import ZArith Reals Arith Lia List Bool Permutation.
From Verif Require Import Result Formula FormulaSpec XReal Reductions ReductionSpec RedLoops KernelSum KernelSumSpec
  SumSpec LseSpec Postprocess CpuReduc Loader LoaderProofs CpuConv CpuConvSpec GpuConv RangesConv RangesSpec
  C06Proofs C09Proofs C11Proofs C12Proofs GpuProofs C13Proofs RangesProofs RangesGpu C15Proofs C16Proofs
  Chunks ChunkSpec ChunkProofs C20Proofs RangesChunks RangesChunkSpec.
Import ListNotations.

(** ** Positions *)
Lemma position_place : forall vs i, position vs i = place vs i.
Proof. induction vs as [|[j d] vs IH]; intros i; [reflexivity|]. cbn [position place]. rewrite IH. reflexivity. Qed.
Lemma nth_position : forall vs i, In i (map fst vs) -> fst (nth (place vs i) vs (0%Z, 0)) = i.
Proof.
  induction vs as [|[j d] vs IH]; intros i H; [contradiction|]. cbn [place]. destruct (Z.eqb_spec i j) as [->|N]; [reflexivity|].
  cbn [nth]. apply IH. destruct H as [H|H]; [cbn in H; congruence|exact H].
Qed.
Lemma nth_rows_place : forall rows vs i d, In (i, d) vs -> nth_rows rows vs (0 + place vs i) = rows i.
Proof.
  intros rows vs i d H. unfold nth_rows. cbn [Nat.add]. rewrite nth_position; [reflexivity|].
  apply in_map_iff. exists (i, d). auto.
Qed.
Lemma place_below : forall vs i, In i (map fst vs) -> place vs i < length vs.
Proof.
  induction vs as [|[j d] vs IH]; intros i H; [contradiction|]. cbn [place length]. destruct (Z.eqb_spec i j) as [->|N]; [lia|].
  destruct H as [H|H]; [cbn in H; congruence|]. specialize (IH i H). lia.
Qed.

(** ** Loads of chunks *)
Lemma load_chunk_at_vars : forall C A dc org k rows a x,
  load_chunk_at C A dc org k rows a x =
  load_vars (chunked_dims C dc) (fun i v => A i (rows i * org + k * dimchunk + v)) (fun _ => 0) 0 a x.
Proof.
  assert (G : forall C A dc org k rows u a x, load_chunk_at C A dc org k rows a x =
    load_vars (chunked_dims C dc) (fun i v => A i (rows i * org + k * dimchunk + v)) (fun _ => 0) u a x).
  { induction C as [|i C IH]; intros A dc org k rows u a x; [reflexivity|].
    cbn [load_chunk_at chunked_dims map load_vars]. rewrite IH with (u := S u). reflexivity. }
  intros. apply G.
Qed.
Lemma load_chunk_at_hit : forall C A dc org k rows a x i q, NoDup C -> In i C -> q < dc ->
  load_chunk_at C A dc org k rows a x (a + offset (chunked_dims C dc) i + q) = A i (rows i * org + k * dimchunk + q).
Proof.
  intros C A dc org k rows a x i q ND Hi Hq. rewrite load_chunk_at_vars.
  rewrite (load_vars_hit _ _ _ _ _ _ i dc); [reflexivity|rewrite chunked_fst; assumption| |assumption].
  apply in_map_iff. exists i. auto.
Qed.
Lemma load_chunk_at_below : forall C A dc org k rows a x q, q < a -> load_chunk_at C A dc org k rows a x q = x q.
Proof. intros. rewrite load_chunk_at_vars. apply load_vars_below. assumption. Qed.
Lemma chunk_copies_at_dst : forall C dc org k rows a,
  map dst (chunk_copies_at C dc org k rows a) = seq a (length C * dc).
Proof.
  intros C dc org k rows a. rewrite <- (chunk_copies_dst C dc org k 0 a). revert a.
  induction C as [|i C IH]; intros a; [reflexivity|]. cbn [chunk_copies_at chunk_copies]. rewrite !map_app, !map_map, IH. reflexivity.
Qed.
Lemma chunk_copies_at_in : forall C dc org k rows a i q, In i C -> NoDup C -> q < dc ->
  In {| dst := a + offset (chunked_dims C dc) i + q; src := i; spos := rows i * org + k * dimchunk + q |}
     (chunk_copies_at C dc org k rows a).
Proof.
  induction C as [|j C IH]; intros dc org k rows a i q Hi ND Hq; [contradiction|].
  cbn [chunk_copies_at chunked_dims map offset]. inversion ND; subst. apply in_or_app.
  destruct (Z.eqb_spec i j) as [->|E].
  - left. apply in_map_iff. exists q. split; [f_equal; lia|apply in_seq; lia].
  - right. destruct Hi as [Hi|Hi]; [congruence|]. specialize (IH dc org k rows (a + dc) i q Hi H2 Hq).
    unfold chunked_dims in IH. rewrite Nat.add_assoc. exact IH.
Qed.

(** ** A tile *)
Section Tile.
Variables (order : list fvar -> list fvar) (decl : declaration) (f g p : fm).
Hypothesis Ho : enumerates order.
Hypothesis W : wf f.
Hypothesis D : declared decl f.
Hypothesis Hg : part g f.
Hypothesis U : use_chunk g = true.
Hypothesis Wg : wf g.
Hypothesis Hp : post_spec (nminargs f) g f p.
Notation nv := (nvars order g p).
Notation ci := (cinds order g).
Hypothesis NoMix : forall c i d, c <= 2 -> In (i, d) (nv c) -> ~ In i (ci c).
Variable tagI : nat.
Hypothesis T : tagI <= 1.
Variable A : memory.
Notation KK := (kk order f g p tagI).
Hypothesis Tables : chunk_tables_ok KK = true.
Hypothesis Cats : categories decl.
Hypothesis Params : nv 2 = [] \/ ci 2 = [].

(** Values read with rows rI, rJ, rP. *)
Definition here (rI rJ rP : Z -> nat) : env := fun a q =>
  A a ((if snd (decl a) =? tagI then rI a else if snd (decl a) =? 1 - tagI then rJ a else rP a) * fst (decl a) + q).

Definition has_n (c : nat) (rows : Z -> nat) (x : rarray) : Prop :=
  forall i d q, In (i, d) (nv c) -> q < d -> x (offset (nv c) i + q) = A i (rows i * d + q).
Definition has_c (c dc k : nat) (rows : Z -> nat) (x : rarray) : Prop :=
  forall i q, In i (ci c) -> q < dc ->
    x (dims (nv c) + offset (chunked_dims (ci c) dc) i + q) = A i (rows i * node_dim g + k * dimchunk + q).

Lemma table_value_at : forall dc k rI rJ rP xi yj pp,
  (has_n tagI rI xi /\ has_c tagI dc k rI xi) ->
  (has_n (1 - tagI) rJ yj /\ has_c (1 - tagI) dc k rJ yj) ->
  (has_n 2 rP pp /\ has_c 2 dc k rP pp) ->
  forall i d0 c0, In (i, d0, c0) (vars (cvt dc g)) ->
  (exists a, table {| varsI := all order g p tagI dc; varsJ := all order g p (1 - tagI) dc; varsP := all order g p 2 dc |} xi yj pp i = Some a) ->
  forall q, q < d0 ->
    table_env (table {| varsI := all order g p tagI dc; varsJ := all order g p (1 - tagI) dc; varsP := all order g p 2 dc |} xi yj pp) i q
    = chunk_of decl k (here rI rJ rP) i q.
Proof.
  intros dc k rI rJ rP xi yj pp Hi Hj Hpp i d0 c0 Hv [a Ha] q Hq.
  destruct (table_none order g p tagI T _ _ _ _ _ _ Ha) as (c & d & Hc & I).
  destruct (table_lookup order decl f g p Ho D Hg U Wg Hp NoMix tagI T dc xi yj pp c i d Hc I) as (b & E & F).
  unfold table_env. rewrite E, F.
  set (rw := if c =? tagI then rI else if c =? 1 - tagI then rJ else rP).
  assert (Hold : let x := if c =? tagI then xi else if c =? 1 - tagI then yj else pp in
                 has_n c rw x /\ has_c c dc k rw x).
  { cbv zeta. unfold rw. destruct (Nat.eqb_spec c tagI) as [->|]; [assumption|].
    destruct (Nat.eqb_spec c (1 - tagI)) as [->|]; [assumption|]. assert (c = 2) by lia. subst. assumption. }
  cbv zeta in Hold. set (x := if c =? tagI then xi else if c =? 1 - tagI then yj else pp) in *. clearbody x.
  destruct Hold as [Hn Hcc]. destruct (node_large g U) as [L _].
  assert (Ci : snd (decl i) = c).
  { apply (all_cat order decl f g p Ho D Hg U Wg Hp c dc); [assumption|]. apply in_map_iff. exists (i, d). auto. }
  assert (Rw : forall q, here rI rJ rP i q = A i (rw i * fst (decl i) + q)).
  { intros q0. unfold here, rw. rewrite Ci. destruct (c =? tagI); [reflexivity|]. destruct (c =? 1 - tagI); reflexivity. }
  apply (node_vars dc g U Wg) in Hv.
  unfold all, sized in I |- *. apply in_app_or in I. destruct I as [I|I].
  - pose proof (nvars_decl order decl f g p Ho D U Hp c i d Hc I) as Hd.
    rewrite offset_in by (apply in_map_iff; exists (i, d); auto).
    destruct Hv as [[_ Hv]|[-> Hv]].
    + exfalso. pose proof (vars_declared decl f D _ _ _ (part_vars _ _ Hg _ Hv)) as Hd'.
      rewrite Hd in Hd'. injection Hd' as E1 E2. apply (NoMix c i d Hc I).
      apply (cinds_in order g Ho U Wg). rewrite E2. exact Hv.
    + apply part_vars with (f := f) in Hv; [|assumption]. pose proof (vars_declared decl f D _ _ _ Hv) as Hd'.
      rewrite Hd in Hd'. inversion Hd'; subst. rewrite (Hn i 1 q I Hq).
      unfold chunk_of. rewrite Hd. cbn [fst]. rewrite Nat.eqb_refl. rewrite Rw. rewrite Hd. reflexivity.
  - apply in_map_iff in I. destruct I as [i' [E' I]]. inversion E'; subst i' d.
    pose proof (cinds_decl order decl f g Ho D Hg U Wg c i I) as Hd.
    assert (Nn : ~ In i (map fst (nv c))).
    { intros X. apply in_map_iff in X. destruct X as [[i' d] [E'' X]]. cbn in E''. subst. eapply NoMix; eauto. }
    rewrite offset_out by assumption. destruct Hv as [[-> Hv]|[-> Hv]].
    + fold (chunked_dims (ci c) dc). rewrite (Hcc i q I Hq). unfold chunk_of. rewrite Hd. cbn [fst].
      destruct (Nat.eqb_spec (node_dim g) 1); [lia|]. rewrite Rw. rewrite Hd. cbn [fst snd].
      f_equal. change dimchunk with 64. lia.
    + apply part_vars with (f := f) in Hv; [|assumption]. pose proof (vars_declared decl f D _ _ _ Hv) as Hd'.
      rewrite Hd in Hd'. inversion Hd'. lia.
Qed.

Lemma chunk_value_at : forall k rI rJ rP xi yj pp, let dc := chunk_dim KK k in
  (has_n tagI rI xi /\ has_c tagI dc k rI xi) ->
  (has_n (1 - tagI) rJ yj /\ has_c (1 - tagI) dc k rJ yj) ->
  (has_n 2 rP pp /\ has_c 2 dc k rP pp) ->
  eval (chunk_fun KK k) (table_env (table (chunk_loader KK dc) xi yj pp)) 0
  = eval (cvt (chunk_size (node_dim g) k) g) (chunk_of decl k (here rI rJ rP)) 0.
Proof.
  intros k rI rJ rP xi yj pp dc Hi Hj Hpp. rewrite kk_fun. fold dc.
  change (chunk_size (node_dim g) k) with dc.
  destruct (node_cvt g dc) as (_ & E & Wc); auto; [apply kk_size; assumption|].
  apply eval_agree; [assumption| |rewrite E; lia]. intros i d c Hv q Hq.
  apply (table_value_at dc k rI rJ rP xi yj pp Hi Hj Hpp i d c Hv); [|assumption].
  exact (found order decl f g p Ho D Hg U Wg Hp NoMix tagI T Tables dc xi yj pp k i d c eq_refl Hv).
Qed.

Lemma post_value_at : forall rI rJ rP xi yj pp fout, has_n tagI rI xi -> has_n (1 - tagI) rJ yj -> has_n 2 rP pp ->
  fout 0 = eval g (here rI rJ rP) 0 ->
  forall k, k < dim f ->
  eval p (table_env (post_table KK xi yj pp fout)) k = eval f (here rI rJ rP) k.
Proof.
  intros rI rJ rP xi yj pp fout Hi Hj Hpp Hf k Hk. pose proof Hp as (Ev & _ & Vp & Dp & Wp).
  rewrite <- Ev, <- Hf. rewrite <- Dp in Hk. apply eval_agree; [assumption| |assumption].
  intros i d c Hv q Hq. unfold post_table, put, table_env, with_value. cbn [c_new kk].
  destruct (Z.eqb_spec i (nminargs f)) as [->|Ne].
  - apply Vp in Hv. destruct Hv as [Hv|Hv].
    + apply nminargs_below in Hv. cbn in Hv. lia.
    + inversion Hv; subst. replace q with 0 by lia. reflexivity.
  - pose proof Hv as Hv0. apply Vp in Hv. destruct Hv as [Hv|Hv]; [|inversion Hv; congruence].
    pose proof (vars_declared decl f D _ _ _ Hv) as Hd.
    assert (Hc : c <= 2) by (specialize (Cats i); rewrite Hd in Cats; exact Cats).
    assert (I : In (i, d) (nv c)) by (apply nvars_in; assumption).
    assert (I' : In (i, d) (all order g p c dimchunk)) by (apply in_or_app; left; exact I).
    destruct (table_lookup order decl f g p Ho D Hg U Wg Hp NoMix tagI T dimchunk xi yj pp c i d Hc I') as (b & E & F).
    change (table (chunk_loader KK dimchunk) xi yj pp i = Some b) in E. rewrite E, F.
    unfold all, sized. rewrite offset_in by (apply in_map_iff; exists (i, d); auto).
    unfold here. rewrite Hd. cbn [fst snd].
    destruct (Nat.eqb_spec c tagI) as [->|]; [apply Hi; assumption|].
    destruct (Nat.eqb_spec c (1 - tagI)) as [->|]; [apply Hj; assumption|].
    assert (c = 2) by lia. subst. apply Hpp; assumption.
Qed.

(** *** Shared memory *)
Variables (o : nat -> list copy -> list copy) (bd : nat).
Hypothesis Perm : forall n l, Permutation (o n l) l.
Variables (live : nat -> bool) (rowi : nat -> Z -> nat) (rowj : nat -> Z -> nat) (rowp : Z -> nat).
Variables jstart end_y : nat.

Definition copies_n : list copy :=
  loads KK bd jstart end_y (fun j a => load_copies (c_jN KK) (nth_rows (rowj j) (c_jN KK)) 0 a).
Definition copies_c (k : nat) : list copy :=
  loads KK bd jstart end_y (fun j a =>
    chunk_copies_at (c_jC KK) (chunk_dim KK k) (c_org KK) k (rowj j) (a + dims (c_jN KK))).

Lemma copies_n_dst : NoDup (map dst copies_n).
Proof.
  unfold copies_n, loads. rewrite map_flat_map.
  apply (shifted_nodup (chunk_dimy KK) 0 (dims (nv (1 - tagI)))); [rewrite kk_dimy; lia|].
  intros t _. rewrite Nat.add_0_r. destruct (jstart + t <? end_y); [left; apply load_copies_dst|right; reflexivity].
Qed.
Lemma copies_n_in : forall t i d q, t < bd -> jstart + t < end_y -> In (i, d) (nv (1 - tagI)) -> q < d ->
  In {| dst := t * chunk_dimy KK + offset (nv (1 - tagI)) i + q; src := i; spos := rowj (jstart + t) i * d + q |} copies_n.
Proof.
  intros t i d q Ht Hj Hi Hq. unfold copies_n, loads. apply in_flat_map. exists t.
  split; [apply in_seq; lia|]. apply Nat.ltb_lt in Hj. rewrite Hj.
  rewrite <- (nth_rows_place (rowj (jstart + t)) (nv (1 - tagI)) i d Hi).
  exact (load_copies_in (nv (1 - tagI)) (nth_rows (rowj (jstart + t)) (nv (1 - tagI))) 0 (t * chunk_dimy KK) i d
           (nvars_nodup order decl f g p Ho D U Hp (1 - tagI) ltac:(lia)) Hi q Hq).
Qed.
Lemma copies_c_dst : forall k, NoDup (map dst (copies_c k)).
Proof.
  intros k. unfold copies_c, loads. rewrite map_flat_map.
  apply (shifted_nodup (chunk_dimy KK) (dims (nv (1 - tagI))) (length (ci (1 - tagI)) * chunk_dim KK k)).
  - rewrite kk_dimy. pose proof (chunk_len order f g p U tagI T k). lia.
  - intros t _. destruct (jstart + t <? end_y); [left; apply chunk_copies_at_dst|right; reflexivity].
Qed.
Lemma copies_c_in : forall k t i q, t < bd -> jstart + t < end_y -> In i (ci (1 - tagI)) -> q < chunk_dim KK k ->
  In {| dst := t * chunk_dimy KK + dims (nv (1 - tagI)) +
               offset (chunked_dims (ci (1 - tagI)) (chunk_dim KK k)) i + q; src := i;
        spos := rowj (jstart + t) i * node_dim g + k * dimchunk + q |} (copies_c k).
Proof.
  intros k t i q Ht Hj Hi Hq. unfold copies_c, loads. apply in_flat_map. exists t.
  split; [apply in_seq; lia|]. apply Nat.ltb_lt in Hj. rewrite Hj.
  exact (chunk_copies_at_in (ci (1 - tagI)) (chunk_dim KK k) (node_dim g) k (rowj (jstart + t))
    (t * chunk_dimy KK + dims (nv (1 - tagI))) i q Hi (cinds_nodup order g Ho U Wg _) Hq).
Qed.
Lemma copies_c_miss : forall k t q, q < dims (nv (1 - tagI)) ->
  ~ In (t * chunk_dimy KK + q) (map dst (copies_c k)).
Proof.
  intros k t q Hq H. unfold copies_c, loads in H. rewrite map_flat_map in H.
  apply in_flat_map in H. destruct H as [t' [_ H]]. destruct (jstart + t' <? end_y); [|contradiction].
  rewrite chunk_copies_at_dst in H. apply in_seq in H. cbn [c_jN kk c_jC] in H.
  pose proof (kk_dimy order f g p tagI) as Ey. pose proof (chunk_len order f g p U tagI T k) as Lk.
  destruct (Nat.lt_trichotomy t t') as [L|[->|L]].
  - assert ((t + 1) * chunk_dimy KK <= t' * chunk_dimy KK) by (apply Nat.mul_le_mono_r; lia). lia.
  - lia.
  - assert ((t' + 1) * chunk_dimy KK <= t * chunk_dimy KK) by (apply Nat.mul_le_mono_r; lia). lia.
Qed.

Notation cols := (columns bd jstart end_y).
Definition shared_n (sh : rarray) : Prop :=
  forall t, t < cols -> has_n (1 - tagI) (rowj (jstart + t)) (fun q => sh (t * chunk_dimy KK + q)).

Lemma phase_n : forall sh, shared_n (phase o KK A jstart 0 copies_n sh).
Proof.
  intros sh t Ht i d q Hi Hq. unfold columns in Ht. unfold phase.
  rewrite Nat.add_assoc.
  exact (perform_hit A _ _ sh _ (Perm _ _) copies_n_dst (copies_n_in t i d q ltac:(lia) ltac:(lia) Hi Hq)).
Qed.
Lemma phase_c : forall k sh, shared_n sh ->
  shared_n (phase o KK A jstart (S k) (copies_c k) sh) /\
  forall t, t < cols -> has_c (1 - tagI) (chunk_dim KK k) k (rowj (jstart + t))
                          (fun q => phase o KK A jstart (S k) (copies_c k) sh (t * chunk_dimy KK + q)).
Proof.
  intros k sh Hn. split.
  - intros t Ht i d q Hi Hq. unfold phase.
    pose proof (offset_bound _ i d (nvars_nodup order decl f g p Ho D U Hp (1 - tagI) ltac:(lia)) Hi) as B.
    rewrite (perform_miss A _ _ _ _ (Perm _ _)) by (apply copies_c_miss; lia). apply (Hn t Ht i d q Hi Hq).
  - intros t Ht i q Hi Hq. unfold columns in Ht. unfold phase. rewrite !Nat.add_assoc.
    exact (perform_hit A _ _ sh _ (Perm _ _) (copies_c_dst k) (copies_c_in k t i q ltac:(lia) ltac:(lia) Hi Hq)).
Qed.

(** *** Threads *)
Definition good_at (t : nat) (st : chunk_state) : Prop := has_n tagI (rowi t) (sxi st) /\ has_n 2 rowp (spp st).
Definition val_at (t k jrel : nat) : R :=
  eval (cvt (chunk_size (node_dim g) k) g) (chunk_of decl k (here (rowi t) (rowj (jstart + jrel)) rowp)) 0.

Lemma chunk_sub_at_ok : forall t k sh st, good_at t st -> shared_n sh ->
  (forall t, t < cols -> has_c (1 - tagI) (chunk_dim KK k) k (rowj (jstart + t)) (fun q => sh (t * chunk_dimy KK + q))) ->
  let st' := chunk_sub_at KK A cols (rowi t) rowp k sh st in
  good_at t st' /\ sacc st' = sacc st /\
  (forall jrel, jrel < cols -> sfout st' jrel = (sfout st jrel + val_at t k jrel)%R).
Proof.
  intros t k sh st [Gi Gp] Hn Hc st'. subst st'.
  pose proof (nvars_nodup order decl f g p Ho D U Hp tagI ltac:(lia)) as Ni.
  pose proof (nvars_nodup order decl f g p Ho D U Hp 2 ltac:(lia)) as Np.
  pose proof (cinds_nodup order g Ho U Wg) as Nc.
  set (dc := chunk_dim KK k).
  set (xi := load_chunk_at (c_iC KK) A dc (c_org KK) k (rowi t) (dims (c_iN KK)) (sxi st)).
  set (pp := load_chunk_at (c_pC KK) A dc (c_org KK) k rowp 0 (spp st)).
  assert (Hxi : has_n tagI (rowi t) xi /\ has_c tagI dc k (rowi t) xi).
  { split.
    - intros i d q Hi Hq. pose proof (offset_bound _ i d Ni Hi). unfold xi. cbn [c_iC c_iN kk c_org].
      rewrite load_chunk_at_below by lia. apply Gi; assumption.
    - intros i q Hi Hq. unfold xi. cbn [c_iC c_iN kk c_org]. apply load_chunk_at_hit; auto. }
  assert (Hpp : has_n 2 rowp pp /\ has_c 2 dc k rowp pp).
  { unfold pp. cbn [c_pC kk c_org]. destruct Params as [E|E].
    - split.
      + intros i d q Hi. rewrite E in Hi. contradiction.
      + intros i q Hi Hq. rewrite E. cbn [dims fold_right]. apply load_chunk_at_hit; auto.
    - split.
      + rewrite E. exact Gp.
      + intros i q Hi. rewrite E in Hi. contradiction. }
  split; [split; [apply Hxi|apply Hpp]|]. split; [reflexivity|].
  intros jrel Hj. unfold chunk_sub_at. cbn [sfout]. fold dc. fold xi. fold pp. rewrite (kk_out order f g p U Wg tagI T).
  rewrite (for_upR_cells tagI T _ (fun j v => (v + eval (chunk_fun KK k)
     (table_env (table (chunk_loader KK dc) xi (fun q => sh (j * chunk_dimy KK + q)%nat) pp)) 0)%R)).
  apply Nat.ltb_lt in Hj. rewrite Hj. apply Nat.ltb_lt in Hj. f_equal.
  apply (chunk_value_at k (rowi t) (rowj (jstart + jrel)) rowp); [assumption| |assumption].
  split; [apply Hn; assumption|apply Hc; assumption].
Qed.

Lemma chunks_at_ok : forall m st, shared_n (fst st) -> (forall t, live t = true -> good_at t (snd st t)) ->
  let st' := for_up m (chunk_step o KK A bd live rowi rowj rowp jstart end_y) st in
  shared_n (fst st') /\
  forall t, live t = true -> good_at t (snd st' t) /\ sacc (snd st' t) = sacc (snd st t) /\
    (forall jrel, jrel < cols -> sfout (snd st' t) jrel = (sfout (snd st t) jrel + rsum m (fun k => val_at t k jrel))%R).
Proof.
  intros m st Sn G. induction m as [|m IH]; cbn [for_up rsum].
  - split; [assumption|]. intros t Lt. split; [apply G, Lt|]. split; [reflexivity|]. intros. ring.
  - destruct IH as (Sn' & IH).
    match goal with |- context [chunk_step o KK A bd live rowi rowj rowp jstart end_y m ?s0] => set (s1 := s0) in * end.
    destruct (phase_c m (fst s1) Sn') as [P1 P2]. unfold chunk_step. cbn [fst snd].
    fold (copies_c m). split; [exact P1|]. intros t Lt. destruct (IH t Lt) as (G' & E & F). rewrite Lt.
    destruct (chunk_sub_at_ok t m (phase o KK A jstart (S m) (copies_c m) (fst s1)) (snd s1 t) G' P1 P2) as (G2 & E2 & F2).
    split; [exact G2|]. split; [etransitivity; [exact E2|exact E]|]. intros jrel Hj.
    etransitivity; [exact (F2 jrel Hj)|]. rewrite (F jrel Hj). ring.
Qed.

Variables (r : reduction) (s : scheme) (op : scheme_ops).
Hypothesis Rd : reduction_of (dim f) r.
Hypothesis Eop : scheme_code r s = Ok op.

Lemma tile_at_ok : forall first (itm : nat -> item) st, (forall t, live t = true -> good_at t (snd st t)) ->
  let st' := range_chunk_tile o op KK A bd live rowi rowj rowp jstart end_y first st in
  forall t, live t = true -> good_at t (snd st' t) /\
  ((forall jrel, jrel < cols -> fst (itm jrel) = Z.of_nat (jrel + first) /\
      forall k, k < dim f -> eval f (here (rowi t) (rowj (jstart + jrel)) rowp) k = snd (itm jrel) k) ->
   sacc (snd st' t) = final_op op (acc_items op (map itm (seq 0 cols))
      (fst (sacc (snd st t)), block_init op (snd (sacc (snd st t)))))).
Proof.
  intros first itm st G. cbv zeta. unfold range_chunk_tile. cbv zeta.
  fold copies_n. set (sh0 := phase o KK A jstart 0 copies_n (fst st)).
  match goal with |- context [for_up (c_nchunks KK) _ (sh0, ?i0)] => set (init := i0) end.
  destruct (chunks_at_ok (c_nchunks KK) (sh0, init)) as (Sn & H).
  { apply phase_n. }
  { intros t Lt. cbn [snd]. unfold init. rewrite Lt. exact (G t Lt). }
  set (s2 := for_up (c_nchunks KK) (chunk_step o KK A bd live rowi rowj rowp jstart end_y) (sh0, init)) in *.
  intros t Lt. cbn [snd]. rewrite Lt. destruct (H t Lt) as (G2 & E2 & F2). split; [exact G2|]. intros Hit.
  cbn [sacc]. f_equal. rewrite E2. cbn [snd]. unfold init at 1. rewrite Lt. cbn [sacc].
  apply (for_items (dim f) r s op); [exact Rd|exact Eop|]. intros jrel Hj.
  destruct (Hit jrel Hj) as [Hz Hv]. split; [|symmetry; exact Hz].
  intros k Hk. unfold fins. f_equal. rewrite <- Hv by assumption. apply post_value_at; [apply G2| |apply G2| |assumption].
  - apply (Sn jrel Hj).
  - rewrite Nat.add_0_r, (kk_out order f g p U Wg tagI T), Nat.mul_1_r. rewrite (F2 jrel Hj). cbn [snd]. unfold init. rewrite Lt. cbn [sfout].
    rewrite (kk_out order f g p U Wg tagI T).
    rewrite (for_upR_cells tagI T _ (fun _ _ => 0%R)). apply Nat.ltb_lt in Hj. rewrite Hj.
    rewrite Rplus_0_l. symmetry. unfold val_at. apply node_value; try assumption. eapply part_declared; eauto.
Qed.
End Tile.

(** ** The grid *)
Lemma launch_blocks_rows : forall tagI bs sp bd o dm (V : nat -> nat -> cells) block out, tagI <= 1 ->
  stored bs sp -> 1 <= bd -> orders_ok o ->
  NoDup (flat_map (fun b => interval (brows b)) bs) -> flat_map (fun b => interval (brows b)) bs <> [] ->
  (forall n b blk x0 x1, nth_error bs b = Some blk -> fst (brows blk) <= x0 -> x0 < x1 -> x1 <= snd (brows blk) -> x1 - x0 <= bd ->
     block n (b, x0, x1) = Ok (flat_map (fun i => row_stores dm i (V b i)) (seq x0 (x1 - x0)))) ->
  exists out', launch_blocks o false sp bd block out = Ok out' /\
    (forall b blk i k, nth_error bs b = Some blk -> In i (interval (brows blk)) -> k < dm -> out' (i * dm + k) = V b i k) /\
    (forall q, (forall blk i k, In blk bs -> In i (interval (brows blk)) -> k < dm -> q <> i * dm + k) -> out' q = out q).
Proof.
  intros tagI bs sp bd o dm V block out T Hst Hbd Ho ND Ne Hblock. unfold launch_blocks.
  destruct (Nat.eqb_spec bd 0) as [Z|_]; [lia|]. cbn [andb].
  destruct (lookup_entries tagI bs sp bd T Hst Hbd bs [] eq_refl) as [E1 E2]. cbn [length] in E1, E2.
  destruct Hst as [_ [_ [_ En]]]. rewrite En, E2. cbn [rbind]. rewrite E1. cbn [rbind].
  set (es := fun e : nat * nat * nat => let '(b, x0, x1) := e in flat_map (fun i => row_stores dm i (V b i)) (seq x0 (x1 - x0))).
  rewrite (mapr_table tagI bd T Hbd _ _ _ block es).
  - destruct (Nat.eqb_spec (length (entries bd 0 bs)) 0) as [Z|_].
    + exfalso. apply Ne. apply length_zero_iff_nil in Z.
      assert (Q : concat (map (fun e : nat * nat * nat => let '(_, x0, x1) := e in seq x0 (x1 - x0)) (entries bd 0 bs)) =
                  flat_map (fun b => interval (brows b)) bs).
      { unfold entries. generalize 0 as z. clear - Hbd. induction bs as [|blk l IH]; intros z; [reflexivity|].
        cbn [length seq combine flat_map fst snd]. rewrite map_app, concat_app, IH. f_equal.
        rewrite <- (tile_cols_concat bd (brows blk) Hbd). unfold tile_cols, range_entries. rewrite map_map. f_equal.
        apply map_ext. intros t. f_equal. lia. }
      rewrite <- Q, Z. reflexivity.
    + cbn [rbind]. eexists. split; [reflexivity|].
      set (ws := flat_map (fun bb => map (fun i => (i, V (fst bb) i)) (interval (brows (snd bb)))) (combine (seq 0 (length bs)) bs)).
      assert (Es : concat (map es (entries bd 0 bs)) = flat_map (fun w => row_stores dm (fst w) (snd w)) ws).
      { unfold entries, ws. induction (combine (seq 0 (length bs)) bs) as [|[b blk] l IH]; [reflexivity|].
        cbn [flat_map fst snd]. rewrite map_app, concat_app, IH, flat_map_app. f_equal.
        rewrite <- (tile_cols_concat bd (brows blk) Hbd). unfold tile_cols, range_entries.
        rewrite map_map. induction (seq 0 (tiles bd (snd (brows blk) - fst (brows blk)))) as [|t ts IHt]; [reflexivity|].
        cbn [map concat]. rewrite map_app, flat_map_app, IHt. f_equal. cbn [es].
        replace (fst (brows blk) + t * bd + Nat.min bd (snd (brows blk) - fst (brows blk) - t * bd) - (fst (brows blk) + t * bd))
          with (Nat.min bd (snd (brows blk) - (fst (brows blk) + t * bd))) by lia.
        generalize (seq (fst (brows blk) + t * bd) (Nat.min bd (snd (brows blk) - (fst (brows blk) + t * bd)))) as q.
        induction q as [|i q IHq]; [reflexivity|]. cbn [flat_map map fst snd]. rewrite IHq. reflexivity. }
      rewrite Es.
      assert (Ew : map fst ws = flat_map (fun b => interval (brows b)) bs).
      { unfold ws. generalize 0 as z. clear. revert V. intros V z. revert z. induction bs as [|blk l IH]; intros z; [reflexivity|].
        cbn [length seq combine flat_map fst snd]. rewrite map_app, map_map, IH. cbn [fst]. rewrite map_id. reflexivity. }
      assert (NDs : NoDup (map fst (flat_map (fun w => row_stores dm (fst w) (snd w)) ws))).
      { apply (rows_stores_nodup tagI bd T Hbd). rewrite Ew. assumption. }
      destruct Ho as [_ Hs]. split.
      * intros b blk i k Hb Hi Hk. apply (stores_hit _ _ out (i * dm + k, V b i k) (Hs _) NDs).
        apply in_flat_map. exists (i, V b i). split.
        -- unfold ws. apply in_flat_map. exists (b, blk). split.
           ++ apply (nth_error_In _ b). rewrite nth_error_nth' with (d := (b, blk)).
              ** f_equal. rewrite combine_nth by apply seq_length. f_equal.
                 --- rewrite seq_nth; [reflexivity|]. apply nth_error_Some. congruence.
                 --- apply nth_error_nth. assumption.
              ** rewrite combine_length, seq_length, Nat.min_id. apply nth_error_Some. congruence.
           ++ cbn [fst snd]. apply in_map_iff. exists i. split; [reflexivity|assumption].
        -- cbn [fst snd]. unfold row_stores. apply in_map_iff. exists k. split; [reflexivity|apply in_seq; lia].
      * intros q Hq. apply (stores_miss _ _ out q (Hs _)). intros Hin. rewrite map_flat_map in Hin. apply in_flat_map in Hin.
        destruct Hin as [[i v] [Hw Hin]]. cbn [fst snd] in Hin. rewrite row_stores_fst in Hin. apply in_seq in Hin.
        assert (Hi : In i (map fst ws)) by (apply in_map_iff; exists (i, v); auto). rewrite Ew in Hi. apply in_flat_map in Hi.
        destruct Hi as [blk [Hb Hi]]. apply (Hq blk i (q - i * dm) Hb Hi); lia.
  - intros k [[b x0] x1] He. unfold entries in He. apply in_flat_map in He. destruct He as [[b' blk] [Hb He]].
    apply (combine_nth_error tagI bd T Hbd) in Hb. destruct Hb as [_ Hb]. rewrite Nat.sub_0_r in Hb. cbn [fst snd] in He.
    unfold range_entries in He. apply in_map_iff in He. destruct He as [t [He Ht]]. apply in_seq in Ht. inversion He; subst.
    pose proof (tile_lt bd (snd (brows blk) - fst (brows blk)) t Hbd ltac:(lia)) as Hlt.
    apply (Hblock k b blk); try assumption; lia.
Qed.

(** ** A block *)
Section Block.
Variables (order : list fvar -> list fvar) (decl : declaration) (f g p : fm).
Hypothesis Ho : enumerates order.
Hypothesis W : wf f.
Hypothesis D : declared decl f.
Hypothesis Hg : part g f.
Hypothesis U : use_chunk g = true.
Hypothesis Wg : wf g.
Hypothesis Hp : post_spec (nminargs f) g f p.
Notation nv := (nvars order g p).
Notation ci := (cinds order g).
Hypothesis NoMix : forall c i d, c <= 2 -> In (i, d) (nv c) -> ~ In i (ci c).
Variable tagI : nat.
Hypothesis T : tagI <= 1.
Variable A : memory.
Notation KK := (kk order f g p tagI).
Hypothesis Tables : chunk_tables_ok KK = true.
Hypothesis Cats : categories decl.
Hypothesis Params : nv 2 = [] \/ ci 2 = [].
Variables (bt : option batching) (bs : list RangesSpec.block) (sp : sparsity) (r : reduction) (s : scheme) (op : scheme_ops)
  (bd : nat) (o : orders) (m : initial) (en : nat -> nat -> nat -> env).
Hypothesis Rd : reduction_of (dim f) r.
Hypothesis Eop : scheme_code r s = Ok op.
Hypothesis Hst : stored bs sp.
Hypothesis Hbd : 1 <= bd.
Hypothesis Oo : orders_ok o.
Notation L := (loader f tagI).

(** Items: indices from the start of the merged interval. *)
Definition rel_item (b i y0 j : nat) : item := (Z.of_nat (j - y0), eval f (en b i j)).

Definition chunk_loads : Prop := forall b blk x0, nth_error bs b = Some blk -> In x0 (interval (brows blk)) ->
  exists oi oj op_, offsets bt shapes_i (side tagI bt b true) (x0 - side tagI bt b true) = Ok oi /\
    offsets bt shapes_j (side tagI bt b false) 0 = Ok oj /\ offsets bt shapes_p b 0 = Ok op_ /\
    (forall a d, In (a, d) (nv 2) -> row_param op_ (place (nv 2) a) = row_param op_ (place (varsP L) a)) /\
    forall c i j, In c (bcols blk) -> In i (interval (brows blk)) -> x0 <= i -> In j (visited blk) -> fst c <= j ->
      rows_ok f tagI A oi oj op_ x0 (fst c) i j (en b i j).

Section Segment.
Variables (ord : nat -> list copy -> list copy) (live : nat -> bool) (oi oj op_ : option (list nat)) (x0 b : nat).
Hypothesis Perm : forall n l, Permutation (ord n l) l.
Notation rowi := (fun t => referred (varsI L) oi x0 (x0 + t)).
Notation rowp := (fun a => row_param op_ (position (varsP L) a)).

Definition good_t (t : nat) (st : chunk_state) : Prop := good_at order g p tagI A rowi rowp t st.

Lemma here_rows : forall t y0 j e, rows_ok f tagI A oi oj op_ x0 y0 (x0 + t) j e ->
  forall k, k < dim f -> eval f (here decl tagI A (rowi t) (referred (varsJ L) oj y0 j) rowp) k = eval f e k.
Proof.
  intros t y0 j e H k Hk. apply eval_agree; [assumption| |assumption]. intros a d c Ha q Hq.
  rewrite (H a d c q Ha Hq). unfold here, referred. rewrite (vars_declared decl f D a d c Ha). cbn [fst snd].
  rewrite !position_place. reflexivity.
Qed.

Definition seg (y0 e : nat) : chunk_block -> chunk_block := fun st =>
  for_up (tiles bd (e - y0)) (fun tile =>
    range_chunk_tile ord op KK A bd live rowi (referred (varsJ L) oj y0) rowp (y0 + tile * bd) e (tile * bd)) st.

Lemma segment_at : forall y0 e st, (forall t, live t = true -> good_t t (snd st t)) ->
  forall t, live t = true -> good_t t (snd (seg y0 e st) t) /\
  ((forall j, In j (interval (y0, e)) -> rows_ok f tagI A oi oj op_ x0 y0 (x0 + t) j (en b (x0 + t) j)) ->
   sacc (snd (seg y0 e st) t) =
   run_tiles op (map (map (rel_item b (x0 + t) y0)) (tile_cols bd (y0, e))) (sacc (snd st t))).
Proof.
  intros y0 e st G. unfold seg, tile_cols. cbn [fst snd].
  induction (tiles bd (e - y0)) as [|n IH].
  - intros t Lt. split; [apply G, Lt|]. intros _. reflexivity.
  - cbn [for_up]. match goal with |- context [for_up n ?h st] => set (st1 := for_up n h st) in * end. intros t Lt.
    destruct (tile_at_ok order decl f g p Ho D Hg U Wg Hp NoMix tagI T A Tables Cats Params ord bd Perm live rowi
       (referred (varsJ L) oj y0) rowp (y0 + n * bd) e r s op Rd Eop (n * bd)
       (fun jrel => rel_item b (x0 + t) y0 (y0 + n * bd + jrel)) st1 (fun t Lt => proj1 (IH t Lt)) t Lt) as [G2 H2].
    split; [exact G2|]. intros HR. etransitivity; [apply H2|].
    + intros jrel Hj. unfold columns in Hj. cbn [rel_item fst snd]. split; [f_equal; lia|]. intros k Hk.
      apply here_rows; [|assumption]. apply HR. unfold interval. cbn [fst snd]. apply in_seq. lia.
    + rewrite (proj2 (IH t Lt) HR). rewrite seq_S, !map_app. unfold run_tiles at 3. rewrite fold_left_app. cbn [map fold_left Nat.add].
      f_equal. unfold run_tiles. f_equal. unfold columns.
      rewrite <- (map_map (fun q => y0 + n * bd + q) (rel_item b (x0 + t) y0)). rewrite map_add_seq. reflexivity.
Qed.

Lemma segments_at : forall segs st, (forall t, live t = true -> good_t t (snd st t)) ->
  forall t, live t = true ->
  (forall q j, In q segs -> In j (interval q) -> rows_ok f tagI A oi oj op_ x0 (fst q) (x0 + t) j (en b (x0 + t) j)) ->
  sacc (snd (fold_left (fun st q => seg (fst q) (snd q) st) segs st) t) =
  run_tiles op (flat_map (fun q => map (map (rel_item b (x0 + t) (fst q))) (tile_cols bd q)) segs) (sacc (snd st t)).
Proof.
  induction segs as [|q segs IH]; intros st G t Lt H; [reflexivity|]. cbn [fold_left flat_map].
  rewrite IH; [|intros t' Lt'; apply (segment_at (fst q) (snd q) st G t' Lt')|assumption|intros; apply H; [right; assumption|assumption]].
  rewrite (proj2 (segment_at (fst q) (snd q) st G t Lt)).
  - unfold run_tiles. rewrite fold_left_app. destruct q; reflexivity.
  - intros j Hj. apply H; [left; reflexivity|]. destruct q; exact Hj.
Qed.
End Segment.

Definition segments (blk : RangesSpec.block) : list (nat * nat) :=
  merge (match bcols blk with [] => 0 | c :: _ => fst c end) (bcols blk).
Definition rel_items (b : nat) (blk : RangesSpec.block) (i : nat) : list (list item) :=
  flat_map (fun q => map (map (rel_item b i (fst q))) (tile_cols bd q)) (segments blk).
Definition chunked_value (b : nat) (blk : RangesSpec.block) (i : nat) : cells :=
  rfinal r (fst (run_tiles op (rel_items b blk i) (rinit r, first_init op (jtmp m i)))).

Lemma chunked_block_rows : forall n b blk x0 x1, chunk_loads -> gpu_ordered bs -> nth_error bs b = Some blk ->
  first_slice bs b < length (flat_map bcols bs) ->
  fst (brows blk) <= x0 -> x0 < x1 -> x1 <= snd (brows blk) -> x1 - x0 <= bd ->
  range_block_chunks o m r op L KK tagI A bt sp bd n (b, x0, x1) =
  Ok (flat_map (fun i => row_stores (rdim r) i (chunked_value b blk i)) (seq x0 (x1 - x0))).
Proof.
  intros n b blk x0 x1 Ld O Hb Hfs H0 H1 H2 H3. unfold range_block_chunks.
  destruct (Ld b blk x0 Hb) as [oi [oj [op_ [Eo [Ej [Ep [HP HR]]]]]]].
  { unfold interval. apply in_seq. lia. }
  cbv zeta beta.
  match goal with |- context[offsets bt shapes_i ?u ?v] => change (offsets bt shapes_i u v) with (offsets bt shapes_i (side tagI bt b true) (x0 - side tagI bt b true)) end.
  match goal with |- context[offsets bt shapes_j ?u 0] => change (offsets bt shapes_j u 0) with (offsets bt shapes_j (side tagI bt b false) 0) end.
  rewrite Eo. cbn [rbind]. rewrite Ej. cbn [rbind]. rewrite Ep. cbn [rbind].
  destruct (slices_read bs b blk Hb) as [S1 S2]. destruct Hst as [_ [Es [Ey _]]]. rewrite Es, S1. cbn [rbind]. rewrite S2. cbn [rbind].
  assert (exists c0, nth_error (flat_map bcols bs) (first_slice bs b) = Some c0) as [c0 Hc0].
  { destruct (nth_error (flat_map bcols bs) (first_slice bs b)) eqn:En; [eauto|]. apply nth_error_None in En. lia. }
  destruct (rd_flat _ _ _ Hc0) as [R0 _]. rewrite Ey, R0. cbn [rbind].
  replace (first_slice bs b + length (bcols blk) - first_slice bs b) with (length (bcols blk)) by lia.
  match goal with |- context [merged_loop _ _ _ _ _ (?sh, ?i0)] => set (init := i0) end.
  pose proof (merged_loop_run bs b blk (flat (flat_map bcols bs))
    (seg (load_order o n) (fun t => x0 + t <? x1) oi oj op_ x0) Hb eq_refl (bcols blk) [] (fst c0)
     (jshared m n, init) eq_refl) as ML.
  cbn [length] in ML. rewrite Nat.add_0_r in ML. unfold seg at 1 in ML. rewrite ML. cbn [rbind]. clear ML. f_equal.
  assert (Es' : merge (fst c0) (bcols blk) = segments blk).
  { unfold segments. destruct (bcols blk) as [|c cs] eqn:Ec; [reflexivity|]. f_equal.
    pose proof (cols_nth bs b blk 0 Hb) as Q. rewrite Ec in Q. cbn in Q. specialize (Q ltac:(lia)).
    rewrite Nat.add_0_r, Hc0 in Q. inversion Q. reflexivity. }
  rewrite Es'. clear Es'.
  assert (G0 : forall t, (x0 + t <? x1) = true -> good_t oi op_ x0 t (init t)).
  { intros t _. pose proof (nvars_nodup order decl f g p Ho D U Hp tagI ltac:(lia)) as Ni.
    pose proof (nvars_nodup order decl f g p Ho D U Hp 2 ltac:(lia)) as Np. split.
    - intros a d q Ha Hq. unfold init. cbn [sxi c_iN kk].
      pose proof (load_vars_hit (nv tagI) A (nth_rows (referred (varsI L) oi x0 (x0 + t)) (nv tagI)) 0 0 (jregs m (x0 + t)) a d Ni Ha q Hq) as X.
      rewrite (nth_rows_place _ _ a d Ha) in X. exact X.
    - intros a d q Ha Hq. unfold init. cbn [spp c_pN kk].
      pose proof (load_vars_hit (nv 2) A (row_param op_) 0 0 (jregs m (x0 + t)) a d Np Ha q Hq) as X.
      cbn [Nat.add] in X. rewrite (HP a d Ha) in X. rewrite position_place. exact X. }
  assert (Val : forall t, t < x1 - x0 ->
    rfinal r (fst (sacc (snd (fold_left (fun st q => seg (load_order o n) (fun t => x0 + t <? x1) oi oj op_ x0 (fst q) (snd q) st)
      (segments blk) (jshared m n, init)) t))) = chunked_value b blk (x0 + t)).
  { intros t Ht. unfold chunked_value. f_equal. f_equal.
    rewrite (segments_at (load_order o n) (fun t => x0 + t <? x1) oi oj op_ x0 b ltac:(intros; apply Oo) (segments blk) (jshared m n, init) G0 t).
    - reflexivity.
    - apply Nat.ltb_lt. lia.
    - intros q j Hq Hj. unfold segments in Hq. assert (Hc : exists c, In c (bcols blk) /\ fst q = fst c).
      { destruct (merge_starts _ _ _ Hq) as [Ef|[c Hc]]; [|exists c; assumption].
        destruct (bcols blk) as [|c cs]; [contradiction|]. exists c. split; [left; reflexivity|assumption]. }
      destruct Hc as [c [Hc Ec]]. rewrite Ec. apply HR; try assumption.
      + unfold interval. apply in_seq. lia.
      + lia.
      + unfold visited. assert (Em : In j (flat_map interval (merge (match bcols blk with [] => 0 | c :: _ => fst c end) (bcols blk)))).
        { apply in_flat_map. exists q. split; assumption. }
        pose proof (O blk (nth_error_In _ _ Hb)) as Ob.
        destruct (bcols blk) as [|c1 cs]; [contradiction|]. inversion Ob; subst.
        rewrite merge_visits in Em by assumption. cbn [flat_map]. destruct c1; exact Em.
      + unfold interval in Hj. apply in_seq in Hj. lia. }
  unfold seg in Val.
  replace bd with ((x1 - x0) + (bd - (x1 - x0))) at 1 by lia.
  rewrite seq_app, flat_map_app.
  match goal with |- ?u ++ ?v = _ => replace v with (@nil store) end.
  - rewrite app_nil_r. assert (G : forall (g h : nat -> list store) w z n0, (forall t, t < n0 -> g (w + t) = h (z + t)) ->
        flat_map g (seq w n0) = flat_map h (seq z n0)).
    { intros g' h w z n0. revert w z. induction n0 as [|n0 IH]; intros w z Hg'; [reflexivity|]. cbn [seq flat_map]. f_equal.
      - specialize (Hg' 0 ltac:(lia)). rewrite !Nat.add_0_r in Hg'. exact Hg'.
      - apply IH. intros t Ht. specialize (Hg' (S t) ltac:(lia)). rewrite !Nat.add_succ_r in Hg'. exact Hg'. }
    apply G. intros t Ht. cbn [Nat.add]. replace (x0 + t <? x1) with true by (symmetry; apply Nat.ltb_lt; lia).
    f_equal. apply Val. assumption.
  - symmetry. assert (G : forall (g : nat -> list store) l, (forall t, In t l -> g t = []) -> flat_map g l = []).
    { intros g' l. induction l as [|t l IH]; intros Hg'; [reflexivity|]. cbn [flat_map]. rewrite Hg' by (left; reflexivity).
      apply IH. intros; apply Hg'; right; assumption. }
    apply G. intros t Ht. apply in_seq in Ht. replace (x0 + t <? x1) with false by (symmetry; apply Nat.ltb_ge; lia). reflexivity.
Qed.

Lemma references : references_ok L KK = true.
Proof.
  assert (G : forall c l, c <= 2 -> (forall i, In i l -> exists d, In (i, d, c) (vars f)) -> listed (vars_cat f c) l = true).
  { intros c l _ H. apply forallb_forall. intros i Hi. destruct (H i Hi) as [d Hd]. apply existsb_exists.
    exists (i, d). split; [apply vars_cat_in; exact Hd|]. apply Z.eqb_refl. }
  assert (N : forall c i, c <= 2 -> In i (map fst (nv c)) -> exists d, In (i, d, c) (vars f)).
  { intros c i Hc Hi. apply in_map_iff in Hi. destruct Hi as [[i' d] [E Hi]]. cbn in E. subst i'. exists d.
    apply (nvars_in order g p Ho U) in Hi. apply (post_declared decl f g p D Hp c i d Hc Hi). }
  assert (Cc : forall c i, In i (ci c) -> exists d, In (i, d, c) (vars f)).
  { intros c i Hi. exists (node_dim g). apply (cinds_in order g Ho U Wg) in Hi. eapply part_vars; eauto. }
  unfold references_ok, loader. cbn [varsI varsJ varsP c_iN c_iC c_jN c_jC c_pC kk].
  rewrite !G; try reflexivity; try lia.
  - intros i Hi. apply Cc, Hi.
  - intros i Hi. apply in_app_or in Hi. destruct Hi as [Hi|Hi]; [apply N; [lia|exact Hi]|apply Cc, Hi].
  - intros i Hi. apply in_app_or in Hi. destruct Hi as [Hi|Hi]; [apply N; [lia|exact Hi]|apply Cc, Hi].
Qed.

(** The launch. *)
Definition value_of (b i : nat) : cells := match nth_error bs b with Some blk => chunked_value b blk i | None => rinit r end.
Lemma ranges_chunks_launch : forall nx out, chunk_constants order f tagI = Ok KK ->
  chunk_loads -> gpu_ordered bs -> disjoint_rows nx bs ->
  flat_map (fun b => interval (brows b)) bs <> [] ->
  (forall b, b < length bs -> first_slice bs b < length (flat_map bcols bs)) ->
  exists out', launch_ranges_chunks order o m false r s f tagI A bt sp bd out = Ok out' /\
    (forall b blk i, nth_error bs b = Some blk -> In i (interval (brows blk)) ->
       row_value r s (concat (rel_items b blk i)) (fun k => out' (i * rdim r + k))) /\
    (forall q, (forall blk i k, In blk bs -> In i (interval (brows blk)) -> k < rdim r -> q <> i * rdim r + k) -> out' q = out q).
Proof.
  intros nx out EK Ld O [ND _] Ne Hf. unfold launch_ranges_chunks. rewrite EK. cbn [rbind]. rewrite Tables, references. cbn [andb].
  rewrite Eop. cbn [rbind].
  destruct (launch_blocks_rows tagI bs sp bd o (rdim r) value_of (range_block_chunks o m r op L KK tagI A bt sp bd) out T Hst Hbd Oo ND Ne)
    as [out' [E [H1 H2]]].
  { intros n b blk x0 x1 Hb X0 X1 X2 X3. rewrite (chunked_block_rows n b blk x0 x1 Ld O Hb); try assumption.
    - f_equal. unfold value_of. rewrite Hb. reflexivity.
    - apply Hf. apply nth_error_Some. congruence. }
  exists out'. split; [exact E|]. split; [|exact H2]. intros b blk i Hb Hi.
  assert (V : row_value r s (concat (rel_items b blk i)) (chunked_value b blk i)).
  { apply tiles_value; [assumption|]. intros _. apply Forall_forall. intros l Hl. unfold rel_items in Hl.
    apply in_flat_map in Hl. destruct Hl as [q [_ Hl]]. apply in_map_iff in Hl. destruct Hl as [l' [<- Hl]].
    pose proof (tile_cols_nonempty bd q Hbd) as F. rewrite Forall_forall in F. specialize (F l' Hl).
    destruct l'; [congruence|discriminate]. }
  assert (Val : forall k, k < rdim r -> out' (i * rdim r + k) = chunked_value b blk i k).
  { intros k Hk. rewrite (H1 b blk i k Hb Hi Hk). unfold value_of. rewrite Hb. reflexivity. }
  destruct V as [V1 [V2 V3]]. split; [|split].
  - intros Es k Hk. rewrite (Val k Hk). apply V1; assumption.
  - intros d Er k Hk. rewrite (Val k) by (rewrite Er; cbn; assumption). apply (V2 d Er k Hk).
  - intros w Er N k Hk Hpos. rewrite <- (V3 w Er N k Hk Hpos). unfold lse_post.
    rewrite !Val by (rewrite Er; cbn; lia). reflexivity.
Qed.

Lemma concat_rel_items : forall b blk i,
  concat (rel_items b blk i) = flat_map (fun q => map (rel_item b i (fst q)) (interval q)) (segments blk).
Proof.
  intros b blk i. unfold rel_items. induction (segments blk) as [|q l IH]; [reflexivity|].
  cbn [flat_map]. rewrite concat_app, IH. f_equal. rewrite <- concat_map, tile_cols_concat by assumption. reflexivity.
Qed.
Lemma segments_visit : forall blk, ordered (bcols blk) -> flat_map interval (segments blk) = visited blk.
Proof.
  intros blk O. unfold segments, visited. destruct (bcols blk) as [|c cs]; [reflexivity|].
  inversion O; subst. rewrite merge_visits by assumption. cbn [flat_map]. destruct c; reflexivity.
Qed.
Lemma rel_items_values : forall b blk i, ordered (bcols blk) ->
  map snd (concat (rel_items b blk i)) = map (fun j => eval f (en b i j)) (visited blk).
Proof.
  intros b blk i O. rewrite concat_rel_items, <- (segments_visit blk O).
  induction (segments blk) as [|q l IH]; [reflexivity|]. cbn [flat_map]. rewrite !map_app. f_equal; [rewrite map_map; reflexivity|exact IH].
Qed.
End Block.

(** Reductions that ignore the indices. *)
Lemma ignored_run : forall r l l' a, ignores_index r -> map snd l = map snd l' -> run r l a = run r l' a.
Proof.
  intros r l. induction l as [|[z x] l IH]; intros [|[z' x'] l'] a I E; try discriminate; [reflexivity|].
  cbn [map snd] in E. injection E as E1 E2. subst x'. unfold run in *. cbn [fold_left fst snd]. rewrite (I a x z z'). apply IH; assumption.
Qed.
Lemma ignored_value : forall r s l l' v, ignores_index r -> map snd l = map snd l' -> row_value r s l v -> row_value r s l' v.
Proof.
  intros r s l l' v I E [V1 [V2 V3]].
  assert (EE : map as_entry l = map as_entry l').
  { transitivity (map (fun x : nat -> R => (Some (x 0), fun k => x (S k))) (map snd l)); [rewrite map_map; reflexivity|].
    rewrite E, map_map. reflexivity. }
  split; [|split].
  - intros Es k Hk. rewrite (V1 Es k Hk). f_equal. apply ignored_run; [assumption|]. rewrite !map_map. cbn [snd].
    rewrite <- !(map_map snd fins). rewrite E. reflexivity.
  - intros d Er k Hk. rewrite (V2 d Er k Hk). f_equal. unfold lsum.
    clear - E. revert l' E. induction l as [|x l IH]; intros [|x' l'] E; try discriminate; [reflexivity|].
    cbn [map] in E. injection E as E1 E2. cbn [fold_right]. rewrite E1, (IH l' E2). reflexivity.
  - intros w Er N k Hk Hpos. rewrite <- EE in *. apply (V3 w Er); try assumption.
    intros ->. apply N. destruct l'; [reflexivity|discriminate].
Qed.
Lemma which_ignore : forall d, ignores_index (Sum_Red d) /\ (forall mx, ignores_index (Opt_Red mx d)) /\ ignores_index (LSE_Red d).
Proof. intros d. split; [|split]; intros; intros a x i j; reflexivity. Qed.

(** ** Patterns given by the user *)
Definition rel_terms (decl : declaration) (A : memory) (f : fm) (tagI i : nat) (blk : RangesSpec.block) : list item :=
  flat_map (fun q => map (fun j => (Z.of_nat (j - fst q), eval f (plain_env decl A tagI i j))) (interval q)) (segments blk).

Lemma chunks_rel : forall order decl f r s tagI A u bs o m nx bd out K,
  declared decl f -> wf f -> categories decl -> tagI <= 1 -> enumerates order -> reduction_of (dim f) r -> available r s ->
  orders_ok o -> 1 <= bd -> user_describes u tagI bs -> disjoint_rows nx bs ->
  flat_map (fun b => interval (brows b)) bs <> [] -> ends_visiting bs ->
  (forall blk c, In blk bs -> In c (bcols blk) -> fst c <= snd c) ->
  chunk_mode order f tagI = Ok true -> chunk_constants order f tagI = Ok K ->
  (forall v, In v (vars (c_fun K)) -> vdim v = 1 -> In v (vars (c_post K))) ->
  c_pN K = [] \/ c_pC K = [] ->
  exists out', launch_ranges_chunks order o m false r s f tagI A None (from_user u tagI) bd out = Ok out' /\
    (forall blk i, In blk bs -> In i (interval (brows blk)) ->
       row_value r s (rel_terms decl A f tagI i blk) (fun k => out' (i * rdim r + k))) /\
    (forall q, (forall blk i k, In blk bs -> In i (interval (brows blk)) -> k < rdim r -> q <> i * rdim r + k) ->
       out' q = out q).
Proof.
  intros order decl f r s tagI A u bs o m nx bd out K D W C T Ho R Av Oo Hb Us Dj Ne Ev Or Mode EK Sc Par.
  destruct (available_code r s Av) as [op Hop].
  pose proof (tables_complete order decl f tagI K W D C Ho T Mode EK Sc) as Tb.
  destruct (mode_parts order decl f tagI W D Ho T Mode) as (g & p & Pg & U & Wg & Sp & E & Mix).
  rewrite E in EK. injection EK as <-. cbn [c_pN c_pC kk] in Par.
  destruct (ranges_chunks_launch order decl f g p Ho W D Pg U Wg Sp Mix tagI T A Tb C Par None bs (from_user u tagI) r s op bd o m
      (fun _ i j => plain_env decl A tagI i j) R Hop (user_stored u tagI bs T Us) Hb Oo nx out E) as [out' [L [H1 H2]]]; try assumption.
  - intros b blk x0 Eb Hx. exists None, None, None. split; [reflexivity|]. split; [reflexivity|]. split; [reflexivity|].
    split; [reflexivity|]. intros c i j Hc Hi Hx0 Hj Hcj. apply plain_rows; assumption.
  - intros blk Hblk. apply Forall_forall. intros c Hc. exact (Or blk c Hblk Hc).
  - apply last_first_slice. assumption.
  - exists out'. split; [exact L|]. split; [|exact H2].
    intros blk i Hblk Hi. destruct (In_nth_error _ _ Hblk) as [b Eb].
    pose proof (H1 b blk i Eb Hi) as V. rewrite concat_rel_items in V by assumption. exact V.
Qed.

Lemma chunks_blocks : forall order decl f r s tagI A u bs o m nx bd out K,
  declared decl f -> wf f -> categories decl -> tagI <= 1 -> enumerates order -> reduction_of (dim f) r -> available r s ->
  ignores_index r ->
  orders_ok o -> 1 <= bd -> user_describes u tagI bs -> disjoint_rows nx bs ->
  flat_map (fun b => interval (brows b)) bs <> [] -> ends_visiting bs ->
  (forall blk c, In blk bs -> In c (bcols blk) -> fst c <= snd c) ->
  chunk_mode order f tagI = Ok true -> chunk_constants order f tagI = Ok K ->
  (forall v, In v (vars (c_fun K)) -> vdim v = 1 -> In v (vars (c_post K))) ->
  c_pN K = [] \/ c_pC K = [] ->
  exists out', launch_ranges_chunks order o m false r s f tagI A None (from_user u tagI) bd out = Ok out' /\
    (forall blk i, In blk bs -> In i (interval (brows blk)) ->
       row_value r s (block_terms decl A f tagI i (visited blk)) (fun k => out' (i * rdim r + k))) /\
    (forall q, (forall blk i k, In blk bs -> In i (interval (brows blk)) -> k < rdim r -> q <> i * rdim r + k) ->
       out' q = out q).
Proof.
  intros order decl f r s tagI A u bs o m nx bd out K D W C T Ho R Av Ig Oo Hb Us Dj Ne Ev Or Mode EK Sc Par.
  destruct (chunks_rel order decl f r s tagI A u bs o m nx bd out K) as [out' [L [H1 H2]]]; try assumption.
  exists out'. split; [exact L|]. split; [|exact H2]. intros blk i Hblk Hi.
  apply (ignored_value r s (rel_terms decl A f tagI i blk)); [assumption| |apply H1; assumption].
  unfold rel_terms, block_terms. rewrite <- (segments_visit blk).
  - rewrite map_map. cbn [snd]. induction (segments blk) as [|q l IH]; [reflexivity|]. cbn [flat_map]. rewrite !map_app. f_equal; [|exact IH].
    rewrite map_map. reflexivity.
  - apply Forall_forall. intros c Hc. exact (Or blk c Hblk Hc).
Qed.

(** A block with one interval: every reduction, indices from the start of the interval. *)
Lemma chunks_interval : forall order decl f r s tagI A u bs o m nx bd out K,
  declared decl f -> wf f -> categories decl -> tagI <= 1 -> enumerates order -> reduction_of (dim f) r -> available r s ->
  orders_ok o -> 1 <= bd -> user_describes u tagI bs -> disjoint_rows nx bs ->
  flat_map (fun b => interval (brows b)) bs <> [] -> ends_visiting bs ->
  (forall blk c, In blk bs -> In c (bcols blk) -> fst c <= snd c) ->
  chunk_mode order f tagI = Ok true -> chunk_constants order f tagI = Ok K ->
  (forall v, In v (vars (c_fun K)) -> vdim v = 1 -> In v (vars (c_post K))) ->
  c_pN K = [] \/ c_pC K = [] ->
  exists out', launch_ranges_chunks order o m false r s f tagI A None (from_user u tagI) bd out = Ok out' /\
    forall blk i y0 y1, In blk bs -> In i (interval (brows blk)) -> bcols blk = [(y0, y1)] ->
       row_value r s (map (fun t => (fst t - Z.of_nat y0, snd t)%Z) (block_terms decl A f tagI i (visited blk)))
         (fun k => out' (i * rdim r + k)).
Proof.
  intros order decl f r s tagI A u bs o m nx bd out K D W C T Ho R Av Oo Hb Us Dj Ne Ev Or Mode EK Sc Par.
  destruct (chunks_rel order decl f r s tagI A u bs o m nx bd out K) as [out' [L [H1 H2]]]; try assumption.
  exists out'. split; [exact L|]. intros blk i y0 y1 Hblk Hi Ec. pose proof (H1 blk i Hblk Hi) as V.
  unfold rel_terms, segments in V. rewrite Ec in V. cbn [merge fst snd flat_map] in V. rewrite app_nil_r in V.
  unfold block_terms, visited. rewrite Ec. cbn [flat_map]. rewrite app_nil_r, map_map. cbn [fst snd].
  erewrite map_ext_in; [exact V|]. intros j Hj. cbv beta. unfold interval in Hj. cbn [fst snd] in Hj. apply in_seq in Hj.
  f_equal. lia.
Qed.

Definition dist_formula : fm := Bil KScal (Var 0 100 0) (Var 1 100 1).
Lemma indices_wrong : forall m A out,
  let u := {| ranges_i := [(0, 1)]; slices_i := [1]; redranges_j := [(1, 2)];
              ranges_j := []; slices_j := []; redranges_i := [] |} in
  let decl := fun a : Z => if Z.eqb a 1 then (100, 1) else (100, 0) in
  let r := OptArg_Red false OArg 1 in
  user_describes u 0 [{| brows := (0, 1); bcols := [(1, 2)] |}] /\
  (exists out', launch_ranges_chunks (fun l => l) {| load_order := fun _ _ l => l; store_order := fun l => l |} m false
     r direct_sum dist_formula 0 A None (from_user u 0) 1 out = Ok out' /\ out' 0 = Fin 0) /\
  rfinal r (run r (map (fun p => (fst p, fins (snd p))) (block_terms decl A dist_formula 0 0 [1])) (rinit r)) 0 = Fin 1.
Proof.
  intros m A out u decl r. split; [repeat split|]. split.
  - eexists. split; [lazy -[Rplus Rmult IZR]; reflexivity|]. lazy -[Rplus Rmult IZR]. reflexivity.
  - lazy -[Rplus Rmult IZR]. reflexivity.
Qed.

(** ** Batches *)
Section Batches.
Context (decl : declaration) (f : fm) (tagI : nat) (A : memory) (argshapes : Z -> list nat) (full : list nat) (M N : nat).
Context (D : declared decl f) (W : wf f) (C : categories decl) (T : tagI <= 1).
Context (Hs : forall a d c, In (a, d, c) (vars f) -> shape_ok decl argshapes full M N a).
Context (Hcm : common argshapes full (map vpos (vars f))).
Context (Hf : forall a d c, In (a, d, c) (vars f) -> fits decl argshapes (length full) a).
Context (HM : 1 <= M) (HN : 1 <= N).
Let bt := batch_data f tagI argshapes (length full) M N.
Notation mi := (mi tagI M N).
Notation nj := (nj tagI M N).

Lemma same_rows : forall (vs : list (Z * nat)) (F : Z * nat -> nat) a l,
  (forall v v', In v l -> In v' l -> F v = F v') -> In a (map fst vs) -> length vs <= length l -> In a (map fst l) ->
  nth (place vs a) (map F l) 0 = nth (place l a) (map F l) 0.
Proof.
  intros vs F a l H H1 H2 H3. pose proof (place_below vs a H1) as P1. pose proof (place_below l a H3) as P2.
  rewrite !(nth_indep (map F l) 0 (F (0%Z, 0))) by (rewrite map_length; lia). rewrite !map_nth.
  apply H; apply nth_In; lia.
Qed.

Lemma chunks_batch : forall order r s o m bd out K, enumerates order -> reduction_of (dim f) r -> available r s ->
  orders_ok o -> 1 <= bd -> 1 <= prod full -> same_batches f argshapes (length full) ->
  chunk_mode order f tagI = Ok true -> chunk_constants order f tagI = Ok K ->
  (forall v, In v (vars (c_fun K)) -> vdim v = 1 -> In v (vars (c_post K))) ->
  c_pN K = [] \/ c_pC K = [] ->
  exists out', launch_ranges_chunks order o m false r s f tagI A (Some bt) (batch_ranges (bsizes bt) tagI) bd out = Ok out' /\
    (forall idx x, inside idx full -> x < mi ->
       row_value r s (batch_terms decl argshapes A f tagI idx x nj) (fun k => out' (numpy_row full mi idx x * rdim r + k))) /\
    (forall q, prod full * mi * rdim r <= q -> out' q = out q).
Proof.
  intros order r s o m bd out K Ho R Av Oo Hbd Hpf Same Mode EK Sc Par. destruct (available_code r s Av) as [op Hop].
  assert (Pm : 1 <= mi) by (unfold C16Proofs.mi, out_rows; destruct tagI; assumption).
  assert (Pn : 1 <= nj) by (unfold C16Proofs.nj, red_terms; destruct tagI; assumption).
  pose proof (tables_complete order decl f tagI K W D C Ho T Mode EK Sc) as Tb.
  destruct (mode_parts order decl f tagI W D Ho T Mode) as (g & p & Pg & U & Wg & Sp & E & Mix).
  rewrite E in EK. injection EK as <-. cbn [c_pN c_pC kk] in Par.
  assert (St : stored (diagonal (prod full) mi nj) (batch_ranges (bsizes bt) tagI)) by (eapply bstored; eauto).
  destruct (ranges_chunks_launch order decl f g p Ho W D Pg U Wg Sp Mix tagI T A Tb C Par (Some bt)
      (diagonal (prod full) mi nj) (batch_ranges (bsizes bt) tagI) r s op bd o m
      (ben decl tagI A argshapes full M N) R Hop St Hbd Oo (prod full * mi) out E) as [out' [L [H1 H2]]].
  - intros b blk x0 Hb Hx. apply diagonal_nth in Hb. destruct Hb as [Hb ->]. cbn [brows bcols fst snd] in *.
    assert (Sz : (if tagI =? 0 then size_M (bsizes bt) else size_N (bsizes bt)) = mi /\
                 (if tagI =? 0 then size_N (bsizes bt) else size_M (bsizes bt)) = nj) by (eapply sizes_mi; eauto).
    destruct Sz as [E1 E2].
    assert (S1 : side tagI (Some bt) b true = b * mi) by (unfold side; rewrite <- E1; destruct (tagI =? 0); reflexivity).
    assert (S2 : side tagI (Some bt) b false = b * nj) by (unfold side; rewrite <- E2; destruct (tagI =? 0); reflexivity).
    rewrite S1, S2. eexists. eexists. eexists.
    split; [eapply offsets_i; eauto|]. split; [eapply offsets_j; eauto|]. split; [eapply offsets_p; eauto|]. split.
    + intros a d Ha. cbn [row_param].
      apply (nvars_in order g p Ho U) in Ha as Hv. apply (post_declared decl f g p D Sp 2 a d ltac:(lia)) in Hv. destruct Hv as [Hv _].
      apply same_rows.
      * intros [a1 d1] [a2 d2] I1 I2. unfold loader in I1, I2. cbn [varsP] in I1, I2. apply vars_cat_in in I1, I2. cbn [fst].
        rewrite (Same a1 d1 a2 d2 I1 I2). reflexivity.
      * apply in_map_iff. exists (a, d). auto.
      * rewrite <- (map_length fst (nvars order g p 2)), <- (map_length fst (varsP (loader f tagI))).
        apply NoDup_incl_length; [apply (nvars_nodup order decl f g p Ho D U Sp 2); lia|].
        intros x Hx'. apply in_map_iff in Hx'. destruct Hx' as [[x' dx] [Ex Hx']]. cbn in Ex. subst x'.
        apply (nvars_in order g p Ho U) in Hx'. apply (post_declared decl f g p D Sp 2 x dx ltac:(lia)) in Hx'. destruct Hx' as [Hx' _].
        apply in_map_iff. exists (x, dx). split; [reflexivity|]. apply vars_cat_in. exact Hx'.
      * apply in_map_iff. exists (a, d). split; [reflexivity|]. apply vars_cat_in. exact Hv.
    + intros c i j [<-|[]] Hi Hxi Hj Hcj. cbn [fst snd]. eapply batch_rows; eauto.
      unfold interval in Hx, Hi. cbn [fst snd] in Hx, Hi. apply in_seq in Hx. lia.
  - intros blk Hb. apply In_nth_error in Hb. destruct Hb as [b Hb]. apply diagonal_nth in Hb. destruct Hb as [_ ->].
    constructor; [|constructor]. cbn [fst snd]. apply Nat.mul_le_mono_r. lia.
  - apply diagonal_disjoint.
  - rewrite diagonal_rows. destruct (prod full * mi) eqn:Z; [nia|]. discriminate.
  - apply last_first_slice. exists (diagonal (prod full - 1) mi nj).
    eexists. split.
    + unfold diagonal. replace (prod full) with (S (prod full - 1)) at 1 by lia. rewrite seq_S, map_app. reflexivity.
    + discriminate.
  - exists out'. split; [exact L|]. split.
    + intros idx x I Hx.
      assert (Bo : numpy_row full mi idx x = ravel full idx * mi + x /\ unravel full (ravel full idx) = idx /\ ravel full idx < prod full)
        by (eapply batch_out; eauto).
      destruct Bo as [En [_ B]]. rewrite En.
      assert (Bi : let b := ravel full idx in
         map (bit decl f tagI A argshapes full M N b (b * mi + x)) (visited {| brows := (b * mi, (b + 1) * mi); bcols := [(b * nj, (b + 1) * nj)] |})
         = batch_terms decl argshapes A f tagI idx x nj) by (eapply batch_items; eauto).
      rewrite <- Bi. cbv zeta.
      pose proof (H1 (ravel full idx) _ (ravel full idx * mi + x) (diagonal_nth_ok _ _ _ _ B)) as V.
      rewrite concat_rel_items in V by assumption. unfold segments in V. cbn [bcols merge fst snd flat_map] in V. rewrite app_nil_r in V.
      unfold visited. cbn [bcols flat_map]. rewrite app_nil_r. apply V.
      unfold interval. cbn [brows fst snd]. apply in_seq. nia.
    + intros q Hq. apply H2. intros blk i k Hb Hi Hk Eq. apply In_nth_error in Hb. destruct Hb as [b Hb]. apply diagonal_nth in Hb.
      destruct Hb as [Hb ->]. unfold interval in Hi. cbn [brows fst snd] in Hi. apply in_seq in Hi.
      assert ((b + 1) * mi <= prod full * mi) by (apply Nat.mul_le_mono_r; lia).
      assert (i + 1 <= prod full * mi) by lia. assert ((i + 1) * rdim r <= prod full * mi * rdim r) by (apply Nat.mul_le_mono_r; assumption). lia.
Qed.
End Batches.

(** Two scalar parameters, of batch sizes 2 and 1, enumerated in the other order. *)
Definition two_formula : fm :=
  Bin BAdd (Bil KScal (Var 0 100 0) (Var 3 100 1)) (Bin BSub (Var 1 1 2) (Var 2 1 2)).
Definition two_decl : declaration := fun a =>
  if Z.eqb a 0 then (100, 0) else if Z.eqb a 3 then (100, 1) else (1, 2).
Definition two_shapes : Z -> list nat := fun a =>
  if Z.eqb a 0 then [2; 1; 100] else if Z.eqb a 3 then [1; 1; 100] else if Z.eqb a 1 then [2; 1] else [1; 1].
Definition two_memory (v : R) : memory := fun a q =>
  if Z.eqb a 1 then (if q =? 0 then 10%R else 20%R)
  else if Z.eqb a 2 then (if q =? 0 then 5%R else v) else 0%R.
Lemma parameters_wrong_order : forall m v out,
  let bt := batch_data two_formula 0 two_shapes 1 1 1 in
  (exists out', launch_ranges_chunks (@rev fvar) {| load_order := fun _ _ l => l; store_order := fun l => l |} m false
     (Sum_Red 1) direct_sum two_formula 0 (two_memory v) (Some bt) (batch_ranges (bsizes bt) 0) 1 out = Ok out' /\
     out' 1 = Fin (10 - v)) /\
  lsum 0 (batch_terms two_decl two_shapes (two_memory v) two_formula 0 [1] 0 1) = 15%R.
Proof.
  intros m v out bt. split.
  - eexists. split; [lazy -[Rplus Rmult Rminus Ropp IZR]; reflexivity|]. lazy -[Rplus Rmult Rminus Ropp IZR]. f_equal. ring.
  - lazy -[Rplus Rmult Rminus Ropp IZR]. ring.
Qed.
