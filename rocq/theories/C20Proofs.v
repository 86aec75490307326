(** Proofs for C20: the kernel by chunks. *)

From Coq Require Import ZArith Reals Arith Lia List Bool Permutation.
From Verif Require Import Result Formula SimplifyProofs XReal Reductions ReductionSpec RedLoops KernelSum KernelSumSpec
  SumSpec LseSpec Postprocess CpuReduc Loader LoaderProofs CpuConvSpec GpuConv GpuProofs Adjoint
  C06Proofs C09Proofs C11Proofs C12Proofs C13Proofs Chunks ChunkSpec ChunkProofs.
Import ListNotations.

(** ** Offsets *)
Definition chunked_dims (C : list Z) (dc : nat) : list (Z * nat) := map (fun i => (i, dc)) C.
Lemma dims_app : forall vs ws, dims (vs ++ ws) = dims vs + dims ws.
Proof. unfold dims. induction vs as [|v vs IH]; intros ws; cbn [app fold_right]; [reflexivity|]. rewrite IH. lia. Qed.
Lemma dims_chunked : forall C dc, dims (chunked_dims C dc) = length C * dc.
Proof. unfold dims, chunked_dims. induction C as [|i C IH]; intros dc; cbn; [reflexivity|]. rewrite IH. reflexivity. Qed.
Lemma chunked_fst : forall C dc, map fst (chunked_dims C dc) = C.
Proof. unfold chunked_dims. intros C dc. rewrite map_map. apply map_id. Qed.
Lemma offset_in : forall vs ws i, In i (map fst vs) -> offset (vs ++ ws) i = offset vs i.
Proof.
  induction vs as [|[j d] vs IH]; intros ws i H; [contradiction|]. cbn [app offset map fst In] in *.
  destruct (Z.eqb_spec i j); [reflexivity|]. rewrite IH; [reflexivity|]. destruct H; [congruence|assumption].
Qed.
Lemma offset_out : forall vs ws i, ~ In i (map fst vs) -> offset (vs ++ ws) i = dims vs + offset ws i.
Proof.
  unfold dims. induction vs as [|[j d] vs IH]; intros ws i H; [reflexivity|]. cbn [app offset map fst In fold_right snd] in *.
  destruct (Z.eqb_spec i j); [subst; tauto|]. rewrite IH by tauto. lia.
Qed.
Lemma offset_bound : forall vs i d, NoDup (map fst vs) -> In (i, d) vs -> offset vs i + d <= dims vs.
Proof.
  unfold dims. induction vs as [|[j e] vs IH]; intros i d ND H; [contradiction|]. cbn [offset fold_right snd map fst] in *.
  inversion ND; subst. destruct H as [H|H].
  - inversion H; subst. rewrite Z.eqb_refl. lia.
  - destruct (Z.eqb_spec i j) as [->|E].
    + exfalso. apply H2. apply in_map_iff. exists (j, d). auto.
    + specialize (IH i d H3 H). lia.
Qed.

(** ** Loads of chunks *)
Lemma load_chunk_vars : forall C A dc org k row a x,
  load_chunk C A dc org k row a x =
  load_vars (chunked_dims C dc) (fun i v => A i (row * org + k * dimchunk + v)) (fun _ => 0) 0 a x.
Proof.
  assert (G : forall C A dc org k row u a x, load_chunk C A dc org k row a x =
    load_vars (chunked_dims C dc) (fun i v => A i (row * org + k * dimchunk + v)) (fun _ => 0) u a x).
  { induction C as [|i C IH]; intros A dc org k row u a x; [reflexivity|].
    cbn [load_chunk chunked_dims map load_vars]. rewrite IH with (u := S u). reflexivity. }
  intros. apply G.
Qed.
Lemma load_chunk_hit : forall C A dc org k row a x i q, NoDup C -> In i C -> q < dc ->
  load_chunk C A dc org k row a x (a + offset (chunked_dims C dc) i + q) = A i (row * org + k * dimchunk + q).
Proof.
  intros C A dc org k row a x i q ND Hi Hq. rewrite load_chunk_vars.
  rewrite (load_vars_hit _ _ _ _ _ _ i dc); [reflexivity|rewrite chunked_fst; assumption| |assumption].
  apply in_map_iff. exists i. auto.
Qed.
Lemma load_chunk_below : forall C A dc org k row a x q, q < a -> load_chunk C A dc org k row a x q = x q.
Proof. intros. rewrite load_chunk_vars. apply load_vars_below. assumption. Qed.

Lemma chunk_copies_dst : forall C dc org k row a, map dst (chunk_copies C dc org k row a) = seq a (length C * dc).
Proof.
  induction C as [|i C IH]; intros dc org k row a; cbn [chunk_copies length Nat.mul]; [reflexivity|].
  rewrite map_app, map_map, IH. cbn [dst]. rewrite seq_app. f_equal.
  rewrite <- (map_id (seq a dc)). clear.
  assert (G : forall n s, map (fun v => a + v) (seq s n) = map (fun v => v) (seq (a + s) n)).
  { induction n as [|n IH]; intros s; cbn [seq map]; [reflexivity|]. f_equal. rewrite IH. f_equal. f_equal. lia. }
  rewrite G. rewrite Nat.add_0_r. reflexivity.
Qed.
Lemma chunk_copies_in : forall C dc org k row a i q, In i C -> NoDup C -> q < dc ->
  In {| dst := a + offset (chunked_dims C dc) i + q; src := i; spos := row * org + k * dimchunk + q |}
     (chunk_copies C dc org k row a).
Proof.
  induction C as [|j C IH]; intros dc org k row a i q Hi ND Hq; [contradiction|].
  cbn [chunk_copies chunked_dims map offset]. inversion ND; subst. apply in_or_app.
  destruct (Z.eqb_spec i j) as [->|E].
  - left. apply in_map_iff. exists q. split; [f_equal; lia|apply in_seq; lia].
  - right. destruct Hi as [Hi|Hi]; [congruence|]. specialize (IH dc org k row (a + dc) i q Hi H2 Hq).
    unfold chunked_dims in IH. rewrite Nat.add_assoc. exact IH.
Qed.

(** Slices at distance e of length l <= e - b, starting at b. *)
Lemma shifted_nodup : forall e b l n (g : nat -> list nat), b + l <= e ->
  (forall t, t < n -> g t = seq (t * e + b) l \/ g t = []) -> NoDup (flat_map g (seq 0 n)).
Proof.
  intros e b l n g Hl. induction n as [|n IH]; intros H; [constructor|].
  rewrite seq_S, flat_map_app. cbn [Nat.add flat_map]. rewrite app_nil_r. apply nodup_app.
  - apply IH. intros; apply H; lia.
  - destruct (H n ltac:(lia)) as [->| ->]; [apply seq_NoDup|constructor].
  - intros x H1 H2. apply in_flat_map in H1. destruct H1 as [t [Ht H1]]. apply in_seq in Ht.
    destruct (H t ltac:(lia)) as [E|E]; rewrite E in H1; [|contradiction].
    destruct (H n ltac:(lia)) as [F|F]; rewrite F in H2; [|contradiction].
    apply in_seq in H1, H2. assert ((t + 1) * e <= n * e) by (apply Nat.mul_le_mono_r; lia). lia.
Qed.

Lemma perform_miss : forall A l l' x q, Permutation l' l -> ~ In q (map dst l) -> perform A l' x q = x q.
Proof.
  intros A l l' x q P H. unfold perform, rupd. apply (assign_miss _ _ dst (fun c => A (src c) (spos c))).
  intros I. apply H. eapply Permutation_in; [apply Permutation_map, P|exact I].
Qed.

(** ** Lists of variables *)
Lemma positions_nodup : forall (key : Z -> nat * nat) (l : list fvar), NoDup l ->
  (forall v, In v l -> key (vpos v) = (vdim v, vcat v)) -> NoDup (map vpos l).
Proof.
  intros key l H. induction H as [|v l Hv Hl IH]; intros K; cbn [map]; constructor.
  - intros I. apply in_map_iff in I. destruct I as [w [E I]]. apply Hv.
    pose proof (K v (or_introl eq_refl)) as K1. pose proof (K w (or_intror I)) as K2. rewrite E in K2.
    assert (v = w); [|subst; assumption]. destruct v as [[i d] c], w as [[i' d'] c'].
    unfold vpos, vdim, vcat in *. cbn in *. congruence.
  - apply IH. intros; apply K; right; assumption.
Qed.

Section Lists.
Variables (order : list fvar -> list fvar) (decl : declaration) (f g p : fm).
Hypothesis Ho : enumerates order.
Hypothesis W : wf f.
Hypothesis D : declared decl f.
Hypothesis Hg : part g f.
Hypothesis U : use_chunk g = true.
Hypothesis Wg : wf g.
Hypothesis Hp : post_spec (nminargs f) g f p.

Definition nvars (c : nat) : list (Z * nat) := not_chunked order p (cvt dimchunk g) c.
Definition cinds (c : nat) : list Z := chunked_inds order (cvt dimchunk g) c.

Lemma cat_vars_in : forall x c v, In v (cat_vars x c) <-> In v (vars x) /\ vcat v = c.
Proof. intros x c v. unfold cat_vars. rewrite filter_In, Nat.eqb_eq. tauto. Qed.

Lemma post_declared : forall c i d, c <= 2 -> In (i, d, c) (vars p) -> In (i, d, c) (vars f) /\ decl i = (d, c).
Proof.
  intros c i d Hc H. destruct Hp as (_ & _ & V & _). apply V in H. destruct H as [H|H].
  - split; [assumption|]. eapply vars_declared; eauto.
  - inversion H. lia.
Qed.

Lemma nvars_perm : forall c, Permutation (order (union_vars (cat_vars p c) (notchunked_vars c (cvt dimchunk g))))
  (union_vars (cat_vars p c) []).
Proof. intros c. rewrite node_notchunked by assumption. apply Ho. Qed.

Lemma nvars_in : forall c i d, In (i, d) (nvars c) <-> In (i, d, c) (vars p).
Proof.
  intros c i d. unfold nvars, not_chunked. rewrite in_map_iff. split.
  - intros [[[i' d'] c'] [E H]]. cbn in E. inversion E; subst.
    apply (Permutation_in _ (nvars_perm c)) in H. apply union_vars_in in H. destruct H as [H|[]].
    apply cat_vars_in in H. destruct H as [H Hc]. cbn in Hc. unfold vcat in Hc. cbn in Hc. subst. assumption.
  - intros H. exists (i, d, c). split; [reflexivity|].
    apply (Permutation_in _ (Permutation_sym (nvars_perm c))). apply union_vars_in. left. apply cat_vars_in. auto.
Qed.

Lemma nvars_nodup : forall c, c <= 2 -> NoDup (map fst (nvars c)).
Proof.
  intros c Hc. unfold nvars, not_chunked. rewrite map_map. apply (positions_nodup decl).
  - eapply Permutation_NoDup; [apply Permutation_sym, nvars_perm|]. apply union_vars_nodup. constructor.
  - intros v H. apply (Permutation_in _ (nvars_perm c)) in H. apply union_vars_in in H. destruct H as [H|[]].
    apply cat_vars_in in H. destruct H as [H Hv]. destruct v as [[i d] c']. unfold vcat in Hv. cbn in Hv. subst.
    apply post_declared in H; [|assumption]. apply H.
Qed.

Lemma cinds_in : forall c i, In i (cinds c) <-> In (i, node_dim g, c) (vars g).
Proof.
  intros c i. unfold cinds, chunked_inds. rewrite in_map_iff.
  destruct (node_chunked dimchunk c g ltac:(unfold dimchunk; lia) U Wg) as [_ H]. split.
  - intros [v [E I]]. apply (Permutation_in _ (Ho _)) in I. apply H in I. rewrite <- E. apply I.
  - intros I. exists (i, dimchunk, c). split; [reflexivity|]. apply (Permutation_in _ (Permutation_sym (Ho _))).
    apply H. auto.
Qed.
Lemma cinds_nodup : forall c, NoDup (cinds c).
Proof.
  intros c. unfold cinds, chunked_inds.
  destruct (node_chunked dimchunk c g ltac:(unfold dimchunk; lia) U Wg) as [N H].
  apply (positions_nodup (fun _ => (dimchunk, c))).
  - eapply Permutation_NoDup; [apply Permutation_sym, Ho|exact N].
  - intros v I. apply (Permutation_in _ (Ho _)) in I. apply H in I. destruct I as (-> & -> & _). reflexivity.
Qed.
Lemma cinds_decl : forall c i, In i (cinds c) -> decl i = (node_dim g, c).
Proof.
  intros c i H. apply cinds_in in H. eapply vars_declared; [exact D|]. eapply part_vars; eauto.
Qed.
Lemma nvars_decl : forall c i d, c <= 2 -> In (i, d) (nvars c) -> decl i = (d, c).
Proof. intros c i d Hc H. apply nvars_in in H. apply post_declared in H; [|assumption]. apply H. Qed.

(** Positions in the lists of a category. *)
Hypothesis NoMix : forall c i d, c <= 2 -> In (i, d) (nvars c) -> ~ In i (cinds c).

Definition all (c dc : nat) : list (Z * nat) := sized (nvars c) (cinds c) dc.
Lemma all_fst : forall c dc, map fst (all c dc) = map fst (nvars c) ++ cinds c.
Proof. intros c dc. unfold all, sized. rewrite map_app. f_equal. apply (chunked_fst (cinds c) dc). Qed.
Lemma all_nodup : forall c dc, c <= 2 -> NoDup (map fst (all c dc)).
Proof.
  intros c dc Hc. rewrite all_fst. apply nodup_app; [apply nvars_nodup, Hc|apply cinds_nodup|].
  intros i H. apply in_map_iff in H. destruct H as [[i' d] [E H]]. cbn in E. subst. eapply NoMix; eauto.
Qed.
Lemma all_cat : forall c dc i, c <= 2 -> In i (map fst (all c dc)) -> snd (decl i) = c.
Proof.
  intros c dc i Hc H. rewrite all_fst in H. apply in_app_or in H. destruct H as [H|H].
  - apply in_map_iff in H. destruct H as [[i' d] [E H]]. cbn in E. subst. rewrite (nvars_decl c i d) by assumption. reflexivity.
  - rewrite (cinds_decl c i) by assumption. reflexivity.
Qed.

Variable tagI : nat.
Hypothesis T : tagI <= 1.

Lemma table_lookup : forall dc xi yj pp c i d, c <= 2 -> In (i, d) (all c dc) ->
  exists a, table {| varsI := all tagI dc; varsJ := all (1 - tagI) dc; varsP := all 2 dc |} xi yj pp i = Some a /\
    forall q, a q = (if c =? tagI then xi else if c =? 1 - tagI then yj else pp) (offset (all c dc) i + q).
Proof.
  intros dc xi yj pp c i d Hc H.
  assert (Miss : forall c', c' <= 2 -> c' <> c -> ~ In i (map fst (all c' dc))).
  { intros c' Hc' Ne I. apply all_cat in I; [|assumption].
    assert (I' : In i (map fst (all c dc))) by (apply in_map_iff; exists (i, d); auto).
    apply all_cat in I'; [|assumption]. congruence. }
  unfold table. cbn [varsI varsJ varsP].
  destruct (Nat.eqb_spec c tagI) as [->|N1].
  - rewrite table_fill_miss by (apply Miss; lia). rewrite table_fill_miss by (apply Miss; lia).
    apply (table_fill_hit _ xi 0 no_table i d); [apply all_nodup; lia|assumption].
  - destruct (Nat.eqb_spec c (1 - tagI)) as [->|N2].
    + rewrite table_fill_miss by (apply Miss; lia).
      apply (table_fill_hit _ yj 0 _ i d); [apply all_nodup; lia|assumption].
    + assert (c = 2) by lia. subst. apply (table_fill_hit _ pp 0 _ i d); [apply all_nodup; lia|assumption].
Qed.

Lemma table_none : forall dc xi yj pp i a,
  table {| varsI := all tagI dc; varsJ := all (1 - tagI) dc; varsP := all 2 dc |} xi yj pp i = Some a ->
  exists c d, c <= 2 /\ In (i, d) (all c dc).
Proof.
  intros dc xi yj pp i a H.
  assert (G : forall c, c <= 2 -> In i (map fst (all c dc)) -> exists c d, c <= 2 /\ In (i, d) (all c dc)).
  { intros c Hc I. apply in_map_iff in I. destruct I as [[i' d] [E I]]. cbn in E. subst. eauto. }
  unfold table in H. cbn [varsI varsJ varsP] in H.
  destruct (in_dec Z.eq_dec i (map fst (all 2 dc))) as [I|N2]; [apply (G 2); auto|].
  rewrite table_fill_miss in H by assumption.
  destruct (in_dec Z.eq_dec i (map fst (all (1 - tagI) dc))) as [I|N1]; [apply (G (1 - tagI)); auto; lia|].
  rewrite table_fill_miss in H by assumption.
  destruct (in_dec Z.eq_dec i (map fst (all tagI dc))) as [I|N0]; [apply (G tagI); auto; lia|].
  rewrite table_fill_miss in H by assumption. discriminate.
Qed.

(** ** Contents of the local arrays *)
Variable A : memory.
Definition row_of (n j c : nat) : nat := if c =? tagI then n else if c =? 1 - tagI then j else 0.
Definition at_point (n j : nat) : env :=
  match tagI with O => point decl (contiguous decl A) n j | _ => point decl (contiguous decl A) j n end.

Definition holds_n (c row : nat) (x : rarray) : Prop :=
  forall i d q, In (i, d) (nvars c) -> q < d -> x (offset (nvars c) i + q) = A i (row * d + q).
Definition holds_c (c dc k row : nat) (x : rarray) : Prop :=
  forall i q, In i (cinds c) -> q < dc ->
    x (dims (nvars c) + offset (chunked_dims (cinds c) dc) i + q) = A i (row * node_dim g + k * dimchunk + q).

Lemma at_point_row : forall n j i q, snd (decl i) <= 2 ->
  at_point n j i q = A i (row_of n j (snd (decl i)) * fst (decl i) + q).
Proof.
  intros n j i q H. unfold at_point, row_of, point, contiguous, row.
  destruct tagI as [|[|]]; [| |lia]; destruct (snd (decl i)) as [|[|[|]]]; try lia; reflexivity.
Qed.

(** Value of a variable in the table of chunk k. *)
Lemma table_value : forall dc k n j xi yj pp,
  (holds_n tagI n xi /\ holds_c tagI dc k n xi) ->
  (holds_n (1 - tagI) j yj /\ holds_c (1 - tagI) dc k j yj) ->
  (holds_n 2 0 pp /\ holds_c 2 dc k 0 pp) ->
  forall i d0 c0, In (i, d0, c0) (vars (cvt dc g)) -> snd (decl i) <= 2 ->
  (exists a, table {| varsI := all tagI dc; varsJ := all (1 - tagI) dc; varsP := all 2 dc |} xi yj pp i = Some a) ->
  forall q, q < d0 ->
    table_env (table {| varsI := all tagI dc; varsJ := all (1 - tagI) dc; varsP := all 2 dc |} xi yj pp) i q
    = chunk_of decl k (at_point n j) i q.
Proof.
  intros dc k n j xi yj pp Hi Hj Hpp i d0 c0 Hv Hcat [a Ha] q Hq.
  destruct (table_none _ _ _ _ _ _ Ha) as (c & d & Hc & I).
  destruct (table_lookup dc xi yj pp c i d Hc I) as (b & E & F). unfold table_env. rewrite E, F.
  assert (Hold : let x := if c =? tagI then xi else if c =? 1 - tagI then yj else pp in
                 holds_n c (row_of n j c) x /\ holds_c c dc k (row_of n j c) x).
  { cbv zeta. unfold row_of. destruct (Nat.eqb_spec c tagI) as [->|]; [assumption|].
    destruct (Nat.eqb_spec c (1 - tagI)) as [->|]; [assumption|]. assert (c = 2) by lia. subst. assumption. }
  cbv zeta in Hold. set (x := if c =? tagI then xi else if c =? 1 - tagI then yj else pp) in *. clearbody x.
  destruct Hold as [Hn Hcc]. destruct (node_large g U) as [L _].
  assert (Ci : snd (decl i) = c).
  { apply (all_cat c dc); [assumption|]. apply in_map_iff. exists (i, d). auto. }
  apply (node_vars dc g U Wg) in Hv.
  unfold all, sized in I |- *. apply in_app_or in I. destruct I as [I|I].
  - (* not chunked *)
    pose proof (nvars_decl c i d Hc I) as Hd.
    rewrite offset_in by (apply in_map_iff; exists (i, d); auto).
    destruct Hv as [[_ Hv]|[-> Hv]].
    + exfalso. pose proof (vars_declared decl f D _ _ _ (part_vars _ _ Hg _ Hv)) as Hd'.
      rewrite Hd in Hd'. injection Hd' as E1 E2. apply (NoMix c i d Hc I). apply cinds_in. rewrite E2. exact Hv.
    + apply part_vars with (f := f) in Hv; [|assumption]. pose proof (vars_declared decl f D _ _ _ Hv) as Hd'.
      rewrite Hd in Hd'. inversion Hd'; subst. rewrite (Hn i 1 q I Hq).
      unfold chunk_of. rewrite at_point_row by assumption. rewrite Hd. cbn [fst snd]. rewrite Nat.eqb_refl. reflexivity.
  - apply in_map_iff in I. destruct I as [i' [E' I]]. inversion E'; subst i' d.
    pose proof (cinds_decl c i I) as Hd.
    assert (Nn : ~ In i (map fst (nvars c))).
    { intros X. apply in_map_iff in X. destruct X as [[i' d] [E'' X]]. cbn in E''. subst. eapply NoMix; eauto. }
    rewrite offset_out by assumption. destruct Hv as [[-> Hv]|[-> Hv]].
    + fold (chunked_dims (cinds c) dc). rewrite (Hcc i q I Hq). unfold chunk_of. rewrite Hd. cbn [fst].
      destruct (Nat.eqb_spec (node_dim g) 1); [lia|]. rewrite at_point_row by assumption. rewrite Hd. cbn [fst snd].
      f_equal. change dimchunk with 64. lia.
    + apply part_vars with (f := f) in Hv; [|assumption]. pose proof (vars_declared decl f D _ _ _ Hv) as Hd'.
      rewrite Hd in Hd'. inversion Hd'. lia.
Qed.
(** ** Constants of the kernel *)
Definition kk : chunk_consts :=
  {| c_fun := cvt dimchunk g; c_last := cvt (chunk_last (node_dim g)) g; c_post := p;
     c_org := node_dim g; c_nchunks := chunk_count (node_dim g); c_dimlast := chunk_last (node_dim g);
     c_new := nminargs f;
     c_iN := nvars tagI; c_jN := nvars (1 - tagI); c_pN := nvars 2;
     c_iC := cinds tagI; c_jC := cinds (1 - tagI); c_pC := cinds 2 |}.
Lemma kk_dim : forall k, chunk_dim kk k = chunk_size (node_dim g) k.
Proof. reflexivity. Qed.
Lemma kk_size : forall k, 1 <= chunk_dim kk k <= 64.
Proof. intros k. destruct (node_large g U) as [L _]. apply chunk_size_bounds. lia. Qed.
Lemma kk_fun : forall k, chunk_fun kk k = cvt (chunk_dim kk k) g.
Proof. intros k. unfold chunk_fun, chunk_dim. cbn. destruct (k =? _); reflexivity. Qed.
Lemma kk_out : dim (c_fun kk) = 1.
Proof. apply node_cvt; auto. unfold dimchunk. lia. Qed.
Lemma kk_dimy : chunk_dimy kk = dims (nvars (1 - tagI)) + length (cinds (1 - tagI)) * 64.
Proof. unfold chunk_dimy, chunk_loader, sized. cbn. rewrite dims_app. f_equal. apply dims_chunked. Qed.

Hypothesis Tables : chunk_tables_ok kk = true.
Hypothesis Cats : categories decl.

Lemma found : forall dc xi yj pp k i d c, dc = chunk_dim kk k -> In (i, d, c) (vars (cvt dc g)) ->
  exists a, table {| varsI := all tagI dc; varsJ := all (1 - tagI) dc; varsP := all 2 dc |} xi yj pp i = Some a.
Proof.
  intros dc xi yj pp k i d c E H. unfold chunk_tables_ok in Tables. apply andb_true_iff in Tables.
  destruct Tables as [Tb _]. apply andb_true_iff in Tb. destruct Tb as [T1 T2].
  assert (X : table_ok (cvt dc g) (table {| varsI := all tagI dc; varsJ := all (1 - tagI) dc; varsP := all 2 dc |}
                (fun _ => 0%R) (fun _ => 0%R) (fun _ => 0%R)) = true).
  { subst dc. unfold chunk_dim. destruct (k =? c_nchunks kk - 1); [exact T2|exact T1]. }
  unfold table_ok in X. rewrite forallb_forall in X. specialize (X _ H). unfold vpos in X. cbn [fst] in X.
  destruct (table {| varsI := all tagI dc; varsJ := all (1 - tagI) dc; varsP := all 2 dc |}
                (fun _ => 0%R) (fun _ => 0%R) (fun _ => 0%R) i) eqn:Y; [|discriminate].
  destruct (table_none _ _ _ _ _ _ Y) as (c' & d' & Hc & I).
  destruct (table_lookup dc xi yj pp c' i d' Hc I) as (b & E' & _). eauto.
Qed.

(** Value of chunk k of the chunked formula. *)
Lemma chunk_value : forall k n j xi yj pp, let dc := chunk_dim kk k in
  (holds_n tagI n xi /\ holds_c tagI dc k n xi) ->
  (holds_n (1 - tagI) j yj /\ holds_c (1 - tagI) dc k j yj) ->
  (holds_n 2 0 pp /\ holds_c 2 dc k 0 pp) ->
  eval (chunk_fun kk k) (table_env (table (chunk_loader kk dc) xi yj pp)) 0
  = eval (cvt (chunk_size (node_dim g) k) g) (chunk_of decl k (at_point n j)) 0.
Proof.
  intros k n j xi yj pp dc Hi Hj Hpp. rewrite kk_fun. fold dc. rewrite <- kk_dim. fold dc.
  destruct (node_cvt g dc) as (_ & E & Wc); auto; [apply kk_size|].
  apply eval_agree; [assumption| |rewrite E; lia]. intros i d c Hv q Hq.
  apply (table_value dc k n j xi yj pp Hi Hj Hpp i d c Hv); [apply Cats| |assumption].
  exact (found dc xi yj pp k i d c eq_refl Hv).
Qed.

(** Value of the post-chunk formula. *)
Lemma post_value : forall n j xi yj pp fout, holds_n tagI n xi -> holds_n (1 - tagI) j yj -> holds_n 2 0 pp ->
  fout 0 = eval g (at_point n j) 0 ->
  forall k, k < dim f ->
  eval p (table_env (post_table kk xi yj pp fout)) k = eval f (at_point n j) k.
Proof.
  intros n j xi yj pp fout Hi Hj Hpp Hf k Hk. destruct Hp as (Ev & _ & Vp & Dp & Wp).
  rewrite <- Ev, <- Hf. rewrite <- Dp in Hk. apply eval_agree; [assumption| |assumption].
  intros i d c Hv q Hq. unfold post_table, put, table_env, with_value. cbn [c_new kk].
  destruct (Z.eqb_spec i (nminargs f)) as [->|Ne].
  - apply Vp in Hv. destruct Hv as [Hv|Hv].
    + apply nminargs_below in Hv. cbn in Hv. lia.
    + inversion Hv; subst. replace q with 0 by lia. reflexivity.
  - pose proof Hv as Hv0. apply Vp in Hv. destruct Hv as [Hv|Hv]; [|inversion Hv; congruence].
    pose proof (vars_declared decl f D _ _ _ Hv) as Hd.
    assert (Hc : c <= 2) by (specialize (Cats i); rewrite Hd in Cats; exact Cats).
    assert (I : In (i, d) (nvars c)) by (apply nvars_in; assumption).
    assert (I' : In (i, d) (all c dimchunk)) by (apply in_or_app; left; exact I).
    destruct (table_lookup dimchunk xi yj pp c i d Hc I') as (b & E & F).
    change (table (chunk_loader kk dimchunk) xi yj pp i = Some b) in E. rewrite E, F.
    unfold all, sized. rewrite offset_in by (apply in_map_iff; exists (i, d); auto).
    rewrite at_point_row by (rewrite Hd; exact Hc). rewrite Hd. cbn [fst snd]. unfold row_of.
    destruct (Nat.eqb_spec c tagI) as [->|]; [apply Hi; assumption|].
    destruct (Nat.eqb_spec c (1 - tagI)) as [->|]; [apply Hj; assumption|].
    assert (c = 2) by lia. subst. apply Hpp; assumption.
Qed.

(** ** Shared memory *)
Variables (o : nat -> list copy -> list copy) (bd ny : nat) (junk : rarray).
Hypothesis Perm : forall n l, Permutation (o n l) l.

Lemma tile_copies_dst : forall tile, NoDup (map dst (tile_copies kk bd ny tile)).
Proof.
  intros tile. unfold tile_copies. rewrite map_flat_map.
  apply (shifted_nodup (chunk_dimy kk) 0 (dims (nvars (1 - tagI)))); [rewrite kk_dimy; lia|].
  intros t _. rewrite Nat.add_0_r. destruct (tile * bd + t <? ny); [left; apply load_copies_dst|right; reflexivity].
Qed.
Lemma tile_copies_in : forall tile t i d q, t < bd -> tile * bd + t < ny -> In (i, d) (nvars (1 - tagI)) -> q < d ->
  In {| dst := t * chunk_dimy kk + offset (nvars (1 - tagI)) i + q; src := i; spos := (tile * bd + t) * d + q |}
     (tile_copies kk bd ny tile).
Proof.
  intros tile t i d q Ht Hj Hi Hq. unfold tile_copies. apply in_flat_map. exists t.
  split; [apply in_seq; lia|]. apply Nat.ltb_lt in Hj. rewrite Hj.
  exact (load_copies_in (nvars (1 - tagI)) (fun _ => tile * bd + t) 0 (t * chunk_dimy kk) i d
           (nvars_nodup (1 - tagI) ltac:(lia)) Hi q Hq).
Qed.
Lemma chunk_len : forall k, length (cinds (1 - tagI)) * chunk_dim kk k <= length (cinds (1 - tagI)) * 64.
Proof. intros k. apply Nat.mul_le_mono_l. apply kk_size. Qed.
Lemma tile_chunk_dst : forall tile k, NoDup (map dst (tile_chunk_copies kk bd ny tile k)).
Proof.
  intros tile k. unfold tile_chunk_copies. rewrite map_flat_map.
  apply (shifted_nodup (chunk_dimy kk) (dims (nvars (1 - tagI))) (length (cinds (1 - tagI)) * chunk_dim kk k)).
  - rewrite kk_dimy. pose proof (chunk_len k). lia.
  - intros t _. destruct (tile * bd + t <? ny); [left; apply chunk_copies_dst|right; reflexivity].
Qed.
Lemma tile_chunk_in : forall tile k t i q, t < bd -> tile * bd + t < ny -> In i (cinds (1 - tagI)) ->
  q < chunk_dim kk k ->
  In {| dst := t * chunk_dimy kk + dims (nvars (1 - tagI)) +
               offset (chunked_dims (cinds (1 - tagI)) (chunk_dim kk k)) i + q; src := i;
        spos := (tile * bd + t) * node_dim g + k * dimchunk + q |}
     (tile_chunk_copies kk bd ny tile k).
Proof.
  intros tile k t i q Ht Hj Hi Hq. unfold tile_chunk_copies. apply in_flat_map. exists t.
  split; [apply in_seq; lia|]. apply Nat.ltb_lt in Hj. rewrite Hj.
  exact (chunk_copies_in (cinds (1 - tagI)) (chunk_dim kk k) (node_dim g) k (tile * bd + t)
    (t * chunk_dimy kk + dims (nvars (1 - tagI))) i q Hi (cinds_nodup _) Hq).
Qed.
(** The loads of chunks leave the other variables. *)
Lemma tile_chunk_miss : forall tile k t q, q < dims (nvars (1 - tagI)) ->
  ~ In (t * chunk_dimy kk + q) (map dst (tile_chunk_copies kk bd ny tile k)).
Proof.
  intros tile k t q Hq H. unfold tile_chunk_copies in H. rewrite map_flat_map in H.
  apply in_flat_map in H. destruct H as [t' [_ H]]. destruct (tile * bd + t' <? ny); [|contradiction].
  rewrite chunk_copies_dst in H. apply in_seq in H. cbn [c_jN kk c_jC] in H.
  pose proof kk_dimy as Ey. pose proof (chunk_len k) as Lk.
  destruct (Nat.lt_trichotomy t t') as [L|[->|L]].
  - assert ((t + 1) * chunk_dimy kk <= t' * chunk_dimy kk) by (apply Nat.mul_le_mono_r; lia). lia.
  - lia.
  - assert ((t' + 1) * chunk_dimy kk <= t * chunk_dimy kk) by (apply Nat.mul_le_mono_r; lia). lia.
Qed.

Lemma after_chunk_n : forall tile k t q sh, q < dims (nvars (1 - tagI)) ->
  after_chunk o kk A bd ny tile k sh (t * chunk_dimy kk + q) = sh (t * chunk_dimy kk + q).
Proof.
  intros tile k t q sh Hq. induction k as [|k IH]; cbn [after_chunk];
    (rewrite (perform_miss A _ _ _ _ (Perm _ _)) by (apply tile_chunk_miss; assumption)); [reflexivity|exact IH].
Qed.

Lemma shared_holds : forall tile k t, t < bd -> tile * bd + t < ny ->
  let x := fun q => chunk_shared o kk A bd ny tile k junk (t * chunk_dimy kk + q) in
  holds_n (1 - tagI) (tile * bd + t) x /\ holds_c (1 - tagI) (chunk_dim kk k) k (tile * bd + t) x.
Proof.
  intros tile k t Ht Hj x. subst x. split.
  - intros i d q Hi Hq. pose proof (offset_bound _ i d (nvars_nodup (1 - tagI) ltac:(lia)) Hi) as B.
    unfold chunk_shared. rewrite after_chunk_n by lia. unfold after_loads.
    pose proof (perform_hit A _ _ (before_tile o kk A bd ny tile junk) _ (Perm (tile * S (c_nchunks kk)) _)
      (tile_copies_dst tile) (tile_copies_in tile t i d q Ht Hj Hi Hq)) as H. cbn [dst src spos] in H.
    rewrite <- Nat.add_assoc in H. exact H.
  - intros i q Hi Hq. unfold chunk_shared.
    assert (G : forall sh, after_chunk o kk A bd ny tile k sh
       (t * chunk_dimy kk + dims (nvars (1 - tagI)) + offset (chunked_dims (cinds (1 - tagI)) (chunk_dim kk k)) i + q)
       = A i ((tile * bd + t) * node_dim g + k * dimchunk + q)).
    { intros sh. destruct k as [|k]; cbn [after_chunk];
        exact (perform_hit A _ _ _ _ (Perm _ _) (tile_chunk_dst tile _) (tile_chunk_in tile _ t i q Ht Hj Hi Hq)). }
    rewrite <- G with (sh := after_loads o kk A bd ny tile (before_tile o kk A bd ny tile junk)).
    f_equal. lia.
Qed.

(** ** A thread *)
Hypothesis Params : nvars 2 = [] \/ cinds 2 = [].
Variable n : nat.
Definition good (st : chunk_state) : Prop := holds_n tagI n (sxi st) /\ holds_n 2 0 (spp st).

Lemma for_upR_cells : forall m (h : nat -> R -> R) x q,
  for_upR m (fun j x => rupd x (j * 1) (h j (x (j * 1)))) x q = if q <? m then h q (x q) else x q.
Proof.
  induction m as [|m IH]; intros h x q; [reflexivity|]. cbn [for_upR]. unfold rupd at 1.
  rewrite Nat.mul_1_r. destruct (Nat.eqb_spec q m) as [->|E].
  - rewrite IH. rewrite (proj2 (Nat.ltb_ge m m)) by lia. rewrite (proj2 (Nat.ltb_lt m (S m))) by lia. reflexivity.
  - rewrite IH. destruct (Nat.ltb_spec q m), (Nat.ltb_spec q (S m)); try lia; reflexivity.
Qed.

Definition chunk_val (k j : nat) : R :=
  eval (cvt (chunk_size (node_dim g) k) g) (chunk_of decl k (at_point n j)) 0.

Lemma chunk_sub_ok : forall tile k st, good st ->
  let sh := chunk_shared o kk A bd ny tile k junk in
  let st' := chunk_sub kk A bd ny n tile k sh st in
  good st' /\ sacc st' = sacc st /\
  (forall jrel, jrel < Nat.min bd (ny - tile * bd) ->
     sfout st' jrel = (sfout st jrel + chunk_val k (tile * bd + jrel))%R).
Proof.
  intros tile k st [Gi Gp] sh st'. subst st'.
  pose proof (nvars_nodup tagI ltac:(lia)) as Ni. pose proof (nvars_nodup 2 ltac:(lia)) as Np.
  set (dc := chunk_dim kk k).
  set (xi := load_chunk (c_iC kk) A dc (c_org kk) k n (dims (c_iN kk)) (sxi st)).
  set (pp := load_chunk (c_pC kk) A dc (c_org kk) k 0 0 (spp st)).
  assert (Hxi : holds_n tagI n xi /\ holds_c tagI dc k n xi).
  { split.
    - intros i d q Hi Hq. pose proof (offset_bound _ i d Ni Hi). unfold xi. cbn [c_iC c_iN kk c_org].
      rewrite load_chunk_below by lia. apply Gi; assumption.
    - intros i q Hi Hq. unfold xi. cbn [c_iC c_iN kk c_org]. apply load_chunk_hit; auto. apply cinds_nodup. }
  assert (Hpp : holds_n 2 0 pp /\ holds_c 2 dc k 0 pp).
  { unfold pp. cbn [c_pC kk c_org]. destruct Params as [E|E].
    - split.
      + intros i d q Hi. rewrite E in Hi. contradiction.
      + intros i q Hi Hq. rewrite E. cbn [dims fold_right]. apply load_chunk_hit; auto. apply cinds_nodup.
    - split.
      + rewrite E. exact Gp.
      + intros i q Hi. rewrite E in Hi. contradiction. }
  split; [split; [apply Hxi|apply Hpp]|]. split; [reflexivity|].
  intros jrel Hj. unfold chunk_sub. cbn [sfout]. fold dc. fold xi. fold pp. rewrite kk_out.
  rewrite (for_upR_cells _ (fun j v => (v + eval (chunk_fun kk k)
     (table_env (table (chunk_loader kk dc) xi (fun q => sh (j * chunk_dimy kk + q)%nat) pp)) 0)%R)).
  apply Nat.ltb_lt in Hj. rewrite Hj. apply Nat.ltb_lt in Hj. f_equal.
  apply (chunk_value k n (tile * bd + jrel)); [assumption| |assumption].
  apply shared_holds; lia.
Qed.

Lemma chunks_ok : forall tile m st, good st ->
  let st' := for_up m (fun k => chunk_sub kk A bd ny n tile k (chunk_shared o kk A bd ny tile k junk)) st in
  good st' /\ sacc st' = sacc st /\
  (forall jrel, jrel < Nat.min bd (ny - tile * bd) ->
     sfout st' jrel = (sfout st jrel + rsum m (fun k => chunk_val k (tile * bd + jrel)))%R).
Proof.
  intros tile m st G. induction m as [|m IH]; cbn [for_up rsum].
  - split; [assumption|]. split; [reflexivity|]. intros. ring.
  - destruct IH as (G' & E & F). destruct (chunk_sub_ok tile m _ G') as (G2 & E2 & F2).
    split; [exact G2|]. split; [etransitivity; [exact E2|exact E]|]. intros jrel Hj.
    etransitivity; [exact (F2 jrel Hj)|]. rewrite (F jrel Hj). ring.
Qed.

Variables (r : reduction) (s : scheme) (op : scheme_ops).
Hypothesis Rd : reduction_of (dim f) r.
Hypothesis Eop : scheme_code r s = Ok op.

Lemma chunk_tile_ok : forall tile st, good st ->
  let st' := chunk_tile r op kk A bd ny n (fun tile k => chunk_shared o kk A bd ny tile k junk) tile st in
  good st' /\
  sacc st' = final_op op (for_up (Nat.min bd (ny - tile * bd)) (fun jrel a =>
        accumulate op a (terms decl A f tagI n (tile * bd + jrel)) (Z.of_nat (jrel + tile * bd)))
      (fst (sacc st), block_init op (snd (sacc st)))).
Proof.
  intros tile st G. cbv zeta. unfold chunk_tile. cbv zeta.
  set (m := Nat.min bd (ny - tile * bd)).
  match goal with |- context [for_up (c_nchunks kk) _ ?s0] => set (s1 := s0) end.
  assert (G1 : good s1) by exact G.
  destruct (chunks_ok tile (c_nchunks kk) s1 G1) as (G2 & E2 & F2). cbv zeta in G2, E2, F2.
  match goal with |- context [for_up (c_nchunks kk) ?b s1] => set (s2 := for_up (c_nchunks kk) b s1) in * end.
  split; [exact G2|]. cbn [sacc]. f_equal. rewrite E2. cbn [sacc s1]. apply for_up_ext.
  intros jrel a Hj. eapply ops_local; [exact Rd|exact Eop|]. intros k Hk. unfold terms. f_equal.
  change (match tagI with 0 => point decl (contiguous decl A) n (tile * bd + jrel)
          | S _ => point decl (contiguous decl A) (tile * bd + jrel) n end) with (at_point n (tile * bd + jrel)).
  apply post_value; [apply G2| |apply G2| |assumption].
  - apply shared_holds; lia.
  - rewrite Nat.add_0_r, kk_out, Nat.mul_1_r. rewrite (F2 jrel Hj). unfold s1. cbn [sfout]. rewrite kk_out.
    rewrite (for_upR_cells _ (fun _ _ => 0%R)). unfold m in Hj. fold m in Hj. apply Nat.ltb_lt in Hj. rewrite Hj.
    rewrite Rplus_0_l. symmetry. apply node_value; try assumption. eapply part_declared; eauto.
Qed.

Lemma thread_chunks_ok : forall regs tmp,
  thread_chunks r op kk A bd ny n (fun tile k => chunk_shared o kk A bd ny tile k junk) regs tmp =
  tiled r op bd ny (tiles bd ny) (terms decl A f tagI n) tmp.
Proof.
  intros regs tmp. unfold thread_chunks, tiled.
  match goal with |- sacc (for_up _ _ ?s0) = _ => set (s1 := s0) end.
  assert (G : good s1).
  { pose proof (nvars_nodup tagI ltac:(lia)) as Ni. pose proof (nvars_nodup 2 ltac:(lia)) as Np. split.
    - intros i d q Hi Hq. pose proof (load_vars_hit (nvars tagI) A (fun _ => n) 0 0 regs i d Ni Hi q Hq) as H. exact H.
    - intros i d q Hi Hq. pose proof (load_vars_hit (nvars 2) A (fun _ => 0) 0 0 regs i d Np Hi q Hq) as H. exact H. }
  assert (X : forall m, good (for_up m (chunk_tile r op kk A bd ny n (fun tile k => chunk_shared o kk A bd ny tile k junk)) s1) /\
    sacc (for_up m (chunk_tile r op kk A bd ny n (fun tile k => chunk_shared o kk A bd ny tile k junk)) s1) =
    for_up m (fun tile st =>
      final_op op (for_up (Nat.min bd (ny - tile * bd)) (fun jrel st =>
        accumulate op st (terms decl A f tagI n (tile * bd + jrel)) (Z.of_nat (jrel + tile * bd)))
      (fst st, block_init op (snd st)))) (rinit r, first_init op tmp)).
  { induction m as [|m [IH1 IH2]]; cbn [for_up]; [split; [exact G|reflexivity]|].
    destruct (chunk_tile_ok m _ IH1) as [H1 H2]. split; [exact H1|]. etransitivity; [exact H2|].
    rewrite IH2. reflexivity. }
  apply X.
Qed.
End Lists.

(** ** Mode selection *)
Lemma mode_total : forall order f tagI, wf f -> exists b, chunk_mode order f tagI = Ok b.
Proof.
  intros order f tagI W. unfold chunk_mode.
  rewrite chunked_formulas_nodes by (assumption || (unfold dimchunk; lia)). cbn [rbind]. rewrite map_length.
  destruct (Nat.eqb_spec (length (chunk_nodes f)) 1) as [E|E]; [|eauto].
  destruct (chunk_nodes f) as [|g [|]] eqn:F; try discriminate.
  destruct (constants_ok order f tagI g W F) as (p & _ & ->). cbn [rbind]. eauto.
Qed.

Lemma mode_true : forall order f tagI, wf f -> chunk_mode order f tagI = Ok true ->
  exists g, is_node f g /\ exists K, chunk_constants order f tagI = Ok K /\ chunk_mix K tagI = false.
Proof.
  intros order f tagI W H. unfold chunk_mode in H.
  rewrite chunked_formulas_nodes in H by (assumption || (unfold dimchunk; lia)). cbn [rbind] in H. rewrite map_length in H.
  destruct (Nat.eqb_spec (length (chunk_nodes f)) 1) as [E|E]; [|discriminate].
  destruct (chunk_nodes f) as [|g [|]] eqn:F; try discriminate. exists g. split; [exact F|].
  destruct (constants_ok order f tagI g W F) as (p & _ & E'). rewrite E' in H |- *. cbn [rbind] in H. eexists. split; [reflexivity|].
  injection H as H. apply negb_true_iff in H. exact H.
Qed.

Lemma meets_false : forall l m i d, meets l m = false -> In (i, d) l -> ~ In i m.
Proof.
  intros l m i d H Hi Hm. unfold meets in H. assert (X : existsb (fun v => existsb (Z.eqb (fst v)) m) l = true); [|congruence].
  apply existsb_exists. exists (i, d). split; [assumption|]. apply existsb_exists. exists i. split; [assumption|]. apply Z.eqb_refl.
Qed.

Lemma mode_parts : forall order decl f tagI, wf f -> declared decl f -> enumerates order -> tagI <= 1 ->
  chunk_mode order f tagI = Ok true ->
  exists g p, part g f /\ use_chunk g = true /\ wf g /\ post_spec (nminargs f) g f p /\
    chunk_constants order f tagI = Ok (kk order f g p tagI) /\
    (forall c i d, c <= 2 -> In (i, d) (nvars order g p c) -> ~ In i (cinds order g c)).
Proof.
  intros order decl f tagI W D Ho T H. destruct (mode_true order f tagI W H) as (g & F & K & EK & M).
  destruct (chunk_nodes_in f g W) as (Pg & U & Wg); [rewrite F; left; reflexivity|].
  destruct (constants_ok order f tagI g W F) as (p & Sp & E). exists g, p.
  do 4 (split; [assumption|]). split; [exact E|].
  rewrite E in EK. injection EK as EK. intros c i d Hc Hi.
  assert (I : In (i, d) (vars_cat p c)).
  { apply vars_cat_in. apply (nvars_in order g p Ho U) in Hi. exact Hi. }
  rewrite <- EK in M. unfold chunk_mix in M. cbn [c_post c_iC c_jC c_pC] in M.
  apply orb_false_iff in M. destruct M as [M M2]. apply orb_false_iff in M. destruct M as [M0 M1].
  destruct (Nat.eq_dec c tagI) as [->|]; [exact (meets_false _ _ i d M0 I)|].
  destruct (Nat.eq_dec c (1 - tagI)) as [->|]; [exact (meets_false _ _ i d M1 I)|].
  assert (c = 2) by lia. subst. exact (meets_false _ _ i d M2 I).
Qed.

(** ** The launch *)
Lemma chunks_1d : forall order decl f r s op tagI A M N bd o m out out' K,
  declared decl f -> wf f -> categories decl -> tagI <= 1 -> enumerates order ->
  reduction_of (dim f) r -> scheme_code r s = Ok op -> orders_ok o -> 0 < out_rows tagI M N ->
  chunk_mode order f tagI = Ok true -> chunk_constants order f tagI = Ok K ->
  c_pN K = [] \/ c_pC K = [] ->
  launch_chunks order o m r s f tagI A M N bd out = Ok out' ->
    1 <= bd /\
    (forall n k, n < out_rows tagI M N -> k < rdim r ->
       out' (n * rdim r + k) =
       rfinal r (fst (tiled r op bd (red_terms tagI M N) (tiles bd (red_terms tagI M N))
                        (terms decl A f tagI n) (jtmp m n))) k) /\
    (forall q, out_rows tagI M N * rdim r <= q -> out' q = out q).
Proof.
  intros order decl f r s op tagI A M N bd o m out out' K D W C T Ho R Eop [Ol Os] Hx Mode EK Par L.
  destruct (mode_parts order decl f tagI W D Ho T Mode) as (g & p & Pg & U & Wg & Sp & E & Mix).
  rewrite E in EK. injection EK as <-. cbn [c_pN c_pC kk] in Par. unfold launch_chunks in L. rewrite E in L.
  cbn [rbind] in L. set (K := kk order f g p tagI) in *.
  assert (E1 : (if Nat.eqb tagI 1 then (N, M) else (M, N)) = (out_rows tagI M N, red_terms tagI M N)).
  { destruct tagI as [|[|]]; [reflexivity|reflexivity|lia]. }
  rewrite E1 in L. destruct (chunk_tables_ok K) eqn:Tb; [|discriminate]. rewrite Eop in L. cbn [rbind] in L.
  set (nx := out_rows tagI M N) in *. set (ny := red_terms tagI M N) in *.
  destruct ((bd =? 0) || (blocks nx bd =? 0)) eqn:E0; [discriminate|]. injection L as L.
  apply orb_false_iff in E0. destruct E0 as [Hb _]. apply Nat.eqb_neq in Hb. assert (1 <= bd) as Hb' by lia.
  split; [exact Hb'|].
  destruct (tiles_bounds bd nx Hb') as [Hg _]. rewrite <- blocks_tiles in Hg by assumption.
  set (v := fun i => rfinal r (fst (thread_chunks r op K A bd ny i
     (fun tile k => chunk_shared (load_order o (i / bd)) K A bd ny tile k (jshared m (i / bd))) (jregs m i) (jtmp m i)))).
  destruct (grid_output (blocks nx bd * bd) nx (rdim r) v
              (store_order o (stores_chunks o m r op K A nx ny bd)) out Hg (Os _)) as [H1 H2].
  rewrite <- L. split; [|exact H2]. intros n k Hn Hk. rewrite (H1 n k Hn Hk). unfold v.
  unfold K. rewrite (thread_chunks_ok order decl f g p Ho D Pg U Wg Sp Mix tagI T A Tb C
     (load_order o (n / bd)) bd ny (jshared m (n / bd)) ltac:(intros; apply Ol) Par n r s op R Eop). reflexivity.
Qed.

Lemma chunks_sum : forall order decl f s tagI A M N bd o m out out' K,
  declared decl f -> wf f -> categories decl -> tagI <= 1 -> enumerates order ->
  orders_ok o -> 0 < out_rows tagI M N ->
  chunk_mode order f tagI = Ok true -> chunk_constants order f tagI = Ok K ->
  c_pN K = [] \/ c_pC K = [] ->
  launch_chunks order o m (Sum_Red (dim f)) s f tagI A M N bd out = Ok out' ->
    (forall n k, n < out_rows tagI M N -> k < dim f ->
       out' (n * dim f + k) =
       Fin (reduce_sum decl (contiguous decl A) M N {| sformula := f; stagI := tagI |} n k)) /\
    (forall q, out_rows tagI M N * dim f <= q -> out' q = out q).
Proof.
  intros order decl f s tagI A M N bd o m out out' K D W C T Ho O Hx Mode EK Par L.
  assert (Eop : exists op, scheme_code (Sum_Red (dim f)) s = Ok op) by (destruct s; cbn; eauto).
  destruct Eop as [op Eop].
  destruct (chunks_1d order decl f (Sum_Red (dim f)) s op tagI A M N bd o m out out' K D W C T Ho (RSum _) Eop O Hx Mode EK Par L)
    as [Hb [H1 H2]].
  split; [|exact H2]. intros n k Hn Hk.
  cbn [rdim Sum_Red rfinal] in H1. rewrite (H1 n k Hn Hk).
  set (x := fun j k => eval f (match tagI with O => point decl (contiguous decl A) n j
                               | _ => point decl (contiguous decl A) j n end) k).
  rewrite (tiled_sum s (dim f) op bd (red_terms tagI M N) (terms decl A f tagI n) (jtmp m n) x k Hb Eop).
  - f_equal. unfold reduce_sum. cbn [stagI sformula]. destruct tagI; reflexivity.
  - intros j q _ _. reflexivity.
  - assumption.
Qed.

Lemma chunks_direct : forall order decl f r tagI A M N bd o m out out' K,
  declared decl f -> wf f -> categories decl -> tagI <= 1 -> enumerates order -> reduction_of (dim f) r ->
  orders_ok o -> 0 < out_rows tagI M N ->
  chunk_mode order f tagI = Ok true -> chunk_constants order f tagI = Ok K ->
  c_pN K = [] \/ c_pC K = [] ->
  launch_chunks order o m r direct_sum f tagI A M N bd out = Ok out' ->
    (forall n k, n < out_rows tagI M N -> k < rdim r ->
       out' (n * rdim r + k) =
       rfinal r (run r (dense (red_terms tagI M N) (terms decl A f tagI n)) (rinit r)) k) /\
    (forall q, out_rows tagI M N * rdim r <= q -> out' q = out q).
Proof.
  intros order decl f r tagI A M N bd o m out out' K D W C T Ho R O Hx Mode EK Par L.
  destruct (chunks_1d order decl f r direct_sum _ tagI A M N bd o m out out' K D W C T Ho R eq_refl O Hx Mode EK Par L)
    as [Hb [H1 H2]].
  split; [|exact H2]. intros n k Hn Hk. rewrite (H1 n k Hn Hk).
  rewrite tiled_direct by (try assumption; reflexivity). reflexivity.
Qed.

Lemma chunks_lse : forall order decl f s w tagI A M N bd o m out out' K,
  declared decl f -> wf f -> categories decl -> tagI <= 1 -> enumerates order -> orders_ok o ->
  0 < out_rows tagI M N -> dim f = S w -> s <> kahan_scheme -> 0 < red_terms tagI M N ->
  chunk_mode order f tagI = Ok true -> chunk_constants order f tagI = Ok K ->
  c_pN K = [] \/ c_pC K = [] ->
  launch_chunks order o m (LSE_Red w) s f tagI A M N bd out = Ok out' ->
    (forall n k, n < out_rows tagI M N -> k < w ->
       let es := taken (red_terms tagI M N) (entry_of decl A f tagI n) in
       (0 < exp_sum k es)%R ->
       lse_post (fun q => out' (n * S w + q)) k = Fin (ln (exp_sum k es))) /\
    (forall q, out_rows tagI M N * S w <= q -> out' q = out q).
Proof.
  intros order decl f s w tagI A M N bd o m out out' K D W C T Ho O Hx Dw Hs Hr Mode EK Par L.
  assert (Eop : exists op, scheme_code (LSE_Red w) s = Ok op) by (destruct s; cbn; eauto; congruence).
  destruct Eop as [op Eop].
  destruct (chunks_1d order decl f (LSE_Red w) s op tagI A M N bd o m out out' K D W C T Ho (RLse _ _ Dw) Eop O Hx Mode EK Par L)
    as [Hb [H1 H2]].
  split; [|exact H2]. intros n k Hn Hk es Hp.
  cbn [rdim LSE_Red rfinal] in H1. unfold lse_post. rewrite (H1 n 0), (H1 n (S k)) by lia.
  rewrite (tiled_local (dim f) (LSE_Red w) s op bd (red_terms tagI M N) _ (terms decl A f tagI n)
             (lse_terms (entry_of decl A f tagI n)) (jtmp m n) Hb (le_n _) (RLse _ _ Dw) Eop).
  - apply (rep_log w _ es k); [|assumption|assumption].
    apply (tiled_lse s w op); try assumption. intros j Hj. destruct tagI; discriminate.
  - intros j Hj. rewrite Dw. apply terms_lse. assumption.
Qed.

(** ** Completeness of the tables *)
Lemma tables_complete : forall order decl f tagI K, wf f -> declared decl f -> categories decl ->
  enumerates order -> tagI <= 1 ->
  chunk_mode order f tagI = Ok true -> chunk_constants order f tagI = Ok K ->
  (forall v, In v (vars (c_fun K)) -> vdim v = 1 -> In v (vars (c_post K))) ->
  chunk_tables_ok K = true.
Proof.
  intros order decl f tagI K W D C Ho T Mode EK Sc.
  destruct (mode_parts order decl f tagI W D Ho T Mode) as (g & p & Pg & U & Wg & Sp & E & Mix).
  rewrite E in EK. injection EK as <-. cbn [c_fun c_post kk] in Sc.
  pose proof (node_large g U) as [L _].
  assert (Look : forall dc c i d, c <= 2 -> In (i, d) (all order g p c dc) ->
     exists a, table (chunk_loader (kk order f g p tagI) dc) (fun _ => 0%R) (fun _ => 0%R) (fun _ => 0%R) i = Some a).
  { intros dc c i d Hc I. destruct (table_lookup order decl f g p Ho D Pg U Wg Sp Mix tagI T dc
      (fun _ => 0%R) (fun _ => 0%R) (fun _ => 0%R) c i d Hc I) as (a & Ea & _). exists a. exact Ea. }
  assert (Cat : forall i d c, In (i, d, c) (vars f) -> c <= 2).
  { intros i d c H. pose proof (vars_declared decl f D _ _ _ H) as X. specialize (C i). rewrite X in C. exact C. }
  assert (G : forall dc, table_ok (cvt dc g) (table (chunk_loader (kk order f g p tagI) dc)
             (fun _ => 0%R) (fun _ => 0%R) (fun _ => 0%R)) = true).
  { intros dc. unfold table_ok. apply forallb_forall. intros [[i d] c] H. unfold vpos. cbn [fst].
    assert (exists a, table (chunk_loader (kk order f g p tagI) dc) (fun _ => 0%R) (fun _ => 0%R) (fun _ => 0%R) i = Some a) as [a ->]; [|reflexivity].
    apply (node_vars dc g U Wg) in H. destruct H as [[_ H]|[_ H]].
    - apply (Look dc c i dc); [eapply Cat, part_vars; eauto|]. unfold all, sized. apply in_or_app. right.
      apply in_map_iff. exists i. split; [reflexivity|]. apply (cinds_in order g Ho U Wg). exact H.
    - apply (Look dc c i 1); [eapply Cat, part_vars; eauto|]. unfold all, sized. apply in_or_app. left.
      apply (nvars_in order g p Ho U). apply (Sc (i, 1, c)); [|reflexivity].
      apply scalar_kept; assumption. }
  unfold chunk_tables_ok. cbv zeta. apply andb_true_iff. split.
  { apply andb_true_iff. split; [exact (G dimchunk)|exact (G (chunk_last (node_dim g)))]. }
  unfold table_ok. apply forallb_forall. intros [[i d] c] H. unfold vpos. cbn [fst c_post kk] in *.
  unfold post_table, put. cbn [c_new kk]. destruct (Z.eqb_spec i (nminargs f)); [reflexivity|].
  destruct Sp as (_ & _ & Vp & _ & _). pose proof H as H0. apply Vp in H0. destruct H0 as [H0|H0]; [|inversion H0; congruence].
  destruct (Look dimchunk c i d (Cat _ _ _ H0)) as [a ->]; [|reflexivity].
  apply in_or_app. left. apply (nvars_in order g p Ho U). exact H.
Qed.

(** ** Formulas *)
Lemma formula_value : forall order decl f tagI, wf f -> declared decl f -> enumerates order -> tagI <= 1 ->
  chunk_mode order f tagI = Ok true ->
  exists K, chunk_constants order f tagI = Ok K /\
  forall e k, eval f e k =
    eval (c_post K) (with_value e (c_new K)
      (rsum (c_nchunks K) (fun n => eval (chunk_fun K n) (chunk_of decl n e) 0))) k.
Proof.
  intros order decl f tagI W D Ho T Mode.
  destruct (mode_parts order decl f tagI W D Ho T Mode) as (g & p & Pg & U & Wg & Sp & E & _).
  exists (kk order f g p tagI). split; [exact E|]. intros e k. destruct Sp as (Ev & _).
  rewrite <- (Ev e k). cbn [c_post c_new c_nchunks kk]. 
  rewrite (node_value decl g e (part_declared _ _ _ Pg D) U Wg 0).
  assert (X : rsum (chunk_count (node_dim g)) (fun n => eval (chunk_fun (kk order f g p tagI) n) (chunk_of decl n e) 0) =
              rsum (chunk_count (node_dim g)) (fun n => eval (cvt (chunk_size (node_dim g) n) g) (chunk_of decl n e) 0)).
  { apply rsum_ext. intros n _. rewrite kk_fun, kk_dim. reflexivity. }
  rewrite X. reflexivity.
Qed.

Lemma chunk_partition : forall order decl f tagI K, wf f -> declared decl f -> enumerates order -> tagI <= 1 ->
  chunk_mode order f tagI = Ok true -> chunk_constants order f tagI = Ok K ->
  (forall c i, In i (chunked_inds order (c_fun K) c) -> decl i = (c_org K, c)) /\
  (forall k v, k < c_nchunks K -> v < chunk_dim K k -> 64 * k + v < c_org K) /\
  (forall q, q < c_org K -> exists k v, k < c_nchunks K /\ v < chunk_dim K k /\ q = 64 * k + v) /\
  (forall k v k' v', v < chunk_dim K k -> v' < chunk_dim K k' -> 64 * k + v = 64 * k' + v' -> k = k' /\ v = v').
Proof.
  intros order decl f tagI K W D Ho T Mode EK.
  destruct (mode_parts order decl f tagI W D Ho T Mode) as (g & p & Pg & U & Wg & Sp & E & _).
  rewrite E in EK. injection EK as <-. pose proof (node_large g U) as [L _].
  split; [intros c i H; exact (cinds_decl order decl f g Ho D Pg U Wg c i H)|].
  cbn [c_org c_nchunks kk].
  destruct (chunk_sizes (node_dim g) ltac:(lia)) as [B1 B2].
  assert (P : 1 <= chunk_count (node_dim g)) by (unfold chunk_count; lia).
  assert (S : forall k, chunk_dim (kk order f g p tagI) k <= 64).
  { intros k. rewrite kk_dim. apply chunk_size_bounds. lia. }
  split; [|split].
  - intros k v Hk Hv. rewrite kk_dim in Hv. unfold chunk_size in Hv. change dimchunk with 64 in Hv.
    destruct (Nat.eqb_spec k (chunk_count (node_dim g) - 1)); nia.
  - intros q Hq. exists (q / 64), (q mod 64). pose proof (Nat.div_mod q 64 ltac:(lia)).
    pose proof (Nat.mod_upper_bound q 64 ltac:(lia)).
    assert (q / 64 < chunk_count (node_dim g)).
    { apply Nat.div_lt_upper_bound; lia. }
    split; [assumption|]. split; [|assumption].
    rewrite kk_dim. unfold chunk_size. change dimchunk with 64.
    destruct (Nat.eqb_spec (q / 64) (chunk_count (node_dim g) - 1)); nia.
  - intros k v k' v' Hv Hv' Hq. pose proof (S k). pose proof (S k'). lia.
Qed.

(** No vector parameter: the condition on parameters holds. *)
Lemma scalar_parameters : forall order decl f tagI K, wf f -> declared decl f -> enumerates order -> tagI <= 1 ->
  chunk_mode order f tagI = Ok true -> chunk_constants order f tagI = Ok K ->
  (forall v, In v (vars f) -> vcat v = 2 -> vdim v = 1) -> c_pC K = [].
Proof.
  intros order decl f tagI K W D Ho T Mode EK H.
  destruct (mode_parts order decl f tagI W D Ho T Mode) as (g & p & Pg & U & Wg & Sp & E & _).
  rewrite E in EK. injection EK as <-. pose proof (node_large g U) as [L _]. cbn [c_pC kk].
  destruct (cinds order g 2) as [|i l] eqn:X; [reflexivity|]. exfalso.
  assert (I : In i (cinds order g 2)) by (rewrite X; left; reflexivity).
  apply (cinds_in order g Ho U Wg) in I. apply (part_vars _ _ Pg) in I. apply H in I; [|reflexivity].
  unfold vdim in I. cbn in I. lia.
Qed.

(** Launches of formulas without scalar variables and without parameters. *)
Lemma launch_ok : forall order decl f r s op tagI A M N bd o m out,
  declared decl f -> wf f -> categories decl -> tagI <= 1 -> enumerates order ->
  scheme_code r s = Ok op -> 1 <= bd -> 0 < out_rows tagI M N ->
  chunk_mode order f tagI = Ok true -> (forall K, chunk_constants order f tagI = Ok K ->
     forall v, In v (vars (c_fun K)) -> vdim v = 1 -> In v (vars (c_post K))) ->
  exists out', launch_chunks order o m r s f tagI A M N bd out = Ok out'.
Proof.
  intros order decl f r s op tagI A M N bd o m out D W C T Ho Eop Hb Hx Mode Sc.
  destruct (formula_value order decl f tagI W D Ho T Mode) as (K & EK & _).
  pose proof (tables_complete order decl f tagI K W D C Ho T Mode EK (Sc K EK)) as Tb.
  unfold launch_chunks. rewrite EK. cbn [rbind].
  assert (E1 : (if Nat.eqb tagI 1 then (N, M) else (M, N)) = (out_rows tagI M N, red_terms tagI M N)).
  { destruct tagI as [|[|]]; [reflexivity|reflexivity|lia]. }
  rewrite E1, Tb, Eop. cbn [rbind].
  set (nx := out_rows tagI M N) in *.
  destruct (tiles_bounds bd nx Hb) as [Hg _]. rewrite <- blocks_tiles in Hg by assumption.
  assert (E0 : (bd =? 0) || (blocks nx bd =? 0) = false).
  { apply orb_false_iff. split; apply Nat.eqb_neq; [lia|]. intros Z. rewrite Z in Hg. lia. }
  rewrite E0. eauto.
Qed.

(** ** Two defects *)
Definition par_formula : fm := Bin BMult (Bil KScal (Var 0 100 0) (Var 1 100 2)) (Var 2 1 2).
Definition par_decl : declaration := fun i => if Z.eqb i 2 then (1, 2) else if Z.eqb i 1 then (100, 2) else (100, 0).
Definition par_memory : memory := fun _ q => if q =? 0 then 1%R else 0%R.

Lemma parameters_wrong : forall m out,
  chunk_mode (fun l => l) par_formula 0 = Ok true /\
  (exists out', launch_chunks (fun l => l) {| load_order := fun _ _ l => l; store_order := fun l => l |} m
     (Sum_Red 1) direct_sum par_formula 0 par_memory 1 1 1 out = Ok out' /\ out' 0 = Fin 0) /\
  reduce_sum par_decl (contiguous par_decl par_memory) 1 1 {| sformula := par_formula; stagI := 0 |} 0 0 = 1%R.
Proof.
  intros m out. split; [reflexivity|]. split.
  - eexists. split; [lazy -[Rplus Rmult IZR]; reflexivity|]. lazy -[Rplus Rmult IZR]. f_equal. ring.
  - lazy -[Rplus Rmult IZR]. ring.
Qed.

Definition scal_formula : fm := Lin LSum (Un UExp (Bin BMult (Var 0 100 0) (Var 1 1 2))).
Lemma scalars_missing : forall order o m r s A M N bd out, enumerates order ->
  wf scal_formula /\ chunk_mode order scal_formula 0 = Ok true /\
  launch_chunks order o m r s scal_formula 0 A M N bd out = PyErr.
Proof.
  intros order o m r s A M N bd out Ho. split; [repeat split|].
  assert (E0 : order [] = []) by (apply Permutation_nil, Permutation_sym, Ho).
  assert (E1 : forall v, order [v] = [v]) by (intros v; apply Permutation_length_1_inv, Permutation_sym, Ho).
  assert (EK : chunk_constants order scal_formula 0 = Ok
    {| c_fun := Lin LSum (Un UExp (Bin BMult (Var 0 64 0) (Var 1 1 2)));
       c_last := Lin LSum (Un UExp (Bin BMult (Var 0 36 0) (Var 1 1 2)));
       c_post := Var 2 1 3; c_org := 100; c_nchunks := 2; c_dimlast := 36; c_new := 2%Z;
       c_iN := []; c_jN := []; c_pN := []; c_iC := [0%Z]; c_jC := []; c_pC := [] |}).
  { transitivity (Ok {| c_fun := Lin LSum (Un UExp (Bin BMult (Var 0 64 0) (Var 1 1 2)));
       c_last := Lin LSum (Un UExp (Bin BMult (Var 0 36 0) (Var 1 1 2)));
       c_post := Var 2 1 3; c_org := 100; c_nchunks := 2; c_dimlast := 36; c_new := 2%Z;
       c_iN := map fst (order []); c_jN := map fst (order []); c_pN := map fst (order []);
       c_iC := map vpos (order [(0%Z, 64, 0)]); c_jC := map vpos (order []); c_pC := map vpos (order []) |}).
    - reflexivity.
    - rewrite E0, E1. reflexivity. }
  split.
  - unfold chunk_mode. rewrite EK. reflexivity.
  - unfold launch_chunks. rewrite EK. reflexivity.
Qed.
