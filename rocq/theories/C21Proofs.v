(** Proofs for C21: reductions by chunks of the last factor. *)

From Coq Require Import ZArith Reals Arith Lia List Bool Permutation Sorted.
From Verif Require Import Result Formula SimplifyProofs XReal Reductions ReductionSpec RedLoops KernelSum KernelSumSpec
  SumSpec CpuReduc Loader LoaderProofs CpuConvSpec GpuConv GpuProofs Adjoint
  C06Proofs C12Proofs C13Proofs FinalChunks C20Proofs.
Import ListNotations.

(** ** Sorted lists of variables *)
Definition before (v w : fvar) : Prop := (vpos v < vpos w)%Z.

Lemma insert_sorted : forall v l, StronglySorted before l -> (forall w, In w l -> vpos w <> vpos v) ->
  StronglySorted before (insert_var v l).
Proof.
  intros v l S. induction S as [|u l S IH F]; intros H; cbn [insert_var]; [repeat constructor|].
  destruct (Z.leb_spec (vpos v) (vpos u)) as [L|L].
  - constructor; [constructor; assumption|]. assert (vpos v < vpos u)%Z by (specialize (H u (or_introl eq_refl)); lia).
    constructor; [assumption|]. rewrite Forall_forall in *. intros w Hw. specialize (F w Hw). unfold before in *. lia.
  - constructor; [apply IH; intros; apply H; right; assumption|]. apply Forall_forall. intros w Hw.
    apply insert_var_in in Hw. destruct Hw as [->|Hw]; [exact L|]. rewrite Forall_forall in F. auto.
Qed.
Lemma union_sorted : forall decl l m, StronglySorted before m ->
  (forall v, In v l \/ In v m -> decl (vpos v) = (vdim v, vcat v)) -> StronglySorted before (union_vars l m).
Proof.
  intros decl l m S. unfold union_vars. induction l as [|v l IH]; intros H; cbn [fold_right]; [assumption|].
  assert (S' : StronglySorted before (fold_right add_var m l)) by (apply IH; intros w [Hw|Hw]; apply H; cbn; auto).
  unfold add_var at 1. destruct (existsb (fvar_eqb v) (fold_right add_var m l)) eqn:E; [assumption|].
  apply insert_sorted; [assumption|]. intros w Hw P.
  assert (N : ~ In v (fold_right add_var m l)) by (intros I; apply exists_var in I; congruence). apply N.
  assert (w = v); [|subst; assumption]. pose proof (H v ltac:(cbn; auto)) as Hv.
  apply union_vars_in in Hw. assert (Hw' : decl (vpos w) = (vdim w, vcat w)) by (apply H; cbn; tauto).
  rewrite P in Hw'. rewrite Hv in Hw'. inversion Hw'.
  destruct v as [[i d] c], w as [[i' d'] c']. unfold vpos, vdim, vcat in *. cbn in *. congruence.
Qed.
Lemma vars_sorted : forall decl f, declared decl f -> StronglySorted before (vars f).
Proof.
  intros decl f. assert (G : forall f v, declared decl f -> In v (vars f) -> decl (vpos v) = (vdim v, vcat v)).
  { intros g [[i d] c] D H. eapply vars_declared; eauto. }
  induction f; cbn [declared vars]; intros D; auto; try (repeat constructor; fail);
    try (apply (union_sorted decl); [tauto|intros v [H|H]; eapply G; try exact H; tauto]).
  apply (union_sorted decl).
  - apply (union_sorted decl); [tauto|intros v [H|H]; eapply G; try exact H; tauto].
  - intros v [H|H]; [eapply G; try exact H; tauto|]. apply union_vars_in in H. destruct H as [H|H]; eapply G; try exact H; tauto.
Qed.
Lemma filter_sorted : forall (h : fvar -> bool) l, StronglySorted before l -> StronglySorted before (filter h l).
Proof.
  intros h l S. induction S as [|u l S IH F]; cbn [filter]; [constructor|]. destruct (h u); [|assumption].
  constructor; [assumption|]. rewrite Forall_forall in *. intros w Hw. apply filter_In in Hw. apply F, Hw.
Qed.
Lemma sorted_same : forall l m, StronglySorted before l -> StronglySorted before m ->
  (forall v, In v l <-> In v m) -> l = m.
Proof.
  intros l m S. revert m. induction S as [|u l S IH F]; intros m T H.
  - destruct m as [|w m]; [reflexivity|]. destruct (proj2 (H w) (or_introl eq_refl)).
  - inversion T as [|w m' T' F' E]; subst; [destruct (proj1 (H u) (or_introl eq_refl))|].
    rewrite Forall_forall in F, F'. assert (Eu : u = w).
    { destruct (proj1 (H u) (or_introl eq_refl)) as [->|Hu]; [reflexivity|].
      destruct (proj2 (H w) (or_introl eq_refl)) as [->|Hw]; [reflexivity|].
      apply F' in Hu. apply F in Hw. unfold before in *. lia. }
    subst w. f_equal. apply IH; [assumption|]. intros v. split; intros Hv.
    + destruct (proj1 (H v) (or_intror Hv)) as [<-|X]; [|assumption]. apply F in Hv. unfold before in Hv. lia.
    + destruct (proj2 (H v) (or_intror Hv)) as [<-|X]; [|assumption]. apply F' in Hv. unfold before in Hv. lia.
Qed.
Lemma sorted_app : forall l v, StronglySorted before l -> (forall w, In w l -> before w v) -> StronglySorted before (l ++ [v]).
Proof.
  intros l v S. induction S as [|u l S IH F]; intros H; cbn [app]; [repeat constructor|].
  constructor; [apply IH; intros; apply H; right; assumption|]. apply Forall_app. split; [assumption|].
  constructor; [apply H; left; reflexivity|constructor].
Qed.

Section Final.
Variables (decl : declaration) (f g : fm) (b : Z) (d tagI : nat).
Hypothesis D : declared decl f.
Hypothesis Dg : declared decl g.
Hypothesis Cats : categories decl.
Hypothesis T : tagI <= 1.
Hypothesis Wg : wf g.
Hypothesis G1 : dim g = 1.
Hypothesis Hd : 1 <= d.
Hypothesis Vf : forall v, In v (vars f) <-> In v (vars g) \/ v = (b, d, 1 - tagI).
Hypothesis Last : In (b, d, 1 - tagI) (vars g) \/ forall i e, In (i, e, 1 - tagI) (vars g) -> (i < b)%Z.

Lemma cat_lists : forall c, vars_cat f c = vars_cat g c \/ (c = 1 - tagI /\ vars_cat f c = vars_cat g c ++ [(b, d)]).
Proof.
  intros c. unfold vars_cat.
  assert (Sf := filter_sorted (fun v => Nat.eqb (vcat v) c) _ (vars_sorted decl f D)).
  assert (Sg := filter_sorted (fun v => Nat.eqb (vcat v) c) _ (vars_sorted decl g Dg)).
  destruct (Nat.eq_dec c (1 - tagI)) as [->|Ne].
  - destruct Last as [I|L].
    + left. f_equal. apply sorted_same; try assumption. intros v. rewrite !filter_In, Vf. intuition (subst; auto).
    + right. split; [reflexivity|].
      assert (E : filter (fun v => vcat v =? 1 - tagI) (vars f) = filter (fun v => vcat v =? 1 - tagI) (vars g) ++ [(b, d, 1 - tagI)]).
      { apply sorted_same; [assumption| |].
        - apply sorted_app; [assumption|]. intros [[i e] c] H. apply filter_In in H. destruct H as [H E].
          apply Nat.eqb_eq in E. unfold vcat in E. cbn in E. subst. apply L in H. exact H.
        - intros v. rewrite in_app_iff, !filter_In, Vf. cbn [In]. split.
          + intros [[H| ->] E]; auto.
          + intros [[H E]|[<-|[]]]; [auto|]. split; [auto|]. unfold vcat. cbn. apply Nat.eqb_refl. }
      rewrite E, map_app. reflexivity.
  - left. f_equal. apply sorted_same; try assumption. intros v. rewrite !filter_In, Vf. split; [|tauto].
    intros [[H| ->] E]; [auto|]. apply Nat.eqb_eq in E. unfold vcat in E. cbn [snd] in E. congruence.
Qed.

Lemma cat_offset : forall c i e, In (i, e) (vars_cat g c) ->
  In (i, e) (vars_cat f c) /\ offset (vars_cat f c) i = offset (vars_cat g c) i.
Proof.
  intros c i e H. destruct (cat_lists c) as [->|[_ ->]]; [auto|]. split; [apply in_or_app; auto|].
  apply offset_in. apply in_map_iff. exists (i, e). auto.
Qed.

Variable A : memory.
Definition at_pt (n j : nat) : env :=
  match tagI with O => point decl (contiguous decl A) n j | _ => point decl (contiguous decl A) j n end.
Definition holds (c row : nat) (x : rarray) : Prop :=
  forall i e q, In (i, e) (vars_cat g c) -> q < e -> x (offset (vars_cat g c) i + q) = A i (row * e + q).

Lemma full_table : forall xi yj pp i e c, In (i, e, c) (vars g) ->
  exists a, table (loader f tagI) xi yj pp i = Some a /\
    forall q, a q = (if c =? tagI then xi else if c =? 1 - tagI then yj else pp) (offset (vars_cat g c) i + q).
Proof.
  intros xi yj pp i e c H. pose proof (vars_declared decl g Dg _ _ _ H) as Hi.
  assert (Hc : c <= 2) by (specialize (Cats i); rewrite Hi in Cats; exact Cats).
  apply vars_cat_in in H. destruct (cat_offset c i e H) as [H' <-].
  assert (Miss : forall c', c' <> c -> ~ In i (map fst (vars_cat f c'))).
  { intros c' Ne I. apply in_map_iff in I. destruct I as [[i' d'] [E I]]. cbn in E. subst. apply vars_cat_in in I.
    apply (vars_declared decl f D) in I. congruence. }
  unfold table, loader. cbn [varsI varsJ varsP].
  destruct (Nat.eqb_spec c tagI) as [->|N1].
  - rewrite table_fill_miss by (apply Miss; lia). rewrite table_fill_miss by (apply Miss; lia).
    apply (table_fill_hit _ xi 0 no_table i e); [eapply vars_cat_nodup; eauto|assumption].
  - destruct (Nat.eqb_spec c (1 - tagI)) as [->|N2].
    + rewrite table_fill_miss by (apply Miss; lia).
      apply (table_fill_hit _ yj 0 _ i e); [eapply vars_cat_nodup; eauto|assumption].
    + assert (c = 2) by lia. subst. apply (table_fill_hit _ pp 0 _ i e); [eapply vars_cat_nodup; eauto|assumption].
Qed.

Lemma full_value : forall n j xi yj pp, holds tagI n xi -> holds (1 - tagI) j yj -> holds 2 0 pp ->
  eval g (table_env (table (loader f tagI) xi yj pp)) 0 = eval g (at_pt n j) 0.
Proof.
  intros n j xi yj pp Hx Hy Hp. apply eval_agree; [assumption| |lia]. intros i e c Hv q Hq.
  destruct (full_table xi yj pp i e c Hv) as (a & E & F). unfold table_env. rewrite E, F.
  pose proof (vars_declared decl g Dg _ _ _ Hv) as Hi.
  assert (Hc : c <= 2) by (specialize (Cats i); rewrite Hi in Cats; exact Cats).
  apply vars_cat_in in Hv.
  assert (Ha : at_pt n j i q = A i ((if c =? tagI then n else if c =? 1 - tagI then j else 0) * e + q)).
  { unfold at_pt, point, contiguous, row. destruct tagI as [|[|]]; [| |lia]; rewrite Hi; cbn [fst snd];
    destruct c as [|[|[|]]]; try lia; reflexivity. }
  rewrite Ha. destruct (Nat.eqb_spec c tagI) as [->|]; [apply Hx; assumption|].
  destruct (Nat.eqb_spec c (1 - tagI)) as [->|]; [apply Hy; assumption|].
  assert (c = 2) by lia. subst. apply Hp; assumption.
Qed.

(** ** Chunks *)
Let K := {| n_fun := g; n_pos := b; n_dim := d |}.
Lemma n_size_bounds : forall k, 1 <= n_size K k <= 64.
Proof.
  intros k. unfold n_size, n_chunks. cbn [n_dim K]. change dimfinal with 64.
  pose proof (Nat.div_mod (d - 1) 64 ltac:(lia)). pose proof (Nat.mod_upper_bound (d - 1) 64 ltac:(lia)).
  destruct (k =? _); lia.
Qed.
Lemma n_chunks_pos : 1 <= n_chunks K.
Proof. unfold n_chunks. lia. Qed.
Lemma chunk_inside : forall k v, k < n_chunks K -> v < n_size K k -> k * 64 + v < d.
Proof.
  intros k v. unfold n_size, n_chunks. cbn [n_dim K]. change dimfinal with 64.
  pose proof (Nat.div_mod (d - 1) 64 ltac:(lia)). pose proof (Nat.mod_upper_bound (d - 1) 64 ltac:(lia)).
  destruct (Nat.eqb_spec k (1 + (d - 1) / 64 - 1)); nia.
Qed.
Lemma in_chunk : forall q, q < d -> q / 64 < n_chunks K /\ q mod 64 < n_size K (q / 64).
Proof.
  intros q Hq. unfold n_size, n_chunks. cbn [n_dim K]. change dimfinal with 64.
  pose proof (Nat.div_mod (d - 1) 64 ltac:(lia)). pose proof (Nat.mod_upper_bound (d - 1) 64 ltac:(lia)).
  pose proof (Nat.div_mod q 64 ltac:(lia)). pose proof (Nat.mod_upper_bound q 64 ltac:(lia)).
  destruct (Nat.eqb_spec (q / 64) (1 + (d - 1) / 64 - 1)); split; nia.
Qed.

(** ** Shared memory *)
Variables (o : nat -> list copy -> list copy) (bd ny : nat) (junk : rarray).
Hypothesis Perm : forall n l, Permutation (o n l) l.

Lemma final_copies_dst : forall tile k, NoDup (map dst (final_copies K bd ny tile k)).
Proof.
  intros tile k. unfold final_copies. rewrite map_flat_map. pose proof (n_size_bounds k).
  apply (shifted_nodup 64 0 (n_size K k)); [lia|]. intros t _.
  destruct (tile * bd + t <? ny); [left|right; reflexivity]. rewrite map_map. cbn [dst]. change dimfinal with 64.
  rewrite Nat.add_0_r. assert (G : forall e s, map (fun x => t * 64 + x) (seq s e) = seq (t * 64 + s) e).
  { induction e as [|e IHe]; intros s; cbn [seq map]; [reflexivity|]. f_equal. rewrite IHe. f_equal. lia. }
  rewrite G. f_equal. lia.
Qed.
Lemma chunk_loaded : forall tile k t v, t < bd -> tile * bd + t < ny -> v < n_size K k ->
  final_shared_chunk o K (loader g tagI) A bd ny junk tile k (t * 64 + v) = A b ((tile * bd + t) * d + k * 64 + v).
Proof.
  intros tile k t v Ht Hj Hv. unfold final_shared_chunk.
  assert (I : In {| dst := t * 64 + v; src := b; spos := (tile * bd + t) * d + k * 64 + v |} (final_copies K bd ny tile k)).
  { unfold final_copies. apply in_flat_map. exists t. split; [apply in_seq; lia|]. apply Nat.ltb_lt in Hj. rewrite Hj.
    apply in_map_iff. exists v. split; [reflexivity|apply in_seq; lia]. }
  destruct k as [|k]; cbn [final_after]; exact (perform_hit A _ _ _ _ (Perm _ _) (final_copies_dst tile _) I).
Qed.
Lemma row_loaded : forall tile t, t < bd -> tile * bd + t < ny ->
  holds (1 - tagI) (tile * bd + t)
    (fun q => final_shared o K (loader g tagI) A bd ny junk tile (t * dims (varsJ (loader g tagI)) + q)).
Proof.
  intros tile t Ht Hj i e q Hi Hq. unfold final_shared, final_loads. rewrite Nat.add_assoc.
  apply (loaded_row A (loader g tagI) bd ny tile); auto. apply (vars_cat_nodup decl g (1 - tagI) Dg).
Qed.

(** ** A thread *)
Lemma final_sub_ok : forall n k sh fout out, k < n_chunks K ->
  (forall v, v < n_size K k -> final_sub K n k sh fout out (k * 64 + v) =
     (out (k * 64 + v)%nat + rsum n (fun jrel => sh (jrel * 64 + v)%nat * fout jrel))%R) /\
  (forall q, q < d -> q / 64 <> k -> final_sub K n k sh fout out q = out q).
Proof.
  intros n k sh fout out Hk. unfold final_sub. change dimfinal with 64. pose proof (n_size_bounds k) as B.
  set (w := n_size K k) in *.
  assert (Z : forall (m : nat) (h : nat -> nat -> R) x v, v < w -> for_upR w (fun v acc => rupd acc v (acc v + h m v)%R) x v = (x v + h m v)%R).
  { intros m h x v. clear B Hk. clearbody w. revert x v. induction w as [|w' IH]; intros x v Hv; [lia|]. cbn [for_upR].
    assert (Keep : forall u x q, u <= q -> for_upR u (fun v acc => rupd acc v (acc v + h m v)%R) x q = x q).
    { induction u as [|u IHu]; intros y q Hq; cbn [for_upR]; [reflexivity|]. unfold rupd at 1.
      destruct (Nat.eqb_spec q u); [lia|]. apply IHu. lia. }
    unfold rupd at 1. destruct (Nat.eqb_spec v w') as [->|N]; [rewrite Keep by lia; reflexivity|]. apply IH. lia. }
  set (acc := for_upR n _ _).
  assert (Ac : forall v, v < w -> acc v = rsum n (fun jrel => sh (jrel * 64 + v)%nat * fout jrel)%R).
  { intros v Hv. unfold acc. clear acc. induction n as [|n IH]; cbn [for_upR rsum]; [reflexivity|].
    rewrite (Z n (fun m v => sh (m * 64 + v)%nat * fout m)%R) by assumption. rewrite IH. reflexivity. }
  clearbody acc. split.
  - intros v Hv. rewrite <- Ac by assumption. clear Ac Z B. clearbody w. revert out v Hv.
    induction w as [|w' IH]; intros out v Hv; [lia|]. cbn [for_upR].
    assert (Keep : forall u x q, k * 64 + u <= q -> for_upR u (fun v out => rupd out (k * 64 + v) (out (k * 64 + v)%nat + acc v)%R) x q = x q).
    { induction u as [|u IHu]; intros y q Hq; cbn [for_upR]; [reflexivity|]. unfold rupd at 1.
      destruct (Nat.eqb_spec q (k * 64 + u)); [lia|]. apply IHu. lia. }
    unfold rupd at 1. destruct (Nat.eqb_spec (k * 64 + v) (k * 64 + w')) as [E|N].
    + assert (v = w') by lia. subst. rewrite Keep by lia. reflexivity.
    + apply IH. lia.
  - intros q Hq Nq.
    assert (Q : forall u x, u <= 64 -> for_upR u (fun v out => rupd out (k * 64 + v) (out (k * 64 + v)%nat + acc v)%R) x q = x q).
    { induction u as [|u IHu]; intros y Hu; cbn [for_upR]; [reflexivity|]. unfold rupd at 1.
      destruct (Nat.eqb_spec q (k * 64 + u)) as [E|E]; [|apply IHu; lia].
      exfalso. apply Nq. subst q. symmetry. apply (Nat.div_unique _ 64 k u); lia. }
    apply Q. lia.
Qed.

Lemma chunks_row : forall n (shc : nat -> rarray) fout out (u : nat -> nat -> R),
  (forall k v jrel, k < n_chunks K -> v < n_size K k -> jrel < n -> shc k (jrel * 64 + v) = u jrel (k * 64 + v)) ->
  forall q, q < d ->
  for_up (n_chunks K) (fun k out => final_sub K n k (shc k) fout out) out q =
  (out q + rsum n (fun jrel => u jrel q * fout jrel))%R.
Proof.
  intros n shc fout out u Hu q Hq.
  assert (G : forall m, m <= n_chunks K ->
    for_up m (fun k out => final_sub K n k (shc k) fout out) out q =
    if q / 64 <? m then (out q + rsum n (fun jrel => u jrel q * fout jrel))%R else out q).
  { induction m as [|m IH]; intros Hm; cbn [for_up]; [reflexivity|].
    destruct (final_sub_ok n m (shc m) fout (for_up m (fun k out => final_sub K n k (shc k) fout out) out) ltac:(lia)) as [H1 H2].
    destruct (Nat.eq_dec (q / 64) m) as [E|E].
    - destruct (in_chunk q Hq) as [_ I]. rewrite E in I. pose proof (Nat.div_mod q 64 ltac:(lia)) as Q. rewrite E in Q.
      replace (64 * m + q mod 64) with (m * 64 + q mod 64) in Q by lia.
      rewrite (proj2 (Nat.ltb_lt (q / 64) (S m))) by lia.
      rewrite Q at 1. rewrite (H1 _ I). rewrite <- Q, IH by lia. rewrite (proj2 (Nat.ltb_ge (q / 64) m)) by lia.
      f_equal. apply rsum_ext. intros jrel Hj. f_equal. rewrite Hu by (assumption || lia). rewrite <- Q. reflexivity.
    - rewrite (H2 q Hq E), IH by lia. destruct (Nat.ltb_spec (q / 64) m), (Nat.ltb_spec (q / 64) (S m)); try lia; reflexivity. }
  rewrite G by lia. destruct (in_chunk q Hq) as [I _]. rewrite (proj2 (Nat.ltb_lt _ _)) by assumption. reflexivity.
Qed.

Lemma final_thread_ok : forall n regs row q, q < d -> 1 <= bd ->
  final_thread K (loader g tagI) (loader f tagI) A bd ny n
    (final_shared o K (loader g tagI) A bd ny junk) (final_shared_chunk o K (loader g tagI) A bd ny junk) regs row q =
  rsum ny (fun j => A b (j * d + q)%nat * eval g (at_pt n j) 0)%R.
Proof.
  intros n regs row q Hq Hb. unfold final_thread.
  set (pp := load_vars (varsP (loader g tagI)) A (fun _ => 0) 0 0 regs).
  set (xi := load_vars (varsI (loader g tagI)) A (fun _ => n) 0 0 regs).
  assert (Hp : holds 2 0 pp).
  { intros i e v Hi Hv. exact (load_vars_hit (vars_cat g 2) A (fun _ => 0) 0 0 regs i e (vars_cat_nodup decl g 2 Dg) Hi v Hv). }
  assert (Hx : holds tagI n xi).
  { intros i e v Hi Hv. exact (load_vars_hit (vars_cat g tagI) A (fun _ => n) 0 0 regs i e (vars_cat_nodup decl g tagI Dg) Hi v Hv). }
  set (out0 := for_upR (n_dim K) _ row).
  assert (O0 : out0 q = 0%R).
  { unfold out0. cbn [n_dim K]. apply (for_upR_block d (fun _ => 0%R) 0 row). assumption. }
  clearbody out0 pp xi.
  match goal with |- snd (for_up _ ?body _) q = _ => set (step := body) end.
  assert (G : forall m, m <= tiles bd ny ->
    snd (for_up m step (regs, out0)) q = rsum (Nat.min ny (m * bd)) (fun j => A b (j * d + q)%nat * eval g (at_pt n j) 0)%R).
  { induction m as [|m IH]; intros Hm; cbn [for_up].
    - rewrite Nat.min_0_r. exact O0.
    - set (st := for_up m step (regs, out0)) in *. unfold step. cbv beta zeta. cbn [snd].
      pose proof (tile_lt bd ny m Hb ltac:(lia)) as Ht.
      set (w := Nat.min bd (ny - m * bd)).
      set (fout := for_upR w _ _).
      assert (Hf : forall jrel, jrel < w -> fout jrel = eval g (at_pt n (m * bd + jrel)) 0).
      { intros jrel Hj. unfold fout.
        destruct (for_upR_block w (fun jrel => eval (n_fun K) (table_env (table (loader f tagI) xi
           (fun q => final_shared o K (loader g tagI) A bd ny junk m (jrel * dims (varsJ (loader g tagI)) + q)%nat) pp)) 0) 0 (fst st)) as [B _].
        etransitivity; [exact (B jrel Hj)|]. cbn [n_fun K]. apply full_value; [assumption| |assumption].
        apply row_loaded; lia. }
      rewrite (chunks_row w _ fout (snd st) (fun jrel q => A b ((m * bd + jrel) * d + q)%nat)).
      + rewrite IH by lia. replace (Nat.min ny (m * bd)) with (m * bd) by lia.
        replace (Nat.min ny (S m * bd)) with (m * bd + w) by (unfold w; cbn [Nat.mul]; lia).
        rewrite rsum_split. f_equal. apply rsum_ext. intros jrel Hj. rewrite Hf by assumption. reflexivity.
      + intros k v jrel Hk Hv Hj. rewrite chunk_loaded by (assumption || lia). f_equal. lia.
      + assumption. }
  rewrite G by lia. destruct (tiles_bounds bd ny Hb) as [B _]. rewrite Nat.min_l by assumption. reflexivity.
Qed.
End Final.

(** ** The launch *)
Lemma final_sum : forall decl f g b d tagI A M N bd o m out,
  f = Bin BMult g (Var b d (1 - tagI)) \/ f = Bin BMult (Var b d (1 - tagI)) g ->
  declared decl f -> wf f -> categories decl -> tagI <= 1 -> dim g = 1 -> 2 <= d ->
  In (b, d, 1 - tagI) (vars g) \/ (forall i e, In (i, e, 1 - tagI) (vars g) -> (i < b)%Z) ->
  orders_ok o -> 1 <= bd -> 0 < out_rows tagI M N ->
  exists out', launch_final o m block_sum f tagI A M N bd out = Ok out' /\
    (forall n k, n < out_rows tagI M N -> k < dim f ->
       out' (n * dim f + k) =
       Fin (reduce_sum decl (contiguous decl A) M N {| sformula := f; stagI := tagI |} n k)) /\
    (forall q, out_rows tagI M N * dim f <= q -> out' q = out q).
Proof.
  intros decl f g b d tagI A M N bd o m out Ef D W C T G1 Hd Last [Ol Os] Hb Hx.
  assert (Dg : declared decl g) by (destruct Ef; subst f; apply D).
  assert (Db : decl b = (d, 1 - tagI)) by (destruct Ef; subst f; apply D).
  assert (Wg : wf g) by (destruct Ef; subst f; apply W).
  assert (Df : dim f = d) by (destruct Ef; subst f; cbn [dim]; lia).
  assert (Vf : forall v, In v (vars f) <-> In v (vars g) \/ v = (b, d, 1 - tagI)).
  { intros v. destruct Ef; subst f; cbn [vars]; rewrite union_vars_in; cbn [In]; intuition auto. }
  assert (EK : final_constants f block_sum = Ok {| n_fun := g; n_pos := b; n_dim := d |}).
  { unfold final_constants. destruct Ef; subst f; cbn [children dim].
    - rewrite G1. cbn [Nat.eqb]. rewrite G1. reflexivity.
    - rewrite (proj2 (Nat.eqb_neq d 1)) by lia. rewrite G1. reflexivity. }
  unfold launch_final. rewrite EK. cbn [rbind n_fun].
  assert (E1 : (if Nat.eqb tagI 1 then (N, M) else (M, N)) = (out_rows tagI M N, red_terms tagI M N)).
  { destruct tagI as [|[|]]; [reflexivity|reflexivity|lia]. }
  rewrite E1. set (nx := out_rows tagI M N) in *. set (ny := red_terms tagI M N) in *.
  assert (Tb : table_ok g (table (loader f tagI) (fun _ => 0%R) (fun _ => 0%R) (fun _ => 0%R)) = true).
  { unfold table_ok. apply forallb_forall. intros [[i e] c] Hv. unfold vpos. cbn [fst].
    destruct (full_table decl f g b d tagI D Dg C T G1 ltac:(lia) Vf Last (fun _ => 0%R) (fun _ => 0%R) (fun _ => 0%R) i e c Hv)
      as (a & -> & _). reflexivity. }
  rewrite Tb.
  destruct (tiles_bounds bd nx Hb) as [Hg _]. rewrite <- blocks_tiles in Hg by assumption.
  assert (E0 : (bd =? 0) || (blocks nx bd =? 0) = false).
  { apply orb_false_iff. split; apply Nat.eqb_neq; [lia|]. intros Z. rewrite Z in Hg. lia. }
  rewrite E0. eexists. split; [reflexivity|].
  set (K := {| n_fun := g; n_pos := b; n_dim := d |}).
  set (v := fun i k => Fin (final_thread K (loader g tagI) (loader f tagI) A bd ny i
           (final_shared (load_order o (i / bd)) K (loader g tagI) A bd ny (jshared m (i / bd)))
           (final_shared_chunk (load_order o (i / bd)) K (loader g tagI) A bd ny (jshared m (i / bd)))
           (jregs m i) (jregs m i) k)).
  destruct (grid_output (blocks nx bd * bd) nx (n_dim K) v
              (store_order o (stores_final o m K (loader g tagI) (loader f tagI) A nx ny bd)) out Hg (Os _)) as [H1 H2].
  rewrite Df. split; [|exact H2]. intros n k Hn Hk. etransitivity; [exact (H1 n k Hn Hk)|]. unfold v.
  f_equal. unfold K. rewrite (final_thread_ok decl f g b d tagI D Dg C T Wg G1 ltac:(lia) Vf Last A
     (load_order o (n / bd)) bd ny (jshared m (n / bd)) ltac:(intros; apply Ol) n (jregs m n) (jregs m n) k Hk Hb).
  unfold reduce_sum. cbn [stagI sformula]. unfold at_pt. clear - Ef Db Hd G1 T Hk.
  assert (P : forall e : env, eval f e k = (e b k * eval g e 0)%R).
  { intros e. destruct Ef; subst f; cbn [eval binR]; unfold bcv; cbn [dim]; rewrite G1; cbn [Nat.eqb];
      rewrite (proj2 (Nat.eqb_neq d 1)) by lia; [apply Rmult_comm|reflexivity]. }
  destruct tagI as [|[|]]; [| |lia]; cbn [red_terms]; apply rsum_ext; intros j _; rewrite P; f_equal;
    unfold point, contiguous, row; rewrite Db; reflexivity.
Qed.

(** ** Defects *)

(** The last factor comes before another variable: the table points after the loaded row. *)
Definition order_formula : fm := Bin BMult (Var 2 1 1) (Var 1 147 1).
Definition order_decl : declaration := fun i => if Z.eqb i 2 then (1, 1) else (147, 1).
Lemma wrong_offsets : forall A m out,
  exists out', launch_final {| load_order := fun _ _ l => l; store_order := fun l => l |} m block_sum
    order_formula 0 A 1 1 192 out = Ok out' /\
  out' 0 = Fin (A 1%Z 0 * jshared m 0 147) /\
  reduce_sum order_decl (contiguous order_decl A) 1 1 {| sformula := order_formula; stagI := 0 |} 0 0 =
  (A 1%Z 0%nat * A 2%Z 0%nat)%R.
Proof.
  intros A m out. eexists. split; [lazy -[Rplus Rmult IZR]; reflexivity|]. split.
  - lazy -[Rplus Rmult IZR]. f_equal. ring.
  - lazy -[Rplus Rmult IZR]. ring.
Qed.

(** The operation is not examined: a sum is computed as a product. *)
Definition add_formula : fm := Bin BAdd (Var 0 1 0) (Var 1 147 1).
Definition add_decl : declaration := fun i => if Z.eqb i 0 then (1, 0) else (147, 1).
Lemma wrong_operation : forall A m out,
  exists out', launch_final {| load_order := fun _ _ l => l; store_order := fun l => l |} m block_sum
    add_formula 0 A 1 1 192 out = Ok out' /\
  out' 0 = Fin (A 0%Z 0%nat * A 1%Z 0%nat) /\
  reduce_sum add_decl (contiguous add_decl A) 1 1 {| sformula := add_formula; stagI := 0 |} 0 0 =
  (A 0%Z 0%nat + A 1%Z 0%nat)%R.
Proof.
  intros A m out. eexists. split; [lazy -[Rplus Rmult IZR]; reflexivity|]. split.
  - lazy -[Rplus Rmult IZR]. f_equal. ring.
  - lazy -[Rplus Rmult IZR]. ring.
Qed.

(** Two factors of the same dimension: an error. *)
Lemma wrong_dimensions : forall d i j c c' s o m tagI A M N bd out, 2 <= d ->
  launch_final o m s (Bin BMult (Var i d c) (Var j d c')) tagI A M N bd out = KErr.
Proof.
  intros d i j c c' s o m tagI A M N bd out H. unfold launch_final, final_constants. cbn [children dim].
  rewrite (proj2 (Nat.eqb_neq d 1)) by lia. cbn [dim]. rewrite (proj2 (Nat.eqb_neq d 1)) by lia. reflexivity.
Qed.

(** The reduction is not examined: log-sum-exp with weights. *)
Definition lse_formula : fm := Cat (Var 0 1 0) (Var 1 146 1).
Lemma wrong_reduction : forall A m out,
  exists out', launch_final {| load_order := fun _ _ l => l; store_order := fun l => l |} m block_sum
    lse_formula 0 A 1 1 192 out = Ok out' /\
  out' 0 = Fin (A 0%Z 0%nat * A 1%Z 0%nat) /\ out' 146 = out 146.
Proof.
  intros A m out. eexists. split; [lazy -[Rplus Rmult IZR]; reflexivity|]. split.
  - lazy -[Rplus Rmult IZR]. f_equal. ring.
  - lazy -[Rplus Rmult IZR]. reflexivity.
Qed.
