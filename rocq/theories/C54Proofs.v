(** Proofs for C54: block-sparse and batched reductions by chunks of the last factor. *)

From Coq Require Import ZArith Reals Arith Lia List Bool Permutation.
From Verif Require Import Result Formula FormulaSpec SimplifyProofs XReal Reductions ReductionSpec RedLoops KernelSum KernelSumSpec
  SumSpec LseSpec Postprocess CpuReduc Loader LoaderProofs CpuConv CpuConvSpec GpuConv RangesConv RangesSpec
  C06Proofs C09Proofs C11Proofs C12Proofs GpuProofs C13Proofs RangesProofs RangesGpu C15Proofs C16Proofs
  ChunkProofs C20Proofs FinalChunks C21Proofs RangesChunks C53Proofs RangesFinal RangesFinalSpec.
Import ListNotations.

Lemma lsum_seq : forall k (F : nat -> item) n z, lsum k (map F (seq z n)) = rsum n (fun q => snd (F (z + q)) k).
Proof.
  intros k F n z. induction n as [|n IH]; [reflexivity|]. rewrite seq_S, map_app, lsum_app, IH. cbn [rsum map lsum fold_right]. ring.
Qed.

Section Final.
Variables (decl : declaration) (f g : fm) (b : Z) (d tagI : nat).
Hypothesis Ef : f = Bin BMult g (Var b d (1 - tagI)) \/ f = Bin BMult (Var b d (1 - tagI)) g.
Hypothesis D : declared decl f.
Hypothesis W : wf f.
Hypothesis Cats : categories decl.
Hypothesis T : tagI <= 1.
Hypothesis G1 : dim g = 1.
Hypothesis Hd : 2 <= d.
Variable A : memory.
Notation K := {| n_fun := g; n_pos := b; n_dim := d |}.
Notation L := (loader g tagI).
Notation LF := (loader f tagI).

Lemma inner_declared : declared decl g.
Proof. destruct Ef; subst f; apply D. Qed.
Lemma inner_wf : wf g.
Proof. destruct Ef; subst f; apply W. Qed.
Lemma whole_vars : forall v, In v (vars f) <-> In v (vars g) \/ v = (b, d, 1 - tagI).
Proof. intros v. destruct Ef; subst f; cbn [vars]; rewrite union_vars_in; cbn [In]; intuition auto. Qed.
Lemma whole_dim : dim f = d.
Proof. destruct Ef; subst f; cbn [dim]; lia. Qed.
Lemma product_value : forall (e : env) k, eval f e k = (e b k * eval g e 0)%R.
Proof.
  intros e k. destruct Ef; subst f; cbn [eval binR]; unfold bcv; cbn [dim]; rewrite G1; cbn [Nat.eqb];
    rewrite (proj2 (Nat.eqb_neq d 1)) by lia; [apply Rmult_comm|reflexivity].
Qed.

(** ** A tile *)
Section Tile.
Variables (ord : nat -> list copy -> list copy) (bd : nat).
Hypothesis Perm : forall n l, Permutation (ord n l) l.
Variables (live : nat -> bool) (xi pp : nat -> rarray) (rowj : nat -> Z -> nat) (jstart end_y : nat).
Notation w := (tile_size bd jstart end_y).
Notation step := (final_step ord K A bd live rowj jstart end_y).

Lemma step_loads : forall k sh jrel v, jrel < w -> v < n_size K k ->
  final_phase ord K A jstart (S k) (tile_loads bd jstart end_y (fun j t =>
     map (fun v => {| dst := t * dimfinal + v; src := n_pos K; spos := rowj j (n_pos K) * n_dim K + k * dimfinal + v |})
         (seq 0 (n_size K k)))) sh (jrel * 64 + v) = A b (rowj (jstart + jrel) b * d + k * 64 + v).
Proof.
  intros k sh jrel v Hj Hv. unfold tile_size in Hj. unfold final_phase.
  refine (perform_hit A _ _ _ {| dst := jrel * 64 + v; src := b; spos := rowj (jstart + jrel) b * d + k * 64 + v |} (Perm _ _) _ _).
  - unfold tile_loads. rewrite map_flat_map. pose proof (n_size_bounds g b d tagI T G1 ltac:(lia) k).
    apply (shifted_nodup 64 0 (n_size K k)); [lia|]. intros t _.
    destruct (jstart + t <? end_y); [left|right; reflexivity]. rewrite map_map. cbn [dst]. change dimfinal with 64.
    rewrite Nat.add_0_r. assert (G : forall e s, map (fun x => t * 64 + x) (seq s e) = seq (t * 64 + s) e).
    { induction e as [|e IHe]; intros s; cbn [seq map]; [reflexivity|]. f_equal. rewrite IHe. f_equal. lia. }
    rewrite G. f_equal. lia.
  - unfold tile_loads. apply in_flat_map. exists jrel. split; [apply in_seq; lia|].
    replace (jstart + jrel <? end_y) with true by (symmetry; apply Nat.ltb_lt; lia).
    apply in_map_iff. exists v. split; [reflexivity|apply in_seq; lia].
Qed.

Lemma step_thread : forall k st t, live t = true ->
  snd (step k st) t = (fst (snd st t), final_sub K w k (fst (step k st)) (fst (snd st t)) (snd (snd st t))).
Proof. intros k st t Lt. unfold final_step. cbn [fst snd]. rewrite Lt. reflexivity. Qed.
Lemma steps_run : forall m st, exists shc : nat -> rarray,
  (forall k v jrel, v < n_size K k -> k < m -> jrel < w -> shc k (jrel * 64 + v) = A b (rowj (jstart + jrel) b * d + (k * 64 + v))) /\
  forall t, live t = true -> fst (snd (for_up m step st) t) = fst (snd st t) /\
    snd (snd (for_up m step st) t) =
    for_up m (fun k out => final_sub K w k (shc k) (fst (snd st t)) out) (snd (snd st t)).
Proof.
  intros m st. exists (fun k => fst (for_up (S k) step st)). split.
  - intros k v jrel Hv _ Hj. cbn [for_up]. unfold final_step at 1. cbn [fst]. rewrite step_loads by assumption. f_equal. lia.
  - intros t Lt. induction m as [|m [I1 I2]]; [split; reflexivity|]. cbn [for_up].
    set (s1 := for_up m step st) in *. rewrite !step_thread by assumption. cbn [fst snd].
    split; [exact I1|]. rewrite I1, I2. reflexivity.
Qed.

Lemma tile_shared : forall sh jrel a e q, jrel < w -> In (a, e) (varsJ L) -> q < e ->
  final_phase ord K A jstart 0 (tile_loads bd jstart end_y (fun j t =>
     load_copies (varsJ L) (nth_rows (rowj j) (varsJ L)) 0 (t * dims (varsJ L)))) sh (jrel * dims (varsJ L) + (offset (varsJ L) a + q)) =
  A a (rowj (jstart + jrel) a * e + q).
Proof.
  intros sh jrel a e q Hj Ha Hq. unfold tile_size in Hj. unfold final_phase. rewrite Nat.add_assoc.
  assert (ND : NoDup (map fst (varsJ L))) by (apply (vars_cat_nodup decl g (1 - tagI) inner_declared)).
  refine (perform_hit A _ _ _ {| dst := jrel * dims (varsJ L) + offset (varsJ L) a + q; src := a;
                                 spos := rowj (jstart + jrel) a * e + q |} (Perm _ _) _ _).
  - unfold tile_loads. rewrite map_flat_map.
    apply (shifted_nodup (dims (varsJ L)) 0 (dims (varsJ L))); [lia|]. intros t _.
    destruct (jstart + t <? end_y); [left|right; reflexivity]. rewrite Nat.add_0_r. apply load_copies_dst.
  - unfold tile_loads. apply in_flat_map. exists jrel. split; [apply in_seq; lia|].
    replace (jstart + jrel <? end_y) with true by (symmetry; apply Nat.ltb_lt; lia).
    pose proof (load_copies_in (varsJ L) (nth_rows (rowj (jstart + jrel)) (varsJ L)) 0 (jrel * dims (varsJ L)) a e ND Ha q Hq) as X.
    rewrite (nth_rows_place _ _ a e Ha) in X. exact X.
Qed.

Lemma tile_final_ok : forall (F : nat -> item) st t, live t = true ->
  (forall jrel q, jrel < w -> q < d ->
     (forall yj : rarray, (forall a e q, In (a, e) (varsJ L) -> q < e -> yj (offset (varsJ L) a + q) = A a (rowj (jstart + jrel) a * e + q)) ->
       snd (F jrel) q = (A b (rowj (jstart + jrel) b * d + q)%nat * eval g (table_env (table L (xi t) yj (pp t))) 0)%R)) ->
  forall q, q < d ->
  snd (snd (range_final_tile ord K L A bd live xi pp rowj jstart end_y st) t) q =
  (snd (snd st t) q + lsum q (map F (seq 0 w)))%R.
Proof.
  intros F st t Lt HF q Hq. unfold range_final_tile. cbv zeta.
  set (sh := final_phase ord K A jstart 0 _ (fst st)).
  match goal with |- context [for_up _ _ (sh, ?i)] => set (i0 := i) end.
  destruct (steps_run (n_chunks K) (sh, i0)) as (shc & Hs & Ht). destruct (Ht t Lt) as [_ E].
  rewrite E. cbn [snd].
  rewrite (chunks_row g b d tagI T G1 ltac:(lia) w shc (fst (i0 t)) (snd (i0 t)) (fun jrel q => A b (rowj (jstart + jrel) b * d + q)%nat)).
  - unfold i0 at 1. rewrite Lt. cbn [snd]. f_equal. rewrite lsum_seq. apply rsum_ext. intros jrel Hj. cbn [Nat.add].
    rewrite (HF jrel q Hj Hq (fun q => sh (jrel * dims (varsJ L) + q)%nat)).
    + f_equal. unfold i0. rewrite Lt. cbn [fst].
      destruct (for_upR_block w (fun jrel => eval (n_fun K) (table_env (table L (xi t)
           (fun q => sh (jrel * dims (varsJ L) + q)%nat) (pp t))) 0) 0 (fst (snd st t))) as [B _].
      exact (B jrel Hj).
    + intros a e v Ha Hv. apply tile_shared; assumption.
  - intros k v jrel Hk Hv Hj. apply Hs; assumption.
  - assumption.
Qed.
End Tile.

(** ** A block *)
Section Block.
Variables (bt : option batching) (bs : list RangesSpec.block) (sp : sparsity) (bd : nat) (o : orders) (m : initial)
  (en : nat -> nat -> nat -> env).
Hypothesis Hst : stored bs sp.
Hypothesis Hbd : 1 <= bd.
Hypothesis Oo : orders_ok o.

Definition final_item (u i j : nat) : item := (Z.of_nat j, eval f (en u i j)).

Definition final_loads : Prop := forall u blk x0, nth_error bs u = Some blk -> In x0 (interval (brows blk)) ->
  exists oi oj op_, offsets bt shapes_i (side tagI bt u true) (x0 - side tagI bt u true) = Ok oi /\
    offsets bt shapes_j (side tagI bt u false) 0 = Ok oj /\ offsets bt shapes_p u 0 = Ok op_ /\
    forall c i j, In c (bcols blk) -> In i (interval (brows blk)) -> x0 <= i -> In j (visited blk) -> fst c <= j ->
      rows_ok f tagI A oi oj None x0 (fst c) i j (en u i j).

Section Segment.
Variables (ord : nat -> list copy -> list copy) (live : nat -> bool) (oi oj : option (list nat)) (x0 u : nat).
Hypothesis Perm : forall n l, Permutation (ord n l) l.
Notation xi := (fun t => load_vars (varsI L) A (nth_rows (referred (varsI LF) oi x0 (x0 + t)) (varsI L)) 0 0 (jregs m (x0 + t))).
Notation pp := (fun t => load_vars (varsP L) A (fun _ => 0) 0 0 (jregs m (x0 + t))).

Lemma final_term : forall t y0 j q (yj : rarray), rows_ok f tagI A oi oj None x0 y0 (x0 + t) j (en u (x0 + t) j) -> q < d ->
  (forall a e q, In (a, e) (varsJ L) -> q < e -> yj (offset (varsJ L) a + q) = A a (referred (varsJ LF) oj y0 j a * e + q)) ->
  snd (final_item u (x0 + t) j) q =
  (A b (referred (varsJ LF) oj y0 j b * d + q)%nat * eval g (table_env (table L (xi t) yj (pp t))) 0)%R.
Proof.
  intros t y0 j q yj H Hq Hy. cbn [final_item snd]. rewrite product_value. f_equal.
  - rewrite (H b d (1 - tagI) q); [|apply whole_vars; auto|assumption]. unfold referred; rewrite (position_place (varsJ LF) b).
    destruct (Nat.eqb_spec (1 - tagI) tagI) as [E|_]; [exfalso; lia|]. rewrite Nat.eqb_refl. reflexivity.
  - pose proof inner_declared as Dg.
    pose proof (loaded_eval decl g tagI A (xi t) yj (pp t) (referred (varsI LF) oi x0 (x0 + t)) (referred (varsJ LF) oj y0 j) (fun _ => 0)
      (en u (x0 + t) j) Dg inner_wf Cats T) as X.
    assert (Y : same_below (dim g) (loaded_fout g L (xi t) yj (pp t)) (fins (eval g (en u (x0 + t) j)))).
    { apply X.
      - intros a e v Ha Hv. pose proof (load_vars_hit (varsI L) A (nth_rows (referred (varsI LF) oi x0 (x0 + t)) (varsI L)) 0 0
          (jregs m (x0 + t)) a e (vars_cat_nodup decl g _ Dg) Ha v Hv) as Q. rewrite (nth_rows_place _ _ a e Ha) in Q. exact Q.
      - exact Hy.
      - intros a e v Ha Hv. exact (load_vars_hit (varsP L) A (fun _ => 0) 0 0 (jregs m (x0 + t)) a e (vars_cat_nodup decl g _ Dg) Ha v Hv).
      - intros a e c v Ha Hv. rewrite (H a e c v); [|apply whole_vars; auto|assumption]. unfold referred. rewrite (position_place (varsI LF) a), (position_place (varsJ LF) a). reflexivity. }
    specialize (Y 0 ltac:(lia)). unfold loaded_fout, fins in Y. injection Y as Y. symmetry. exact Y.
Qed.

Definition fseg (y0 e : nat) : final_block -> final_block := fun st =>
  for_up (tiles bd (e - y0)) (fun tile =>
    range_final_tile ord K L A bd live xi pp (referred (varsJ LF) oj y0) (y0 + tile * bd) e) st.

Lemma final_segment : forall y0 e st t q, live t = true -> q < d ->
  (forall j, In j (interval (y0, e)) -> rows_ok f tagI A oi oj None x0 y0 (x0 + t) j (en u (x0 + t) j)) ->
  snd (snd (fseg y0 e st) t) q = (snd (snd st t) q + lsum q (map (final_item u (x0 + t)) (interval (y0, e))))%R.
Proof.
  intros y0 e st t q Lt Hq HR. rewrite <- (tile_cols_concat bd (y0, e) Hbd). unfold fseg, tile_cols. cbn [fst snd].
  induction (tiles bd (e - y0)) as [|n IH]; [cbn; ring|].
  cbn [for_up]. match goal with |- context [for_up n ?h st] => set (st1 := for_up n h st) in * end.
  rewrite (tile_final_ok ord bd Perm live xi pp (referred (varsJ LF) oj y0) (y0 + n * bd) e
             (fun jrel => final_item u (x0 + t) (y0 + n * bd + jrel)) st1 t Lt); [|clear IH|assumption].
  - rewrite IH. rewrite seq_S, map_app, concat_app, map_app, lsum_app. cbn [map concat Nat.add]. rewrite app_nil_r.
    rewrite Rplus_assoc. f_equal. f_equal. unfold tile_size.
    rewrite <- (map_map (fun q => y0 + n * bd + q) (final_item u (x0 + t))). rewrite map_add_seq. reflexivity.
  - intros jrel v Hj Hv yj Hy. apply (final_term t y0 (y0 + n * bd + jrel)); [|assumption|exact Hy].
    apply HR. unfold tile_size in Hj. unfold interval. cbn [fst snd]. apply in_seq. lia.
Qed.

Lemma final_segments : forall segs st t q, live t = true -> q < d ->
  (forall p j, In p segs -> In j (interval p) -> rows_ok f tagI A oi oj None x0 (fst p) (x0 + t) j (en u (x0 + t) j)) ->
  snd (snd (fold_left (fun st p => fseg (fst p) (snd p) st) segs st) t) q =
  (snd (snd st t) q + lsum q (map (final_item u (x0 + t)) (flat_map interval segs)))%R.
Proof.
  induction segs as [|p segs IH]; intros st t q Lt Hq H; [cbn; ring|]. cbn [fold_left flat_map].
  rewrite IH; [|assumption|assumption|intros; apply H; [right; assumption|assumption]].
  rewrite final_segment; [|assumption|assumption|].
  - rewrite map_app, lsum_app. destruct p; cbn [fst snd]. ring.
  - intros j Hj. apply H; [left; reflexivity|]. destruct p; exact Hj.
Qed.
End Segment.

Definition final_value (u : nat) (blk : RangesSpec.block) (i : nat) : cells :=
  fun k => Fin (lsum k (map (final_item u i) (visited blk))).

Lemma row_stores_ext : forall n i v v', (forall k, k < n -> v k = v' k) -> row_stores n i v = row_stores n i v'.
Proof. intros n i v v' H. unfold row_stores. apply map_ext_in. intros k Hk. apply in_seq in Hk. rewrite H by lia. reflexivity. Qed.

Lemma final_block_rows : forall n u blk x0 x1, final_loads -> gpu_ordered bs -> nth_error bs u = Some blk ->
  first_slice bs u < length (flat_map bcols bs) ->
  fst (brows blk) <= x0 -> x0 < x1 -> x1 <= snd (brows blk) -> x1 - x0 <= bd ->
  range_block_final o m L LF K tagI A bt sp bd n (u, x0, x1) =
  Ok (flat_map (fun i => row_stores d i (final_value u blk i)) (seq x0 (x1 - x0))).
Proof.
  intros n u blk x0 x1 Ld O Hb Hfs H0 H1 H2 H3. unfold range_block_final.
  destruct (Ld u blk x0 Hb) as [oi [oj [op_ [Eo [Ej [Ep HR]]]]]].
  { unfold interval. apply in_seq. lia. }
  cbv zeta beta.
  match goal with |- context[offsets bt shapes_i ?x ?v] => change (offsets bt shapes_i x v) with (offsets bt shapes_i (side tagI bt u true) (x0 - side tagI bt u true)) end.
  match goal with |- context[offsets bt shapes_j ?x 0] => change (offsets bt shapes_j x 0) with (offsets bt shapes_j (side tagI bt u false) 0) end.
  rewrite Eo. cbn [rbind]. rewrite Ej. cbn [rbind]. rewrite Ep. cbn [rbind].
  destruct (slices_read bs u blk Hb) as [S1 S2]. destruct Hst as [_ [Es [Ey _]]]. rewrite Es, S1. cbn [rbind]. rewrite S2. cbn [rbind].
  assert (exists c0, nth_error (flat_map bcols bs) (first_slice bs u) = Some c0) as [c0 Hc0].
  { destruct (nth_error (flat_map bcols bs) (first_slice bs u)) eqn:En; [eauto|]. apply nth_error_None in En. lia. }
  destruct (rd_flat _ _ _ Hc0) as [R0 _]. rewrite Ey, R0. cbn [rbind].
  replace (first_slice bs u + length (bcols blk) - first_slice bs u) with (length (bcols blk)) by lia.
  match goal with |- context [merged_loop _ _ _ _ _ (?sh, ?i0)] => set (init := i0) end.
  pose proof (merged_loop_run bs u blk (flat (flat_map bcols bs))
    (fseg (load_order o n) (fun t => x0 + t <? x1) oi oj x0) Hb eq_refl (bcols blk) [] (fst c0)
     (jshared m n, init) eq_refl) as ML.
  cbn [length] in ML. rewrite Nat.add_0_r in ML. unfold fseg at 1 in ML. rewrite ML. cbn [rbind]. clear ML. f_equal.
  assert (Es' : merge (fst c0) (bcols blk) = segments blk).
  { unfold segments. destruct (bcols blk) as [|c cs] eqn:Ec; [reflexivity|]. f_equal.
    pose proof (cols_nth bs u blk 0 Hb) as Q. rewrite Ec in Q. cbn in Q. specialize (Q ltac:(lia)).
    rewrite Nat.add_0_r, Hc0 in Q. inversion Q. reflexivity. }
  rewrite Es'. clear Es'.
  assert (Val : forall t k, t < x1 - x0 -> k < d ->
    Fin (snd (snd (fold_left (fun st q => fseg (load_order o n) (fun t => x0 + t <? x1) oi oj x0 (fst q) (snd q) st)
      (segments blk) (jshared m n, init)) t) k) = final_value u blk (x0 + t) k).
  { intros t k Ht Hk. unfold final_value. f_equal.
    rewrite (final_segments (load_order o n) (fun t => x0 + t <? x1) oi oj x0 u ltac:(intros; apply Oo) (segments blk) (jshared m n, init) t).
    - cbn [snd]. unfold init. cbn [snd]. cbn [n_dim].
      destruct (for_upR_block d (fun _ => 0%R) 0 (jregs m (x0 + t))) as [B _]. pose proof (B k Hk) as B0. cbn [Nat.add] in B0. rewrite B0.
      rewrite (segments_visit blk (O blk (nth_error_In _ _ Hb))). ring.
    - apply Nat.ltb_lt. lia.
    - assumption.
    - intros q j Hq Hj. unfold segments in Hq. assert (Hc : exists c, In c (bcols blk) /\ fst q = fst c).
      { destruct (merge_starts _ _ _ Hq) as [Ef'|[c Hc]]; [|exists c; assumption].
        destruct (bcols blk) as [|c cs]; [contradiction|]. exists c. split; [left; reflexivity|assumption]. }
      destruct Hc as [c [Hc Ec]]. rewrite Ec. apply HR; try assumption.
      + unfold interval. apply in_seq. lia.
      + lia.
      + rewrite <- (segments_visit blk (O blk (nth_error_In _ _ Hb))). apply in_flat_map. exists q. split; assumption.
      + unfold interval in Hj. apply in_seq in Hj. lia. }
  unfold fseg in Val.
  replace bd with ((x1 - x0) + (bd - (x1 - x0))) at 1 by lia.
  rewrite seq_app, flat_map_app.
  match goal with |- ?u ++ ?v = _ => replace v with (@nil store) end.
  - rewrite app_nil_r. assert (G : forall (g h : nat -> list store) w z n0, (forall t, t < n0 -> g (w + t) = h (z + t)) ->
        flat_map g (seq w n0) = flat_map h (seq z n0)).
    { intros g' h w z n0. revert w z. induction n0 as [|n0 IH]; intros w z Hg'; [reflexivity|]. cbn [seq flat_map]. f_equal.
      - specialize (Hg' 0 ltac:(lia)). rewrite !Nat.add_0_r in Hg'. exact Hg'.
      - apply IH. intros t Ht. specialize (Hg' (S t) ltac:(lia)). rewrite !Nat.add_succ_r in Hg'. exact Hg'. }
    apply G. intros t Ht. cbn [Nat.add]. replace (x0 + t <? x1) with true by (symmetry; apply Nat.ltb_lt; lia).
    apply row_stores_ext. intros k Hk. apply Val; assumption.
  - symmetry. assert (G : forall (g : nat -> list store) l, (forall t, In t l -> g t = []) -> flat_map g l = []).
    { intros g' l. induction l as [|t l IH]; intros Hg'; [reflexivity|]. cbn [flat_map]. rewrite Hg' by (left; reflexivity).
      apply IH. intros; apply Hg'; right; assumption. }
    apply G. intros t Ht. apply in_seq in Ht. replace (x0 + t <? x1) with false by (symmetry; apply Nat.ltb_ge; lia). reflexivity.
Qed.

(** The launch. *)
Lemma constants : final_constants f block_sum = Ok K.
Proof.
  unfold final_constants. destruct Ef; subst f; cbn [children dim].
  - rewrite G1. cbn [Nat.eqb]. rewrite G1. reflexivity.
  - rewrite (proj2 (Nat.eqb_neq d 1)) by lia. rewrite G1. reflexivity.
Qed.
Definition final_of (u i : nat) : cells := match nth_error bs u with Some blk => final_value u blk i | None => fun _ => NaN end.
Lemma ranges_final_launch : forall nx out, final_loads -> gpu_ordered bs -> disjoint_rows nx bs ->
  flat_map (fun b => interval (brows b)) bs <> [] ->
  (forall b, b < length bs -> first_slice bs b < length (flat_map bcols bs)) ->
  exists out', launch_ranges_final o m false block_sum f tagI A bt sp bd out = Ok out' /\
    (forall u blk i k, nth_error bs u = Some blk -> In i (interval (brows blk)) -> k < dim f ->
       out' (i * dim f + k) = Fin (lsum k (map (final_item u i) (visited blk)))) /\
    (forall q, (forall blk i k, In blk bs -> In i (interval (brows blk)) -> k < dim f -> q <> i * dim f + k) -> out' q = out q).
Proof.
  intros nx out Ld O [ND _] Ne Hf. unfold launch_ranges_final. rewrite constants. cbn [rbind n_fun n_pos].
  assert (Lst : listed (varsJ LF) [b] = true).
  { cbn [listed forallb]. rewrite andb_true_r. apply existsb_exists. exists (b, d). split; [|apply Z.eqb_refl].
    unfold loader. cbn [varsJ]. apply vars_cat_in. apply whole_vars. auto. }
  rewrite Lst. rewrite (table_complete decl g tagI _ _ _ inner_declared T Cats). cbn [andb].
  rewrite whole_dim.
  destruct (launch_blocks_rows tagI bs sp bd o d final_of (range_block_final o m L LF K tagI A bt sp bd) out T Hst Hbd Oo ND Ne)
    as [out' [E [H1 H2]]].
  { intros n u blk x0 x1 Hb X0 X1 X2 X3. rewrite (final_block_rows n u blk x0 x1 Ld O Hb); try assumption.
    - f_equal. unfold final_of. rewrite Hb. reflexivity.
    - apply Hf. apply nth_error_Some. congruence. }
  exists out'. split; [exact E|]. split; [|exact H2]. intros u blk i k Hb Hi Hk.
  rewrite (H1 u blk i k Hb Hi Hk). unfold final_of. rewrite Hb. reflexivity.
Qed.
End Block.
End Final.

(** ** Patterns given by the user *)
Lemma final_blocks : forall decl f g b d tagI A u bs o m nx bd out,
  f = Bin BMult g (Var b d (1 - tagI)) \/ f = Bin BMult (Var b d (1 - tagI)) g ->
  declared decl f -> wf f -> categories decl -> tagI <= 1 -> dim g = 1 -> 2 <= d ->
  orders_ok o -> 1 <= bd -> user_describes u tagI bs -> disjoint_rows nx bs ->
  flat_map (fun b => interval (brows b)) bs <> [] -> ends_visiting bs ->
  (forall blk c, In blk bs -> In c (bcols blk) -> fst c <= snd c) ->
  exists out', launch_ranges_final o m false block_sum f tagI A None (from_user u tagI) bd out = Ok out' /\
    (forall blk i k, In blk bs -> In i (interval (brows blk)) -> k < dim f ->
       out' (i * dim f + k) = Fin (lsum k (block_terms decl A f tagI i (visited blk)))) /\
    (forall q, (forall blk i k, In blk bs -> In i (interval (brows blk)) -> k < dim f -> q <> i * dim f + k) ->
       out' q = out q).
Proof.
  intros decl f g b d tagI A u bs o m nx bd out Ef D W C T G1 Hd Oo Hb Us Dj Ne Ev Or.
  destruct (ranges_final_launch decl f g b d tagI Ef D W C T G1 Hd A None bs (from_user u tagI) bd o m
      (fun _ i j => plain_env decl A tagI i j) (user_stored u tagI bs T Us) Hb Oo nx out) as [out' [L [H1 H2]]]; try assumption.
  - intros v blk x0 Eb Hx. exists None, None, None. split; [reflexivity|]. split; [reflexivity|]. split; [reflexivity|].
    intros c i j Hc Hi Hx0 Hj Hcj. apply plain_rows; assumption.
  - intros blk Hblk. apply Forall_forall. intros c Hc. exact (Or blk c Hblk Hc).
  - apply last_first_slice. assumption.
  - exists out'. split; [exact L|]. split; [|exact H2].
    intros blk i k Hblk Hi Hk. destruct (In_nth_error _ _ Hblk) as [v Eb]. exact (H1 v blk i k Eb Hi Hk).
Qed.

(** ** Batches *)
Lemma single_row : forall s idx, (forall n, In n s -> n = 1) -> numpy_row s 1 idx 0 = 0.
Proof.
  unfold numpy_row. induction s as [|n s IH]; intros idx H.
  - cbn. destruct idx; reflexivity.
  - pose proof (H n (or_introl eq_refl)) as ->. destruct idx as [|x idx]; cbn [clip app ravel Nat.eqb Nat.mul Nat.add].
    + destruct s; reflexivity.
    + apply IH. intros k Hk. apply H. right. exact Hk.
Qed.

Lemma place_zero : forall (F : Z * nat -> nat) vs a, In a (map fst vs) -> (forall v, fst v = a -> F v = 0) ->
  nth (place vs a) (map F vs) 0 = 0.
Proof.
  intros F vs a. induction vs as [|[j e] vs IH]; intros Hin H; [contradiction|]. cbn [place map].
  destruct (Z.eqb_spec a j) as [->|Nj]; [cbn [nth]; apply H; reflexivity|]. cbn [nth]. apply IH; [|exact H].
  destruct Hin as [E|E]; [cbn in E; congruence|exact E].
Qed.

Section Batches.
Context (decl : declaration) (f : fm) (tagI : nat) (A : memory) (argshapes : Z -> list nat) (full : list nat) (M N : nat).
Context (D : declared decl f) (W : wf f) (C : categories decl) (T : tagI <= 1).
Context (Hs : forall a d c, In (a, d, c) (vars f) -> shape_ok decl argshapes full M N a).
Context (Hcm : common argshapes full (map vpos (vars f))).
Context (Hf : forall a d c, In (a, d, c) (vars f) -> fits decl argshapes (length full) a).
Context (HM : 1 <= M) (HN : 1 <= N).
Let bt := batch_data f tagI argshapes (length full) M N.
Notation mi := (mi tagI M N).
Notation nj := (nj tagI M N).

Lemma final_batch : forall g b d, f = Bin BMult g (Var b d (1 - tagI)) \/ f = Bin BMult (Var b d (1 - tagI)) g ->
  dim g = 1 -> 2 <= d -> forall o m bd out, orders_ok o -> 1 <= bd -> 1 <= prod full -> single_parameters f argshapes (length full) ->
  exists out', launch_ranges_final o m false block_sum f tagI A (Some bt) (batch_ranges (bsizes bt) tagI) bd out = Ok out' /\
    (forall idx x k, inside idx full -> x < mi -> k < dim f ->
       out' (numpy_row full mi idx x * dim f + k) = Fin (lsum k (batch_terms decl argshapes A f tagI idx x nj))) /\
    (forall q, prod full * mi * dim f <= q -> out' q = out q).
Proof.
  intros g b d Ef G1 Hd o m bd out Oo Hbd Hpf Sg.
  assert (Pm : 1 <= mi) by (unfold C16Proofs.mi, out_rows; destruct tagI; assumption).
  assert (Pn : 1 <= nj) by (unfold C16Proofs.nj, red_terms; destruct tagI; assumption).
  assert (St : stored (diagonal (prod full) mi nj) (batch_ranges (bsizes bt) tagI)) by (eapply bstored; eauto).
  destruct (ranges_final_launch decl f g b d tagI Ef D W C T G1 Hd A (Some bt)
      (diagonal (prod full) mi nj) (batch_ranges (bsizes bt) tagI) bd o m
      (ben decl tagI A argshapes full M N) St Hbd Oo (prod full * mi) out) as [out' [L [H1 H2]]].
  - intros u blk x0 Hb Hx. apply diagonal_nth in Hb. destruct Hb as [Hb ->]. cbn [brows bcols fst snd] in *.
    assert (Sz : (if tagI =? 0 then size_M (bsizes bt) else size_N (bsizes bt)) = mi /\
                 (if tagI =? 0 then size_N (bsizes bt) else size_M (bsizes bt)) = nj) by (eapply sizes_mi; eauto).
    destruct Sz as [E1 E2].
    assert (S1 : side tagI (Some bt) u true = u * mi) by (unfold side; rewrite <- E1; destruct (tagI =? 0); reflexivity).
    assert (S2 : side tagI (Some bt) u false = u * nj) by (unfold side; rewrite <- E2; destruct (tagI =? 0); reflexivity).
    rewrite S1, S2. eexists. eexists. eexists.
    split; [eapply offsets_i; eauto|]. split; [eapply offsets_j; eauto|]. split; [eapply offsets_p; eauto|].
    intros c i j [<-|[]] Hi Hxi Hj Hcj. cbn [fst snd].
    assert (B : rows_ok f tagI A
      (Some (map (fun v => (x0 - u * mi) + numpy_row (firstn (length full) (argshapes (fst v))) mi (unravel full u) 0) (varsI (loader f tagI))))
      (Some (map (fun v => numpy_row (firstn (length full) (argshapes (fst v))) nj (unravel full u) 0) (varsJ (loader f tagI))))
      (Some (map (fun v => numpy_row (firstn (length full) (argshapes (fst v))) 1 (unravel full u) 0) (varsP (loader f tagI))))
      x0 (u * nj) i j (ben decl tagI A argshapes full M N u i j)).
    { eapply batch_rows; eauto. unfold interval in Hx, Hi. cbn [fst snd] in Hx, Hi. apply in_seq in Hx. lia. }
    intros a e c q Ha Hq. rewrite (B a e c q Ha Hq). cbv zeta.
    destruct (Nat.eqb_spec c tagI) as [_|N1]; [reflexivity|]. destruct (Nat.eqb_spec c (1 - tagI)) as [_|N2]; [reflexivity|].
    assert (Hc : c = 2).
    { pose proof (C a) as Ca. rewrite (vars_declared decl f D a e c Ha) in Ca. cbn in Ca. lia. }
    subst c. cbn [row_param].
    assert (Hin : In a (map fst (varsP (loader f tagI)))).
    { apply in_map_iff. exists (a, e). split; [reflexivity|]. apply vars_cat_in. exact Ha. }
    rewrite place_zero; [reflexivity|exact Hin|]. intros [a' e'] E. cbn [fst] in *. subst a'. apply single_row. exact (Sg a e Ha).
  - intros blk Hb. apply In_nth_error in Hb. destruct Hb as [u Hb]. apply diagonal_nth in Hb. destruct Hb as [_ ->].
    constructor; [|constructor]. cbn [fst snd]. apply Nat.mul_le_mono_r. lia.
  - apply diagonal_disjoint.
  - rewrite diagonal_rows. destruct (prod full * mi) eqn:Z; [nia|]. discriminate.
  - apply last_first_slice. exists (diagonal (prod full - 1) mi nj).
    eexists. split.
    + unfold diagonal. replace (prod full) with (S (prod full - 1)) at 1 by lia. rewrite seq_S, map_app. reflexivity.
    + discriminate.
  - exists out'. split; [exact L|]. split.
    + intros idx x k I Hx Hk.
      assert (Bo : numpy_row full mi idx x = ravel full idx * mi + x /\ unravel full (ravel full idx) = idx /\ ravel full idx < prod full)
        by (eapply batch_out; eauto).
      destruct Bo as [En [_ B]]. rewrite En.
      assert (Bi : let b := ravel full idx in
         map (bit decl f tagI A argshapes full M N b (b * mi + x)) (visited {| brows := (b * mi, (b + 1) * mi); bcols := [(b * nj, (b + 1) * nj)] |})
         = batch_terms decl argshapes A f tagI idx x nj) by (eapply batch_items; eauto).
      rewrite <- Bi. cbv zeta.
      rewrite (H1 (ravel full idx) _ (ravel full idx * mi + x) k (diagonal_nth_ok _ _ _ _ B)); [|unfold interval; cbn [brows fst snd]; apply in_seq; nia|assumption].
      f_equal. unfold lsum. generalize (visited {| brows := (ravel full idx * mi, (ravel full idx + 1) * mi);
         bcols := [(ravel full idx * nj, (ravel full idx + 1) * nj)] |}) as l.
      induction l as [|j l IH]; [reflexivity|]. cbn [map fold_right]. rewrite IH. reflexivity.
    + intros q Hq. apply H2. intros blk i k Hb Hi Hk Eq. apply In_nth_error in Hb. destruct Hb as [u Hb]. apply diagonal_nth in Hb.
      destruct Hb as [Hb ->]. unfold interval in Hi. cbn [brows fst snd] in Hi. apply in_seq in Hi.
      assert ((u + 1) * mi <= prod full * mi) by (apply Nat.mul_le_mono_r; lia).
      assert (i + 1 <= prod full * mi) by lia. assert ((i + 1) * dim f <= prod full * mi * dim f) by (apply Nat.mul_le_mono_r; assumption). lia.
Qed.
End Batches.

(** ** Defects *)
Definition par_product : fm := Bin BMult (Bin BMult (Var 0 1 0) (Var 2 1 2)) (Var 1 147 1).
Definition par_product_decl : declaration := fun a => if Z.eqb a 0 then (1, 0) else if Z.eqb a 1 then (147, 1) else (1, 2).
Definition par_product_shapes : Z -> list nat := fun a =>
  if Z.eqb a 0 then [2; 1; 1] else if Z.eqb a 1 then [2; 1; 147] else [2; 1].
Lemma batched_parameters_wrong : forall A m out,
  let bt := batch_data par_product 0 par_product_shapes 1 1 1 in
  (exists out', launch_ranges_final {| load_order := fun _ _ l => l; store_order := fun l => l |} m false
     block_sum par_product 0 A (Some bt) (batch_ranges (bsizes bt) 0) 1 out = Ok out' /\
     out' 147 = Fin (A 0%Z 1%nat * A 2%Z 0%nat * A 1%Z 147%nat)) /\
  lsum 0 (batch_terms par_product_decl par_product_shapes A par_product 0 [1] 0 1) = (A 0%Z 1%nat * A 2%Z 1%nat * A 1%Z 147%nat)%R.
Proof.
  intros A m out bt. split.
  - eexists. split; [lazy -[Rplus Rmult IZR]; reflexivity|]. lazy -[Rplus Rmult IZR]. f_equal. ring.
  - lazy -[Rplus Rmult IZR]. ring.
Qed.

Lemma outer_factor : forall o m host g i d tagI A bt sp bd out s, dim g = 1 -> 2 <= d -> tagI <= 1 ->
  (forall e, ~ In (i, e, 1 - tagI) (vars g)) ->
  forall out', launch_ranges_final o m host s (Bin BMult g (Var i d tagI)) tagI A bt sp bd out <> Ok out'.
Proof.
  intros o m host g i d tagI A bt sp bd out s G1 Hd T N out'. unfold launch_ranges_final, final_constants. cbn [children dim].
  rewrite G1. cbn [Nat.eqb]. rewrite G1. cbn [Nat.eqb]. destruct s; cbn [rbind]; try discriminate. cbn [n_pos n_fun].
  replace (listed _ [i]) with false; [discriminate|]. symmetry. cbn [listed forallb]. rewrite andb_true_r.
  destruct (existsb _ _) eqn:E; [|reflexivity]. apply existsb_exists in E. destruct E as [[i' e] [H E]]. cbn [fst] in E.
  apply Z.eqb_eq in E. subst i'. unfold loader in H. cbn [varsJ] in H. apply vars_cat_in in H. cbn [vars] in H.
  apply union_vars_in in H. destruct H as [H|[H|[]]]; [destruct (N e H)|]. inversion H. destruct tagI; discriminate.
Qed.

Lemma ranges_operation : forall A m out,
  let u := {| ranges_i := [(0, 1)]; slices_i := [1]; redranges_j := [(0, 1)]; ranges_j := []; slices_j := []; redranges_i := [] |} in
  (exists out', launch_ranges_final {| load_order := fun _ _ l => l; store_order := fun l => l |} m false block_sum
     add_formula 0 A None (from_user u 0) 1 out = Ok out' /\
     out' 0 = Fin (A 0%Z 0%nat * A 1%Z 0%nat)) /\
  lsum 0 (block_terms add_decl A add_formula 0 0 [0]) = (A 0%Z 0%nat + A 1%Z 0%nat)%R.
Proof.
  intros A m out u. split.
  - eexists. split; [lazy -[Rplus Rmult IZR]; reflexivity|]. lazy -[Rplus Rmult IZR]. f_equal. ring.
  - lazy -[Rplus Rmult IZR]. ring.
Qed.
