(** Lemmas on the block-sparse GPU routine. *)

From Coq Require Import ZArith Reals Arith Lia List Bool Permutation.
From Verif Require Import Result Formula XReal Reductions ReductionSpec RedLoops KernelSum KernelSumSpec
  SumSpec LseSpec Postprocess CpuReduc Loader LoaderProofs CpuConv CpuConvSpec GpuConv RangesConv RangesSpec
  C06Proofs C09Proofs C11Proofs C12Proofs GpuProofs C13Proofs RangesProofs.
Import ListNotations.

Lemma acc_items_cons : forall op x l st, acc_items op (x :: l) st = acc_items op l (accumulate op st (fins (snd x)) (fst x)).
Proof. reflexivity. Qed.
Lemma acc_items_app : forall op l1 l2 st, acc_items op (l1 ++ l2) st = acc_items op l2 (acc_items op l1 st).
Proof. intros. unfold acc_items. apply fold_left_app. Qed.

Lemma for_items : forall d r s op n F I (g : nat -> item) st, reduction_of d r -> scheme_code r s = Ok op ->
  (forall q, q < n -> same_below d (F q) (fins (snd (g q))) /\ I q = fst (g q)) ->
  for_up n (fun q st => accumulate op st (F q) (I q)) st = acc_items op (map g (seq 0 n)) st.
Proof.
  intros d r s op n F I g st R E H. induction n as [|n IH]; [reflexivity|].
  cbn [for_up]. rewrite seq_S, map_app, acc_items_app. cbn [Nat.add map]. rewrite IH by (intros; apply H; lia).
  destruct (H n ltac:(lia)) as [H1 H2]. rewrite H2. unfold acc_items at 2. cbn [fold_left].
  eapply ops_local; eauto.
Qed.

Lemma map_add_seq : forall z n, map (fun q => z + q) (seq 0 n) = seq z n.
Proof.
  intros z n. assert (G : forall w, map (fun q => z + q) (seq w n) = seq (z + w) n).
  { induction n as [|n IH]; intros w; cbn; [reflexivity|]. f_equal. rewrite IH. f_equal. lia. }
  rewrite G. f_equal. lia.
Qed.

Section Block.
Context (decl : declaration) (f : fm) (tagI : nat) (A : memory) (bt : option batching)
  (bs : list block) (sp : sparsity) (r : reduction) (s : scheme) (op : scheme_ops) (bd : nat)
  (o : orders) (m : initial).
Context (D : declared decl f) (W : wf f) (C : categories decl) (T : tagI <= 1)
  (Hr : reduction_of (dim f) r) (Hop : scheme_code r s = Ok op) (Hst : stored bs sp) (Hbd : 1 <= bd)
  (Ho : orders_ok o).
Context (idx : nat -> nat -> nat -> nat) (en : nat -> nat -> nat -> env).
Let L := loader f tagI.
Let it b i j : item := (Z.of_nat (idx b i j), eval f (en b i j)).

Definition side (b : nat) (i_side : bool) : nat :=
  match bt with
  | None => 0
  | Some bt => b * (if tagI =? 0 then (if i_side then size_M (bsizes bt) else size_N (bsizes bt))
                    else (if i_side then size_N (bsizes bt) else size_M (bsizes bt)))
  end.

(** The offset tables give the rows of the terms [it]. *)
Definition gpu_loads : Prop := forall b blk x0, nth_error bs b = Some blk -> In x0 (interval (brows blk)) ->
  exists oi oj op_, offsets bt shapes_i (side b true) (x0 - side b true) = Ok oi /\
    offsets bt shapes_j (side b false) 0 = Ok oj /\ offsets bt shapes_p b 0 = Ok op_ /\
    forall c i j, In c (bcols blk) -> In i (interval (brows blk)) -> x0 <= i -> In j (visited blk) -> fst c <= j ->
      idx b i j = col_index oj (fst c) j /\ rows_ok f tagI A oi oj op_ x0 (fst c) i j (en b i j).

Definition gpu_ordered : Prop := forall blk, In blk bs -> ordered (bcols blk).

(** A tile, seen by a live thread. *)
Lemma tile_items : forall oj live xi pp oi op_ x0 b i y0 e tile st t ord,
  live t = true -> (forall n l, Permutation (ord n l) l) -> i = x0 + t ->
  (exists junk, xi t = load_vars (varsI L) A (row_at oi x0 i) 0 0 junk /\ pp t = load_vars (varsP L) A (row_param op_) 0 0 junk) ->
  (forall j, In j (interval (y0, e)) -> idx b i j = col_index oj y0 j /\ rows_ok f tagI A oi oj op_ x0 y0 i j (en b i j)) ->
  snd (tile_step ord op f L A bd oj live xi pp y0 e tile st) t =
  final_op op (acc_items op (map (it b i) (seq (y0 + tile * bd) (Nat.min bd (e - (y0 + tile * bd)))))
     (fst (snd st t), block_init op (snd (snd st t)))).
Proof.
  intros oj live xi pp oi op_ x0 b i y0 e tile st t ord Hl P Hi [junk [Ex Ep]] H.
  unfold tile_step. cbn [snd]. rewrite Hl. f_equal.
  rewrite (for_items (dim f) r s op (Nat.min bd (e - (y0 + tile * bd))) _ _ (fun q => it b i (y0 + tile * bd + q)) _ Hr Hop).
  - f_equal. generalize (Nat.min bd (e - (y0 + tile * bd))) as n. intros n.
    rewrite <- (map_map (fun q => y0 + tile * bd + q) (it b i)). f_equal.
    apply map_add_seq.
  - intros q Hq. assert (Hj : In (y0 + tile * bd + q) (interval (y0, e))).
    { unfold interval. cbn [fst snd]. apply in_seq. lia. }
    destruct (H _ Hj) as [H1 H2]. split.
    + cbn [it snd]. rewrite Ex, Ep. apply (rows_tile decl f tagI A oi oj op_ x0 y0 i (y0 + tile * bd + q)); try assumption.
      intros a d v Ha Hv. apply (range_shared A L bd oj y0 (y0 + tile * bd) e); try assumption.
      * apply P.
      * apply (vars_cat_nodup decl f _ D).
      * lia.
      * lia.
    + cbn [it fst]. f_equal. rewrite H1. f_equal. lia.
Qed.

Lemma segment_items : forall oj live xi pp oi op_ x0 b i y0 e st t ord,
  live t = true -> (forall n l, Permutation (ord n l) l) -> i = x0 + t ->
  (exists junk, xi t = load_vars (varsI L) A (row_at oi x0 i) 0 0 junk /\ pp t = load_vars (varsP L) A (row_param op_) 0 0 junk) ->
  (forall j, In j (interval (y0, e)) -> idx b i j = col_index oj y0 j /\ rows_ok f tagI A oi oj op_ x0 y0 i j (en b i j)) ->
  snd (for_up (tiles bd (e - y0)) (tile_step ord op f L A bd oj live xi pp y0 e) st) t =
  run_tiles op (map (map (it b i)) (tile_cols bd (y0, e))) (snd st t).
Proof.
  intros oj live xi pp oi op_ x0 b i y0 e st t ord Hl P Hi J H. unfold tile_cols. cbn [fst snd].
  induction (tiles bd (e - y0)) as [|n IH]; [reflexivity|]. cbn [for_up].
  rewrite (tile_items oj live xi pp oi op_ x0 b i y0 e n _ t ord Hl P Hi J H). rewrite IH.
  rewrite seq_S, !map_app. unfold run_tiles at 3. rewrite fold_left_app. reflexivity.
Qed.

Lemma segments_items : forall oj live xi pp oi op_ x0 b i segs st t ord,
  live t = true -> (forall n l, Permutation (ord n l) l) -> i = x0 + t ->
  (exists junk, xi t = load_vars (varsI L) A (row_at oi x0 i) 0 0 junk /\ pp t = load_vars (varsP L) A (row_param op_) 0 0 junk) ->
  (forall p j, In p segs -> In j (interval p) -> idx b i j = col_index oj (fst p) j /\ rows_ok f tagI A oi oj op_ x0 (fst p) i j (en b i j)) ->
  snd (fold_left (fun st p => for_up (tiles bd (snd p - fst p)) (tile_step ord op f L A bd oj live xi pp (fst p) (snd p)) st) segs st) t =
  run_tiles op (map (map (it b i)) (flat_map (tile_cols bd) segs)) (snd st t).
Proof.
  intros oj live xi pp oi op_ x0 b i segs st t ord Hl P Hi J. revert st.
  induction segs as [|p segs IH]; intros st H; [reflexivity|]. cbn [fold_left flat_map].
  rewrite IH by (intros; apply H; [right; assumption|assumption]).
  rewrite (segment_items oj live xi pp oi op_ x0 b i (fst p) (snd p) st t ord Hl P Hi J).
  - rewrite map_app. unfold run_tiles. rewrite fold_left_app. destruct p; reflexivity.
  - intros j Hj. apply H; [left; reflexivity|]. destruct p; exact Hj.
Qed.

(** Value computed for row i of block b. *)
Definition gpu_value (b : nat) (blk : block) (i : nat) : cells :=
  rfinal r (fst (run_tiles op
    (map (map (it b i)) (flat_map (tile_cols bd) (merge (match bcols blk with [] => 0 | c :: _ => fst c end) (bcols blk))))
    (rinit r, first_init op (jtmp m i)))).

Lemma gpu_value_row : forall b blk i, In blk bs -> gpu_ordered ->
  row_value r s (map (it b i) (visited blk)) (gpu_value b blk i).
Proof.
  intros b blk i Hb O. unfold gpu_value. specialize (O blk Hb).
  set (segs := merge _ _).
  assert (E : concat (flat_map (tile_cols bd) segs) = visited blk).
  { assert (G : forall l, concat (flat_map (tile_cols bd) l) = flat_map interval l).
    { induction l as [|p l IH]; [reflexivity|]. cbn [flat_map]. rewrite concat_app, IH, tile_cols_concat by assumption. reflexivity. }
    rewrite G. unfold segs, visited. destruct (bcols blk) as [|c cs]; [reflexivity|].
    inversion O; subst. rewrite merge_visits by assumption. cbn [flat_map]. destruct c; reflexivity. }
  rewrite <- E at 1. rewrite concat_map. apply tiles_value; [assumption|]. intros _.
  apply Forall_forall. intros l Hl. apply in_map_iff in Hl. destruct Hl as [l' [<- Hl]].
  apply in_flat_map in Hl. destruct Hl as [p [_ Hl]].
  pose proof (tile_cols_nonempty bd p Hbd) as F. rewrite Forall_forall in F. specialize (F l' Hl).
  destruct l'; [congruence|discriminate].
Qed.

(** A thread block. *)
Lemma range_block_rows : forall n b blk x0 x1, gpu_loads -> gpu_ordered -> nth_error bs b = Some blk ->
  first_slice bs b < length (flat_map bcols bs) ->
  fst (brows blk) <= x0 -> x0 < x1 -> x1 <= snd (brows blk) -> x1 - x0 <= bd ->
  range_block o m r op f tagI A bt sp bd n (b, x0, x1) =
  Ok (flat_map (fun i => row_stores (rdim r) i (gpu_value b blk i)) (seq x0 (x1 - x0))).
Proof.
  intros n b blk x0 x1 Ld O Hb Hfs H0 H1 H2 H3. unfold range_block. fold L.
  destruct (Ld b blk x0 Hb) as [oi [oj [op_ [Eo [Ej [Ep HR]]]]]].
  { unfold interval. apply in_seq. lia. }
  cbv zeta beta.
  match goal with |- context[offsets bt shapes_i ?u ?v] => change (offsets bt shapes_i u v) with (offsets bt shapes_i (side b true) (x0 - side b true)) end.
  match goal with |- context[offsets bt shapes_j ?u 0] => change (offsets bt shapes_j u 0) with (offsets bt shapes_j (side b false) 0) end.
  rewrite Eo. cbn [rbind]. rewrite Ej. cbn [rbind]. rewrite Ep. cbn [rbind].
  destruct (slices_read bs b blk Hb) as [S1 S2]. destruct Hst as [_ [Es [Ey _]]]. rewrite Es, S1. cbn [rbind]. rewrite S2. cbn [rbind].
  assert (exists c0, nth_error (flat_map bcols bs) (first_slice bs b) = Some c0) as [c0 Hc0].
  { destruct (nth_error (flat_map bcols bs) (first_slice bs b)) eqn:En; [eauto|]. apply nth_error_None in En. lia. }
  destruct (rd_flat _ _ _ Hc0) as [R0 _]. rewrite Ey, R0. cbn [rbind].
  replace (first_slice bs b + length (bcols blk) - first_slice bs b) with (length (bcols blk)) by lia.
  pose proof (merged_loop_run bs b blk (flat (flat_map bcols bs))
    (fun s e st => for_up (tiles bd (e - s)) (tile_step (load_order o n) op f L A bd oj (fun t => x0 + t <? x1)
       (fun t => load_vars (varsI L) A (row_at oi x0 (x0 + t)) 0 0 (jregs m (x0 + t)))
       (fun t => load_vars (varsP L) A (row_param op_) 0 0 (jregs m (x0 + t))) s e) st) Hb eq_refl (bcols blk) [] (fst c0)
     (jshared m n, fun t => (rinit r, first_init op (jtmp m (x0 + t)))) eq_refl) as ML.
  cbn [length] in ML. rewrite Nat.add_0_r in ML. rewrite ML. cbn [rbind]. clear ML. f_equal.
  assert (Hs : bcols blk <> [] -> fst c0 = match bcols blk with [] => 0 | c :: _ => fst c end).
  { intros N. destruct (bcols blk) as [|c cs] eqn:Ec; [congruence|].
    pose proof (cols_nth bs b blk 0 Hb) as Q. rewrite Ec in Q. cbn in Q. specialize (Q ltac:(lia)).
    rewrite Nat.add_0_r, Hc0 in Q. inversion Q. reflexivity. }
  assert (Es' : merge (fst c0) (bcols blk) = merge (match bcols blk with [] => 0 | c :: _ => fst c end) (bcols blk)).
  { destruct (bcols blk) as [|c cs] eqn:Ec; [reflexivity|]. rewrite Hs by discriminate. reflexivity. }
  rewrite Es'. clear Es' Hs.
  assert (Val : forall t, t < x1 - x0 ->
    rfinal r (fst (snd (fold_left (fun st p => for_up (tiles bd (snd p - fst p))
      (tile_step (load_order o n) op f L A bd oj (fun t => x0 + t <? x1)
       (fun t => load_vars (varsI L) A (row_at oi x0 (x0 + t)) 0 0 (jregs m (x0 + t)))
       (fun t => load_vars (varsP L) A (row_param op_) 0 0 (jregs m (x0 + t))) (fst p) (snd p)) st)
      (merge (match bcols blk with [] => 0 | c :: _ => fst c end) (bcols blk))
      (jshared m n, fun t => (rinit r, first_init op (jtmp m (x0 + t))))) t)) = gpu_value b blk (x0 + t)).
  { intros t Ht. unfold gpu_value. f_equal. f_equal.
    refine (segments_items oj (fun t => x0 + t <? x1) _ _ oi op_ x0 b (x0 + t) _ _ t _ _ _ eq_refl _ _).
    - apply Nat.ltb_lt. lia.
    - intros; apply Ho.
    - exists (jregs m (x0 + t)). split; reflexivity.
    - intros p j Hp Hj. assert (Hc : exists c, In c (bcols blk) /\ fst p = fst c).
      { destruct (merge_starts _ _ _ Hp) as [Ef|[c Hc]]; [|exists c; assumption].
        destruct (bcols blk) as [|c cs]; [contradiction|]. exists c. split; [left; reflexivity|assumption]. }
      destruct Hc as [c [Hc Ec]]. rewrite Ec. apply HR; try assumption.
      + unfold interval. apply in_seq. lia.
      + lia.
      + unfold visited. assert (Em : In j (flat_map interval (merge (match bcols blk with [] => 0 | c :: _ => fst c end) (bcols blk)))).
        { apply in_flat_map. exists p. split; assumption. }
        pose proof (O blk (nth_error_In _ _ Hb)) as Ob.
        destruct (bcols blk) as [|c1 cs]; [contradiction|]. inversion Ob; subst.
        rewrite merge_visits in Em by assumption. cbn [flat_map]. destruct c1; exact Em.
      + unfold interval in Hj. apply in_seq in Hj. lia. }
  replace bd with ((x1 - x0) + (bd - (x1 - x0))) by lia.
  rewrite seq_app, flat_map_app.
  match goal with |- ?u ++ ?v = _ => replace v with (@nil store) end.
  - rewrite app_nil_r. assert (G : forall (g h : nat -> list store) w z n0, (forall t, t < n0 -> g (w + t) = h (z + t)) ->
        flat_map g (seq w n0) = flat_map h (seq z n0)).
    { intros g h w z n0. revert w z. induction n0 as [|n0 IH]; intros w z Hg; [reflexivity|]. cbn [seq flat_map]. f_equal.
      - specialize (Hg 0 ltac:(lia)). rewrite !Nat.add_0_r in Hg. exact Hg.
      - apply IH. intros t Ht. specialize (Hg (S t) ltac:(lia)). rewrite !Nat.add_succ_r in Hg. exact Hg. }
    apply G. intros t Ht. cbn [Nat.add]. replace (x0 + t <? x1) with true by (symmetry; apply Nat.ltb_lt; lia).
    f_equal. replace (x1 - x0 + (bd - (x1 - x0))) with bd by lia. apply Val. assumption.
  - symmetry. assert (G : forall (g : nat -> list store) l, (forall t, In t l -> g t = []) -> flat_map g l = []).
    { intros g l. induction l as [|t l IH]; intros Hg; [reflexivity|]. cbn [flat_map]. rewrite Hg by (left; reflexivity).
      apply IH. intros; apply Hg; right; assumption. }
    apply G. intros t Ht. apply in_seq in Ht. replace (x0 + t <? x1) with false by (symmetry; apply Nat.ltb_ge; lia). reflexivity.
Qed.

(** ** The block table *)
Definition range_entries (b : nat) (p : nat * nat) : list (nat * nat * nat) :=
  map (fun t => (b, fst p + t * bd, fst p + t * bd + Nat.min bd (snd p - fst p - t * bd))) (seq 0 (tiles bd (snd p - fst p))).
Definition entries (z : nat) (l : list block) : list (nat * nat * nat) :=
  flat_map (fun bb => range_entries (fst bb) (brows (snd bb))) (combine (seq z (length l)) l).

Lemma lookup_entries : forall suf pre, bs = pre ++ suf ->
  lookup_table bd (ranges_x sp) (seq (length pre) (length suf)) = Ok (entries (length pre) suf) /\
  nblocks bd (ranges_x sp) (seq (length pre) (length suf)) = Ok (length (entries (length pre) suf)).
Proof.
  destruct Hst as [Ex _]. induction suf as [|blk suf IH]; intros pre E; [split; reflexivity|].
  assert (Hb : nth_error (map brows bs) (length pre) = Some (brows blk)).
  { apply map_nth_error. rewrite E, nth_error_app2, Nat.sub_diag by lia. reflexivity. }
  destruct (rd_flat _ _ _ Hb) as [R1 R2].
  destruct (IH (pre ++ [blk])) as [I1 I2]; [rewrite <- app_assoc; exact E|].
  replace (length (pre ++ [blk])) with (S (length pre)) in I1, I2 by (rewrite app_length; cbn; lia).
  cbn [length seq lookup_table nblocks]. rewrite Ex, R1. cbn [rbind]. rewrite R2. cbn [rbind]. rewrite <- Ex, I1, I2. cbn [rbind].
  split; [reflexivity|]. f_equal. unfold entries. cbn [length seq combine flat_map fst snd]. rewrite app_length. f_equal.
  unfold range_entries. rewrite map_length, seq_length. apply blocks_tiles. assumption.
Qed.

Lemma mapr_table : forall (E S : Type) (table : list E) (h : nat -> E -> res S) (g : E -> S),
  (forall k e, In e table -> h k e = Ok (g e)) ->
  mapr (fun b => do e <- rd table b ; h b e) (seq 0 (length table)) = Ok (map g table).
Proof.
  intros E S table h g H.
  assert (G : forall suf pre, table = pre ++ suf ->
    mapr (fun b => do e <- rd table b ; h b e) (seq (length pre) (length suf)) = Ok (map g suf)).
  { induction suf as [|e suf IH]; intros pre Ep; [reflexivity|]. cbn [length seq mapr map].
    unfold rd at 1. rewrite Ep at 1. rewrite nth_error_app2, Nat.sub_diag by lia. cbn [nth_error rbind].
    rewrite H by (rewrite Ep; apply in_or_app; right; left; reflexivity). cbn [rbind].
    replace (Datatypes.S (length pre)) with (length (pre ++ [e])) by (rewrite app_length; cbn; lia).
    rewrite IH by (rewrite <- app_assoc; exact Ep). reflexivity. }
  exact (G table [] eq_refl).
Qed.

Definition value_at (b i : nat) : cells := match nth_error bs b with Some blk => gpu_value b blk i | None => rinit r end.
Definition entry_stores (e : nat * nat * nat) : list store :=
  let '(b, x0, x1) := e in flat_map (fun i => row_stores (rdim r) i (value_at b i)) (seq x0 (x1 - x0)).

Lemma combine_nth_error : forall (l : list block) z b blk, In (b, blk) (combine (seq z (length l)) l) ->
  z <= b /\ nth_error l (b - z) = Some blk.
Proof.
  induction l as [|x l IH]; intros z b blk H; [contradiction|]. cbn [length seq combine] in H. destruct H as [H|H].
  - inversion H; subst. rewrite Nat.sub_diag. split; [lia|reflexivity].
  - destruct (IH (S z) b blk H) as [H1 H2]. split; [lia|]. replace (b - z) with (S (b - S z)) by lia. exact H2.
Qed.

Lemma entries_stores : concat (map entry_stores (entries 0 bs)) =
  flat_map (fun w => row_stores (rdim r) (fst w) (snd w))
    (flat_map (fun bb => map (fun i => (i, value_at (fst bb) i)) (interval (brows (snd bb)))) (combine (seq 0 (length bs)) bs)).
Proof.
  unfold entries. induction (combine (seq 0 (length bs)) bs) as [|[b blk] l IH]; [reflexivity|].
  cbn [flat_map fst snd]. rewrite map_app, concat_app, IH, flat_map_app. f_equal.
  rewrite <- (tile_cols_concat bd (brows blk) Hbd). unfold tile_cols, range_entries.
  rewrite map_map. induction (seq 0 (tiles bd (snd (brows blk) - fst (brows blk)))) as [|t ts IHt]; [reflexivity|].
  cbn [map concat]. rewrite map_app, flat_map_app, IHt. f_equal. cbn [entry_stores].
  replace (fst (brows blk) + t * bd + Nat.min bd (snd (brows blk) - fst (brows blk) - t * bd) - (fst (brows blk) + t * bd))
    with (Nat.min bd (snd (brows blk) - (fst (brows blk) + t * bd))) by lia.
  generalize (seq (fst (brows blk) + t * bd) (Nat.min bd (snd (brows blk) - (fst (brows blk) + t * bd)))) as q.
  induction q as [|i q IHq]; [reflexivity|]. cbn [flat_map map fst snd]. rewrite IHq. reflexivity.
Qed.

Lemma rows_stores_nodup : forall d (ws : list (nat * cells)), NoDup (map fst ws) ->
  NoDup (map fst (flat_map (fun w => row_stores d (fst w) (snd w)) ws)).
Proof.
  intros d ws. induction ws as [|[i v] ws IH]; intros ND; [constructor|]. cbn [map fst] in ND. inversion ND as [|? ? Ni ND']; subst.
  cbn [flat_map fst snd]. rewrite map_app, row_stores_fst. apply nodup_app; [apply seq_NoDup|apply IH; assumption|].
  intros q Hq Hq'. apply in_seq in Hq. rewrite map_flat_map in Hq'. apply in_flat_map in Hq'.
  destruct Hq' as [[i' v'] [Hw Hq']]. cbn [fst snd] in Hq'. rewrite row_stores_fst in Hq'. apply in_seq in Hq'.
  assert (i <> i'). { intros ->. apply Ni. apply in_map_iff. exists (i', v'). auto. }
  destruct (row_disjoint d i i' (q - i * d)); lia.
Qed.

Lemma gpu_ranges : forall nx out, gpu_loads -> gpu_ordered -> disjoint_rows nx bs ->
  flat_map (fun b => interval (brows b)) bs <> [] ->
  (forall b, b < length bs -> first_slice bs b < length (flat_map bcols bs)) ->
  exists out', launch_gpu_ranges o m false r s f tagI A bt sp bd out = Ok out' /\
    (forall b blk i, nth_error bs b = Some blk -> In i (interval (brows blk)) ->
       row_value r s (map (it b i) (visited blk)) (fun k => out' (i * rdim r + k))) /\
    (forall q, (forall blk i k, In blk bs -> In i (interval (brows blk)) -> k < rdim r -> q <> i * rdim r + k) -> out' q = out q).
Proof.
  intros nx out Ld O [ND _] Ne Hf. unfold launch_gpu_ranges. fold L.
  rewrite (table_complete decl f tagI _ _ _ D T C), Hop. cbn [rbind].
  destruct (Nat.eqb_spec bd 0) as [Z|_]; [lia|]. cbn [andb].
  destruct (lookup_entries bs [] eq_refl) as [E1 E2]. cbn [length] in E1, E2.
  destruct Hst as [_ [_ [_ En]]]. rewrite En, E2. cbn [rbind]. rewrite E1. cbn [rbind].
  rewrite (mapr_table _ _ _ (fun b e => range_block o m r op f tagI A bt sp bd b e) entry_stores).
  - destruct (Nat.eqb_spec (length (entries 0 bs)) 0) as [Z|_].
    + exfalso. apply Ne. apply length_zero_iff_nil in Z.
      assert (Q : concat (map (fun e : nat * nat * nat => let '(_, x0, x1) := e in seq x0 (x1 - x0)) (entries 0 bs)) =
                  flat_map (fun b => interval (brows b)) bs).
      { unfold entries. generalize 0 as z. clear - Hbd. induction bs as [|blk l IH]; intros z; [reflexivity|].
        cbn [length seq combine flat_map fst snd]. rewrite map_app, concat_app, IH. f_equal.
        rewrite <- (tile_cols_concat bd (brows blk) Hbd). unfold tile_cols, range_entries. rewrite map_map. f_equal.
        apply map_ext. intros t. f_equal. lia. }
      rewrite <- Q, Z. reflexivity.
    + cbn [rbind]. eexists. split; [reflexivity|]. rewrite entries_stores.
      set (ws := flat_map (fun bb => map (fun i => (i, value_at (fst bb) i)) (interval (brows (snd bb)))) (combine (seq 0 (length bs)) bs)).
      assert (Ew : map fst ws = flat_map (fun b => interval (brows b)) bs).
      { unfold ws. generalize 0 as z. clear. intros z. generalize value_at. intros V. revert z. induction bs as [|blk l IH]; intros z; [reflexivity|].
        cbn [length seq combine flat_map fst snd]. rewrite map_app, map_map, IH. cbn [fst]. rewrite map_id. reflexivity. }
      assert (NDs : NoDup (map fst (flat_map (fun w => row_stores (rdim r) (fst w) (snd w)) ws))).
      { apply rows_stores_nodup. rewrite Ew. assumption. }
      destruct Ho as [_ Hs]. split.
      * intros b blk i Hb Hi.
        assert (Val : forall k, k < rdim r ->
          perform_stores (store_order o (flat_map (fun w => row_stores (rdim r) (fst w) (snd w)) ws)) out (i * rdim r + k) = gpu_value b blk i k).
        { intros k Hk. apply (stores_hit _ _ out (i * rdim r + k, gpu_value b blk i k) (Hs _) NDs).
          apply in_flat_map. exists (i, gpu_value b blk i). split.
          - unfold ws. apply in_flat_map. exists (b, blk). split.
            + apply (nth_error_In _ b). rewrite nth_error_nth' with (d := (b, blk)).
              * f_equal. rewrite combine_nth by apply seq_length. f_equal.
                -- rewrite seq_nth; [reflexivity|]. apply nth_error_Some. congruence.
                -- apply nth_error_nth. assumption.
              * rewrite combine_length, seq_length, Nat.min_id. apply nth_error_Some. congruence.
            + cbn [fst snd]. apply in_map_iff. exists i. split; [|assumption]. unfold value_at. rewrite Hb. reflexivity.
          - cbn [fst snd]. unfold row_stores. apply in_map_iff. exists k. split; [reflexivity|apply in_seq; lia]. }
        destruct (gpu_value_row b blk i (nth_error_In _ _ Hb) O) as [V1 [V2 V3]]. split; [|split].
        -- intros Es k Hk. rewrite (Val k Hk). apply V1; assumption.
        -- intros d Er k Hk. rewrite (Val k) by (rewrite Er; cbn; assumption). apply (V2 d Er k Hk).
        -- intros w Er N k Hk Hp. rewrite <- (V3 w Er N k Hk Hp). unfold lse_post.
           rewrite !Val by (rewrite Er; cbn; lia). reflexivity.
      * intros q Hq. apply (stores_miss _ _ out q (Hs _)). intros Hin. rewrite map_flat_map in Hin. apply in_flat_map in Hin.
        destruct Hin as [[i v] [Hw Hin]]. cbn [fst snd] in Hin. rewrite row_stores_fst in Hin. apply in_seq in Hin.
        assert (Hi : In i (map fst ws)) by (apply in_map_iff; exists (i, v); auto). rewrite Ew in Hi. apply in_flat_map in Hi.
        destruct Hi as [blk [Hb Hi]]. apply (Hq blk i (q - i * rdim r) Hb Hi); lia.
  - intros k [[b x0] x1] He. unfold entries in He. apply in_flat_map in He. destruct He as [[b' blk] [Hb He]].
    apply combine_nth_error in Hb. destruct Hb as [_ Hb]. rewrite Nat.sub_0_r in Hb. cbn [fst snd] in He.
    unfold range_entries in He. apply in_map_iff in He. destruct He as [t [He Ht]]. apply in_seq in Ht. inversion He; subst.
    pose proof (tile_lt bd (snd (brows blk) - fst (brows blk)) t Hbd ltac:(lia)) as Hlt.
    cbn [entry_stores]. rewrite (range_block_rows k b blk); try assumption.
    + f_equal. unfold value_at. rewrite Hb. reflexivity.
    + apply Hf. apply nth_error_Some. congruence.
    + lia.
    + lia.
    + lia.
    + lia.
Qed.
End Block.
