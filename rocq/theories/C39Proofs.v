(** Proofs for C39: calls and addresses. *)

From Coq Require Import ZArith Reals Arith Lia Bool Permutation String List.
From Verif Require Import Result Formula XReal Reductions ReductionSpec RedLoops KernelSum KernelSumSpec
  LseSpec Postprocess CpuReduc Loader LoaderProofs CpuConv CpuConvSpec GpuConv GpuProofs RangesConv RangesSpec
  C12Proofs RangesProofs C16Proofs Broadcast SimplifyProofs ArgCheck ArgCheckSpec.
From Verif Require LazyTensors.
Import ListNotations.

(** ** Sizes *)
Lemma lbo_app : forall s n d, ArgCheck.last_but_one (s ++ [n; d]) = Ok n.
Proof. intros. unfold ArgCheck.last_but_one. rewrite rev_app_distr. reflexivity. Qed.

Lemma sizes_run : forall shapes M N aliases nx ny,
  (forall al, In al aliases -> (a_cat al = 0 -> rows_of shapes (a_pos al) = Ok M) /\
                               (a_cat al = 1 -> rows_of shapes (a_pos al) = Ok N)) ->
  (nx = Some M \/ nx = None /\ (M = 1 \/ exists al, In al aliases /\ a_cat al = 0)) ->
  (ny = Some N \/ ny = None /\ (N = 1 \/ exists al, In al aliases /\ a_cat al = 1)) ->
  sizes_loop aliases shapes nx ny = Ok (M, N).
Proof.
  intros shapes M N. induction aliases as [|a aliases IH]; intros nx ny H HX HY; cbn [sizes_loop].
  - destruct HX as [->|[-> [->|[al [[] _]]]]]; destruct HY as [->|[-> [->|[al [[] _]]]]]; reflexivity.
  - destruct (H a) as [H0 H1]; [left; reflexivity|].
    assert (HS : forall al, In al aliases -> (a_cat al = 0 -> rows_of shapes (a_pos al) = Ok M) /\
                               (a_cat al = 1 -> rows_of shapes (a_pos al) = Ok N)).
    { intros al Hi. apply H. right. assumption. }
    destruct (Nat.eqb_spec (a_cat a) 0) as [E0|N0].
    + rewrite (H0 E0). cbn [rbind].
      assert (HY' : ny = Some N \/ ny = None /\ (N = 1 \/ exists al, In al aliases /\ a_cat al = 1)).
      { destruct HY as [->|[-> [->|[al [[<-|Hi] E]]]]]; auto; [congruence|]. right. split; [reflexivity|]. right. eauto. }
      destruct ny as [n|].
      * destruct HY' as [E|[E _]]; inversion E; subst. reflexivity.
      * apply IH; auto.
    + assert (HX' : nx = Some M \/ nx = None /\ (M = 1 \/ exists al, In al aliases /\ a_cat al = 0)).
      { destruct HX as [->|[-> [->|[al [[<-|Hi] E]]]]]; auto; [congruence|]. right. split; [reflexivity|]. right. eauto. }
      destruct (Nat.eqb_spec (a_cat a) 1) as [E1|N1].
      * rewrite (H1 E1). cbn [rbind]. destruct nx as [n|].
        -- destruct HX' as [E|[E _]]; inversion E; subst. reflexivity.
        -- apply IH; auto.
      * assert (HY' : ny = Some N \/ ny = None /\ (N = 1 \/ exists al, In al aliases /\ a_cat al = 1)).
        { destruct HY as [->|[-> [->|[al [[<-|Hi] E]]]]]; auto; [congruence|]. right. split; [reflexivity|]. right. eauto. }
        cbn [rbind]. destruct nx as [n|], ny as [m|]; [|apply IH; auto..].
        destruct HX' as [E|[E _]]; inversion E; subst. destruct HY' as [E'|[E' _]]; inversion E'; subst. reflexivity.
Qed.

(** ** Batch shape *)
Definition zmax := Broadcast.max_tuple.
Lemma max_tuple_len : forall a b, List.length a = List.length b -> List.length (max_tuple a b) = List.length a.
Proof. induction a as [|x a IH]; intros [|y b] H; cbn in *; try lia. rewrite IH by lia. reflexivity. Qed.
Lemma max_tuple_nth : forall a b q, List.length a = List.length b -> q < List.length a ->
  nth q (max_tuple a b) 0%Z = Z.max (nth q a 0%Z) (nth q b 0%Z).
Proof.
  induction a as [|x a IH]; intros [|y b] q H Hq; cbn in *; try lia. destruct q as [|q]; [reflexivity|]. apply IH; lia.
Qed.
Lemma reduce_bounds : forall n (hi : nat -> Z) l a, List.length a = n -> (forall b, In b l -> List.length b = n) ->
  (forall q, q < n -> (nth q a 0 <= hi q)%Z) -> (forall b q, In b l -> q < n -> (nth q b 0 <= hi q)%Z) ->
  exists c, reduce_from a l = Ok c /\ List.length c = n /\ (forall q, q < n -> (nth q c 0 <= hi q)%Z) /\
    forall b q, In b (a :: l) -> q < n -> (nth q b 0 <= nth q c 0)%Z.
Proof.
  intros n hi. induction l as [|b l IH]; intros a La Ll Ha Hl; cbn [reduce_from].
  - exists a. repeat split; auto. intros b q [<-|[]] Hq. lia.
  - unfold np_maximum. assert (Lb : List.length b = n) by (apply Ll; left; reflexivity).
    rewrite La, Lb, Nat.eqb_refl. cbn [rbind].
    destruct (IH (max_tuple a b)) as [c [E [Lc [U V]]]].
    + rewrite max_tuple_len; congruence.
    + intros; apply Ll; right; assumption.
    + intros q Hq. rewrite max_tuple_nth by lia. pose proof (Ha q Hq). pose proof (Hl b q (or_introl eq_refl) Hq). lia.
    + intros; apply Hl; [right; assumption|assumption].
    + exists c. repeat split; auto. intros b' q Hi Hq.
      assert (X : (nth q (max_tuple a b) 0 <= nth q c 0)%Z) by (apply V; [left; reflexivity|assumption]).
      rewrite max_tuple_nth in X by lia. destruct Hi as [<-|[<-|Hi]]; [lia|lia|]. apply V; [right; assumption|assumption].
Qed.

Lemma nth_firstn_lt : forall (T : Type) (l : list T) n q d, q < n -> nth q (firstn n l) d = nth q l d.
Proof.
  intros T l. induction l as [|x l IH]; intros n q d H; [rewrite firstn_nil; reflexivity|].
  destruct n as [|n]; [lia|]. destruct q as [|q]; [reflexivity|]. cbn. apply IH. lia.
Qed.
Lemma compatible_len : forall s full, compatible s full -> List.length s = List.length full.
Proof. intros s full H. exact (forall2_len _ _ _ _ _ H). Qed.
Lemma compatible_nth : forall s full, compatible s full -> forall q, q < List.length full ->
  nth q s 0 = 1 \/ nth q s 0 = nth q full 0.
Proof. intros s full H. induction H as [|d n s full Hd H IH]; intros q Hq; cbn in *; [lia|]. destruct q; [assumption|apply IH; lia]. Qed.

Section Call.
Context (aliases : list alias) (shapes : list (list nat)) (full : list nat) (M N : nat).
Context (Co : consistent aliases shapes full M N).

Lemma shape_of_position : forall p sh, nth_error shapes p = Some sh -> exists al, In al aliases /\ a_pos al = p.
Proof.
  intros p sh H. assert (Hp : p < List.length shapes) by (apply nth_error_Some; congruence).
  rewrite (co_count _ _ _ _ _ Co) in Hp. assert (I : In p (seq 0 (List.length aliases))) by (apply in_seq; lia).
  apply (Permutation_in _ (Permutation_sym (co_positions _ _ _ _ _ Co))) in I. apply in_map_iff in I.
  destruct I as [al [E I]]. eauto.
Qed.
Lemma shape_form : forall sh, In sh shapes -> exists s al, In al aliases /\ compatible s full /\ sh = (s ++ expected al M N)%list.
Proof.
  intros sh I. apply In_nth_error in I. destruct I as [p Hp]. destruct (shape_of_position p sh Hp) as [al [Ha <-]].
  destruct (co_shapes _ _ _ _ _ Co al Ha) as [s [C E]]. rewrite E in Hp. inversion Hp. eauto.
Qed.
Lemma expected_len : forall al, List.length (expected al M N) = if a_cat al <=? 1 then 2 else 1.
Proof. intros al. unfold expected. destruct (a_cat al) as [|[|]]; reflexivity. Qed.

Lemma rank_upper : forall l, (forall sh, In sh l -> List.length sh <= List.length full + 2) -> max_rank l <= List.length full + 2.
Proof.
  unfold max_rank. induction l as [|sh l IH]; intros H; cbn [fold_right]; [lia|].
  pose proof (H sh (or_introl eq_refl)). assert (fold_right (fun sh n => Nat.max (List.length sh) n) 0 l <= List.length full + 2).
  { apply IH. intros; apply H; right; assumption. } lia.
Qed.
Lemma rank_lower : forall l sh, In sh l -> List.length sh <= max_rank l.
Proof. unfold max_rank. induction l as [|x l IH]; intros sh []; subst; cbn [fold_right]; [lia|]. pose proof (IH sh H). lia. Qed.
Lemma max_rank_full : max_rank shapes = List.length full + 2.
Proof.
  apply Nat.le_antisymm.
  - apply rank_upper. intros sh I. destruct (shape_form sh I) as [s [al [_ [C ->]]]].
    rewrite app_length, (compatible_len s full C), expected_len. destruct (a_cat al <=? 1); lia.
  - destruct (co_some _ _ _ _ _ Co) as [al [Ha Hc]]. destruct (co_shapes _ _ _ _ _ Co al Ha) as [s [C E]].
    apply nth_error_In in E. pose proof (rank_lower shapes _ E) as H.
    rewrite app_length, (compatible_len s full C), expected_len in H.
    destruct (Nat.leb_spec (a_cat al) 1); lia.
Qed.

Lemma full_positive : forall q, q < List.length full -> 1 <= nth q full 0.
Proof. intros q Hq. destruct (co_full _ _ _ _ _ Co q Hq) as [->|[H _]]; lia. Qed.

Lemma batch_shape : genred_batch (List.length full) (map (map Z.of_nat) shapes) = Ok (map Z.of_nat full).
Proof.
  set (n := List.length full). unfold genred_batch.
  assert (Ne : shapes <> []).
  { intros E. destruct (co_some _ _ _ _ _ Co) as [al [Ha _]]. destruct (co_shapes _ _ _ _ _ Co al Ha) as [s [_ X]].
    rewrite E in X. destruct (a_pos al); discriminate. }
  assert (Hall : forall b, In b (map (firstn n) (map (map Z.of_nat) shapes)) -> List.length b = n /\
            forall q, q < n -> (1 <= nth q b 0 <= Z.of_nat (nth q full 0%nat))%Z).
  { intros b Hb. apply in_map_iff in Hb. destruct Hb as [z [<- Hz]]. apply in_map_iff in Hz. destruct Hz as [sh [<- I]].
    destruct (shape_form sh I) as [s [al [_ [C ->]]]]. pose proof (compatible_len s full C) as Ls. split.
    - rewrite firstn_length, map_length, app_length. lia.
    - intros q Hq. rewrite nth_firstn_lt by assumption. change 0%Z with (Z.of_nat 0). rewrite map_nth, app_nth1 by (unfold n in *; lia).
      pose proof (full_positive q Hq). destruct (compatible_nth s full C q Hq) as [->| ->]; lia. }
  assert (Hin : forall sh, In sh shapes -> In (firstn n (map Z.of_nat sh)) (map (firstn n) (map (map Z.of_nat) shapes))).
  { intros sh I. apply in_map, in_map, I. }
  destruct (map (firstn n) (map (map Z.of_nat) shapes)) as [|a l] eqn:E.
  { destruct shapes; [congruence|discriminate]. }
  destruct (reduce_bounds n (fun q => Z.of_nat (nth q full 0)) l a) as [c [Ec [Lc [U V]]]].
  - apply Hall. left; reflexivity.
  - intros b Hb. apply Hall. right; assumption.
  - intros q Hq. apply (Hall a); [left; reflexivity|assumption].
  - intros b q Hb Hq. apply (Hall b); [right; assumption|assumption].
  - rewrite Ec. f_equal. apply (nth_ext _ _ 0%Z 0%Z); [rewrite map_length; exact Lc|].
    intros q Hq. rewrite Lc in Hq. change 0%Z with (Z.of_nat 0) at 2. rewrite map_nth.
    assert (Lo : (1 <= nth q c 0)%Z).
    { destruct (Hall a (or_introl eq_refl)) as [_ Ha]. pose proof (Ha q Hq). pose proof (V a q (or_introl eq_refl) Hq). lia. }
    pose proof (U q Hq) as Up. destruct (co_full _ _ _ _ _ Co q Hq) as [E1|[_ [sh [I E1]]]]; [lia|].
    pose proof (V _ q (Hin sh I) Hq) as X. rewrite nth_firstn_lt in X by assumption.
    change 0%Z with (Z.of_nat 0) in X at 1. rewrite map_nth, E1 in X. lia.
Qed.

Lemma rows_found : forall al, In al aliases -> (a_cat al = 0 -> rows_of shapes (a_pos al) = Ok M) /\
                               (a_cat al = 1 -> rows_of shapes (a_pos al) = Ok N).
Proof.
  intros al Ha. destruct (co_shapes _ _ _ _ _ Co al Ha) as [s [_ E]]. unfold rows_of, rd. rewrite E. cbn [rbind].
  unfold expected. split; intros ->; apply lbo_app.
Qed.

Lemma call_ok : call aliases shapes = Ok {| p_nx := M; p_ny := N; p_ranges := negb (List.length full =? 0); p_batch := full |}.
Proof.
  unfold call. rewrite (co_count _ _ _ _ _ Co), Nat.eqb_refl.
  assert (Ne : shapes <> []).
  { intros E. destruct (co_some _ _ _ _ _ Co) as [al [Ha _]]. destruct (co_shapes _ _ _ _ _ Co al Ha) as [s [_ X]].
    rewrite E in X. destruct (a_pos al); discriminate. }
  destruct shapes as [|sh0 shs] eqn:Es; [congruence|]. rewrite <- Es in *.
  rewrite max_rank_full. replace (List.length full + 2 - 2) with (List.length full) by lia.
  unfold get_sizes. rewrite (sizes_run shapes M N).
  - cbn [rbind]. destruct (Nat.eqb_spec (List.length full) 0) as [E|E].
    + cbn [rbind fst snd map]. destruct full; [reflexivity|discriminate].
    + rewrite batch_shape. cbn [rbind fst snd]. rewrite map_map. f_equal. f_equal.
      rewrite <- (map_id full) at 2. apply map_ext. intros. apply Nat2Z.id.
  - exact rows_found.
  - right. split; [reflexivity|]. apply (co_rows _ _ _ _ _ Co).
  - right. split; [reflexivity|]. apply (co_cols _ _ _ _ _ Co).
Qed.
End Call.

(** ** Reads of rows *)
Lemma load_copies_reads : forall vs rows u a x q,
  In (x, q) (map (fun c => (src c, spos c)) (load_copies vs rows u a)) <->
  exists w d k, nth_error vs w = Some (x, d) /\ k < d /\ q = rows (u + w) * d + k.
Proof.
  induction vs as [|[i d] vs IH]; intros rows u a x q; cbn [load_copies].
  - split; [intros []|]. intros [w [e [k [H _]]]]. destruct w; discriminate.
  - rewrite map_app, in_app_iff, map_map, IH. split.
    + intros [H|[w [e [k [H [Hk ->]]]]]].
      * apply in_map_iff in H. destruct H as [k [E H]]. apply in_seq in H. cbn [src spos] in E. inversion E; subst.
        exists 0, d, k. rewrite Nat.add_0_r. split; [reflexivity|]. split; [lia|reflexivity].
      * exists (S w), e, k. rewrite Nat.add_succ_r. auto.
    + intros [[|w] [e [k [H [Hk ->]]]]].
      * left. inversion H; subst. apply in_map_iff. exists k. rewrite Nat.add_0_r. split; [reflexivity|]. apply in_seq. lia.
      * right. exists w, e, k. rewrite Nat.add_succ_r. auto.
Qed.
Lemma row_reads_in : forall vs rows x q, In (x, q) (row_reads vs rows) <->
  exists w d k, nth_error vs w = Some (x, d) /\ k < d /\ q = rows w * d + k.
Proof. intros. unfold row_reads. rewrite load_copies_reads. reflexivity. Qed.

Definition agree_on (l : list address) (A B : memory) : Prop := forall x q, In (x, q) l -> A x q = B x q.
Lemma agree_app : forall l m A B, agree_on (l ++ m) A B -> agree_on l A B /\ agree_on m A B.
Proof. intros l m A B H. split; intros x q I; apply H, in_app_iff; auto. Qed.

Lemma load_vars_ext : forall A B vs rows u a x,
  agree_on (map (fun c => (src c, spos c)) (load_copies vs rows u a)) A B ->
  load_vars vs A rows u a x = load_vars vs B rows u a x.
Proof.
  intros A B. induction vs as [|[i d] vs IH]; intros rows u a x H; cbn [load_vars]; [reflexivity|].
  cbn [load_copies] in H. rewrite map_app in H. apply agree_app in H. destruct H as [H1 H2].
  assert (E : forall n y, n <= d -> for_upR n (fun v x => rupd x (a + v) (A i (rows u * d + v))) y =
                        for_upR n (fun v x => rupd x (a + v) (B i (rows u * d + v))) y).
  { induction n as [|n IHn]; intros y Hn; cbn [for_upR]; [reflexivity|]. rewrite IHn by lia. f_equal.
    apply H1. rewrite map_map. apply in_map_iff. exists n. split; [reflexivity|]. apply in_seq. lia. }
  rewrite E by lia. apply IH. assumption.
Qed.

(** ** The result depends only on what is read *)
Lemma flat_agree : forall (n : nat) (h : nat -> list address) A B, agree_on (flat_map h (seq 0 n)) A B ->
  forall q, q < n -> agree_on (h q) A B.
Proof. intros n h A B H q Hq x p I. apply H. apply in_flat_map. exists q. split; [apply in_seq; lia|assumption]. Qed.

Lemma slice_ext : forall op f L A B bt ry junk xi pp slices l st, slice_reads L bt ry slices = Ok l -> agree_on l A B ->
  slice_loop op f L A bt ry junk xi pp slices st = slice_loop op f L B bt ry junk xi pp slices st.
Proof.
  intros op f L A B bt ry junk xi pp. induction slices as [|s slices IH]; intros l st H G; [reflexivity|].
  cbn [slice_loop slice_reads] in *.
  destruct (rd ry (2 * s)) as [y0| | |]; try discriminate. cbn [rbind] in *.
  destruct (rd ry (2 * s + 1)) as [y1| | |]; try discriminate. cbn [rbind] in *.
  destruct (offsets bt shapes_j y0 0) as [oj| | |]; try discriminate. cbn [rbind] in *.
  destruct (slice_reads L bt ry slices) as [rest| | |]; try discriminate. cbn [rbind] in *.
  inversion H; subst l. apply agree_app in G. destruct G as [G1 G2].
  rewrite (for_up_ext _ (y1 - y0) _ (fun q st =>
                  let j := y0 + q in
                  let yj := load_vars (varsJ L) B (row_at oj y0 j) 0 0 junk in
                  accumulate op st (loaded_fout f L xi yj pp) (Z.of_nat (col_index oj y0 j)))).
  - apply (IH rest); auto.
  - intros q st' Hq. cbv zeta. rewrite (load_vars_ext A B); [reflexivity|].
    apply (flat_agree _ _ _ _ G1 q Hq).
Qed.

Lemma rows_ext : forall d order (g h : nat -> res cells) out, (forall i, In i order -> g i = h i) ->
  range_rows d g order out = range_rows d h order out.
Proof.
  intros d. induction order as [|i order IH]; intros g h out H; [reflexivity|]. cbn [range_rows].
  rewrite (H i) by (left; reflexivity). destruct (h i) as [v| | |]; try reflexivity. cbn [rbind]. apply IH.
  intros; apply H; right; assumption.
Qed.

Lemma range_ext : forall schedule r op f L A B bt sp junk tmp indices l out, complete schedule ->
  range_reads L bt sp indices = Ok l -> agree_on l A B ->
  range_loop schedule r op f L A bt sp junk tmp indices out = range_loop schedule r op f L B bt sp junk tmp indices out.
Proof.
  intros schedule r op f L A B bt sp junk tmp indices. induction indices as [|n indices IH]; intros l out Sc H G; [reflexivity|].
  cbn [range_loop range_reads] in *.
  destruct (rd (ranges_x sp) (2 * n)) as [x0| | |]; try discriminate. cbn [rbind] in *.
  destruct (rd (ranges_x sp) (2 * n + 1)) as [x1| | |]; try discriminate. cbn [rbind] in *.
  destruct (if n <? 1 then Ok 0 else rd (slices_x sp) (n - 1)) as [s0| | |]; try discriminate. cbn [rbind] in *.
  destruct (rd (slices_x sp) n) as [s1| | |]; try discriminate. cbn [rbind] in *.
  destruct (offsets bt shapes_i x0 0) as [oi| | |]; try discriminate. cbn [rbind] in *.
  destruct (offsets bt shapes_p n 0) as [op_| | |]; try discriminate. cbn [rbind] in *.
  destruct (slice_reads L bt (ranges_y sp) (seq s0 (s1 - s0))) as [js| | |] eqn:Ej; try discriminate. cbn [rbind] in *.
  destruct (range_reads L bt sp indices) as [rest| | |]; try discriminate. cbn [rbind] in *.
  inversion H; subst l. apply agree_app in G. destruct G as [G1 G]. apply agree_app in G. destruct G as [G2 G].
  apply agree_app in G. destruct G as [G3 G4].
  rewrite (load_vars_ext A B) by exact G1.
  rewrite (rows_ext (rdim r) _ _ (range_row r op f L B bt (ranges_y sp) junk tmp
             (load_vars (varsP L) B (row_param op_) 0 0 junk) oi x0 s0 s1)).
  - destruct (range_rows (rdim r) _ _ out) as [out'| | |]; try reflexivity. cbn [rbind]. apply (IH rest); auto.
  - intros i Hi. apply in_map_iff in Hi. destruct Hi as [q [<- Hq]].
    apply (Permutation_in _ (Sc _)) in Hq. apply in_seq in Hq. unfold range_row. cbv zeta.
    rewrite (load_vars_ext A B (varsI L)) by (apply (flat_agree _ _ _ _ G2 q); lia).
    rewrite (slice_ext op f L A B bt (ranges_y sp) junk _ _ _ js); auto.
Qed.

Lemma conv_ext : forall r s f L A B ny order out,
  (forall i, In i order -> cpu_row r s ny (fout f L A i) = cpu_row r s ny (fout f L B i)) ->
  conv_rows r s f L A ny order out = conv_rows r s f L B ny order out.
Proof.
  intros r s f L A B ny. induction order as [|i order IH]; intros out H; [reflexivity|]. cbn [conv_rows].
  rewrite (H i) by (left; reflexivity). destruct (cpu_row r s ny (fout f L B i)) as [v| | |]; try reflexivity.
  cbn [rbind]. apply IH. intros; apply H; right; assumption.
Qed.

Lemma dense_in : forall L nx ny x q, In (x, q) (dense_reads L nx ny) <-> exists i j, i < nx /\ j < ny /\
  (In (x, q) (row_reads (varsI L) (fun _ => i)) \/ In (x, q) (row_reads (varsJ L) (fun _ => j)) \/
   In (x, q) (row_reads (varsP L) (fun _ => 0))).
Proof.
  intros L nx ny x q. unfold dense_reads. rewrite in_flat_map. split.
  - intros [i [Hi H]]. apply in_seq in Hi. apply in_flat_map in H. destruct H as [j [Hj H]]. apply in_seq in Hj.
    rewrite !in_app_iff in H. exists i, j. repeat split; [lia|lia|assumption].
  - intros [i [j [Hi [Hj H]]]]. exists i. split; [apply in_seq; lia|]. apply in_flat_map. exists j. split; [apply in_seq; lia|].
    rewrite !in_app_iff. assumption.
Qed.

Lemma dense_ext : forall decl f r s tagI A B nx ny i, declared decl f -> wf f -> categories decl -> tagI <= 1 ->
  reduction_of (dim f) r -> i < nx -> agree_on (dense_reads (loader f tagI) nx ny) A B ->
  cpu_row r s ny (fout f (loader f tagI) A i) = cpu_row r s ny (fout f (loader f tagI) B i).
Proof.
  intros decl f r s tagI A B nx ny i D W C T R Hi G. apply (cpu_row_local (dim f)); [assumption|]. intros j Hj k Hk.
  unfold fout. f_equal.
  assert (C' : forall i d c, In (i, d, c) (vars f) -> c <= 2).
  { intros a d c Ha. apply (vars_declared decl f D) in Ha. specialize (C a). rewrite Ha in C. exact C. }
  destruct (direct_table_env decl f tagI A i j D T C') as [_ AgA].
  destruct (direct_table_env decl f tagI B i j D T C') as [_ AgB].
  apply eval_agree; [assumption| |assumption]. intros a d c Ha q Hq. rewrite (AgA a d c Ha q Hq), (AgB a d c Ha q Hq).
  apply G. apply dense_in. exists i, j. split; [assumption|]. split; [assumption|].
  pose proof (C' a d c Ha) as Hc. rewrite (vars_declared decl f D a d c Ha). cbn [fst snd].
  assert (Hv : In (a, d) (vars_cat f c)) by (apply vars_cat_in; assumption).
  apply In_nth_error in Hv. destruct Hv as [w Hw]. unfold loop_row, loader. cbn [varsI varsJ varsP].
  destruct (Nat.eqb_spec c tagI) as [->|N1].
  - left. apply row_reads_in. eauto 8.
  - destruct (Nat.eqb_spec c (1 - tagI)) as [->|N2].
    + right. left. apply row_reads_in. eauto 8.
    + assert (c = 2) by lia. subst c. right. right. apply row_reads_in. eauto 8.
Qed.

Lemma depends : forall decl f r s tagI aliases shapes schedule junk tmp A B out l,
  declared decl f -> wf f -> categories decl -> tagI <= 1 -> reduction_of (dim f) r -> complete schedule ->
  cpu_reads f tagI aliases shapes = Ok l -> (forall ad, In ad l -> A (fst ad) (snd ad) = B (fst ad) (snd ad)) ->
  cpu_call schedule junk tmp r s f tagI aliases shapes A out = cpu_call schedule junk tmp r s f tagI aliases shapes B out.
Proof.
  intros decl f r s tagI aliases shapes schedule junk tmp A B out l D W C T R Sc H G0.
  assert (G : agree_on l A B) by (intros x q I; apply (G0 (x, q) I)). clear G0.
  unfold cpu_reads, cpu_call in *. destruct (call aliases shapes) as [p| | |]; try discriminate. cbn [rbind] in *.
  destruct (p_ranges p).
  - destruct (batch_setting f tagI shapes p) as [bt sp]. unfold launch_cpu_ranges.
    destruct (table_ok f _); [|reflexivity]. destruct (scheme_code r s) as [op| | |]; try reflexivity. cbn [rbind].
    rewrite (range_ext schedule r op f (loader f tagI) A B bt sp junk tmp _ l); auto.
  - inversion H; subst l. unfold launch_cpu.
    assert (C' : forall i d c, In (i, d, c) (vars f) -> c <= 2).
    { intros a d c Ha. apply (vars_declared decl f D) in Ha. specialize (C a). rewrite Ha in C. exact C. }
    destruct (direct_table_env decl f tagI A 0 0 D T C') as [-> _].
    destruct (direct_table_env decl f tagI B 0 0 D T C') as [-> _].
    destruct (tagI =? 1); rewrite (conv_ext r s f (loader f tagI) A B); try reflexivity;
      intros i Hi; apply (Permutation_in _ (Sc _)) in Hi; apply in_seq in Hi;
      eapply dense_ext; try eassumption; lia.
Qed.

(** ** Addresses of the dense routine *)
Lemma dense_exact : forall f tagI aliases shapes p, tagI <= 1 -> (forall a d c, In (a, d, c) (vars f) -> c <= 2) ->
  call aliases shapes = Ok p -> p_ranges p = false -> 1 <= p_nx p -> 1 <= p_ny p ->
  exists l, cpu_reads f tagI aliases shapes = Ok l /\
    (Forall (inside_array shapes) l <->
     forall a d c, In (a, d, c) (vars f) -> 1 <= d ->
       exists n sh, a = Z.of_nat n /\ nth_error shapes n = Some sh /\ rows_read c (p_nx p) (p_ny p) * d <= entries sh).
Proof.
  intros f tagI aliases shapes p T C E Er Hx Hy. unfold cpu_reads. rewrite E. cbn [rbind]. rewrite Er.
  eexists. split; [reflexivity|].
  set (nx := if tagI =? 1 then p_ny p else p_nx p). set (ny := if tagI =? 1 then p_nx p else p_ny p).
  assert (Hn : 1 <= nx /\ 1 <= ny) by (unfold nx, ny; destruct (tagI =? 1); lia).
  assert (Hw : forall a d c, In (a, d, c) (vars f) -> exists w, nth_error (vars_cat f c) w = Some (a, d)).
  { intros a d c H. apply vars_cat_in in H. apply In_nth_error in H. assumption. }
  split.
  - intros F a d c Ha Hd. rewrite Forall_forall in F. pose proof (C a d c Ha) as Hc. destruct (Hw a d c Ha) as [w W].
    assert (X : In (a, (rows_read c (p_nx p) (p_ny p) - 1) * d + (d - 1)) (dense_reads (loader f tagI) nx ny)).
    { apply dense_in. exists (nx - 1), (ny - 1). split; [lia|]. split; [lia|]. unfold loader. cbn [varsI varsJ varsP].
      assert (Cs : c = tagI \/ c = 1 - tagI \/ c = 2) by lia. unfold nx, ny.
      destruct Cs as [->|[->| ->]].
      - left. apply row_reads_in. exists w, d, (d - 1). split; [assumption|]. split; [lia|].
        destruct tagI as [|[|]]; [reflexivity|reflexivity|lia].
      - right. left. apply row_reads_in. exists w, d, (d - 1). split; [assumption|]. split; [lia|].
        destruct tagI as [|[|]]; [reflexivity|reflexivity|lia].
      - right. right. apply row_reads_in. exists w, d, (d - 1). split; [assumption|]. split; [lia|]. reflexivity. }
    apply F in X. destruct X as [n [sh [E1 [E2 E3]]]]. cbn [fst snd] in *. exists n, sh. split; [assumption|]. split; [assumption|].
    assert (1 <= rows_read c (p_nx p) (p_ny p)) by (unfold rows_read; destruct c as [|[|]]; lia). nia.
  - intros H. apply Forall_forall. intros [a q] I. apply dense_in in I. destruct I as [i [j [Hi [Hj I]]]].
    unfold loader in I. cbn [varsI varsJ varsP] in I.
    assert (G : exists c d k row, In (a, d, c) (vars f) /\ k < d /\ q = row * d + k /\ row < rows_read c (p_nx p) (p_ny p)).
    { unfold nx, ny in *. destruct I as [I|[I|I]]; apply row_reads_in in I; destruct I as [w [d [k [I [Hk ->]]]]];
        apply nth_error_In, vars_cat_in in I.
      - exists tagI, d, k, i. repeat split; auto. unfold rows_read. destruct tagI as [|[|]]; cbn in Hi; lia.
      - exists (1 - tagI), d, k, j. repeat split; auto. unfold rows_read. destruct tagI as [|[|]]; cbn in *; lia.
      - exists 2, d, k, 0. repeat split; auto. }
    destruct G as [c [d [k [row [Ha [Hk [-> Hr]]]]]]]. destruct (H a d c Ha) as [n [sh [E1 [E2 E3]]]]; [lia|].
    exists n, sh. cbn [fst snd]. split; [assumption|]. split; [assumption|]. nia.
Qed.

Lemma entries_app : forall a b, entries (a ++ b)%list = entries a * entries b.
Proof. exact prod_app. Qed.

Section Consistent.
Context (aliases : list alias) (shapes : list (list nat)) (full : list nat) (M N : nat) (f : fm) (decl : declaration) (tagI : nat).
Context (Co : consistent aliases shapes full M N) (D : declared decl f) (W : wf f) (C : categories decl) (T : tagI <= 1).
Context (Us : uses aliases decl f).

Lemma var_shape : forall a d c, In (a, d, c) (vars f) -> exists n s, a = Z.of_nat n /\ compatible s full /\
  nth_error shapes n = Some (s ++ match c with O => [M; d] | 1 => [N; d] | _ => [d] end)%list.
Proof.
  intros a d c H. destruct (Us a d c H) as [al [Ha [-> [-> [-> _]]]]]. destruct (co_shapes _ _ _ _ _ Co al Ha) as [s [Cs E]].
  exists (a_pos al), s. auto.
Qed.

Lemma dense_inside : full = [] -> exists l, cpu_reads f tagI aliases shapes = Ok l /\ Forall (inside_array shapes) l.
Proof.
  intros Ef. pose proof (call_ok _ _ _ _ _ Co) as E.
  assert (C' : forall i d c, In (i, d, c) (vars f) -> c <= 2).
  { intros a d c Ha. apply (vars_declared decl f D) in Ha. specialize (C a). rewrite Ha in C. exact C. }
  destruct (Nat.eq_dec M 0) as [Z1|P1]; [|destruct (Nat.eq_dec N 0) as [Z2|P2]].
  - unfold cpu_reads. rewrite E, Ef. cbn [rbind negb p_ranges p_nx p_ny Nat.eqb List.length]. eexists. split; [reflexivity|].
    subst M. destruct (tagI =? 1); apply Forall_forall; intros [a q] I; apply dense_in in I; destruct I as [i [j [Hi [Hj _]]]]; lia.
  - unfold cpu_reads. rewrite E, Ef. cbn [rbind negb p_ranges p_nx p_ny Nat.eqb List.length]. eexists. split; [reflexivity|].
    subst N. destruct (tagI =? 1); apply Forall_forall; intros [a q] I; apply dense_in in I; destruct I as [i [j [Hi [Hj _]]]]; lia.
  - destruct (dense_exact f tagI aliases shapes _ T C' E) as [l [El [_ H]]]; cbn [p_ranges p_nx p_ny]; [rewrite Ef; reflexivity|lia|lia|].
    exists l. split; [assumption|]. apply H. intros a d c Ha Hd. destruct (var_shape a d c Ha) as [n [s [En [Cs Es]]]].
    exists n. eexists. split; [assumption|]. split; [exact Es|]. rewrite Ef in Cs. inversion Cs; subst s. cbn [p_nx p_ny].
    pose proof (C' a d c Ha). destruct c as [|[|[|]]]; cbn; lia.
Qed.

Hypothesis HM : 1 <= M.
Hypothesis HN : 1 <= N.
Hypothesis Hall : forall al, In al aliases -> In (Z.of_nat (a_pos al), a_dim al, a_cat al) (vars f).
Hypothesis Hfit : forall sh, In sh shapes -> (Z.of_nat (entries sh) <= 2 ^ 31)%Z.
Hypothesis Hdim : forall al, In al aliases -> 1 <= a_dim al.

Let sh := shape_at shapes.
Lemma sh_at : forall n, sh (Z.of_nat n) = nth n shapes [].
Proof. intros n. unfold sh, shape_at. destruct (Z.ltb_spec (Z.of_nat n) 0); [lia|]. rewrite Nat2Z.id. reflexivity. Qed.
Lemma sh_some : forall n s, nth_error shapes n = Some s -> sh (Z.of_nat n) = s.
Proof. intros n s H. rewrite sh_at. apply nth_error_nth. assumption. Qed.

Lemma b_shape : forall a d c, In (a, d, c) (vars f) -> shape_ok decl sh full M N a.
Proof.
  intros a d c H. destruct (var_shape a d c H) as [n [s [-> [Cs E]]]]. exists s. split; [assumption|].
  rewrite (sh_some _ _ E), (vars_declared decl f D _ d c H). reflexivity.
Qed.
Lemma b_common : common sh full (map vpos (vars f)).
Proof.
  intros q Hq. destruct (co_full _ _ _ _ _ Co q Hq) as [H|[_ [x [I E]]]]; [left; assumption|right].
  apply In_nth_error in I. destruct I as [n Hn]. destruct (shape_of_position _ _ _ _ _ Co n x Hn) as [al [Ha <-]].
  exists (Z.of_nat (a_pos al)). split; [|rewrite (sh_some _ _ Hn); assumption].
  apply in_map_iff. exists (Z.of_nat (a_pos al), a_dim al, a_cat al). split; [reflexivity|apply Hall; assumption].
Qed.
Lemma b_dims : nbatchdims sh (map fst (vars_cat f 0)) (map fst (vars_cat f 1)) = List.length full.
Proof.
  apply (batch_dims decl f sh full M N D).
  - intros a d c H. split; [apply (b_shape a d c H)|]. destruct (var_shape a d c H) as [n [_ [-> _]]]. lia.
  - destruct (co_some _ _ _ _ _ Co) as [al [Ha Hc]]. exists (Z.of_nat (a_pos al)), (a_dim al), (a_cat al). split; [apply Hall; assumption|assumption].
Qed.
Lemma b_entries : forall a d c, In (a, d, c) (vars f) -> exists n x, a = Z.of_nat n /\ nth_error shapes n = Some x /\
  compatible (firstn (List.length full) (sh a)) full /\ 1 <= d /\
  entries x = prod (firstn (List.length full) (sh a)) * (match c with O => M | 1 => N | _ => 1 end) * d.
Proof.
  intros a d c H. destruct (var_shape a d c H) as [n [s [-> [Cs E]]]]. exists n. eexists. split; [reflexivity|]. split; [exact E|].
  rewrite (sh_some _ _ E). pose proof (compatible_len s full Cs) as Ls.
  rewrite <- Ls, firstn_app, firstn_all, Nat.sub_diag, app_nil_r. split; [assumption|]. split.
  - destruct (Us _ _ _ H) as [al [Ha [_ [-> _]]]]. apply Hdim. assumption.
  - rewrite entries_app. unfold prod, entries. destruct c as [|[|]]; cbn [fold_right]; ring.
Qed.
Lemma b_fits : forall a d c, In (a, d, c) (vars f) -> fits decl sh (List.length full) a.
Proof.
  intros a d c H. destruct (b_entries a d c H) as [n [x [-> [E [_ [Hd Ex]]]]]]. pose proof (Hfit x (nth_error_In _ _ E)) as F.
  unfold fits. rewrite (vars_declared decl f D _ d c H). cbn [snd]. fold (prod (firstn (List.length full) (sh (Z.of_nat n)))).
  assert (R : (match c with O | 1 => nth (List.length full) (sh (Z.of_nat n)) 0 | _ => 1 end) = match c with O => M | 1 => N | _ => 1 end).
  { destruct (b_shape _ d c H) as [s [Cs Es]]. rewrite Es, (vars_declared decl f D _ d c H). cbn [fst snd].
    rewrite <- (compatible_len s full Cs). destruct c as [|[|]]; [| |reflexivity]; rewrite app_nth2, Nat.sub_diag by lia; reflexivity. }
  rewrite R. rewrite Ex in F. set (u := prod _ * _) in *. assert (u <= u * d) by nia. lia.
Qed.

Let bt := batch_data f tagI sh (List.length full) M N.
Let L := loader f tagI.

(** Rows read with the offsets of batch b. *)
Lemma reads_inside : forall vs c n (b q add : nat) rows, vs = vars_cat f c ->
  n = (match c with O => M | 1 => N | _ => 1 end) -> b < prod full -> q < n ->
  (forall w a d, nth_error vs w = Some (a, d) ->
     rows w = numpy_row (firstn (List.length full) (sh a)) n (unravel full b) q) ->
  Forall (inside_array shapes) (row_reads vs rows).
Proof.
  intros vs c n b q add rows -> -> Hb Hq Hr. apply Forall_forall. intros [a p] I. apply row_reads_in in I.
  destruct I as [w [d [k [E [Hk ->]]]]]. rewrite (Hr w a d E). apply nth_error_In, vars_cat_in in E.
  destruct (b_entries a d c E) as [m [x [-> [Ex [Cs [Hd En]]]]]]. exists m, x. cbn [fst snd]. split; [reflexivity|]. split; [assumption|].
  destruct (unravel_inside full b Hb) as [I _].
  pose proof (numpy_row_bound _ full _ (unravel full b) q Cs I Hq) as B. rewrite En. nia.
Qed.

Lemma offset_row : forall (vs : list (Z * nat)) (h : Z * nat -> nat) w a d z, nth_error vs w = Some (a, d) -> nth w (map h vs) z = h (a, d).
Proof. intros vs h w a d z E. apply (map_nth_error h) in E. apply nth_error_nth. assumption. Qed.

Lemma numpy_shift : forall a d c n b q, In (a, d, c) (vars f) -> b < prod full ->
  numpy_row (firstn (List.length full) (sh a)) n (unravel full b) q =
  q + numpy_row (firstn (List.length full) (sh a)) n (unravel full b) 0.
Proof.
  intros a d c n b q H Hb. destruct (b_entries a d c H) as [_ [_ [_ [_ [Cs _]]]]].
  destruct (unravel_inside full b Hb) as [I _].
  assert (Ls : List.length (firstn (List.length full) (sh a)) = List.length (unravel full b)).
  { rewrite (compatible_len _ _ Cs). symmetry. exact (forall2_len _ _ _ _ _ I). }
  rewrite !numpy_row_split by assumption. lia.
Qed.

Lemma one_inside : forall vs c n b q rows h, vs = vars_cat f c -> n = (match c with O => M | 1 => N | _ => 1 end) ->
  b < prod full -> q < n ->
  h = (fun v : Z * nat => numpy_row (firstn (List.length full) (sh (fst v))) n (unravel full b) 0) ->
  (forall w, rows w = q + nth w (map h vs) 0) -> Forall (inside_array shapes) (row_reads vs rows).
Proof.
  intros vs c n b q rows h Ev En Hb Hq -> Hr. apply (reads_inside vs c n b q 0); auto. intros w a d E. rewrite Hr.
  rewrite (offset_row _ _ w a d 0 E). cbn [fst]. symmetry. subst vs.
  apply nth_error_In, vars_cat_in in E. apply (numpy_shift a d c); assumption.
Qed.

Lemma range_inside : forall suf pre, diagonal (prod full) (mi tagI M N) (nj tagI M N) = (pre ++ suf)%list ->
  exists l, range_reads L (Some bt) (batch_ranges (bsizes bt) tagI) (seq (List.length pre) (List.length suf)) = Ok l /\
            Forall (inside_array shapes) l.
Proof.
  set (bs := diagonal _ _ _).
  destruct (bstored decl f tagI sh full M N D C T b_shape b_common HM HN) as [Ex [Es [Ey _]]]. fold bt in Ex, Es, Ey. fold bs in Ex, Es, Ey.
  induction suf as [|blk suf IH]; intros pre E; [exists []; split; [reflexivity|constructor]|].
  cbn [List.length seq range_reads].
  assert (Hb : nth_error bs (List.length pre) = Some blk) by (rewrite E, nth_error_app2, Nat.sub_diag by lia; reflexivity).
  destruct (diagonal_nth _ _ _ _ _ Hb) as [Hn Eb].
  destruct (rd_flat (map brows bs) (List.length pre) (brows blk)) as [R1 R2]; [apply map_nth_error; assumption|].
  rewrite Ex, R1. cbn [rbind]. rewrite R2. cbn [rbind].
  destruct (slices_read bs (List.length pre) blk Hb) as [S1 S2]. rewrite Es, S1. cbn [rbind]. rewrite S2. cbn [rbind].
  set (b := List.length pre) in *. rewrite Eb. cbn [brows bcols fst snd List.length].
  pose proof (offsets_i decl f tagI sh full M N D C T b_shape b_common b_fits HM HN b 0 Hn) as OI.
  pose proof (offsets_j decl f tagI sh full M N D C T b_shape b_common b_fits HM HN b Hn) as OJ.
  pose proof (offsets_p decl f tagI sh full M N D C T b_shape b_common b_fits HM HN b Hn) as OP.
  fold bt in OI, OJ, OP. fold L in OI, OJ, OP. rewrite OI. cbn [rbind]. rewrite OP. cbn [rbind].
  replace (first_slice bs b + 1 - first_slice bs b) with 1 by lia. cbn [seq slice_reads].
  destruct (col_read bs b blk 0 (b * nj tagI M N, (b + 1) * nj tagI M N) Hb) as [C1 C2]; [rewrite Eb; reflexivity|].
  rewrite Nat.add_0_r in C1, C2. rewrite Ey, C1. cbn [rbind]. rewrite C2. cbn [rbind fst snd]. rewrite OJ. cbn [rbind].
  destruct (IH (pre ++ [blk])%list) as [l [El Fl]]; [rewrite <- app_assoc; exact E|].
  rewrite app_length in El. cbn [List.length] in El. fold b in El. replace (b + 1) with (S b) in El by lia.
  rewrite El. cbn [rbind]. eexists. split; [reflexivity|].
  apply Forall_app. split; [|apply Forall_app; split; [|apply Forall_app; split; [apply Forall_app; split; [|constructor]|exact Fl]]].
  - refine (one_inside (varsP L) 2 1 b 0 _ _ eq_refl eq_refl Hn _ eq_refl _); [lia|]. intros w. reflexivity.
  - apply Forall_flat_map. apply Forall_forall. intros q Hq. apply in_seq in Hq.
    assert (Hq' : q < mi tagI M N) by nia.
    refine (one_inside (varsI L) tagI (mi tagI M N) b q _ _ eq_refl _ Hn Hq' eq_refl _).
    + unfold mi, out_rows. destruct tagI as [|[|]]; [reflexivity|reflexivity|lia].
    + intros w. cbn [row_at]. f_equal. lia.
  - apply Forall_flat_map. apply Forall_forall. intros q Hq. apply in_seq in Hq.
    assert (Hq' : q < nj tagI M N) by nia.
    refine (one_inside (varsJ L) (1 - tagI) (nj tagI M N) b q _ _ eq_refl _ Hn Hq' eq_refl _).
    + unfold nj, red_terms. destruct tagI as [|[|]]; [reflexivity|reflexivity|lia].
    + intros w. cbn [row_at]. f_equal. lia.
Qed.

Lemma batch_inside : exists l, cpu_reads f tagI aliases shapes = Ok l /\ Forall (inside_array shapes) l.
Proof.
  destruct (Nat.eq_dec (List.length full) 0) as [Z|NZ]; [apply dense_inside; destruct full; [reflexivity|discriminate]|].
  unfold cpu_reads. rewrite (call_ok _ _ _ _ _ Co). cbn [rbind p_ranges p_nx p_ny].
  destruct (Nat.eqb_spec (List.length full) 0); [lia|]. cbn [negb]. unfold batch_setting. fold sh. rewrite b_dims.
  destruct (Nat.eqb_spec (List.length full) 0); [lia|]. cbn [p_nx p_ny]. fold bt. fold L.
  destruct (bstored decl f tagI sh full M N D C T b_shape b_common HM HN) as [_ [_ [_ En]]]. fold bt in En. rewrite En.
  apply (range_inside _ []). reflexivity.
Qed.
End Consistent.

(** ** Calls that are not consistent *)
Lemma sizes_total : forall shapes aliases nx ny,
  (forall al, In al aliases -> a_cat al <= 1 -> exists s n d, nth_error shapes (a_pos al) = Some (s ++ [n; d])%list) ->
  exists z, sizes_loop aliases shapes nx ny = Ok z.
Proof.
  intros shapes. induction aliases as [|a aliases IH]; intros nx ny H; cbn [sizes_loop]; [eauto|].
  assert (HS : forall al, In al aliases -> a_cat al <= 1 -> exists s n d, nth_error shapes (a_pos al) = Some (s ++ [n; d])%list)
    by (intros; apply H; [right|]; assumption).
  assert (G : a_cat a <= 1 -> exists n, rows_of shapes (a_pos a) = Ok n).
  { intros L. destruct (H a) as [s [n [d E]]]; [left; reflexivity|assumption|]. exists n. unfold rows_of, rd. rewrite E. apply lbo_app. }
  destruct (Nat.eqb_spec (a_cat a) 0) as [E0|N0].
  { destruct G as [n ->]; [lia|]. cbn [rbind]. destruct ny; [eauto|]. apply IH. assumption. }
  destruct (Nat.eqb_spec (a_cat a) 1) as [E1|N1].
  { destruct G as [n ->]; [lia|]. cbn [rbind]. destruct nx; [eauto|]. apply IH. assumption. }
  cbn [rbind]. destruct nx, ny; eauto.
Qed.

Lemma max_rank_le : forall shapes n, (forall x, In x shapes -> List.length x <= n) -> max_rank shapes <= n.
Proof.
  induction shapes as [|x shapes IH]; intros n H; cbn [max_rank fold_right]; [lia|].
  pose proof (H x (or_introl eq_refl)). specialize (IH n (fun y Hy => H y (or_intror Hy))). unfold max_rank in IH. lia.
Qed.

Lemma two_dimensional : forall aliases shapes, List.length shapes = List.length aliases -> aliases <> [] ->
  (forall x, In x shapes -> List.length x <= 2) ->
  (forall al, In al aliases -> a_cat al <= 1 -> exists n d, nth_error shapes (a_pos al) = Some [n; d]) ->
  exists p, call aliases shapes = Ok p /\ p_ranges p = false.
Proof.
  intros aliases shapes L Ne R H. unfold call. rewrite L, Nat.eqb_refl.
  destruct shapes as [|x shapes]; [destruct aliases; [congruence|discriminate]|].
  pose proof (max_rank_le _ 2 R). replace (max_rank (x :: shapes) - 2) with 0 by lia. cbn [Nat.eqb].
  destruct (sizes_total (x :: shapes) aliases None None) as [z Ez].
  { intros al Ha Hc. destruct (H al Ha Hc) as [n [d E]]. exists [], n, d. assumption. }
  unfold get_sizes. rewrite Ez. cbn [rbind]. eexists. split; [reflexivity|reflexivity].
Qed.

Lemma rsum_ones : forall n, (1 <= n)%nat -> rsum n (fun _ => 1%R) <> 0%R.
Proof.
  intros n H. assert (E : forall n, rsum n (fun _ => 1%R) = INR n).
  { clear. induction n as [|n IH]; [reflexivity|]. rewrite S_INR. cbn [rsum]. rewrite IH. reflexivity. }
  rewrite E. apply not_0_INR. lia.
Qed.
Lemma rsum_zeros : forall n, rsum n (fun _ => 0%R) = 0%R.
Proof. induction n as [|n IH]; [reflexivity|]. cbn [rsum]. rewrite IH. apply Rplus_0_r. Qed.

Lemma too_small : forall aliases shapes p al x, call aliases shapes = Ok p -> p_ranges p = false ->
  1 <= p_nx p -> 1 <= p_ny p -> In al aliases -> a_cat al <= 2 -> 1 <= a_dim al ->
  nth_error shapes (a_pos al) = Some x -> entries x < rows_read (a_cat al) (p_nx p) (p_ny p) * a_dim al ->
  let f := Var (Z.of_nat (a_pos al)) (a_dim al) (a_cat al) in
  exists tagI A B, tagI <= 1 /\ same_arrays shapes A B /\
    forall schedule junk tmp s out, complete schedule ->
      cpu_call schedule junk tmp (Sum_Red (a_dim al)) s f tagI aliases shapes A out <>
      cpu_call schedule junk tmp (Sum_Red (a_dim al)) s f tagI aliases shapes B out.
Proof.
  intros aliases shapes p [c d n] x E Er Hx Hy Ha Hc Hd Hn Hs f. cbn [a_cat a_dim a_pos] in *.
  set (q := (rows_read c (p_nx p) (p_ny p) - 1) * d + (d - 1)).
  set (tagI := if c =? 1 then 1 else 0).
  exists tagI, (fun _ _ => 0%R), (fun a k => if ((a =? Z.of_nat n)%Z && (k =? q))%bool then 1%R else 0%R).
  assert (T : tagI <= 1) by (unfold tagI; destruct (c =? 1); lia). split; [assumption|].
  assert (R1 : 1 <= rows_read c (p_nx p) (p_ny p)) by (unfold rows_read; destruct c as [|[|]]; lia).
  assert (Hq : entries x <= q) by (unfold q; nia). split.
  - intros [a k] [m [y [E1 [E2 E3]]]]. cbn [fst snd] in *. destruct (Z.eqb_spec a (Z.of_nat n)) as [->|]; [|reflexivity].
    apply Nat2Z.inj in E1. subst m. assert (y = x) by congruence. subst y. destruct (Nat.eqb_spec k q); [lia|reflexivity].
  - intros schedule junk tmp s out Sc.
    set (decl := fun _ : Z => (d, c)).
    assert (D : declared decl f) by (cbn; split; reflexivity || reflexivity).
    assert (W : wf f) by (cbn; split; [destruct d; [lia|reflexivity]|exact I]).
    assert (C : categories decl) by (intros z; cbn; lia).
    unfold cpu_call. rewrite E. cbn [rbind]. rewrite Er.
    set (A := fun (_ : Z) (_ : nat) => 0%R). set (B := fun (a : Z) (k : nat) => if ((a =? Z.of_nat n)%Z && (k =? q))%bool then 1%R else 0%R).
    destruct (dense_sum decl f s tagI A (p_nx p) (p_ny p) schedule out D W C T Sc) as [oa [Ea [Va _]]].
    destruct (dense_sum decl f s tagI B (p_nx p) (p_ny p) schedule out D W C T Sc) as [ob [Eb [Vb _]]].
    cbn [dim f] in *. fold f. change (dim f) with d in *. rewrite Ea, Eb. cbn [rbind]. intros X. inversion X as [X'].
    set (rw := if c =? 2 then 0 else rows_read c (p_nx p) (p_ny p) - 1).
    assert (Hr : rw < out_rows tagI (p_nx p) (p_ny p)).
    { unfold rw, tagI, out_rows, rows_read in *. destruct c as [|[|[|]]]; cbn; lia. }
    specialize (Va rw (d - 1) Hr ltac:(lia)). specialize (Vb rw (d - 1) Hr ltac:(lia)). rewrite X' in Va. rewrite Va in Vb.
    inversion Vb as [Y]. unfold reduce_sum in Y. cbn [stagI sformula] in Y.
    assert (Z0 : forall i j, eval f (point decl (contiguous decl A) i j) (d - 1) = 0%R) by reflexivity.
    assert (P : forall i j, (match c with O => i | 1 => j | _ => 0 end) = rows_read c (p_nx p) (p_ny p) - 1 ->
                eval f (point decl (contiguous decl B) i j) (d - 1) = 1%R).
    { intros i j Hij. unfold f. cbn [eval]. unfold point, contiguous, B. cbn [decl fst snd]. rewrite Z.eqb_refl.
      replace (row c i j) with (rows_read c (p_nx p) (p_ny p) - 1)
        by (rewrite <- Hij; unfold KernelSum.row; destruct c as [|[|]]; reflexivity).
      fold q. rewrite Nat.eqb_refl. reflexivity. }
    unfold tagI, rw in *. destruct c as [|[|[|]]]; cbn [Nat.eqb] in *; [| | |lia].
    + rewrite (rsum_ext _ _ (fun _ => 0%R)) in Y by (intros; apply Z0).
      rewrite (rsum_ext _ (fun j => eval f (point decl (contiguous decl B) _ j) _) (fun _ => 1%R)) in Y by (intros; apply P; reflexivity).
      rewrite rsum_zeros in Y. exact (rsum_ones _ Hy (eq_sym Y)).
    + rewrite (rsum_ext _ _ (fun _ => 0%R)) in Y by (intros; apply Z0).
      rewrite (rsum_ext _ (fun i => eval f (point decl (contiguous decl B) i _) _) (fun _ => 1%R)) in Y by (intros; apply P; reflexivity).
      rewrite rsum_zeros in Y. exact (rsum_ones _ Hx (eq_sym Y)).
    + rewrite (rsum_ext _ _ (fun _ => 0%R)) in Y by (intros; apply Z0).
      rewrite (rsum_ext _ (fun j => eval f (point decl (contiguous decl B) _ j) _) (fun _ => 1%R)) in Y by (intros; apply P; reflexivity).
      rewrite rsum_zeros in Y. exact (rsum_ones _ Hy (eq_sym Y)).
Qed.

Definition two_arrays : list alias := [{| a_cat := 0; a_dim := 1; a_pos := 0 |}; {| a_cat := 1; a_dim := 1; a_pos := 1 |}].
Definition product : fm := Bin BMult (Var 0 1 0) (Var 1 1 1).


Lemma batch_wraps : forall junk tmp A out, exists o,
  cpu_call (fun n => seq 0 n) junk tmp (Sum_Red 1) direct_sum product 0 two_arrays [[3; 1; 1]; [2; 1; 1]] A out = Ok ([3; 1; 1], o) /\
  o 0%nat = Fin (A 0%Z 0%nat * A 1%Z 0%nat)%R /\ o 1%nat = Fin (A 0%Z 1%nat * A 1%Z 1%nat)%R /\ o 2%nat = Fin (A 0%Z 2%nat * A 1%Z 0%nat)%R.
Proof.
  intros. eexists. split; [cbv -[Rplus Rmult IZR]; reflexivity|].
  split; [|split]; cbv -[Rplus Rmult IZR]; f_equal; ring.
Qed.

Lemma batch_skipped : forall junk tmp A out, exists o,
  cpu_call (fun n => seq 0 n) junk tmp (Sum_Red 1) direct_sum product 0 two_arrays [[2; 1; 1]; [3; 1; 1]] A out = Ok ([3; 1; 1], o) /\
  o 0%nat = Fin (A 0%Z 0%nat * A 1%Z 0%nat)%R /\ o 1%nat = Fin (A 0%Z 1%nat * A 1%Z 1%nat)%R /\ o 2%nat = Fin 0%R.
Proof.
  intros. eexists. split; [cbv -[Rplus Rmult IZR]; reflexivity|].
  split; [|split]; cbv -[Rplus Rmult IZR]; try (f_equal; ring); reflexivity.
Qed.

(** ** Symbolic tensors *)
Lemma promote_ok : forall (A : Type) (eq : A -> A -> bool) y x z, (forall a b, eq a b = true -> a = b) ->
  LazyTensors.promote eq y x = Ok z -> (x = None \/ x = z) /\ (y = None \/ y = z).
Proof.
  intros A eq y x z H E. destruct x as [a|], y as [b|]; cbn in E.
  - destruct (eq a b) eqn:G; [|discriminate]. apply H in G. inversion E. subst. auto.
  - inversion E. auto.
  - inversion E. auto.
  - inversion E. auto.
Qed.

Definition carried (x l : LazyTensors.lazy) : Prop :=
  (LazyTensors.ni x = None \/ LazyTensors.ni x = LazyTensors.ni l) /\
  (LazyTensors.nj x = None \/ LazyTensors.nj x = LazyTensors.nj l) /\
  (LazyTensors.dtype x = None \/ LazyTensors.dtype x = LazyTensors.dtype l).
Lemma carried_trans : forall a b c, carried a b -> carried b c -> carried a c.
Proof.
  unfold carried. intros a b c [[A1|A1] [[A2|A2] [A3|A3]]] [[B1|B1] [[B2|B2] [B3|B3]]]; repeat split;
    try (left; congruence); right; congruence.
Qed.
Lemma join_carried : forall l o f d r, LazyTensors.join l o f d = Ok r -> carried l r /\ carried o r.
Proof.
  intros l o f d r H. unfold LazyTensors.join in H.
  destruct (LazyTensors.promote String.eqb _ _) as [dt| | |] eqn:E1; try discriminate.
  destruct (LazyTensors.promote Z.eqb (LazyTensors.ni l) _) as [n| | |] eqn:E2; try discriminate.
  destruct (LazyTensors.promote Z.eqb (LazyTensors.nj l) _) as [m| | |] eqn:E3; try discriminate.
  cbn [rbind] in H. destruct (LazyTensors.promote _ (LazyTensors.ranges l) _) as [rg| | |]; try discriminate.
  cbn [rbind] in H. destruct (check_broadcasting _ _) as [b| | |]; try discriminate. cbn [rbind] in H. inversion H; subst r.
  apply promote_ok in E1; [|intros; apply String.eqb_eq; assumption].
  apply promote_ok in E2; [|intros; apply Z.eqb_eq; assumption]. apply promote_ok in E3; [|intros; apply Z.eqb_eq; assumption].
  unfold carried. cbn. tauto.
Qed.

Lemma lazy_sizes : forall e l, construct e = Ok l ->
  forall r, In r (arrays e) -> exists x, r = Ok x /\
    (LazyTensors.ni x = None \/ LazyTensors.ni x = LazyTensors.ni l) /\
    (LazyTensors.nj x = None \/ LazyTensors.nj x = LazyTensors.nj l) /\
    (LazyTensors.dtype x = None \/ LazyTensors.dtype x = LazyTensors.dtype l).
Proof.
  assert (G : forall e l, construct e = Ok l -> forall r, In r (arrays e) -> exists x, r = Ok x /\ carried x l).
  { induction e; intros l H r Hr; cbn [construct arrays] in *; try contradiction.
    - destruct Hr as [<-|[]]. exists l. split; [assumption|]. unfold carried. tauto.
    - destruct (construct e) as [x| | |]; try discriminate. cbn [rbind] in H. inversion H; subst l.
      destruct (IHe x eq_refl r Hr) as [y [Ey Cy]]. exists y. split; [assumption|]. exact Cy.
    - destruct (construct e1) as [x| | |]; try discriminate. destruct (construct e2) as [y| | |]; try discriminate.
      cbn [rbind] in H. unfold LazyTensors.binary in H. destruct (LazyTensors.check_dims _ _ _); [|discriminate].
      destruct (if rv then _ else _) as [lf rf].
      match type of H with (rbind (LazyTensors.join ?l ?o ?f ?d) _ = _) => destruct (LazyTensors.join l o f d) as [q| | |] eqn:E; try discriminate end.
      cbn [rbind] in H. inversion H; subst l. apply join_carried in E. destruct E as [C1 C2].
      apply in_app_iff in Hr. destruct Hr as [Hr|Hr]; [destruct (IHe1 x eq_refl r Hr) as [z [Ez Cz]]|destruct (IHe2 y eq_refl r Hr) as [z [Ez Cz]]];
        exists z; (split; [assumption|]).
      + exact (carried_trans _ _ _ Cz C1).
      + exact (carried_trans _ _ _ Cz C2).
    - destruct (construct e1) as [x| | |]; try discriminate. destruct (construct e2) as [y| | |]; try discriminate.
      destruct (construct e3) as [w| | |]; try discriminate. cbn [rbind] in H. unfold LazyTensors.ternary in H.
      match type of H with ((if ?c then _ else _) = _) => destruct c; [|discriminate] end.
      destruct (LazyTensors.join y w _ _) as [o| | |] eqn:E1; try discriminate. cbn [rbind] in H.
      apply join_carried in H. apply join_carried in E1. destruct H as [C1 C2], E1 as [C3 C4].
      rewrite !in_app_iff in Hr. destruct Hr as [Hr|[Hr|Hr]];
        [destruct (IHe1 x eq_refl r Hr) as [z [Ez Cz]]|destruct (IHe2 y eq_refl r Hr) as [z [Ez Cz]]|destruct (IHe3 w eq_refl r Hr) as [z [Ez Cz]]];
        exists z; (split; [assumption|]).
      + exact (carried_trans _ _ _ Cz C1).
      + exact (carried_trans _ _ _ Cz (carried_trans _ _ _ C3 C2)).
      + exact (carried_trans _ _ _ Cz (carried_trans _ _ _ C4 C2)). }
  exact G.
Qed.

Lemma lazy_rejects : forall e x y n m, In (Ok x) (arrays e) -> In (Ok y) (arrays e) ->
  (LazyTensors.ni x = Some n /\ LazyTensors.ni y = Some m \/ LazyTensors.nj x = Some n /\ LazyTensors.nj y = Some m) -> n <> m ->
  forall l, construct e <> Ok l.
Proof.
  intros e x y n m Hx Hy H N l E. pose proof (lazy_sizes e l E) as G. destruct (G _ Hx) as [x' [Ex [X1 [X2 _]]]].
  destruct (G _ Hy) as [y' [Ey [Y1 [Y2 _]]]]. inversion Ex; inversion Ey; subst x' y'.
  destruct H as [[A B]|[A B]]; rewrite A, B in *.
  - destruct X1 as [|X1]; [discriminate|]. destruct Y1 as [|Y1]; [discriminate|]. congruence.
  - destruct X2 as [|X2]; [discriminate|]. destruct Y2 as [|Y2]; [discriminate|]. congruence.
Qed.

(** ** Statements *)
Lemma wrong_count : forall aliases shapes, List.length shapes <> List.length aliases -> call aliases shapes = KErr.
Proof. intros aliases shapes H. unfold call. destruct (Nat.eqb_spec (List.length shapes) (List.length aliases)); [contradiction|reflexivity]. Qed.

Lemma same_result : forall decl f r s tagI aliases shapes schedule junk tmp A B out l,
  declared decl f -> wf f -> categories decl -> tagI <= 1 -> reduction_of (dim f) r -> complete schedule ->
  cpu_reads f tagI aliases shapes = Ok l -> Forall (inside_array shapes) l -> same_arrays shapes A B ->
  cpu_call schedule junk tmp r s f tagI aliases shapes A out = cpu_call schedule junk tmp r s f tagI aliases shapes B out.
Proof.
  intros decl f r s tagI aliases shapes schedule junk tmp A B out l D W C T R Sc H F G.
  apply (depends decl f r s tagI aliases shapes schedule junk tmp A B out l); auto.
  intros ad I. rewrite Forall_forall in F. apply G, F, I.
Qed.
