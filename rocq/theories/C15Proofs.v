(** Proofs for C15: block-sparse reductions. *)

From Coq Require Import ZArith Reals Arith Lia List Bool Permutation.
From Verif Require Import Result Formula XReal Reductions ReductionSpec RedLoops KernelSum KernelSumSpec
  SumSpec LseSpec Postprocess CpuReduc Loader LoaderProofs CpuConv CpuConvSpec GpuConv RangesConv RangesSpec
  C12Proofs GpuProofs C13Proofs RangesProofs RangesGpu.
Import ListNotations.

Definition plain_env (decl : declaration) (A : memory) (tagI i j : nat) : env :=
  match tagI with
  | O => point decl (contiguous decl A) i j
  | _ => point decl (contiguous decl A) j i
  end.

Lemma plain_rows : forall decl f tagI A x0 y0 i j, declared decl f -> categories decl -> tagI <= 1 ->
  rows_ok f tagI A None None None x0 y0 i j (plain_env decl A tagI i j).
Proof.
  intros decl f tagI A x0 y0 i j D C T a d c q Ha Hq.
  pose proof (vars_declared decl f D a d c Ha) as Hd.
  assert (Hc : c <= 2) by (specialize (C a); rewrite Hd in C; exact C).
  cbn [row_at row_param]. destruct tagI as [|[|]]; [| |lia]; unfold plain_env, point, contiguous, row;
    rewrite Hd; cbn [fst snd]; destruct c as [|[|[|]]]; try lia; reflexivity.
Qed.

Lemma user_stored : forall u tagI bs, tagI <= 1 -> user_describes u tagI bs -> stored bs (from_user u tagI).
Proof.
  intros u tagI bs T H. destruct tagI as [|[|]]; [| |lia]; cbn in H; destruct H as [H1 [H2 H3]];
    unfold stored, from_user; cbn; rewrite H1, H2, H3; repeat split; rewrite map_length; reflexivity.
Qed.

Lemma available_code : forall r s, available r s -> exists op, scheme_code r s = Ok op.
Proof.
  intros r s H. destruct s; cbn in *; [eauto| |]; destruct H as [p E]; rewrite E; cbn; eauto.
Qed.

Lemma terms_map : forall decl A f tagI i l,
  map (fun j : nat => (Z.of_nat j, eval f (plain_env decl A tagI i j))) l = block_terms decl A f tagI i l.
Proof. reflexivity. Qed.

Lemma cpu_blocks : forall decl f r s tagI A u bs schedule junk tmp nx out,
  declared decl f -> wf f -> categories decl -> tagI <= 1 -> reduction_of (dim f) r -> available r s ->
  complete schedule -> user_describes u tagI bs -> disjoint_rows nx bs ->
  exists out', launch_cpu_ranges schedule junk tmp r s f tagI A None (from_user u tagI) nx out = Ok out' /\
    (forall blk i, In blk bs -> In i (interval (brows blk)) ->
       row_value r s (block_terms decl A f tagI i (visited blk)) (fun k => out' (i * rdim r + k))) /\
    (forall i k, i < nx -> k < rdim r -> (forall blk, In blk bs -> ~ In i (interval (brows blk))) ->
       out' (i * rdim r + k) = rfinal r (run r [] (rinit r)) k) /\
    (forall q, nx * rdim r <= q -> out' q = out q).
Proof.
  intros decl f r s tagI A u bs schedule junk tmp nx out D W C T R Av Sc U Dj.
  destruct (available_code r s Av) as [op Hop].
  destruct (cpu_ranges f tagI A None bs (from_user u tagI) r s op junk tmp R Hop (user_stored u tagI bs T U)
              (fun _ i j => (Z.of_nat j, eval f (plain_env decl A tagI i j)))) with (schedule := schedule) (nx := nx) (out := out)
    as [out' [E [H1 [H2 H3]]]]; try assumption.
  - intros b blk Hb. exists None, None. split; [reflexivity|]. split; [reflexivity|]. intros c Hc. exists None.
    split; [reflexivity|]. intros i j Hi Hj. split; [reflexivity|]. cbn [snd].
    apply (rows_loaded decl f tagI A None None None (fst (brows blk)) (fst c) i j); try assumption.
    apply plain_rows; assumption.
  - apply (table_complete decl); assumption.
  - exists out'. split; [exact E|]. split; [|split].
    + intros blk i Hb Hi. destruct (In_nth_error _ _ Hb) as [b Eb]. exact (H1 b blk i Eb Hi).
    + intros i k Hi Hk Hn. exact (H2 i k Hi Hk Hn).
    + exact H3.
Qed.

Lemma last_first_slice : forall bs, ends_visiting bs ->
  forall b, b < length bs -> first_slice bs b < length (flat_map bcols bs).
Proof.
  intros bs [bs' [blk [-> N]]] b Hb. rewrite app_length in Hb. cbn in Hb. unfold first_slice.
  rewrite firstn_app, flat_map_app. replace (b - length bs') with 0 by lia. cbn [firstn flat_map]. rewrite app_nil_r, flat_map_app.
  rewrite app_length. cbn [flat_map]. rewrite app_nil_r.
  assert (length (flat_map bcols (firstn b bs')) <= length (flat_map bcols bs')).
  { rewrite <- (firstn_skipn b bs') at 2. rewrite flat_map_app, app_length. lia. }
  destruct (bcols blk); [congruence|]. cbn [length]. lia.
Qed.

Lemma gpu_blocks : forall decl f r s tagI A u bs o m nx bd out,
  declared decl f -> wf f -> categories decl -> tagI <= 1 -> reduction_of (dim f) r -> available r s ->
  orders_ok o -> 1 <= bd -> user_describes u tagI bs -> disjoint_rows nx bs ->
  flat_map (fun b => interval (brows b)) bs <> [] -> ends_visiting bs ->
  (forall blk c, In blk bs -> In c (bcols blk) -> fst c <= snd c) ->
  exists out', launch_gpu_ranges o m false r s f tagI A None (from_user u tagI) bd out = Ok out' /\
    (forall blk i, In blk bs -> In i (interval (brows blk)) ->
       row_value r s (block_terms decl A f tagI i (visited blk)) (fun k => out' (i * rdim r + k))) /\
    (forall q, (forall blk i k, In blk bs -> In i (interval (brows blk)) -> k < rdim r -> q <> i * rdim r + k) ->
       out' q = out q).
Proof.
  intros decl f r s tagI A u bs o m nx bd out D W C T R Av Ho Hb U Dj Ne Ev Or.
  destruct (available_code r s Av) as [op Hop].
  destruct (gpu_ranges decl f tagI A None bs (from_user u tagI) r s op bd o m D W C T R Hop (user_stored u tagI bs T U) Hb Ho
              (fun _ _ j => j) (fun _ i j => plain_env decl A tagI i j)) with (nx := nx) (out := out)
    as [out' [E [H1 H2]]]; try assumption.
  - intros b blk x0 Eb Hx. exists None, None, None. split; [reflexivity|]. split; [reflexivity|]. split; [reflexivity|].
    intros c i j Hc Hi Hx0 Hj Hcj. split; [reflexivity|]. apply plain_rows; assumption.
  - intros blk Hblk. apply Forall_forall. intros c Hc. exact (Or blk c Hblk Hc).
  - apply last_first_slice. assumption.
  - exists out'. split; [exact E|]. split; [|exact H2].
    intros blk i Hblk Hi. destruct (In_nth_error _ _ Hblk) as [b Eb]. exact (H1 b blk i Eb Hi).
Qed.

(** ** Refutations *)
Lemma gpu_uncovered : forall decl f r s tagI A u bs o m nx bd out i,
  declared decl f -> wf f -> categories decl -> tagI <= 1 -> reduction_of (dim f) r -> available r s ->
  orders_ok o -> 1 <= bd -> user_describes u tagI bs -> disjoint_rows nx bs ->
  flat_map (fun b => interval (brows b)) bs <> [] -> ends_visiting bs ->
  (forall blk c, In blk bs -> In c (bcols blk) -> fst c <= snd c) ->
  (forall blk, In blk bs -> ~ In i (interval (brows blk))) ->
  exists out', launch_gpu_ranges o m false r s f tagI A None (from_user u tagI) bd out = Ok out' /\
    forall k, k < rdim r -> out' (i * rdim r + k) = out (i * rdim r + k).
Proof.
  intros decl f r s tagI A u bs o m nx bd out i D W C T R Av Ho Hb U Dj Ne Ev Or Hi.
  destruct (gpu_blocks decl f r s tagI A u bs o m nx bd out) as [out' [E [_ H]]]; try assumption.
  exists out'. split; [exact E|]. intros k Hk. apply H. intros blk i' k' Hblk Hi' Hk' Eq.
  assert (i <> i') by (intros <-; exact (Hi blk Hblk Hi')). destruct (row_disjoint (rdim r) i i' k); lia.
Qed.

Lemma cumulated_length : forall bs n, length (cumulated n bs) = length bs.
Proof. induction bs as [|b bs IH]; intros n; cbn; [reflexivity|]. rewrite IH. reflexivity. Qed.

Lemma gpu_host : forall o m r s f tagI A u bs bd out out', tagI <= 1 -> user_describes u tagI bs -> bs <> [] ->
  launch_gpu_ranges o m true r s f tagI A None (from_user u tagI) bd out <> Ok out'.
Proof.
  intros o m r s f tagI A u bs bd out out' T U N H. unfold launch_gpu_ranges in H.
  destruct (table_ok _ _); [|discriminate]. destruct (scheme_code r s); cbn [rbind] in H; try discriminate.
  destruct (bd =? 0); [discriminate|]. destruct (user_stored u tagI bs T U) as [_ [Es [_ En]]].
  rewrite Es, En, cumulated_length in H. cbn [andb] in H.
  replace (length bs <? 2 * length bs) with true in H; [discriminate|].
  symmetry. apply Nat.ltb_lt. destruct bs; [congruence|]. cbn. lia.
Qed.

Lemma mapr_all : forall (T U : Type) (h : T -> res U) l ys, mapr h l = Ok ys -> forall x, In x l -> exists y, h x = Ok y.
Proof.
  induction l as [|x l IH]; intros ys H x' Hx; [contradiction|]. cbn [mapr] in H.
  destruct (h x) as [y| | |] eqn:E; cbn [rbind] in H; try discriminate.
  destruct (mapr h l) as [ys'| | |] eqn:E'; cbn [rbind] in H; try discriminate.
  destruct Hx as [<-|Hx]; [eauto|]. exact (IH ys' eq_refl x' Hx).
Qed.

Lemma gpu_empty_last : forall o m r s f tagI A u bs blk bd out out', tagI <= 1 ->
  user_describes u tagI (bs ++ [blk]) -> bcols blk = [] -> interval (brows blk) <> [] ->
  launch_gpu_ranges o m false r s f tagI A None (from_user u tagI) bd out <> Ok out'.
Proof.
  intros o m r s f tagI A u bs blk bd out out' T U Hc Hi H. unfold launch_gpu_ranges in H.
  destruct (table_ok _ _); [|discriminate]. destruct (scheme_code r s) as [op| | |]; cbn [rbind] in H; try discriminate.
  destruct (Nat.eqb_spec bd 0) as [|Nb]; [discriminate|]. cbn [andb] in H.
  pose proof (user_stored u tagI (bs ++ [blk]) T U) as St. destruct (St) as [_ [Es [Ey En]]].
  assert (Hb : 1 <= bd) by lia.
  destruct (lookup_entries tagI (bs ++ [blk]) (from_user u tagI) bd T St Hb (bs ++ [blk]) [] eq_refl) as [E1 E2].
  cbn [length] in E1, E2. rewrite En, E2 in H. cbn [rbind] in H. rewrite E1 in H. cbn [rbind] in H.
  destruct (length (entries bd 0 (bs ++ [blk])) =? 0); [discriminate|].
  destruct (mapr _ _) as [ys| | |] eqn:Em; cbn [rbind] in H; try discriminate. clear H.
  set (p := brows blk) in *.
  assert (He : exists x1, In (length bs, fst p + 0 * bd, x1) (entries bd 0 (bs ++ [blk]))).
  { eexists. unfold entries. apply in_flat_map. exists (length bs, blk). split.
    - rewrite app_length. cbn [length]. rewrite seq_app. cbn [seq Nat.add].
      assert (G : forall (l : list block) z, combine (seq z (length l) ++ [z + length l]) (l ++ [blk]) = combine (seq z (length l)) l ++ [(z + length l, blk)]).
      { induction l as [|x l IH]; intros z; cbn; [reflexivity|]. f_equal. rewrite Nat.add_succ_r, <- Nat.add_succ_l. apply IH. }
      pose proof (G bs 0) as G0. cbn [Nat.add] in G0. rewrite G0. apply in_or_app. right. left. reflexivity.
    - cbn [fst snd]. unfold range_entries. apply in_map_iff. exists 0. split; [reflexivity|]. apply in_seq.
      fold p. unfold interval in Hi. destruct (snd p - fst p) as [|n]; [cbn in Hi; congruence|].
      destruct (tiles_bounds bd (S n) Hb) as [TB _]. destruct (tiles bd (S n)); lia. }
  destruct He as [x1 He]. destruct (In_nth_error _ _ He) as [k Hk].
  destruct (mapr_all _ _ _ _ _ Em k) as [y Hy].
  { apply in_seq. split; [lia|]. apply nth_error_Some. congruence. }
  unfold rd in Hy at 1. rewrite Hk in Hy. cbn [rbind] in Hy.
  unfold range_block in Hy. cbn [offsets rbind] in Hy.
  assert (Hb' : nth_error (bs ++ [blk]) (length bs) = Some blk).
  { rewrite nth_error_app2, Nat.sub_diag by lia. reflexivity. }
  destruct (slices_read _ _ _ Hb') as [S1 S2]. rewrite Es, S1 in Hy. cbn [rbind] in Hy. rewrite S2 in Hy. cbn [rbind] in Hy.
  assert (Or : rd (ranges_y (from_user u tagI)) (2 * first_slice (bs ++ [blk]) (length bs)) = PyErr).
  { unfold rd. rewrite Ey. assert (Len : nth_error (flat (flat_map bcols (bs ++ [blk]))) (2 * first_slice (bs ++ [blk]) (length bs)) = None).
    { apply nth_error_None. unfold first_slice. rewrite firstn_app, Nat.sub_diag, firstn_all. cbn [firstn]. rewrite app_nil_r.
      rewrite flat_map_app. cbn [flat_map]. rewrite Hc, !app_nil_r.
      generalize (flat_map bcols bs) as l. induction l as [|q l IH]; [cbn; lia|]. cbn [flat flat_map app length] in *. unfold flat in IH. lia. }
    rewrite Len. reflexivity. }
  rewrite Or in Hy. cbn [rbind] in Hy. discriminate.
Qed.

Lemma cpu_empty_lse : forall schedule junk tmp A nx out, complete schedule -> 1 <= nx ->
  let f := Cat (Var 0 1 1) (Var 1 1 1) in
  let u := {| ranges_i := [(0, 1)]; slices_i := [0]; redranges_j := [];
              ranges_j := []; slices_j := []; redranges_i := [] |} in
  exists out', launch_cpu_ranges schedule junk tmp (LSE_Red 1) block_sum f 0 A None (from_user u 0) nx out = Ok out' /\
    out' 1 = NaN /\ rfinal (LSE_Red 1) (run (LSE_Red 1) [] (rinit (LSE_Red 1))) 1 = Fin 0.
Proof.
  intros schedule junk tmp A nx out Sc Hn f u.
  assert (E : schedule 1 = [0]). { apply Permutation_length_1_inv. apply Permutation_sym. exact (Sc 1). }
  assert (V : forall out, write_row 2 0 (lse_pair 1 lse_init lse_init) out 1 = NaN) by (intros; reflexivity).
  eexists. split; [|split; [|reflexivity]].
  - unfold launch_cpu_ranges. change (table_ok _ _) with true. cbv iota. cbn [scheme_code rpair LSE_Red rbind].
    cbn -[prefill write_row lse_pair load_vars]. rewrite E. cbn -[prefill write_row lse_pair load_vars]. reflexivity.
  - apply V.
Qed.
