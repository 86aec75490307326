(** Proofs for C17. *)

From Coq Require Import ZArith Reals Lia List Bool Permutation.
From Verif Require Import Result Formula XReal Reductions KernelSum KernelSumSpec LseSpec Postprocess CpuReduc Loader
  CpuConv CpuConvSpec GpuConv RangesConv RangesSpec C15Proofs Clusters ClusterSpec.
Import ListNotations.

Lemma taken_all {T} (d : T) a l : (forall q, In q l -> q < length a) ->
  taken a l = Ok (map (fun q => nth q a d) l).
Proof.
  induction l as [|q l IH]; intros H; [reflexivity|].
  unfold taken in *. cbn [mapr map]. unfold rd at 1.
  rewrite (nth_error_nth' a d) by (apply H; left; reflexivity). cbn [rbind].
  rewrite IH by (intros; apply H; right; assumption). reflexivity.
Qed.

Lemma flat_if {T} (h : nat -> T) (c : nat -> bool) l :
  flat_map (fun j => if c j then [h j] else []) l = map h (filter c l).
Proof. induction l as [|j l IH]; [reflexivity|]. cbn. destruct (c j); cbn; rewrite IH; reflexivity. Qed.

Lemma count_filter (c : nat -> bool) l n : fold_left (fun n (j : nat) => n + (if c j then 1 else 0)) l n = n + length (filter c l).
Proof.
  revert n; induction l as [|j l IH]; intros n; cbn; [lia|]. rewrite IH. destruct (c j); cbn; lia.
Qed.

Lemma cumulated_cumsum bs n : cumulated n bs = cumsum n (map (fun b => length (bcols b)) bs).
Proof. revert n; induction bs as [|b bs IH]; intros n; [reflexivity|]. cbn. rewrite IH. reflexivity. Qed.

Lemma nth_seq {T} (d : T) l : map (fun I => nth I l d) (seq 0 (length l)) = l.
Proof.
  induction l as [|x l IH]; [reflexivity|]. cbn. rewrite <- seq_shift, map_map. rewrite IH. reflexivity.
Qed.

Lemma rows_pattern rows cols rel : map brows (pattern rows cols rel) = rows.
Proof. unfold pattern. rewrite map_map. cbn [brows]. apply nth_seq. Qed.

Lemma flat_map_map {A B C} (h : B -> list C) (g : A -> B) l : flat_map h (map g l) = flat_map (fun a => h (g a)) l.
Proof. induction l as [|a l IH]; [reflexivity|]. cbn. rewrite IH. reflexivity. Qed.
Lemma map_flat_map {A B C} (h : B -> C) (g : A -> list B) l : map h (flat_map g l) = flat_map (fun a => map h (g a)) l.
Proof. induction l as [|a l IH]; [reflexivity|]. cbn. rewrite map_app, IH. reflexivity. Qed.

Lemma slices_pattern rows cols rel k : nrows k = length rows -> ncols k = length cols ->
  (forall i j, entry_at k i j = rel i j) ->
  cumsum 0 (row_counts k) = cumulated 0 (pattern rows cols rel).
Proof.
  intros H1 H2 Hr. rewrite cumulated_cumsum. unfold row_counts, pattern. rewrite map_map. cbn [bcols].
  rewrite H1, H2. f_equal. apply map_ext; intros i. rewrite count_filter, map_length. cbn.
  f_equal. apply filter_ext; intros j. apply Hr.
Qed.

Lemma mask_rows (h : nat -> nat -> nat) k : (forall a b, h a b = b) ->
  masked {| nrows := nrows k; ncols := ncols k; entry_at := h |} k =
  Ok (flat_map (fun i => filter (entry_at k i) (seq 0 (ncols k))) (seq 0 (nrows k))).
Proof.
  intros Hh. unfold masked; cbn. rewrite !Nat.eqb_refl. cbn. f_equal. apply flat_map_ext; intros i.
  rewrite flat_if. rewrite <- (map_id (filter _ _)) at 2. apply map_ext; intros j. apply Hh.
Qed.

Lemma red_pattern rows cols rel (k : matrix bool) : nrows k = length rows -> ncols k = length cols ->
  (forall i j, entry_at k i j = rel i j) ->
  taken cols (flat_map (fun i => filter (entry_at k i) (seq 0 (ncols k))) (seq 0 (nrows k))) =
  Ok (flat_map bcols (pattern rows cols rel)).
Proof.
  intros H1 H2 Hr. rewrite (taken_all (0, 0)).
  - f_equal. unfold pattern. rewrite flat_map_map. cbn [bcols]. rewrite map_flat_map, H1, H2.
    apply flat_map_ext; intros i. f_equal. apply filter_ext; intros j. apply Hr.
  - intros q H. apply in_flat_map in H as (i & _ & H). apply filter_In in H as (H & _).
    apply in_seq in H. lia.
Qed.

Lemma matrix_blocks ri rj keep : nrows keep = length ri -> ncols keep = length rj ->
  exists u, from_matrix ri rj keep = Ok u /\
    user_describes u 0 (pattern ri rj (fun I J => entry_at keep I J)) /\
    user_describes u 1 (pattern rj ri (fun J I => entry_at keep I J)).
Proof.
  intros H1 H2. unfold from_matrix. cbn zeta.
  change (transposed {| nrows := nrows keep; ncols := ncols keep; entry_at := fun a _ : nat => a |})
    with {| nrows := nrows (transposed keep); ncols := ncols (transposed keep); entry_at := fun _ b : nat => b |}.
  rewrite mask_rows by reflexivity. cbn [rbind].
  rewrite (red_pattern rj ri (fun J I => entry_at keep I J) (transposed keep)) by (cbn; auto). cbn [rbind].
  rewrite mask_rows by reflexivity. cbn [rbind].
  rewrite (red_pattern ri rj (fun I J => entry_at keep I J) keep) by auto. cbn [rbind].
  eexists; split; [reflexivity|]. unfold user_describes, describes; cbn [RangesConv.ranges_i RangesConv.slices_i
    RangesConv.redranges_j RangesConv.ranges_j RangesConv.slices_j RangesConv.redranges_i].
  rewrite !rows_pattern. repeat split.
  - apply slices_pattern; auto.
  - apply slices_pattern; cbn; auto.
Qed.

Lemma pattern_pairs rows cols rel I j : I < length rows ->
  In j (visited (nth I (pattern rows cols rel) {| brows := (0, 0); bcols := [] |})) <->
  exists J, J < length cols /\ rel I J = true /\ In j (interval (nth J cols (0, 0))).
Proof.
  intros HI. unfold pattern.
  set (h := fun I => _ : block).
  rewrite (nth_indep _ _ (h 0)) by (rewrite map_length, seq_length; exact HI).
  rewrite map_nth, seq_nth by exact HI. cbn. unfold visited; cbn [bcols]. split.
  - intros H. apply in_flat_map in H as (c & Hc & Hj). apply in_map_iff in Hc as (J & <- & HJ).
    apply filter_In in HJ as (HJ & Hr). apply in_seq in HJ. exists J. repeat split; [lia|exact Hr|exact Hj].
  - intros (J & HJ & Hr & Hj). apply in_flat_map. exists (nth J cols (0, 0)). split; [|exact Hj].
    apply in_map_iff. exists J. split; [reflexivity|]. apply filter_In. split; [|exact Hr]. apply in_seq; lia.
Qed.

Lemma swapped u tagI bs : tagI <= 1 ->
  exists u', swap_axes (Some u) = Some u' /\ (user_describes u' tagI bs <-> user_describes u (1 - tagI) bs).
Proof.
  intros H. eexists; split; [reflexivity|]. destruct tagI as [|[|t]]; [..|lia]; cbn; tauto.
Qed.

Lemma swap_matrix ri rj keep u : from_matrix ri rj keep = Ok u ->
  exists u', from_matrix rj ri (transposed keep) = Ok u' /\ swap_axes (Some u) = Some u'.
Proof.
  unfold from_matrix; cbn zeta. intros H.
  apply rbind_ok in H as (li & E1 & H). apply rbind_ok in H as (redi & E2 & H).
  apply rbind_ok in H as (lj & E3 & H). apply rbind_ok in H as (redj & E4 & H).
  injection H as <-.
  assert (F1 : masked (transposed {| nrows := nrows (transposed keep); ncols := ncols (transposed keep);
                                     entry_at := fun a _ : nat => a |}) (transposed (transposed keep)) = Ok lj).
  { rewrite <- E3. reflexivity. }
  assert (F2 : masked {| nrows := nrows (transposed keep); ncols := ncols (transposed keep);
                         entry_at := fun _ b : nat => b |} (transposed keep) = Ok li).
  { rewrite <- E1. reflexivity. }
  rewrite F1. cbn [rbind]. rewrite E4. cbn [rbind]. rewrite F2. cbn [rbind]. rewrite E2. cbn [rbind].
  eexists; split; [reflexivity|]. cbn. reflexivity.
Qed.

Lemma matrix_sum decl f d tagI A ri rj keep schedule junk tmp nx out u :
  declared decl f -> wf f -> categories decl -> tagI <= 1 -> dim f = d -> complete schedule ->
  nrows keep = length ri -> ncols keep = length rj -> from_matrix ri rj keep = Ok u ->
  let '(rows, cols, rel) := match tagI with
                            | O => (ri, rj, fun I J => entry_at keep I J)
                            | _ => (rj, ri, fun J I => entry_at keep I J)
                            end in
  NoDup (flat_map interval rows) -> (forall p, In p rows -> snd p <= nx) ->
  exists out', launch_cpu_ranges schedule junk tmp (Sum_Red d) direct_sum f tagI A None (from_user u tagI) nx out = Ok out' /\
    forall I i k, I < length rows -> In i (interval (nth I rows (0, 0))) -> k < d ->
      out' (i * d + k) = Fin (lsum k (block_terms decl A f tagI i
        (flat_map (fun J => interval (nth J cols (0, 0))) (filter (rel I) (seq 0 (length cols)))))).
Proof.
  intros Hd Hw Hc Ht Hdim Hs H1 H2 Hu.
  assert (HU : user_describes u tagI (match tagI with
     | O => pattern ri rj (fun I J => entry_at keep I J) | _ => pattern rj ri (fun J I => entry_at keep I J) end)).
  { destruct (matrix_blocks ri rj keep H1 H2) as (u' & E & Ha & Hb). rewrite E in Hu; injection Hu as <-.
    destruct tagI as [|[|t]]; [exact Ha|exact Hb|lia]. }
  assert (G : forall rows cols rel, user_describes u tagI (pattern rows cols rel) ->
    NoDup (flat_map interval rows) -> (forall p, In p rows -> snd p <= nx) ->
  exists out', launch_cpu_ranges schedule junk tmp (Sum_Red d) direct_sum f tagI A None (from_user u tagI) nx out = Ok out' /\
    forall I i k, I < length rows -> In i (interval (nth I rows (0, 0))) -> k < d ->
      out' (i * d + k) = Fin (lsum k (block_terms decl A f tagI i
        (flat_map (fun J => interval (nth J cols (0, 0))) (filter (rel I) (seq 0 (length cols))))))).
  { intros rows cols rel Hdes Hnd Hlt.
    destruct (cpu_blocks decl f (Sum_Red d) direct_sum tagI A u (pattern rows cols rel) schedule junk tmp nx out Hd Hw Hc Ht) as
      (out' & E & Hrow & _).
    - rewrite Hdim. constructor.
    - eexists; reflexivity.
    - exact Hs.
    - exact Hdes.
    - split.
      + rewrite <- (rows_pattern rows cols rel) in Hnd. rewrite flat_map_map in Hnd. exact Hnd.
      + intros b Hb. apply Hlt. rewrite <- (rows_pattern rows cols rel). apply in_map. exact Hb.
    - exists out'; split; [exact E|]. intros I i k HI Hi Hk.
      set (h := fun I => {| brows := nth I rows (0, 0);
                   bcols := map (fun J => nth J cols (0, 0)) (filter (rel I) (seq 0 (length cols))) |}).
      assert (Hb : In (h I) (pattern rows cols rel)).
      { unfold pattern. apply in_map_iff. exists I. split; [reflexivity|]. apply in_seq; lia. }
      destruct (Hrow (h I) i Hb Hi) as (_ & Hsum & _).
      specialize (Hsum d eq_refl k Hk). cbn [rdim] in Hsum. etransitivity; [exact Hsum|].
      unfold visited, h; cbn [bcols]. rewrite flat_map_map. reflexivity. }
  destruct tagI as [|[|t]]; [apply G; exact HU|apply G; exact HU|lia].
Qed.
