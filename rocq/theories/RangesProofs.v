(** Lemmas on block-sparse reductions: schemes on lists of terms, loads, tables. *)

From Coq Require Import ZArith Reals Arith Lia List Bool Permutation.
From Verif Require Import Result Formula XReal Reductions ReductionSpec RedLoops KernelSum KernelSumSpec
  SumSpec LseSpec Postprocess CpuReduc Loader LoaderProofs CpuConv CpuConvSpec GpuConv RangesConv RangesSpec
  C06Proofs C09Proofs C11Proofs C12Proofs GpuProofs C13Proofs.
Import ListNotations.

(** ** Schemes over lists of tiles *)
Definition item := (Z * (nat -> R))%type.
Definition acc_items (op : scheme_ops) (l : list item) (st : cells * cells) : cells * cells :=
  fold_left (fun st p => accumulate op st (fins (snd p)) (fst p)) l st.
Definition run_tiles (op : scheme_ops) (tl : list (list item)) (st : cells * cells) : cells * cells :=
  fold_left (fun st l => final_op op (acc_items op l (fst st, block_init op (snd st)))) tl st.

Definition fin_items (l : list item) : list (Z * cells) := map (fun p => (fst p, fins (snd p))) l.

Lemma run_app : forall r l1 l2 a, run r (l1 ++ l2) a = run r l2 (run r l1 a).
Proof. intros. unfold run. apply fold_left_app. Qed.
Lemma lsum_app : forall k l1 l2, (lsum k (l1 ++ l2) = lsum k l1 + lsum k l2)%R.
Proof. intros k l1 l2. unfold lsum. induction l1 as [|p l1 IH]; cbn; [ring|]. rewrite IH. ring. Qed.

Lemma direct_items : forall r op l st, scheme_code r direct_sum = Ok op ->
  acc_items op l st = (run r (fin_items l) (fst st), snd st).
Proof.
  intros r op l st E. cbn in E. inversion E; subst. unfold acc_items. revert st.
  induction l as [|p l IH]; intros [a t]; cbn; [reflexivity|]. rewrite IH. reflexivity.
Qed.
Lemma direct_tiles : forall r op tl st, scheme_code r direct_sum = Ok op ->
  fst (run_tiles op tl st) = run r (fin_items (concat tl)) (fst st).
Proof.
  intros r op tl st E. unfold run_tiles. revert st. induction tl as [|l tl IH]; intros st; cbn [fold_left concat]; [reflexivity|].
  rewrite IH. unfold fin_items. rewrite map_app, run_app. f_equal.
  rewrite (direct_items r op l _ E). cbn in E. inversion E; subst. reflexivity.
Qed.

(** Sums. *)
Lemma sum_items_block : forall d op l st k, scheme_code (Sum_Red d) block_sum = Ok op -> k < d ->
  forall c, snd st k = Fin c ->
  fst (acc_items op l st) = fst st /\ snd (acc_items op l st) k = Fin (c + lsum k l).
Proof.
  intros d op l st k E Hk. cbn in E. inversion E; subst. unfold acc_items. revert st.
  induction l as [|p l IH]; intros [a t] c H; cbn [fold_left]; cbn in H.
  - split; [reflexivity|]. cbn. rewrite H. f_equal. unfold lsum. cbn. ring.
  - cbn [accumulate fst snd]. cbn [snd] in IH.
    destruct (IH (a, rshort (Sum_Red d) t (fins (snd p)) (fst p)) (c + snd p k)%R) as [I1 I2].
    + cbn. rewrite sum_pair_cell by assumption. rewrite H. reflexivity.
    + split; [exact I1|]. etransitivity; [exact I2|]. f_equal. unfold lsum. cbn. ring.
Qed.
Lemma sum_items_kahan : forall d op l st k, scheme_code (Sum_Red d) kahan_scheme = Ok op -> k < d ->
  forall c, fst st k = Fin c -> snd st k = Fin 0 ->
  fst (acc_items op l st) k = Fin (c + lsum k l) /\ snd (acc_items op l st) k = Fin 0.
Proof.
  intros d op l st k E Hk. cbn in E. inversion E; subst. unfold acc_items. revert st.
  induction l as [|p l IH]; intros [a t] c H H0; cbn [fold_left]; cbn in H, H0.
  - cbn. split; [rewrite H; f_equal; unfold lsum; cbn; ring|assumption].
  - cbn [accumulate fst snd].
    destruct (sum_kahan_cell d a (fins (snd p)) t k Hk) as [C D].
    destruct (IH (sum_kahan d a (fins (snd p)) t) (c + snd p k)%R) as [I1 I2].
    + etransitivity; [exact C|]. rewrite H, H0. cbn. f_equal. ring.
    + etransitivity; [exact D|]. rewrite H, H0. cbn. f_equal. ring.
    + split; [|exact I2]. etransitivity; [exact I1|]. f_equal. unfold lsum. cbn. ring.
Qed.
Lemma sum_direct_run : forall d l a k c, k < d -> a k = Fin c ->
  run (Sum_Red d) (fin_items l) a k = Fin (c + lsum k l).
Proof.
  intros d l. induction l as [|p l IH]; intros a k c Hk H; cbn.
  - rewrite H. f_equal. unfold lsum. cbn. ring.
  - unfold run, fin_items in IH. cbn in IH. rewrite (IH _ k (c + snd p k)%R Hk).
    + f_equal. unfold lsum. ring.
    + rewrite sum_pair_cell by assumption. rewrite H. reflexivity.
Qed.

Lemma sum_tiles : forall s d op tl tmp k, scheme_code (Sum_Red d) s = Ok op -> k < d ->
  fst (run_tiles op tl (rinit (Sum_Red d), first_init op tmp)) k = Fin (lsum k (concat tl)).
Proof.
  intros s d op tl tmp k E Hk. destruct s.
  - rewrite (direct_tiles _ _ _ _ E). rewrite (sum_direct_run d _ _ k 0 Hk) by reflexivity. f_equal. ring.
  - assert (G : forall (st : cells * cells) c, fst st k = Fin c -> fst (run_tiles op tl st) k = Fin (c + lsum k (concat tl))).
    { unfold run_tiles. induction tl as [|l tl IH]; intros st c H; cbn [fold_left concat].
      - etransitivity; [exact H|]. f_equal. unfold lsum. cbn. ring.
      - rewrite (IH _ (c + lsum k l)%R).
        + f_equal. rewrite lsum_app. ring.
        + destruct (sum_items_block d op l (fst st, block_init op (snd st)) k E Hk 0%R) as [I1 I2].
          * cbn in E. inversion E; subst. reflexivity.
          * assert (FO : forall x, final_op op x = (sum_pair d (fst x) (snd x), snd x)).
            { cbn in E. inversion E; subst. reflexivity. }
            rewrite FO. cbn [fst]. rewrite sum_pair_cell by assumption. rewrite I1, I2.
            etransitivity; [apply (f_equal (fun z => xadd z _) H)|]. cbn. f_equal. ring. }
    rewrite (G _ 0%R) by reflexivity. f_equal. ring.
  - assert (G : forall (st : cells * cells) c, fst st k = Fin c -> snd st k = Fin 0 ->
              fst (run_tiles op tl st) k = Fin (c + lsum k (concat tl))).
    { unfold run_tiles. induction tl as [|l tl IH]; intros st c H H0; cbn [fold_left concat].
      - etransitivity; [exact H|]. f_equal. unfold lsum. cbn. ring.
      - destruct (sum_items_kahan d op l (fst st, block_init op (snd st)) k E Hk c) as [I1 I2].
        + exact H.
        + cbn in E. inversion E; subst. exact H0.
        + assert (F : forall x, final_op op x = x) by (cbn in E; inversion E; subst; reflexivity).
          rewrite (IH _ (c + lsum k l)%R).
          * f_equal. rewrite lsum_app. ring.
          * rewrite F. exact I1.
          * rewrite F. exact I2. }
    rewrite (G _ 0%R).
    + f_equal. ring.
    + reflexivity.
    + cbn in E. inversion E; subst. reflexivity.
Qed.

(** Log-sum-exp. *)
Lemma lse_cells : forall w (p : item), same_below (S w) (fins (snd p)) (entry_cells (as_entry p)).
Proof. intros w p [|k] Hk; reflexivity. Qed.
Lemma lse_items : forall w l a, l <> [] -> lempty w a ->
  lrep w (fold_left (fun a (p : item) => lse_pair w a (fins (snd p))) l a) (map as_entry l).
Proof.
  intros w l. induction l as [|p l IH] using rev_ind; intros a N Em; [congruence|].
  rewrite fold_left_app, map_app. cbn [fold_left map].
  rewrite (lse_pair_local w _ (fins (snd p)) (entry_cells (as_entry p))) by apply lse_cells.
  destruct l as [|q l].
  - cbn. apply lrep_start; [assumption|discriminate].
  - apply lrep_update. apply IH; [discriminate|assumption].
Qed.
Lemma run_lse : forall w l a, run (LSE_Red w) (fin_items l) a =
  fold_left (fun a (p : item) => lse_pair w a (fins (snd p))) l a.
Proof. intros w l. induction l as [|p l IH]; intros a; cbn; [reflexivity|]. apply IH. Qed.
Lemma lse_block_items : forall w op l st, scheme_code (LSE_Red w) block_sum = Ok op ->
  acc_items op l st = (fst st, fold_left (fun a (p : item) => lse_pair w a (fins (snd p))) l (snd st)).
Proof.
  intros w op l st E. cbn in E. inversion E; subst. unfold acc_items. revert st.
  induction l as [|p l IH]; intros [a t]; cbn; [reflexivity|]. rewrite IH. reflexivity.
Qed.

Lemma lse_tiles : forall s w op tl tmp, scheme_code (LSE_Red w) s = Ok op ->
  concat tl <> [] -> Forall (fun l => l <> []) tl ->
  lrep w (fst (run_tiles op tl (rinit (LSE_Red w), first_init op tmp))) (map as_entry (concat tl)).
Proof.
  intros s w op tl tmp E N F. destruct s; [| |discriminate].
  - rewrite (direct_tiles _ _ _ _ E), run_lse. apply lse_items; [assumption|apply lempty_init].
  - assert (G : forall st, (lempty w (fst st) /\ tl <> [] -> lrep w (fst (run_tiles op tl st)) (map as_entry (concat tl))) /\
                           (forall pre, lrep w (fst st) pre -> lrep w (fst (run_tiles op tl st)) (pre ++ map as_entry (concat tl)))).
    { clear N. induction F as [|l tl Hl F IH]; intros st.
      - split; [intros [_ C]; congruence|]. intros pre R. cbn. rewrite app_nil_r. exact R.
      - assert (R : lrep w (snd (acc_items op l (fst st, block_init op (snd st)))) (map as_entry l)).
        { rewrite (lse_block_items w op l _ E). cbn [snd]. apply lse_items; [assumption|].
          cbn in E. inversion E; subst. apply lempty_init. }
        assert (S1 : fst (final_op op (acc_items op l (fst st, block_init op (snd st)))) =
                     lse_pair w (fst st) (snd (acc_items op l (fst st, block_init op (snd st))))).
        { rewrite (lse_block_items w op l _ E). cbn in E. inversion E; subst. reflexivity. }
        destruct (IH (final_op op (acc_items op l (fst st, block_init op (snd st))))) as [_ IH2].
        unfold run_tiles in *. cbn [fold_left concat]. rewrite map_app. split.
        + intros [Em _]. apply IH2. rewrite S1. apply lse_merge_init_l; assumption.
        + intros pre Rp. rewrite app_assoc. apply IH2. rewrite S1. apply lse_merge; assumption. }
    apply G. split; [apply lempty_init|]. intros ->. cbn in N. congruence.
Qed.

Lemma tiles_value : forall r s op tl tmp, scheme_code r s = Ok op ->
  (concat tl <> [] -> Forall (fun l => l <> []) tl) ->
  row_value r s (concat tl) (rfinal r (fst (run_tiles op tl (rinit r, first_init op tmp)))).
Proof.
  intros r s op tl tmp E F. split; [|split].
  - intros -> k Hk. rewrite (direct_tiles _ _ _ _ E). reflexivity.
  - intros d -> k Hk. cbn [rfinal Sum_Red]. apply (sum_tiles s); assumption.
  - intros w -> N k Hk Hp. cbn [rfinal LSE_Red]. apply (rep_log w); [|assumption|assumption].
    apply (lse_tiles s); auto.
Qed.

(** ** Values loaded in local arrays *)
Lemma loaded_eval : forall decl f tagI A xi yj pp (Ri Rj Rp : Z -> nat) (E : env),
  declared decl f -> wf f -> categories decl -> tagI <= 1 ->
  (forall i d q, In (i, d) (varsI (loader f tagI)) -> q < d -> xi (offset (varsI (loader f tagI)) i + q) = A i (Ri i * d + q)) ->
  (forall i d q, In (i, d) (varsJ (loader f tagI)) -> q < d -> yj (offset (varsJ (loader f tagI)) i + q) = A i (Rj i * d + q)) ->
  (forall i d q, In (i, d) (varsP (loader f tagI)) -> q < d -> pp (offset (varsP (loader f tagI)) i + q) = A i (Rp i * d + q)) ->
  (forall i d c q, In (i, d, c) (vars f) -> q < d ->
     E i q = A i ((if c =? tagI then Ri i else if c =? 1 - tagI then Rj i else Rp i) * d + q)) ->
  same_below (dim f) (loaded_fout f (loader f tagI) xi yj pp) (fins (eval f E)).
Proof.
  intros decl f tagI A xi yj pp Ri Rj Rp E D W C T HI HJ HP HE k Hk. unfold loaded_fout, fins. f_equal.
  assert (Dm : forall c i d, In (i, d) (vars_cat f c) -> fst (decl i) = d).
  { intros c i d H. apply vars_cat_in in H. apply (vars_declared decl f D) in H. rewrite H. reflexivity. }
  destruct (table_agree decl f tagI xi yj pp
              (fun i q => A i (Ri i * fst (decl i) + q)) (fun i q => A i (Rj i * fst (decl i) + q))
              (fun i q => A i (Rp i * fst (decl i) + q)) D T C) as [_ Ag].
  - intros i d Hi q Hq. rewrite (HI i d q Hi Hq), (Dm _ _ _ Hi). reflexivity.
  - intros i d Hi q Hq. rewrite (HJ i d q Hi Hq), (Dm _ _ _ Hi). reflexivity.
  - intros i d Hi q Hq. rewrite (HP i d q Hi Hq), (Dm _ _ _ Hi). reflexivity.
  - apply eval_agree; [assumption| |assumption]. intros i d c Hi q Hq.
    etransitivity; [exact (Ag i d c Hi q Hq)|].
    rewrite (HE i d c q Hi Hq). rewrite (vars_declared decl f D i d c Hi). cbn [fst snd].
    destruct (c =? tagI); [reflexivity|]. destruct (c =? 1 - tagI); reflexivity.
Qed.

(** ** Arrays describing a pattern *)
Lemma rd_flat : forall l n p, nth_error l n = Some p ->
  rd (flat l) (2 * n) = Ok (fst p) /\ rd (flat l) (2 * n + 1) = Ok (snd p).
Proof.
  induction l as [|q l IH]; intros [|n] p H; cbn in H; try discriminate.
  - inversion H; subst. split; reflexivity.
  - destruct (IH n p H) as [A B]. unfold rd in *.
    replace (2 * S n) with (S (S (2 * n))) by lia. replace (S (S (2 * n)) + 1) with (S (S (2 * n + 1))) by lia.
    cbn [flat flat_map app nth_error]. unfold flat in A, B. split; assumption.
Qed.

Definition first_slice (bs : list block) (b : nat) : nat := length (flat_map bcols (firstn b bs)).

Lemma cumulated_nth : forall bs n b blk, nth_error bs b = Some blk ->
  nth_error (cumulated n bs) b = Some (n + first_slice bs b + length (bcols blk)).
Proof.
  unfold first_slice. induction bs as [|c bs IH]; intros n [|b] blk H; cbn in H; try discriminate.
  - inversion H; subst. cbn. f_equal. lia.
  - cbn [cumulated nth_error firstn flat_map]. rewrite (IH _ b blk H), app_length. f_equal. lia.
Qed.

Lemma first_slice_S : forall bs b blk, nth_error bs b = Some blk ->
  first_slice bs (S b) = first_slice bs b + length (bcols blk).
Proof.
  unfold first_slice. induction bs as [|c bs IH]; intros [|b] blk H; cbn in H; try discriminate.
  - inversion H; subst. cbn [firstn flat_map]. rewrite app_nil_r. reflexivity.
  - cbn [firstn flat_map]. rewrite !app_length. specialize (IH b blk H). cbn [firstn] in IH. rewrite IH. lia.
Qed.

(** Number of slices before range b, as read in slices_x. *)
Lemma slices_read : forall bs b blk, nth_error bs b = Some blk ->
  (if b <? 1 then Ok 0 else rd (cumulated 0 bs) (b - 1)) = Ok (first_slice bs b) /\
  rd (cumulated 0 bs) b = Ok (first_slice bs b + length (bcols blk)).
Proof.
  intros bs b blk H. split.
  - destruct b as [|b]; [reflexivity|]. cbn [Nat.ltb Nat.leb]. replace (S b - 1) with b by lia.
    assert (exists c, nth_error bs b = Some c) as [c Hc].
    { destruct (nth_error bs b) eqn:E; [eauto|]. apply nth_error_None in E.
      assert (S b < length bs) by (apply nth_error_Some; congruence). lia. }
    unfold rd. rewrite (cumulated_nth _ _ _ _ Hc), (first_slice_S _ _ _ Hc). reflexivity.
  - unfold rd. rewrite (cumulated_nth _ _ _ _ H). reflexivity.
Qed.

Lemma cols_nth : forall bs b blk q, nth_error bs b = Some blk -> q < length (bcols blk) ->
  nth_error (flat_map bcols bs) (first_slice bs b + q) = nth_error (bcols blk) q.
Proof.
  unfold first_slice. induction bs as [|c bs IH]; intros [|b] blk q H Hq; cbn in H; try discriminate.
  - inversion H; subst. cbn [firstn flat_map length Nat.add]. apply nth_error_app1. assumption.
  - cbn [firstn flat_map]. rewrite app_length, <- Nat.add_assoc. rewrite nth_error_app2 by lia.
    rewrite <- (IH b blk q H Hq). f_equal. lia.
Qed.

Lemma col_read : forall bs b blk q c, nth_error bs b = Some blk -> nth_error (bcols blk) q = Some c ->
  rd (flat (flat_map bcols bs)) (2 * (first_slice bs b + q)) = Ok (fst c) /\
  rd (flat (flat_map bcols bs)) (2 * (first_slice bs b + q) + 1) = Ok (snd c).
Proof.
  intros bs b blk q c H Hq. apply rd_flat.
  rewrite (cols_nth bs b blk q H); [assumption|]. apply nth_error_Some. congruence.
Qed.

(** A pattern stored in flat arrays. *)
Definition stored (bs : list block) (sp : sparsity) : Prop :=
  ranges_x sp = flat (map brows bs) /\ slices_x sp = cumulated 0 bs /\
  ranges_y sp = flat (flat_map bcols bs) /\ nranges sp = length bs.

(** ** The CPU routine *)
Section Cpu.
Context (decl : declaration) (f : fm) (tagI : nat) (A : memory) (bt : option batching)
  (bs : list block) (sp : sparsity) (r : reduction) (s : scheme) (op : scheme_ops)
  (junk : rarray) (tmp : cells).
Context (Hr : reduction_of (dim f) r) (Hop : scheme_code r s = Ok op) (Hst : stored bs sp).
(** Items reduced for row i of block number b: the terms at the columns j. *)
Context (it : nat -> nat -> nat -> item).
Let L := loader f tagI.

(** The loads of the program give the terms [it]. *)
Definition loads : Prop := forall b blk, nth_error bs b = Some blk ->
  exists oi op_, offsets bt shapes_i (fst (brows blk)) 0 = Ok oi /\ offsets bt shapes_p b 0 = Ok op_ /\
  forall c, In c (bcols blk) -> exists oj, offsets bt shapes_j (fst c) 0 = Ok oj /\
  forall i j, In i (interval (brows blk)) -> In j (interval c) ->
    fst (it b i j) = Z.of_nat (col_index oj (fst c) j) /\
    same_below (dim f)
      (loaded_fout f L (load_vars (varsI L) A (row_at oi (fst (brows blk)) i) 0 0 junk)
                       (load_vars (varsJ L) A (row_at oj (fst c) j) 0 0 junk)
                       (load_vars (varsP L) A (row_param op_) 0 0 junk))
      (fins (snd (it b i j))).

Lemma slice_loop_items : forall b blk i xi pp, nth_error bs b = Some blk ->
  (forall c, In c (bcols blk) -> exists oj, offsets bt shapes_j (fst c) 0 = Ok oj /\
    forall j, In j (interval c) ->
      fst (it b i j) = Z.of_nat (col_index oj (fst c) j) /\
      same_below (dim f) (loaded_fout f L xi (load_vars (varsJ L) A (row_at oj (fst c) j) 0 0 junk) pp)
                 (fins (snd (it b i j)))) ->
  forall cs pre st, bcols blk = pre ++ cs ->
  slice_loop op f L A bt (ranges_y sp) junk xi pp (seq (first_slice bs b + length pre) (length cs)) st =
  Ok (acc_items op (map (it b i) (flat_map interval cs)) st).
Proof.
  intros b blk i xi pp Hb H. destruct Hst as [_ [_ [Ey _]]].
  induction cs as [|c cs IH]; intros pre st Hc; [reflexivity|].
  cbn [length seq slice_loop].
  assert (Hn : nth_error (bcols blk) (length pre) = Some c).
  { rewrite Hc, nth_error_app2, Nat.sub_diag by lia. reflexivity. }
  destruct (col_read bs b blk (length pre) c Hb Hn) as [R1 R2]. rewrite Ey, R1. cbn [rbind]. rewrite R2. cbn [rbind].
  destruct (H c (nth_error_In _ _ Hn)) as [oj [Eo Hj]]. rewrite Eo. cbn [rbind].
  rewrite <- Ey. replace (S (first_slice bs b + length pre)) with (first_slice bs b + length (pre ++ [c]))
    by (rewrite app_length; cbn; lia).
  rewrite IH.
  - f_equal. cbn [flat_map]. rewrite map_app. unfold acc_items at 2. rewrite fold_left_app. fold (acc_items op).
    unfold acc_items. f_equal. unfold interval in *. clear - Hj Hr Hop.
    set (F := fun q st => accumulate op st _ _). generalize (snd c - fst c) as n, Hj. clear Hj.
    intros n Hj. induction n as [|n IHn]; [reflexivity|].
    cbn [for_up]. rewrite seq_S, map_app, fold_left_app. cbn [map fold_left]. rewrite IHn.
    + unfold F at 1. destruct (Hj (fst c + n)) as [E1 E2]; [apply in_seq; lia|]. rewrite E1.
      eapply ops_local; [exact Hr|exact Hop|exact E2].
    + intros j Hin. apply Hj. apply in_seq in Hin. apply in_seq. lia.
  - rewrite Hc, <- app_assoc. reflexivity.
Qed.

(** Value written in row i of block b. *)
Definition cpu_value (b : nat) (blk : block) (i : nat) : cells :=
  rfinal r (fst (run_tiles op [map (it b i) (visited blk)] (rinit r, first_init op tmp))).

Lemma range_row_value : loads -> forall b blk i oi op_, nth_error bs b = Some blk ->
  In i (interval (brows blk)) ->
  offsets bt shapes_i (fst (brows blk)) 0 = Ok oi -> offsets bt shapes_p b 0 = Ok op_ ->
  range_row r op f L A bt (ranges_y sp) junk tmp (load_vars (varsP L) A (row_param op_) 0 0 junk) oi
    (fst (brows blk)) (first_slice bs b) (first_slice bs b + length (bcols blk)) i = Ok (cpu_value b blk i).
Proof.
  intros Ld b blk i oi op_ Hb Hi Eo Ep. unfold range_row.
  destruct (Ld b blk Hb) as [oi' [op' [Eo' [Ep' H]]]].
  assert (oi' = oi) by congruence. assert (op' = op_) by congruence. subst oi' op'.
  replace (first_slice bs b + length (bcols blk) - first_slice bs b) with (length (bcols blk)) by lia.
  pose proof (slice_loop_items b blk i
    (load_vars (varsI L) A (row_at oi (fst (brows blk)) i) 0 0 junk)
    (load_vars (varsP L) A (row_param op_) 0 0 junk) Hb) as G.
  assert (G' := fun HH => G HH (bcols blk) [] (rinit r, block_init op (first_init op tmp)) eq_refl).
  cbn [length] in G'. rewrite Nat.add_0_r in G'. rewrite G'; [reflexivity|].
  intros c Hc. destruct (H c Hc) as [oj [Ej Hj]]. exists oj. split; [exact Ej|]. intros j Hjj. apply Hj; assumption.
Qed.

Definition write_all (ws : list (nat * cells)) (out : cells) : cells :=
  fold_left (fun out w => write_row (rdim r) (fst w) (snd w) out) ws out.

Lemma range_rows_writes : forall row v order out, (forall i, In i order -> row i = Ok (v i)) ->
  range_rows (rdim r) row order out = Ok (write_all (map (fun i => (i, v i)) order) out).
Proof.
  intros row v. induction order as [|i order IH]; intros out H; [reflexivity|].
  cbn [range_rows]. rewrite (H i) by (left; reflexivity). cbn [rbind]. rewrite IH; [reflexivity|].
  intros; apply H; right; assumption.
Qed.

Definition row_order (schedule : nat -> list nat) (blk : block) : list nat :=
  map (fun k => fst (brows blk) + k) (schedule (snd (brows blk) - fst (brows blk))).
Lemma row_order_perm : forall schedule blk, complete schedule ->
  Permutation (row_order schedule blk) (interval (brows blk)).
Proof.
  intros schedule blk C. unfold row_order, interval.
  assert (E : seq (fst (brows blk)) (snd (brows blk) - fst (brows blk)) =
              map (fun k => fst (brows blk) + k) (seq 0 (snd (brows blk) - fst (brows blk)))).
  { generalize (snd (brows blk) - fst (brows blk)) as n. intros n. generalize (fst (brows blk)) as a. intros a.
    rewrite <- (Nat.add_0_r a) at 1. generalize 0 as z. induction n as [|n IH]; intros z; cbn; [reflexivity|].
    f_equal. rewrite <- IH. f_equal. lia. }
  rewrite E. apply Permutation_map, C.
Qed.

Lemma range_loop_writes : loads -> forall schedule, complete schedule -> forall suf pre out, bs = pre ++ suf ->
  range_loop schedule r op f L A bt sp junk tmp (seq (length pre) (length suf)) out =
  Ok (write_all (flat_map (fun bb => map (fun i => (i, cpu_value (fst bb) (snd bb) i)) (row_order schedule (snd bb)))
                          (combine (seq (length pre) (length suf)) suf)) out).
Proof.
  intros Ld schedule Sc. induction suf as [|blk suf IH]; intros pre out E; [reflexivity|].
  cbn [length seq range_loop].
  assert (Hb : nth_error bs (length pre) = Some blk).
  { rewrite E, nth_error_app2, Nat.sub_diag by lia. reflexivity. }
  destruct Hst as [Ex [Es [Ey _]]].
  destruct (rd_flat (map brows bs) (length pre) (brows blk)) as [R1 R2]; [apply map_nth_error; assumption|].
  rewrite Ex, R1. cbn [rbind]. rewrite R2. cbn [rbind].
  destruct (slices_read bs (length pre) blk Hb) as [S1 S2]. rewrite Es, S1. cbn [rbind]. rewrite S2. cbn [rbind].
  destruct (Ld _ _ Hb) as [oi [op_ [Eo [Ep _]]]]. rewrite Eo. cbn [rbind]. rewrite Ep. cbn [rbind].
  rewrite (range_rows_writes _ (cpu_value (length pre) blk)).
  - cbn [rbind]. replace (S (length pre)) with (length (pre ++ [blk])) by (rewrite app_length; cbn; lia).
    rewrite (IH (pre ++ [blk])) by (rewrite <- app_assoc; exact E).
    f_equal. cbn [combine flat_map fst snd]. unfold write_all at 3. rewrite fold_left_app. reflexivity.
  - intros i Hi. apply range_row_value; try assumption.
    eapply Permutation_in; [apply row_order_perm; exact Sc|exact Hi].
Qed.

Lemma write_all_spec : forall ws out, NoDup (map fst ws) ->
  (forall i v, In (i, v) ws -> forall k, k < rdim r -> write_all ws out (i * rdim r + k) = v k) /\
  (forall q, (forall i k, In i (map fst ws) -> k < rdim r -> q <> i * rdim r + k) -> write_all ws out q = out q).
Proof.
  induction ws as [|[i v] ws IH]; intros out ND; unfold write_all in *; cbn [fold_left map fst] in *.
  - split; [intros i v []|reflexivity].
  - inversion ND as [|? ? Ni ND']; subst.
    destruct (IH (write_row (rdim r) i v out) ND') as [H1 H2].
    destruct (write_row_spec (rdim r) i v out) as [W1 W2]. split.
    + intros i' v' [E|Hi] k Hk; [|apply H1; assumption]. inversion E; subst. cbn [snd].
      rewrite H2; [apply W1; assumption|]. intros i k' Hi Hk' Eq.
      assert (i' <> i) by (intros ->; contradiction). destruct (row_disjoint (rdim r) i' i k); lia.
    + intros q Hq. cbn [snd]. rewrite H2 by (intros; apply Hq; [right; assumption|assumption]).
      apply W2. destruct (Nat.lt_ge_cases q (i * rdim r)); [left; assumption|right].
      destruct (Nat.lt_ge_cases q (i * rdim r + rdim r)); [|assumption].
      exfalso. apply (Hq i (q - i * rdim r)); [left; reflexivity|lia|lia].
Qed.

Lemma prefill_spec : forall n out,
  (forall i k, i < n -> k < rdim r -> prefill r n out (i * rdim r + k) = rfinal r (rinit r) k) /\
  (forall q, n * rdim r <= q -> prefill r n out q = out q).
Proof.
  intros n out. unfold prefill. induction n as [|n [H1 H2]]; cbn [for_up]; [split; [lia|reflexivity]|].
  destruct (write_row_spec (rdim r) n (rfinal r (rinit r)) (for_up n (fun i out => write_row (rdim r) i (rfinal r (rinit r)) out) out)) as [W1 W2].
  split.
  - intros i k Hi Hk. destruct (Nat.eq_dec i n) as [->|Ne]; [apply W1; assumption|].
    rewrite W2; [apply H1; lia|]. destruct (row_disjoint (rdim r) i n k Ne Hk); lia.
  - intros q Hq. rewrite W2 by lia. apply H2. lia.
Qed.

(** Rows of the blocks, in the order of completion. *)
Lemma rows_nodup : forall schedule suf z (v : nat -> block -> nat -> cells), complete schedule ->
  NoDup (flat_map (fun b => interval (brows b)) suf) ->
  NoDup (map fst (flat_map (fun bb : nat * block => map (fun i => (i, v (fst bb) (snd bb) i)) (row_order schedule (snd bb)))
                           (combine (seq z (length suf)) suf))) /\
  forall i, In i (map fst (flat_map (fun bb : nat * block => map (fun i => (i, v (fst bb) (snd bb) i)) (row_order schedule (snd bb)))
                           (combine (seq z (length suf)) suf))) <-> In i (flat_map (fun b => interval (brows b)) suf).
Proof.
  intros schedule suf z v Sc ND.
  assert (P : Permutation (map fst (flat_map (fun bb : nat * block => map (fun i => (i, v (fst bb) (snd bb) i)) (row_order schedule (snd bb)))
                           (combine (seq z (length suf)) suf))) (flat_map (fun b => interval (brows b)) suf)).
  { clear ND. revert z. induction suf as [|b suf IH]; intros z; [apply Permutation_refl|].
    cbn [length seq combine flat_map fst snd]. rewrite map_app, map_map. cbn [fst]. rewrite map_id.
    apply Permutation_app; [apply row_order_perm; exact Sc|apply IH]. }
  split; [eapply Permutation_NoDup; [apply Permutation_sym; exact P|exact ND]|].
  intros i. split; apply Permutation_in; [|apply Permutation_sym]; exact P.
Qed.

Lemma cpu_ranges : loads -> forall schedule nx out, complete schedule -> table_ok f (table L (fun _ => 0%R) (fun _ => 0%R) (fun _ => 0%R)) = true ->
  disjoint_rows nx bs ->
  exists out', launch_cpu_ranges schedule junk tmp r s f tagI A bt sp nx out = Ok out' /\
    (forall b blk i, nth_error bs b = Some blk -> In i (interval (brows blk)) ->
       row_value r s (map (it b i) (visited blk)) (fun k => out' (i * rdim r + k))) /\
    (forall i k, i < nx -> k < rdim r -> (forall blk, In blk bs -> ~ In i (interval (brows blk))) ->
       out' (i * rdim r + k) = rfinal r (rinit r) k) /\
    (forall q, nx * rdim r <= q -> out' q = out q).
Proof.
  intros Ld schedule nx out Sc Tb [ND Bd]. unfold launch_cpu_ranges. fold L. rewrite Tb, Hop. cbn [rbind].
  destruct (Hst) as [_ [_ [_ En]]]. rewrite En.
  pose proof (range_loop_writes Ld schedule Sc bs [] (prefill r nx out) eq_refl) as E. cbn [length] in E.
  eexists. split; [exact E|].
  destruct (rows_nodup schedule bs 0 cpu_value Sc ND) as [N1 N2].
  match type of N1 with NoDup (map fst ?w) => set (ws := w) in * end.
  destruct (write_all_spec ws (prefill r nx out) N1) as [H1 H2].
  destruct (prefill_spec nx out) as [P1 P2].
  assert (Below : forall i, In i (map fst ws) -> i < nx).
  { intros i Hi. apply N2 in Hi. apply in_flat_map in Hi. destruct Hi as [blk [Hb Hi]].
    unfold interval in Hi. apply in_seq in Hi. specialize (Bd blk Hb). lia. }
  assert (Val : forall b blk i, nth_error bs b = Some blk -> In i (interval (brows blk)) ->
     forall k, k < rdim r -> write_all ws (prefill r nx out) (i * rdim r + k) = cpu_value b blk i k).
  { intros b blk i Hb Hi k Hk. apply (H1 i (cpu_value b blk i)); [|assumption].
    unfold ws. apply in_flat_map. exists (b, blk). split.
    - apply (nth_error_In _ b). rewrite nth_error_nth' with (d := (b, blk)).
      + f_equal. rewrite combine_nth by apply seq_length. f_equal.
        * rewrite seq_nth; [reflexivity|]. apply nth_error_Some. congruence.
        * apply nth_error_nth. assumption.
      + rewrite combine_length, seq_length, Nat.min_id. apply nth_error_Some. congruence.
    - cbn [fst snd]. apply in_map_iff. exists i. split; [reflexivity|].
      eapply Permutation_in; [apply Permutation_sym, row_order_perm; exact Sc|exact Hi]. }
  split; [|split].
  - intros b blk i Hb Hi.
    assert (V : row_value r s (map (it b i) (visited blk)) (cpu_value b blk i)).
    { replace (map (it b i) (visited blk)) with (concat [map (it b i) (visited blk)]) at 1 by (cbn; apply app_nil_r).
      apply tiles_value; [assumption|]. cbn. rewrite app_nil_r. intros N. repeat constructor. assumption. }
    destruct V as [V1 [V2 V3]]. split; [|split].
    + intros Es k Hk. rewrite (Val b blk i Hb Hi k Hk). apply V1; assumption.
    + intros d Er k Hk. rewrite (Val b blk i Hb Hi k) by (rewrite Er; cbn; assumption). apply (V2 d Er k Hk).
    + intros w Er Ne k Hk Hp. rewrite <- (V3 w Er Ne k Hk Hp). unfold lse_post.
      rewrite !(Val b blk i Hb Hi) by (rewrite Er; cbn; lia). reflexivity.
  - intros i k Hi Hk Hn. rewrite H2; [apply P1; assumption|].
    intros i' k' Hi' Hk' Eq. assert (i <> i').
    { intros <-. apply N2 in Hi'. apply in_flat_map in Hi'. destruct Hi' as [blk [Hb Hin]]. exact (Hn blk Hb Hin). }
    destruct (row_disjoint (rdim r) i i' k); lia.
  - intros q Hq. rewrite H2; [apply P2; assumption|]. intros i k Hi Hk Eq. apply Below in Hi.
    assert ((i + 1) * rdim r <= nx * rdim r) by (apply Nat.mul_le_mono_r; lia). lia.
Qed.
End Cpu.

(** ** Rows read for the variables *)
Definition rows_ok (f : fm) (tagI : nat) (A : memory) (oi oj op_ : option (list nat)) (x0 y0 i j : nat) (e : env) : Prop :=
  let L := loader f tagI in
  forall a d c q, In (a, d, c) (vars f) -> q < d ->
    e a q = A a ((if c =? tagI then row_at oi x0 i (place (varsI L) a)
                  else if c =? 1 - tagI then row_at oj y0 j (place (varsJ L) a)
                  else row_param op_ (place (varsP L) a)) * d + q).

Lemma rows_loaded : forall decl f tagI A oi oj op_ x0 y0 i j e junk,
  declared decl f -> wf f -> categories decl -> tagI <= 1 -> rows_ok f tagI A oi oj op_ x0 y0 i j e ->
  same_below (dim f)
    (loaded_fout f (loader f tagI) (load_vars (varsI (loader f tagI)) A (row_at oi x0 i) 0 0 junk)
                     (load_vars (varsJ (loader f tagI)) A (row_at oj y0 j) 0 0 junk)
                     (load_vars (varsP (loader f tagI)) A (row_param op_) 0 0 junk))
    (fins (eval f e)).
Proof.
  intros decl f tagI A oi oj op_ x0 y0 i j e junk D W C T H.
  apply (loaded_eval decl f tagI A _ _ _ (fun a => row_at oi x0 i (place (varsI (loader f tagI)) a))
           (fun a => row_at oj y0 j (place (varsJ (loader f tagI)) a))
           (fun a => row_param op_ (place (varsP (loader f tagI)) a))); try assumption.
  - intros a d q Ha Hq. exact (load_vars_hit _ A _ 0 0 junk a d (vars_cat_nodup decl f _ D) Ha q Hq).
  - intros a d q Ha Hq. exact (load_vars_hit _ A _ 0 0 junk a d (vars_cat_nodup decl f _ D) Ha q Hq).
  - intros a d q Ha Hq. exact (load_vars_hit _ A _ 0 0 junk a d (vars_cat_nodup decl f _ D) Ha q Hq).
Qed.

Lemma rows_tile : forall decl f tagI A oi oj op_ x0 y0 i j e junk sh t,
  declared decl f -> wf f -> categories decl -> tagI <= 1 -> rows_ok f tagI A oi oj op_ x0 y0 i j e ->
  (forall a d q, In (a, d) (varsJ (loader f tagI)) -> q < d ->
     sh (t * dims (varsJ (loader f tagI)) + offset (varsJ (loader f tagI)) a + q) =
     A a (row_at oj y0 j (place (varsJ (loader f tagI)) a) * d + q)) ->
  same_below (dim f)
    (tile_fout f (loader f tagI) (load_vars (varsI (loader f tagI)) A (row_at oi x0 i) 0 0 junk) sh
               (load_vars (varsP (loader f tagI)) A (row_param op_) 0 0 junk) t)
    (fins (eval f e)).
Proof.
  intros decl f tagI A oi oj op_ x0 y0 i j e junk sh t D W C T H Hs.
  change (tile_fout f (loader f tagI) (load_vars (varsI (loader f tagI)) A (row_at oi x0 i) 0 0 junk) sh
               (load_vars (varsP (loader f tagI)) A (row_param op_) 0 0 junk) t)
    with (loaded_fout f (loader f tagI) (load_vars (varsI (loader f tagI)) A (row_at oi x0 i) 0 0 junk)
             (fun q => sh (t * dims (varsJ (loader f tagI)) + q))
             (load_vars (varsP (loader f tagI)) A (row_param op_) 0 0 junk)).
  apply (loaded_eval decl f tagI A _ _ _ (fun a => row_at oi x0 i (place (varsI (loader f tagI)) a))
           (fun a => row_at oj y0 j (place (varsJ (loader f tagI)) a))
           (fun a => row_param op_ (place (varsP (loader f tagI)) a))); try assumption.
  - intros a d q Ha Hq. exact (load_vars_hit _ A _ 0 0 junk a d (vars_cat_nodup decl f _ D) Ha q Hq).
  - intros a d q Ha Hq. rewrite Nat.add_assoc. apply Hs; assumption.
  - intros a d q Ha Hq. exact (load_vars_hit _ A _ 0 0 junk a d (vars_cat_nodup decl f _ D) Ha q Hq).
Qed.

(** ** Shared memory in a tile *)
Lemma range_copies_nodup : forall L bd oj y0 jstart e, NoDup (map dst (range_copies L bd oj y0 jstart e)).
Proof.
  intros L bd oj y0 jstart e. unfold range_copies. rewrite map_flat_map.
  apply (slices_nodup (dims (varsJ L))). intros t _.
  destruct (jstart + t <? e); [left; apply load_copies_dst|right; reflexivity].
Qed.
Lemma range_shared : forall A L bd oj y0 jstart e l x t a d q,
  Permutation l (range_copies L bd oj y0 jstart e) -> NoDup (map fst (varsJ L)) ->
  t < bd -> jstart + t < e -> In (a, d) (varsJ L) -> q < d ->
  perform A l x (t * dims (varsJ L) + offset (varsJ L) a + q) =
  A a (row_at oj y0 (jstart + t) (place (varsJ L) a) * d + q).
Proof.
  intros A L bd oj y0 jstart e l x t a d q P ND Ht Hj Ha Hq.
  refine (perform_hit A _ l x {| dst := t * dims (varsJ L) + offset (varsJ L) a + q; src := a;
     spos := row_at oj y0 (jstart + t) (place (varsJ L) a) * d + q |} P (range_copies_nodup L bd oj y0 jstart e) _).
  unfold range_copies. apply in_flat_map. exists t. split; [apply in_seq; lia|].
  assert (E : (jstart + t <? e) = true) by (apply Nat.ltb_lt; assumption). rewrite E.
  exact (load_copies_in (varsJ L) (row_at oj y0 (jstart + t)) 0 (t * dims (varsJ L)) a d ND Ha q Hq).
Qed.

(** ** Merging of adjacent intervals *)
Fixpoint merge (s : nat) (cs : list (nat * nat)) : list (nat * nat) :=
  match cs with
  | [] => []
  | c :: cs' =>
      match cs' with
      | [] => [(s, snd c)]
      | c' :: _ => if fst c' =? snd c then merge s cs' else (s, snd c) :: merge (fst c') cs'
      end
  end.
Definition ordered (cs : list (nat * nat)) : Prop := Forall (fun c => fst c <= snd c) cs.

Lemma interval_split : forall s m e, s <= m -> m <= e -> interval (s, e) = interval (s, m) ++ interval (m, e).
Proof.
  intros s m e H1 H2. unfold interval. cbn [fst snd]. replace (e - s) with ((m - s) + (e - m)) by lia.
  rewrite seq_app. f_equal. f_equal. lia.
Qed.
Lemma merge_visits : forall cs s c, s <= snd c -> ordered (c :: cs) ->
  flat_map interval (merge s (c :: cs)) = interval (s, snd c) ++ flat_map interval cs.
Proof.
  induction cs as [|c' cs IH]; intros s c Hs O; [reflexivity|].
  inversion O as [|? ? O1 O2]; subst. inversion O2 as [|? ? O3 O4]; subst.
  change (merge s (c :: c' :: cs)) with (if fst c' =? snd c then merge s (c' :: cs) else (s, snd c) :: merge (fst c') (c' :: cs)).
  destruct (Nat.eqb_spec (fst c') (snd c)) as [E|E].
  - rewrite IH by (try assumption; lia). cbn [flat_map]. rewrite app_assoc. f_equal.
    rewrite (interval_split s (snd c) (snd c')) by lia. f_equal. unfold interval. cbn [fst snd]. rewrite <- E. reflexivity.
  - cbn [flat_map]. f_equal. rewrite IH by assumption. destruct c'; reflexivity.
Qed.
Lemma merge_starts : forall cs s p, In p (merge s cs) -> fst p = s \/ exists c, In c cs /\ fst p = fst c.
Proof.
  induction cs as [|c cs IH]; intros s p H; [contradiction|]. cbn [merge] in H. destruct cs as [|c' cs].
  - destruct H as [<-|[]]. left. reflexivity.
  - destruct (fst c' =? snd c).
    + destruct (IH s p H) as [E|[x [Hx E]]]; [left; assumption|right; exists x; split; [right; assumption|assumption]].
    + destruct H as [<-|H]; [left; reflexivity|].
      destruct (IH (fst c') p H) as [E|[x [Hx E]]]; right.
      * exists c'. split; [right; left; reflexivity|assumption].
      * exists x. split; [right; assumption|assumption].
Qed.

Lemma merged_loop_run : forall {St : Type} bs b blk ry (segment : nat -> nat -> St -> St), nth_error bs b = Some blk -> ry = flat (flat_map bcols bs) ->
  forall cs pre s st, bcols blk = pre ++ cs ->
  merged_loop ry (first_slice bs b + length (bcols blk)) segment
    (seq (first_slice bs b + length pre) (length cs)) s st =
  Ok (fold_left (fun st p => segment (fst p) (snd p) st) (merge s cs) st).
Proof.
  intros St bs b blk ry segment Hb ->. induction cs as [|c cs IH]; intros pre s st E; [reflexivity|].
  cbn [length seq merged_loop].
  assert (Hn : nth_error (bcols blk) (length pre) = Some c).
  { rewrite E, nth_error_app2, Nat.sub_diag by lia. reflexivity. }
  destruct (col_read bs b blk (length pre) c Hb Hn) as [R1 R2].
  assert (E' : bcols blk = (pre ++ [c]) ++ cs) by (rewrite <- app_assoc; exact E).
  replace (S (first_slice bs b + length pre)) with (first_slice bs b + length (pre ++ [c])) by (rewrite app_length; cbn; lia).
  assert (Len : length (bcols blk) = length pre + S (length cs)) by (rewrite E, app_length; reflexivity).
  destruct cs as [|c' cs].
  - cbn [length] in Len. replace (first_slice bs b + length (bcols blk) <=? first_slice bs b + length pre + 1) with true
      by (symmetry; apply Nat.leb_le; lia).
    cbn [rbind]. rewrite R2. cbn [rbind].
    replace (first_slice bs b + length pre + 1 <? first_slice bs b + length (bcols blk)) with false
      by (symmetry; apply Nat.ltb_ge; lia).
    cbn [rbind]. rewrite (IH (pre ++ [c]) s _ E'). reflexivity.
  - cbn [length] in Len. replace (first_slice bs b + length (bcols blk) <=? first_slice bs b + length pre + 1) with false
      by (symmetry; apply Nat.leb_gt; lia).
    assert (Hn' : nth_error (bcols blk) (S (length pre)) = Some c').
    { rewrite E, nth_error_app2 by lia. replace (S (length pre) - length pre) with 1 by lia. reflexivity. }
    destruct (col_read bs b blk (S (length pre)) c' Hb Hn') as [R3 _].
    replace (2 * (first_slice bs b + S (length pre))) with (2 * (first_slice bs b + length pre) + 2) in R3 by lia.
    rewrite R3. cbn [rbind]. rewrite R2. cbn [rbind].
    change (merge s (c :: c' :: cs)) with (if fst c' =? snd c then merge s (c' :: cs) else (s, snd c) :: merge (fst c') (c' :: cs)).
    destruct (fst c' =? snd c); cbn [negb].
    + rewrite (IH (pre ++ [c]) s st E'). reflexivity.
    + cbn [rbind]. replace (first_slice bs b + length pre + 1 <? first_slice bs b + length (bcols blk)) with true
        by (symmetry; apply Nat.ltb_lt; lia).
      cbn [rbind]. rewrite (IH (pre ++ [c]) (fst c') _ E'). reflexivity.
Qed.

(** ** Tiles of an interval *)
Definition tile_cols (bd : nat) (p : nat * nat) : list (list nat) :=
  map (fun tile => seq (fst p + tile * bd) (Nat.min bd (snd p - (fst p + tile * bd)))) (seq 0 (tiles bd (snd p - fst p))).
Lemma tile_cols_concat : forall bd p, 1 <= bd -> concat (tile_cols bd p) = interval p.
Proof.
  intros bd [s e] H. unfold tile_cols, interval. cbn [fst snd].
  assert (G : forall m, m <= tiles bd (e - s) ->
    concat (map (fun tile => seq (s + tile * bd) (Nat.min bd (e - (s + tile * bd)))) (seq 0 m)) = seq s (Nat.min (e - s) (m * bd))).
  { induction m as [|m IH]; intros Hm; [rewrite Nat.min_0_r; reflexivity|].
    rewrite seq_S, map_app, concat_app, IH by lia. cbn [Nat.add map concat]. rewrite app_nil_r.
    pose proof (tile_lt bd (e - s) m H Hm) as Hlt.
    destruct (tile_min bd (e - s) m Hlt) as [E1 E2]. rewrite E1, E2, seq_app. f_equal. f_equal. lia. }
  rewrite G by lia. f_equal. apply tiles_all. assumption.
Qed.
Lemma tile_cols_nonempty : forall bd p, 1 <= bd -> Forall (fun l => l <> []) (tile_cols bd p).
Proof.
  intros bd p H. unfold tile_cols. apply Forall_forall. intros l Hl. apply in_map_iff in Hl.
  destruct Hl as [tile [<- Ht]]. apply in_seq in Ht. pose proof (tile_lt bd (snd p - fst p) tile H ltac:(lia)) as Hlt.
  assert (Hm : 0 < Nat.min bd (snd p - (fst p + tile * bd))) by lia.
  destruct (Nat.min bd (snd p - (fst p + tile * bd))); [lia|]. discriminate.
Qed.
