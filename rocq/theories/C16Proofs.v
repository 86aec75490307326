(** Proofs for C16: batch dimensions. *)

From Coq Require Import ZArith Reals Arith Lia List Bool Permutation.
From Verif Require Import Result Formula XReal Reductions ReductionSpec RedLoops KernelSum KernelSumSpec
  SumSpec LseSpec Postprocess CpuReduc Loader LoaderProofs CpuConv CpuConvSpec GpuConv RangesConv RangesSpec
  C12Proofs GpuProofs C13Proofs RangesProofs RangesGpu C15Proofs.
Import ListNotations.

(** ** Mixed-radix numbers, lowest digit first *)
Fixpoint lv (xs fs : list nat) : nat :=
  match xs, fs with x :: xs, f :: fs => x + f * lv xs fs | _, _ => 0 end.
Fixpoint clips (ds xs : list nat) : list nat :=
  match ds, xs with d :: ds, x :: xs => (if d =? 1 then 0 else x) :: clips ds xs | _, _ => [] end.
Definition prod (l : list nat) : nat := fold_right Nat.mul 1 l.

Lemma prod_app : forall l m, prod (l ++ m) = prod l * prod m.
Proof. unfold prod. induction l as [|x l IH]; intros m; cbn [app fold_right]; [lia|]. rewrite IH. ring. Qed.
Lemma prod_rev : forall l, prod (rev l) = prod l.
Proof. induction l as [|x l IH]; [reflexivity|]. cbn [rev]. rewrite prod_app, IH. unfold prod. cbn. ring. Qed.

Lemma lv_snoc : forall xs fs x f, length xs = length fs -> lv (xs ++ [x]) (fs ++ [f]) = lv xs fs + x * prod fs.
Proof.
  induction xs as [|y xs IH]; intros [|g fs] x f H; cbn in H; try discriminate; cbn [app lv prod fold_right].
  - lia.
  - rewrite IH by lia. unfold prod. ring.
Qed.
Lemma ravel_lv : forall fs xs, length xs = length fs -> ravel fs xs = lv (rev xs) (rev fs).
Proof.
  induction fs as [|f fs IH]; intros [|x xs] H; cbn in H; try discriminate; [reflexivity|].
  cbn [ravel rev]. rewrite lv_snoc by (rewrite !rev_length; lia). rewrite IH by lia. rewrite prod_rev. unfold prod. ring.
Qed.
Lemma clips_rev : forall ds xs, length ds = length xs -> clip ds xs = rev (clips (rev ds) (rev xs)).
Proof.
  assert (S : forall ds xs d x, length ds = length xs -> clips (ds ++ [d]) (xs ++ [x]) = clips ds xs ++ [if d =? 1 then 0 else x]).
  { induction ds as [|e ds IH]; intros [|y xs] d x H; cbn in H; try discriminate; [reflexivity|]. cbn [app clips].
    rewrite IH by lia. reflexivity. }
  induction ds as [|d ds IH]; intros [|x xs] H; cbn in H; try discriminate; [reflexivity|].
  cbn [clip rev]. rewrite S by (rewrite !rev_length; lia). rewrite rev_app_distr. cbn [rev app]. f_equal. apply IH. lia.
Qed.

Lemma forall2_rev : forall (T U : Type) (P : T -> U -> Prop) l m, Forall2 P l m -> Forall2 P (rev l) (rev m).
Proof.
  intros T U P l m H. induction H; cbn [rev]; [constructor|]. apply Forall2_app; [assumption|]. constructor; [assumption|constructor].
Qed.
Lemma forall2_len : forall (T U : Type) (P : T -> U -> Prop) l m, Forall2 P l m -> length l = length m.
Proof. intros T U P l m H. induction H; cbn; congruence. Qed.

Lemma combine_rev : forall (l m : list nat), length l = length m -> rev (combine l m) = combine (rev l) (rev m).
Proof.
  assert (S : forall (l m : list nat) x y, length l = length m -> combine (l ++ [x]) (m ++ [y]) = combine l m ++ [(x, y)]).
  { induction l as [|a l IH]; intros [|b m] x y H; cbn in H; try discriminate; [reflexivity|]. cbn. rewrite IH by lia. reflexivity. }
  induction l as [|a l IH]; intros [|b m] H; cbn in H; try discriminate; [reflexivity|].
  cbn [combine rev]. rewrite IH by lia. rewrite S by (rewrite !rev_length; lia). reflexivity.
Qed.

Lemma broadcast_loop_value : forall ds fs xs i r step full_step, compatible ds fs -> inside xs fs ->
  0 < full_step -> i / full_step = lv xs fs ->
  broadcast_loop i (combine ds fs) r step full_step = Ok (r + step * lv (clips ds xs) ds).
Proof.
  intros ds fs xs i r step full_step C. revert xs i r step full_step.
  induction C as [|d f ds fs Hd C IH]; intros xs i r step full_step I P E.
  - cbn. f_equal. lia.
  - inversion I as [|x ? xs' ? Hx I']; subst. cbn [combine broadcast_loop clips lv]. cbn [lv] in E.
    assert (E' : i / (full_step * f) = lv xs' fs).
    { rewrite <- Nat.div_div by lia. rewrite E. rewrite (Nat.mul_comm f), Nat.div_add by lia. rewrite Nat.div_small by assumption. reflexivity. }
    destruct (Nat.eqb_spec d 1) as [->|Nd].
    + cbn [rbind]. rewrite (IH xs' i r (step * 1) (full_step * f) I') by (try assumption; nia). f_equal. ring.
    + assert (d = f) by (destruct Hd; [contradiction|assumption]). subst d.
      replace (full_step =? 0) with false by (symmetry; apply Nat.eqb_neq; lia).
      replace (f =? 0) with false by (symmetry; apply Nat.eqb_neq; lia). cbn [orb rbind].
      rewrite E, (Nat.mul_comm f), Nat.mod_add, Nat.mod_small by lia.
      rewrite (IH xs' i _ (step * f) (full_step * f) I') by (try assumption; nia). f_equal. ring.
Qed.

Lemma to_int_small : forall n, (Z.of_nat n < 2 ^ 31)%Z -> to_int n = Z.of_nat n.
Proof. intros n H. unfold to_int. rewrite Z.mod_small; lia. Qed.

Lemma numpy_row_split : forall shape n idx x, length shape = length idx ->
  numpy_row shape n idx x = x + n * lv (clips (rev shape) (rev idx)) (rev shape).
Proof.
  intros shape n idx x H. unfold numpy_row.
  assert (Lc : length (clip shape idx) = length shape).
  { clear - H. revert idx H. induction shape as [|d s IH]; intros [|y idx] H; cbn in H; try discriminate; [reflexivity|]. cbn. rewrite IH; lia. }
  rewrite ravel_lv by (rewrite !app_length, Lc; reflexivity). rewrite !rev_app_distr. cbn [rev app lv].
  rewrite clips_rev by assumption. rewrite rev_involutive. reflexivity.
Qed.

Lemma lv_bound : forall ds fs xs, compatible ds fs -> inside xs fs -> lv (clips ds xs) ds < prod ds.
Proof.
  intros ds fs xs C. revert xs. induction C as [|d f ds fs Hd C IH]; intros xs I; [cbn; lia|].
  inversion I as [|x ? xs' ? Hx I']; subst. cbn [clips lv prod fold_right]. specialize (IH xs' I'). unfold prod in IH.
  destruct (Nat.eqb_spec d 1) as [->|Nd]; [lia|].
  assert (d = f) by (destruct Hd; [contradiction|assumption]). subst d. nia.
Qed.
Lemma numpy_row_bound : forall shape full n idx x, compatible shape full -> inside idx full -> x < n ->
  numpy_row shape n idx x < prod shape * n.
Proof.
  intros shape full n idx x C I H.
  rewrite numpy_row_split by (rewrite (forall2_len _ _ _ _ _ C), (forall2_len _ _ _ _ _ I); reflexivity).
  pose proof (lv_bound (rev shape) (rev full) (rev idx) (forall2_rev _ _ _ _ _ C) (forall2_rev _ _ _ _ _ I)) as B.
  rewrite prod_rev in B. nia.
Qed.

(** The address computed by broadcast_index. *)
Lemma broadcast_address : forall shape full n idx x, compatible shape full -> inside idx full -> x < n ->
  (Z.of_nat (prod shape * n) <= 2 ^ 31)%Z ->
  broadcast_index (ravel (full ++ [n]) (idx ++ [x])) full (shape, n) = Ok (numpy_row shape n idx x).
Proof.
  intros shape full n idx x C I H F.
  assert (L1 : length shape = length full) by (eapply forall2_len; exact C).
  assert (L2 : length idx = length full) by (eapply forall2_len; exact I).
  unfold broadcast_index. cbn [fst snd].
  replace (n =? 0) with false by (symmetry; apply Nat.eqb_neq; lia).
  rewrite ravel_lv by (rewrite !app_length; cbn; lia). rewrite !rev_app_distr. cbn [rev app lv].
  rewrite combine_rev by assumption.
  rewrite (broadcast_loop_value (rev shape) (rev full) (rev idx)).
  - cbn [rbind]. rewrite Nat.mul_comm, Nat.mod_add, Nat.mod_small by lia.
    rewrite <- numpy_row_split by congruence.
    pose proof (numpy_row_bound shape full n idx x C I H) as B.
    assert (Sm : (Z.of_nat (numpy_row shape n idx x) < 2 ^ 31)%Z) by lia.
    rewrite to_int_small by assumption.
    replace (Z.of_nat (numpy_row shape n idx x) <? 0)%Z with false by (symmetry; apply Z.ltb_ge; lia).
    rewrite Nat2Z.id. reflexivity.
  - apply forall2_rev. assumption.
  - apply forall2_rev. assumption.
  - lia.
  - rewrite Nat.mul_comm, Nat.div_add by lia. rewrite Nat.div_small by assumption. reflexivity.
Qed.

(** ** Batch indices *)
Fixpoint unravel (full : list nat) (b : nat) : list nat :=
  match full with [] => [] | f :: fs => (b / prod fs) mod f :: unravel fs (b mod prod fs) end.
Lemma prod_pos : forall l, (exists b, b < prod l) -> Forall (fun f => 0 < f) l.
Proof.
  induction l as [|f l IH]; intros [b H]; [constructor|]. cbn [prod fold_right] in H. fold (prod l) in H.
  assert (0 < f /\ 0 < prod l) by (destruct f, (prod l); nia). constructor; [tauto|]. apply IH. exists 0. tauto.
Qed.
Lemma unravel_inside : forall full b, b < prod full -> inside (unravel full b) full /\ ravel full (unravel full b) = b.
Proof.
  induction full as [|f fs IH]; intros b H; [split; [constructor|]; cbn in *; lia|].
  cbn [prod fold_right] in H. fold (prod fs) in H. assert (P : 0 < prod fs) by (destruct (prod fs); nia).
  assert (Q : 0 < f) by (destruct f; lia).
  destruct (IH (b mod prod fs)) as [I E]; [apply Nat.mod_upper_bound; lia|]. cbn [unravel]. split.
  - constructor; [apply Nat.mod_upper_bound; lia|assumption].
  - cbn [ravel]. rewrite E. fold (prod fs). rewrite Nat.mod_small by (apply Nat.div_lt_upper_bound; lia).
    rewrite (Nat.div_mod b (prod fs)) at 3 by lia. lia.
Qed.
Lemma ravel_inj : forall full idx idx', inside idx full -> inside idx' full -> ravel full idx = ravel full idx' -> idx = idx'.
Proof.
  assert (B : forall full idx, inside idx full -> ravel full idx < prod full).
  { intros full idx I. induction I as [|x f xs fs Hx I IH]; [cbn; lia|]. cbn [ravel prod fold_right]. fold (prod fs). nia. }
  intros full idx idx' I. revert idx'. induction I as [|x f xs fs Hx I IH]; intros idx' I' E; inversion I' as [|y ? ys ? Hy I'']; subst; [reflexivity|].
  cbn [ravel] in E. fold (prod fs) in E. pose proof (B fs xs I). pose proof (B fs ys I'').
  assert (x = y) by nia. subst y. f_equal. apply IH; [assumption|lia].
Qed.
Lemma ravel_bound : forall full idx, inside idx full -> ravel full idx < prod full.
Proof. intros full idx I. induction I as [|x f xs fs Hx I IH]; [cbn; lia|]. cbn [ravel prod fold_right]. fold (prod fs). nia. Qed.
Lemma ravel_snoc : forall full idx n x, length idx = length full -> ravel (full ++ [n]) (idx ++ [x]) = ravel full idx * n + x.
Proof.
  intros full idx n x H. rewrite !ravel_lv by (rewrite ?app_length; cbn; lia). rewrite !rev_app_distr. cbn [rev app lv]. lia.
Qed.

(** ** Common sizes *)
Lemma standard_nth : forall full shape q, length shape = length full ->
  nth q (standard full shape) 0 = if negb (nth q shape 1 =? 1) && (nth q full 0 =? 1) then nth q shape 1 else nth q full 0.
Proof.
  induction full as [|f full IH]; intros [|d shape] q H; cbn in H; try discriminate.
  - destruct q; reflexivity.
  - destruct q as [|q]; cbn [standard nth]; [reflexivity|]. apply IH. lia.
Qed.
Lemma standard_length : forall full shape, length (standard full shape) = length full.
Proof. induction full as [|f full IH]; intros [|d shape]; cbn; try reflexivity. rewrite IH. reflexivity. Qed.

Lemma full_sizes : forall argshapes full args,
  (forall a, In a args -> compatible (firstn (length full) (argshapes a)) full) ->
  common argshapes full args ->
  fold_left (fun l a => standard l (firstn (length full) (argshapes a))) args (repeat 1 (length full)) = full.
Proof.
  intros argshapes full args Hc Cm.
  assert (G : forall args', (forall a, In a args' -> compatible (firstn (length full) (argshapes a)) full) -> forall l,
    length l = length full -> (forall q, q < length full -> nth q l 0 = 1 \/ nth q l 0 = nth q full 0) ->
    length (fold_left (fun l a => standard l (firstn (length full) (argshapes a))) args' l) = length full /\
    forall q, q < length full ->
      nth q (fold_left (fun l a => standard l (firstn (length full) (argshapes a))) args' l) 0 =
      if existsb (fun a => negb (nth q (firstn (length full) (argshapes a)) 1 =? 1)) args' || negb (nth q l 0 =? 1) then nth q full 0 else 1).
  { induction args' as [|a args' IH]; intros Hc' l Ll Hl; cbn [fold_left existsb orb].
    - split; [assumption|]. intros q Hq. destruct (Nat.eqb_spec (nth q l 0) 1) as [E|E]; cbn; [assumption|]. destruct (Hl q Hq); [contradiction|assumption].
    - pose proof (Hc' a (or_introl eq_refl)) as Ca. pose proof (forall2_len _ _ _ _ _ Ca) as La.
      assert (Cq : forall q, q < length full -> nth q (firstn (length full) (argshapes a)) 1 = 1 \/ nth q (firstn (length full) (argshapes a)) 1 = nth q full 0).
      { clear - Ca. revert Ca. generalize (firstn (length full) (argshapes a)) as sh. intros sh Ca.
        induction Ca as [|d f ds fs Hd C IH]; intros q Hq; [cbn in Hq; lia|]. destruct q as [|q]; cbn [nth]; [assumption|]. apply IH. cbn in Hq. lia. }
      destruct (IH (fun a' Ha => Hc' a' (or_intror Ha)) (standard l (firstn (length full) (argshapes a)))) as [I1 I2].
      + rewrite standard_length. assumption.
      + intros q Hq. rewrite standard_nth by congruence.
        destruct (negb _ && _) eqn:E; [|apply Hl; assumption]. apply Cq. assumption.
      + split; [assumption|]. intros q Hq. rewrite I2 by assumption. rewrite standard_nth by congruence.
        specialize (Hl q Hq). specialize (Cq q Hq).
        destruct (existsb _ args') eqn:Ex; cbn [orb].
        * rewrite orb_true_r. reflexivity.
        * rewrite orb_false_r. destruct (Nat.eqb_spec (nth q (firstn (length full) (argshapes a)) 1) 1) as [E1|E1]; cbn [negb andb orb].
          -- reflexivity.
          -- destruct (Nat.eqb_spec (nth q l 0) 1) as [E2|E2]; cbn [negb andb].
             ++ replace (nth q (firstn (length full) (argshapes a)) 1 =? 1) with false by (symmetry; apply Nat.eqb_neq; assumption). cbn [negb].
                reflexivity.
             ++ replace (nth q l 0 =? 1) with false by (symmetry; apply Nat.eqb_neq; assumption). reflexivity. }
  destruct (G args Hc (repeat 1 (length full))) as [G1 G2].
  - apply repeat_length.
  - intros q Hq. left. clear - Hq. revert q Hq. induction (length full) as [|n IH]; intros q Hq; [lia|]. destruct q; [reflexivity|]. cbn. apply IH. lia.
  - apply (nth_ext _ _ 0 0); [assumption|]. intros q Hq. rewrite G1 in Hq. rewrite G2 by assumption.
    destruct (existsb _ args) eqn:Ex; [reflexivity|]. cbn [orb].
    assert (Er : nth q (repeat 1 (length full)) 0 = 1).
    { clear - Hq. revert q Hq. induction (length full) as [|n IH]; intros q Hq; [lia|]. destruct q; [reflexivity|]. cbn. apply IH. lia. }
    rewrite Er. cbn [Nat.eqb negb]. destruct (Cm q Hq) as [E|[a [Ha E]]]; [symmetry; assumption|].
    assert (X : existsb (fun a => negb (nth q (firstn (length full) (argshapes a)) 1 =? 1)) args = false) by exact Ex.
    assert (Y : negb (nth q (firstn (length full) (argshapes a)) 1 =? 1) = false).
    { destruct (negb _) eqn:N; [|reflexivity]. assert (existsb (fun a => negb (nth q (firstn (length full) (argshapes a)) 1 =? 1)) args = true).
      { apply existsb_exists. exists a. split; assumption. } congruence. }
    apply negb_false_iff, Nat.eqb_eq in Y. pose proof (forall2_len _ _ _ _ _ (Hc a Ha)) as La.
    assert (Z : nth q (firstn (length full) (argshapes a)) 1 = nth q (argshapes a) 0).
    { rewrite <- (firstn_skipn (length full) (argshapes a)) at 2. rewrite app_nth1 by lia. apply nth_indep. lia. }
    congruence.
Qed.

(** ** The block-diagonal pattern *)
Definition diagonal (n M N : nat) : list block :=
  map (fun b => {| brows := (b * M, (b + 1) * M); bcols := [(b * N, (b + 1) * N)] |}) (seq 0 n).
Lemma diagonal_nth : forall n M N b blk, nth_error (diagonal n M N) b = Some blk ->
  b < n /\ blk = {| brows := (b * M, (b + 1) * M); bcols := [(b * N, (b + 1) * N)] |}.
Proof.
  intros n M N b blk H. assert (Hb : b < n).
  { assert (b < length (diagonal n M N)) by (apply nth_error_Some; congruence). unfold diagonal in *. rewrite map_length, seq_length in *. assumption. }
  split; [assumption|]. unfold diagonal in H. rewrite nth_error_map in H.
  rewrite (nth_error_nth' (seq 0 n) 0) in H by (rewrite seq_length; assumption). rewrite seq_nth in H by assumption.
  cbn in H. inversion H. reflexivity.
Qed.
Lemma diagonal_nth_ok : forall n M N b, b < n ->
  nth_error (diagonal n M N) b = Some {| brows := (b * M, (b + 1) * M); bcols := [(b * N, (b + 1) * N)] |}.
Proof.
  intros n M N b Hb. unfold diagonal. rewrite nth_error_map, (nth_error_nth' (seq 0 n) 0) by (rewrite seq_length; assumption).
  rewrite seq_nth by assumption. reflexivity.
Qed.
Lemma diagonal_stored : forall s tagI, stored (diagonal (nbatches s) (if tagI =? 0 then size_M s else size_N s) (if tagI =? 0 then size_N s else size_M s))
                                              (batch_ranges s tagI).
Proof.
  intros s tagI. unfold stored, batch_ranges, diagonal. cbn [ranges_x slices_x ranges_y nranges].
  split; [rewrite map_map; reflexivity|]. split; [|split].
  - assert (G : forall z n M N, map (fun b => b + 1) (seq z n) =
      cumulated z (map (fun b => {| brows := (b * M, (b + 1) * M); bcols := [(b * N, (b + 1) * N)] |}) (seq z n))).
    { intros z n M N. revert z. induction n as [|n IH]; intros z; [reflexivity|]. cbn [seq map cumulated bcols length].
      f_equal. replace (z + 1) with (S z) by lia. apply IH. }
    apply G.
  - f_equal. induction (seq 0 (nbatches s)) as [|b l IH]; [reflexivity|]. cbn [map flat_map bcols app]. rewrite IH. reflexivity.
  - rewrite map_length, seq_length. reflexivity.
Qed.
Lemma diagonal_rows : forall n M N, flat_map (fun b => interval (brows b)) (diagonal n M N) = seq 0 (n * M).
Proof.
  intros n M N. unfold diagonal. induction n as [|n IH]; [reflexivity|].
  rewrite seq_S, map_app, flat_map_app, IH. cbn [Nat.add map flat_map brows]. rewrite app_nil_r. unfold interval. cbn [fst snd].
  replace ((n + 1) * M - n * M) with M by nia. replace (S n * M) with (n * M + M) by nia. rewrite seq_app. reflexivity.
Qed.
Lemma diagonal_disjoint : forall n M N, disjoint_rows (n * M) (diagonal n M N).
Proof.
  intros n M N. split; [rewrite diagonal_rows; apply seq_NoDup|]. intros b Hb. apply In_nth_error in Hb. destruct Hb as [k Hk].
  apply diagonal_nth in Hk. destruct Hk as [Hk ->]. cbn [brows snd]. apply Nat.mul_le_mono_r. lia.
Qed.
Lemma fold_mul : forall l, fold_left Nat.mul l 1 = prod l.
Proof.
  intros l. assert (G : forall a, fold_left Nat.mul l a = a * prod l).
  { induction l as [|x l IH]; intros a; cbn [fold_left prod fold_right]; [lia|]. rewrite IH. unfold prod. ring. }
  rewrite G. lia.
Qed.

(** ** Rows read *)
Lemma place_nth : forall (T : Type) (h : Z * nat -> T) vs a d def, NoDup (map fst vs) -> In (a, d) vs ->
  nth (place vs a) (map h vs) def = h (a, d).
Proof.
  induction vs as [|[b e] vs IH]; intros a d def ND H; [contradiction|]. cbn [map fst] in ND. inversion ND as [|? ? Nb ND']; subst.
  cbn [place]. destruct H as [H|H].
  - inversion H; subst. rewrite Z.eqb_refl. reflexivity.
  - destruct (Z.eqb_spec a b) as [->|Ne]; [exfalso; apply Nb; apply in_map_iff; exists (b, d); auto|]. cbn. apply IH; assumption.
Qed.
Lemma mapr_map : forall (T U : Type) (h : T -> res U) (g : T -> U) l, (forall x, In x l -> h x = Ok (g x)) -> mapr h l = Ok (map g l).
Proof.
  induction l as [|x l IH]; intros H; [reflexivity|]. cbn [mapr]. rewrite H by (left; reflexivity). cbn [rbind].
  rewrite IH by (intros; apply H; right; assumption). reflexivity.
Qed.

Section Batch.
Context (decl : declaration) (f : fm) (tagI : nat) (A : memory) (argshapes : Z -> list nat) (full : list nat) (M N : nat).
Context (D : declared decl f) (W : wf f) (C : categories decl) (T : tagI <= 1).
Context (Hs : forall a d c, In (a, d, c) (vars f) -> shape_ok decl argshapes full M N a).
Context (Hcm : common argshapes full (map vpos (vars f))).
Context (Hf : forall a d c, In (a, d, c) (vars f) -> fits decl argshapes (length full) a).
Context (HM : 1 <= M) (HN : 1 <= N).
Let bt := batch_data f tagI argshapes (length full) M N.
Let L := loader f tagI.

Lemma shape_parts : forall a d c, In (a, d, c) (vars f) ->
  compatible (firstn (length full) (argshapes a)) full /\
  (c = 0 -> nth (length full) (argshapes a) 0 = M) /\ (c = 1 -> nth (length full) (argshapes a) 0 = N).
Proof.
  intros a d c H. destruct (Hs a d c H) as [s [Cs E]]. rewrite (vars_declared decl f D a d c H) in E. cbn [snd] in E.
  pose proof (forall2_len _ _ _ _ _ Cs) as Ls. rewrite E, <- Ls, firstn_app, firstn_all, Nat.sub_diag. cbn [firstn]. rewrite app_nil_r.
  split; [assumption|]. rewrite !app_nth2, Nat.sub_diag by lia. split; intros ->; reflexivity.
Qed.

Lemma full_batch_eq : full_batch (bsizes bt) = full.
Proof.
  unfold bt, batch_data. cbn [bsizes fill_sizes full_batch].
  apply full_sizes.
  - intros a Ha. assert (X : exists d c, In (a, d, c) (vars f)).
    { rewrite !in_app_iff in Ha. destruct Ha as [Ha|[Ha|Ha]]; apply in_map_iff in Ha; destruct Ha as [[a' d] [E Ha]]; cbn in E; subst;
        apply vars_cat_in in Ha; eauto. }
    destruct X as [d [c X]]. apply (shape_parts a d c X).
  - intros q Hq. destruct (Hcm q Hq) as [E|[a [Ha E]]]; [left; assumption|right]. exists a. split; [|assumption].
    apply in_map_iff in Ha. destruct Ha as [[[a' d] c] [E' Ha]]. cbn in E'. subst a'.
    assert (Hc : c <= 2) by (specialize (C a); rewrite (vars_declared decl f D a d c Ha) in C; exact C).
    rewrite !in_app_iff.
    assert (X : In a (map fst (vars_cat f c))) by (apply in_map_iff; exists (a, d); split; [reflexivity|apply vars_cat_in; assumption]).
    destruct c as [|[|[|]]]; try lia; auto.
Qed.
Lemma nbatches_eq : nbatches (bsizes bt) = prod full.
Proof. unfold nbatches. rewrite full_batch_eq. apply fold_mul. Qed.

Definition mi : nat := out_rows tagI M N.
Definition nj : nat := red_terms tagI M N.
Lemma mi_pos : 1 <= mi. Proof. unfold mi, out_rows. destruct tagI; assumption. Qed.
Lemma nj_pos : 1 <= nj. Proof. unfold nj, red_terms. destruct tagI; assumption. Qed.

(** Offsets of the variables of category c, whose arrays have n rows. *)
Lemma offsets_cat : forall c n add b, b < prod full -> 1 <= n ->
  (forall a d, In (a, d, c) (vars f) ->
     (Z.of_nat (prod (firstn (length full) (argshapes a)) * n) <= 2 ^ 31)%Z) ->
  vect_broadcast_index (b * n) full (map (fun v => (firstn (length full) (argshapes (fst v)), n)) (vars_cat f c)) add =
  Ok (map (fun v => add + numpy_row (firstn (length full) (argshapes (fst v))) n (unravel full b) 0) (vars_cat f c)).
Proof.
  intros c n add b Hb Hn Fit. unfold vect_broadcast_index.
  rewrite (mapr_map _ _ _ (fun sh => add + numpy_row (fst sh) (snd sh) (unravel full b) 0)).
  - rewrite map_map. reflexivity.
  - intros sh Hsh. apply in_map_iff in Hsh. destruct Hsh as [[a d] [<- Ha]]. apply vars_cat_in in Ha. cbn [fst snd].
    destruct (unravel_inside full b Hb) as [I E].
    pose proof (broadcast_address (firstn (length full) (argshapes a)) full n (unravel full b) 0) as BA.
    rewrite ravel_snoc, E, Nat.add_0_r in BA by (eapply forall2_len; exact I).
    rewrite BA; [reflexivity| | | |].
    + apply (shape_parts a d c Ha).
    + assumption.
    + lia.
    + apply (Fit a d Ha).
Qed.

Lemma shapes_cat : forall c n, (forall a d, In (a, d, c) (vars f) -> nth (length full) (argshapes a) 0 = n) ->
  shapes_of argshapes (length full) (vars_cat f c) = map (fun v => (firstn (length full) (argshapes (fst v)), n)) (vars_cat f c).
Proof.
  intros c n H. unfold shapes_of. apply map_ext_in. intros [a d] Ha. apply vars_cat_in in Ha. cbn [fst]. rewrite (H a d Ha). reflexivity.
Qed.
Lemma rows_of_cat : forall c, c <= 1 -> forall a d, In (a, d, c) (vars f) ->
  nth (length full) (argshapes a) 0 = (if c =? 0 then M else N).
Proof. intros c Hc a d Ha. destruct (shape_parts a d c Ha) as [_ [H0 H1]]. destruct c as [|[|]]; [apply H0|apply H1|lia]; reflexivity. Qed.
Lemma fit_cat : forall c, c <= 1 -> forall a d, In (a, d, c) (vars f) ->
  (Z.of_nat (prod (firstn (length full) (argshapes a)) * (if (c =? 0)%nat then M else N)) <= 2 ^ 31)%Z.
Proof.
  intros c Hc a d Ha. pose proof (Hf a d c Ha) as F. unfold fits in F. rewrite (vars_declared decl f D a d c Ha) in F. cbn [snd] in F.
  unfold prod. rewrite <- (rows_of_cat c Hc a d Ha). destruct c as [|[|]]; [exact F|exact F|lia].
Qed.

Lemma offsets_i : forall b add, b < prod full ->
  offsets (Some bt) shapes_i (b * mi) add =
  Ok (Some (map (fun v => add + numpy_row (firstn (length full) (argshapes (fst v))) mi (unravel full b) 0) (varsI L))).
Proof.
  intros b add Hb. unfold offsets. rewrite full_batch_eq. unfold bt, batch_data. cbn [shapes_i].
  unfold L, loader. cbn [varsI].
  assert (Em : (if tagI =? 0 then M else N) = mi) by (unfold mi, out_rows; destruct tagI; reflexivity).
  rewrite (shapes_cat tagI mi) by (intros a d Ha; rewrite <- Em; apply (rows_of_cat tagI T a d Ha)).
  rewrite offsets_cat; [reflexivity|assumption|apply mi_pos|].
  intros a d Ha. rewrite <- Em. apply (fit_cat tagI T a d Ha).
Qed.
Lemma offsets_j : forall b, b < prod full ->
  offsets (Some bt) shapes_j (b * nj) 0 =
  Ok (Some (map (fun v => numpy_row (firstn (length full) (argshapes (fst v))) nj (unravel full b) 0) (varsJ L))).
Proof.
  intros b Hb. unfold offsets. rewrite full_batch_eq. unfold bt, batch_data. cbn [shapes_j].
  unfold L, loader. cbn [varsJ].
  assert (Em : (if 1 - tagI =? 0 then M else N) = nj) by (unfold nj, red_terms; destruct tagI as [|[|]]; try reflexivity; lia).
  rewrite (shapes_cat (1 - tagI) nj) by (intros a d Ha; rewrite <- Em; apply (rows_of_cat (1 - tagI)) with (d := d); [lia|assumption]).
  rewrite offsets_cat; [reflexivity|assumption|apply nj_pos|].
  intros a d Ha. rewrite <- Em. apply (fit_cat (1 - tagI)) with (d := d); [lia|assumption].
Qed.
Lemma offsets_p : forall b, b < prod full ->
  offsets (Some bt) shapes_p b 0 =
  Ok (Some (map (fun v => numpy_row (firstn (length full) (argshapes (fst v))) 1 (unravel full b) 0) (varsP L))).
Proof.
  intros b Hb. unfold offsets. rewrite full_batch_eq. unfold bt, batch_data. cbn [shapes_p]. unfold L, loader. cbn [varsP].
  unfold param_shapes. rewrite <- (Nat.mul_1_r b) at 1. rewrite offsets_cat; [reflexivity|assumption|lia|].
  intros a d Ha. pose proof (Hf a d 2 Ha) as F. unfold fits in F. rewrite (vars_declared decl f D a d 2 Ha) in F. exact F.
Qed.

Definition ben (b i j : nat) : env :=
  match tagI with
  | O => batch_point decl argshapes A (unravel full b) (i - b * mi) (j - b * nj)
  | _ => batch_point decl argshapes A (unravel full b) (j - b * nj) (i - b * mi)
  end.

Lemma batch_rows : forall b i j x0 add, b < prod full -> (i - x0) + add = i - b * mi ->
  rows_ok f tagI A
    (Some (map (fun v => add + numpy_row (firstn (length full) (argshapes (fst v))) mi (unravel full b) 0) (varsI L)))
    (Some (map (fun v => numpy_row (firstn (length full) (argshapes (fst v))) nj (unravel full b) 0) (varsJ L)))
    (Some (map (fun v => numpy_row (firstn (length full) (argshapes (fst v))) 1 (unravel full b) 0) (varsP L)))
    x0 (b * nj) i j (ben b i j).
Proof.
  intros b i j x0 add Hb Hi a d c q Ha Hq. cbv zeta. fold L.
  pose proof (vars_declared decl f D a d c Ha) as Hd.
  assert (Hc : c <= 2) by (specialize (C a); rewrite Hd in C; exact C).
  destruct (unravel_inside full b Hb) as [I _]. pose proof (forall2_len _ _ _ _ _ I) as Li.
  assert (Hin : In (a, d) (vars_cat f c)) by (apply vars_cat_in; assumption).
  pose proof (vars_cat_nodup decl f c D) as ND.
  destruct (shape_parts a d c Ha) as [Cs [S0 S1]].
  assert (Ls : length (firstn (length full) (argshapes a)) = length (unravel full b)) by (rewrite (forall2_len _ _ _ _ _ Cs); congruence).
  assert (Num : forall n x, numpy_row (firstn (length full) (argshapes a)) n (unravel full b) x =
                            x + numpy_row (firstn (length full) (argshapes a)) n (unravel full b) 0).
  { intros n x. rewrite !numpy_row_split by assumption. lia. }
  assert (Ev : ben b i j a q = A a (numpy_row (firstn (length full) (argshapes a))
     (match c with O | 1 => nth (length full) (argshapes a) 0 | _ => 1 end) (unravel full b)
     (match tagI with O => row c (i - b * mi) (j - b * nj) | _ => row c (j - b * nj) (i - b * mi) end) * d + q)).
  { unfold ben. destruct tagI; unfold batch_point; rewrite Li, Hd; cbn [fst snd]; reflexivity. }
  rewrite Ev, Num. clear Ev. f_equal. f_equal. f_equal.
  unfold row_at, row_param, L, loader. cbn [varsI varsJ varsP].
  destruct (Nat.eqb_spec c tagI) as [->|N1].
  - rewrite (place_nth _ _ _ a d) by assumption. cbn [fst].
    assert (Em : (match tagI with O | 1 => nth (length full) (argshapes a) 0 | _ => 1 end) = mi).
    { unfold mi, out_rows. destruct tagI as [|[|]]; [apply S0|apply S1|lia]; reflexivity. }
    rewrite Em. rewrite (Nat.add_assoc (i - x0)), Hi. destruct tagI as [|[|]]; [reflexivity|reflexivity|lia].
  - destruct (Nat.eqb_spec c (1 - tagI)) as [->|N2].
    + rewrite (place_nth _ _ _ a d) by assumption. cbn [fst].
      assert (Em : (match 1 - tagI with O | 1 => nth (length full) (argshapes a) 0 | _ => 1 end) = nj).
      { unfold nj, red_terms. destruct tagI as [|[|]]; [apply S1|apply S0|lia]; reflexivity. }
      rewrite Em. destruct tagI as [|[|]]; [reflexivity|reflexivity|lia].
    + assert (c = 2) by lia. subst c. rewrite (place_nth _ _ _ a d) by assumption. cbn [fst].
      destruct tagI; reflexivity.
Qed.

Lemma sizes_mi : (if tagI =? 0 then size_M (bsizes bt) else size_N (bsizes bt)) = mi /\
                 (if tagI =? 0 then size_N (bsizes bt) else size_M (bsizes bt)) = nj.
Proof. unfold bt, batch_data, mi, nj, out_rows, red_terms. cbn. destruct tagI; split; reflexivity. Qed.
Lemma bstored : stored (diagonal (prod full) mi nj) (batch_ranges (bsizes bt) tagI).
Proof. destruct sizes_mi as [E1 E2]. rewrite <- nbatches_eq, <- E1, <- E2. apply diagonal_stored. Qed.

Definition bit (b i j : nat) : item := (Z.of_nat (j - b * nj), eval f (ben b i j)).

(** Output row of batch index idx and row x. *)
Lemma batch_out : forall idx x, inside idx full -> x < mi ->
  numpy_row full mi idx x = ravel full idx * mi + x /\ unravel full (ravel full idx) = idx /\ ravel full idx < prod full.
Proof.
  intros idx x I Hx. pose proof (forall2_len _ _ _ _ _ I) as Li. pose proof (ravel_bound full idx I) as B.
  split; [|split; [|assumption]].
  - assert (Cl : clip full idx = idx).
    { clear - I. induction I as [|y g ys gs Hy I IH]; [reflexivity|]. cbn [clip]. rewrite IH. f_equal. destruct (Nat.eqb_spec g 1); lia. }
    unfold numpy_row. rewrite Cl. apply ravel_snoc. assumption.
  - destruct (unravel_inside full (ravel full idx) B) as [I' E]. apply (ravel_inj full); assumption.
Qed.
Lemma batch_items : forall idx x, inside idx full -> x < mi ->
  let b := ravel full idx in
  map (bit b (b * mi + x)) (visited {| brows := (b * mi, (b + 1) * mi); bcols := [(b * nj, (b + 1) * nj)] |})
  = batch_terms decl argshapes A f tagI idx x nj.
Proof.
  intros idx x I Hx b. destruct (batch_out idx x I Hx) as [_ [E _]]. unfold visited, interval, batch_terms. cbn [bcols flat_map fst snd].
  rewrite app_nil_r. replace ((b + 1) * nj - b * nj) with nj by nia. rewrite <- map_add_seq, map_map. apply map_ext. intros j.
  unfold bit, ben. fold b in E. rewrite E. replace (b * nj + j - b * nj) with j by lia. replace (b * mi + x - b * mi) with x by lia. reflexivity.
Qed.

Lemma cpu_batch : forall r s schedule junk tmp out, reduction_of (dim f) r -> available r s -> complete schedule ->
  exists out', launch_cpu_ranges schedule junk tmp r s f tagI A (Some bt) (batch_ranges (bsizes bt) tagI) (prod full * mi) out = Ok out' /\
    (forall idx x, inside idx full -> x < mi ->
       row_value r s (batch_terms decl argshapes A f tagI idx x nj) (fun k => out' (numpy_row full mi idx x * rdim r + k))) /\
    (forall q, prod full * mi * rdim r <= q -> out' q = out q).
Proof.
  intros r s schedule junk tmp out R Av Sc. destruct (available_code r s Av) as [op Hop].
  destruct (cpu_ranges f tagI A (Some bt) (diagonal (prod full) mi nj) (batch_ranges (bsizes bt) tagI) r s op junk tmp R Hop bstored bit)
    with (schedule := schedule) (nx := prod full * mi) (out := out) as [out' [E [H1 [_ H3]]]]; try assumption.
  - intros b blk Hb. apply diagonal_nth in Hb. destruct Hb as [Hb ->]. cbn [brows bcols fst snd].
    eexists. eexists. split; [apply (offsets_i b 0 Hb)|]. split; [apply (offsets_p b Hb)|].
    intros c [<-|[]]. cbn [fst snd]. eexists. split; [apply (offsets_j b Hb)|]. intros i j Hi Hj. split; [reflexivity|].
    cbn [bit snd]. apply (rows_loaded decl f tagI A _ _ _ (b * mi) (b * nj) i j); try assumption.
    apply (batch_rows b i j (b * mi) 0 Hb). lia.
  - apply (table_complete decl); assumption.
  - apply diagonal_disjoint.
  - exists out'. split; [exact E|]. split; [|exact H3]. intros idx x I Hx. destruct (batch_out idx x I Hx) as [En [_ B]].
    rewrite En. rewrite <- (batch_items idx x I Hx). cbv zeta.
    apply H1.
    + apply diagonal_nth_ok. assumption.
    + unfold interval. cbn [brows fst snd]. apply in_seq. nia.
Qed.

Lemma gpu_batch : forall r s o m bd out, reduction_of (dim f) r -> available r s -> orders_ok o -> 1 <= bd -> 1 <= prod full ->
  exists out', launch_gpu_ranges o m false r s f tagI A (Some bt) (batch_ranges (bsizes bt) tagI) bd out = Ok out' /\
    (forall idx x, inside idx full -> x < mi ->
       row_value r s (batch_terms decl argshapes A f tagI idx x nj) (fun k => out' (numpy_row full mi idx x * rdim r + k))) /\
    (forall q, prod full * mi * rdim r <= q -> out' q = out q).
Proof.
  intros r s o m bd out R Av Ho Hbd Hp. destruct (available_code r s Av) as [op Hop].
  pose proof mi_pos as Pm. pose proof nj_pos as Pn.
  destruct (gpu_ranges decl f tagI A (Some bt) (diagonal (prod full) mi nj) (batch_ranges (bsizes bt) tagI) r s op bd o m D W C T R Hop bstored Hbd Ho
              (fun b _ j => j - b * nj) ben) with (nx := prod full * mi) (out := out) as [out' [E [H1 H3]]].
  - intros b blk x0 Hb Hx. apply diagonal_nth in Hb. destruct Hb as [Hb ->]. cbn [brows bcols fst snd] in *.
    destruct sizes_mi as [E1 E2].
    assert (S1 : side tagI (Some bt) b true = b * mi) by (unfold side; rewrite <- E1; destruct (tagI =? 0); reflexivity).
    assert (S2 : side tagI (Some bt) b false = b * nj) by (unfold side; rewrite <- E2; destruct (tagI =? 0); reflexivity).
    rewrite S1, S2. eexists. eexists. eexists. split; [apply (offsets_i b _ Hb)|]. split; [apply (offsets_j b Hb)|]. split; [apply (offsets_p b Hb)|].
    intros c i j [<-|[]] Hi Hxi Hj Hcj. cbn [fst snd]. split; [reflexivity|]. apply (batch_rows b i j x0 (x0 - b * mi) Hb).
    unfold interval in Hx, Hi. cbn [fst snd] in Hx, Hi. apply in_seq in Hx. lia.
  - intros blk Hb. apply In_nth_error in Hb. destruct Hb as [b Hb]. apply diagonal_nth in Hb. destruct Hb as [_ ->].
    constructor; [|constructor]. cbn [fst snd]. apply Nat.mul_le_mono_r. lia.
  - apply diagonal_disjoint.
  - rewrite diagonal_rows. destruct (prod full * mi) eqn:Z; [nia|]. discriminate.
  - apply last_first_slice. exists (diagonal (prod full - 1) mi nj).
    eexists. split.
    + unfold diagonal. replace (prod full) with (S (prod full - 1)) at 1 by lia. rewrite seq_S, map_app. reflexivity.
    + discriminate.
  - exists out'. split; [exact E|]. split.
    + intros idx x I Hx. destruct (batch_out idx x I Hx) as [En [_ B]]. rewrite En. rewrite <- (batch_items idx x I Hx). cbv zeta.
      apply H1; [apply diagonal_nth_ok; assumption|]. unfold interval. cbn [brows fst snd]. apply in_seq. nia.
    + intros q Hq. apply H3. intros blk i k Hb Hi Hk Eq. apply In_nth_error in Hb. destruct Hb as [b Hb]. apply diagonal_nth in Hb.
      destruct Hb as [Hb ->]. unfold interval in Hi. cbn [brows fst snd] in Hi. apply in_seq in Hi.
      assert ((b + 1) * mi <= prod full * mi) by (apply Nat.mul_le_mono_r; lia).
      assert (i + 1 <= prod full * mi) by lia. assert ((i + 1) * rdim r <= prod full * mi * rdim r) by (apply Nat.mul_le_mono_r; assumption). lia.
Qed.
End Batch.

(** ** Refutations *)
Lemma broadcast_overflow : forall M x, (2 ^ 31 <= Z.of_nat x)%Z -> (Z.of_nat x < 2 ^ 32)%Z -> x < M ->
  broadcast_index x [1] ([1], M) = PyErr.
Proof.
  intros M x H1 H2 H3. unfold broadcast_index. cbn [fst snd].
  replace (M =? 0) with false by (symmetry; apply Nat.eqb_neq; lia). cbn [combine rev app broadcast_loop Nat.eqb rbind].
  rewrite Nat.mod_small by assumption.
  assert (E : to_int x = (Z.of_nat x - 2 ^ 32)%Z).
  { unfold to_int. replace (Z.of_nat x + 2 ^ 31)%Z with ((Z.of_nat x - 2 ^ 31) + 1 * 2 ^ 32)%Z by lia.
    rewrite Z.mod_add by lia. rewrite Z.mod_small by lia. lia. }
  rewrite E. replace (Z.of_nat x - 2 ^ 32 <? 0)%Z with true by (symmetry; apply Z.ltb_lt; lia). reflexivity.
Qed.
Lemma broadcast_empty : forall i full shape, broadcast_index i full (shape, 0) = PyErr.
Proof. reflexivity. Qed.
Lemma empty_columns : forall schedule junk tmp A out out', complete schedule ->
  let f := Bin BAdd (Var 0 1 0) (Var 1 1 1) in
  let argshapes := fun a : Z => if Z.eqb a 0 then [2; 1; 1] else [2; 0; 1] in
  let bt := batch_data f 0 argshapes 1 1 0 in
  launch_cpu_ranges schedule junk tmp (Sum_Red 1) block_sum f 0 A (Some bt) (batch_ranges (bsizes bt) 0) 2 out <> Ok out'.
Proof.
  intros schedule junk tmp A out out' Sc. cbv zeta.
  assert (E : schedule 1 = [0]). { apply Permutation_length_1_inv. apply Permutation_sym. exact (Sc 1). }
  unfold launch_cpu_ranges. change (table_ok _ _) with true. cbv iota. cbn [scheme_code rpair Sum_Red rbind].
  cbn -[prefill write_row load_vars broadcast_index]. 
  assert (B0 : broadcast_index 0 [2] ([2], 1) = Ok 0) by reflexivity. rewrite B0. cbn -[prefill write_row load_vars broadcast_index].
  rewrite E. cbn -[prefill write_row load_vars broadcast_index]. unfold range_row at 1. cbn -[prefill write_row load_vars range_row]. discriminate.
Qed.

Lemma min_pos_in : forall l, l <> [] -> In (min_pos l) l.
Proof.
  induction l as [|a l IH]; intros N; [congruence|]. destruct l as [|b l]; [left; reflexivity|].
  change (min_pos (a :: b :: l)) with (Z.min a (min_pos (b :: l))). specialize (IH ltac:(discriminate)).
  destruct (Z.min_spec a (min_pos (b :: l))) as [[_ ->]|[_ ->]]; [left; reflexivity|right; assumption].
Qed.
Lemma batch_dims : forall decl f argshapes full M N, declared decl f ->
  (forall a d c, In (a, d, c) (vars f) -> shape_ok decl argshapes full M N a /\ (0 <= a)%Z) ->
  (exists a d c, In (a, d, c) (vars f) /\ c <= 1) ->
  nbatchdims argshapes (map fst (vars_cat f 0)) (map fst (vars_cat f 1)) = length full.
Proof.
  intros decl f argshapes full M N D H Ex. unfold nbatchdims.
  set (I := map fst (vars_cat f 0)). set (J := map fst (vars_cat f 1)).
  assert (In1 : forall c a, c <= 1 -> In a (map fst (vars_cat f c)) -> (0 <= a)%Z /\ length (argshapes a) = length full + 2).
  { intros c a Hc Ha. apply in_map_iff in Ha. destruct Ha as [[a' d] [E Ha]]. cbn in E. subst a'. apply vars_cat_in in Ha.
    destruct (H a d c Ha) as [[sh [Cs E]] P]. split; [assumption|]. rewrite E, app_length, (forall2_len _ _ _ _ _ Cs).
    rewrite (vars_declared decl f D a d c Ha). cbn [snd]. destruct c as [|[|]]; cbn; lia. }
  assert (P : In (Z.max (min_pos I) (min_pos J)) I \/ In (Z.max (min_pos I) (min_pos J)) J).
  { assert (NE : I <> [] \/ J <> []).
    { destruct Ex as [a [d [c [Ha Hc]]]]. apply vars_cat_in in Ha. apply (in_map fst) in Ha. cbn [fst] in Ha.
      destruct c as [|[|]]; [left|right|lia]; intros Z; unfold I, J in Z; rewrite Z in Ha; contradiction. }
    assert (G : forall c, c <= 1 -> min_pos (map fst (vars_cat f c)) = (-1)%Z \/ In (min_pos (map fst (vars_cat f c))) (map fst (vars_cat f c))).
    { intros c _. destruct (map fst (vars_cat f c)) eqn:Z; [left; reflexivity|right; apply min_pos_in; discriminate]. }
    destruct (Z.max_spec (min_pos I) (min_pos J)) as [[L ->]|[L ->]].
    - destruct (G 1 ltac:(lia)) as [Z|Z]; [|right; exact Z]. fold J in Z.
      destruct (G 0 ltac:(lia)) as [Y|Y]; fold I in Y; [lia|]. apply (In1 0) in Y; [lia|lia].
    - destruct (G 0 ltac:(lia)) as [Z|Z]; [|left; exact Z]. fold I in Z.
      destruct (G 1 ltac:(lia)) as [Y|Y]; fold J in Y.
      + exfalso. destruct NE as [NE|NE]; apply min_pos_in in NE; [apply (In1 0) in NE|apply (In1 1) in NE]; lia.
      + apply (In1 1) in Y; [lia|lia]. }
  assert (Q : (0 <= Z.max (min_pos I) (min_pos J))%Z /\ length (argshapes (Z.max (min_pos I) (min_pos J))) = length full + 2).
  { destruct P as [P|P]; [apply (In1 0)|apply (In1 1)]; try assumption; lia. }
  destruct Q as [Q1 Q2]. destruct (Z.gtb_spec (Z.max (min_pos I) (min_pos J)) (-1)) as [G|G]; lia.
Qed.
Lemma params_no_batch : forall argshapes, nbatchdims argshapes [] [] = 0.
Proof. reflexivity. Qed.
