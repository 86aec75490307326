(** Proofs for C63. *)

From Coq Require Import ZArith Reals Arith Lia List Bool Permutation.
From Verif Require Import Result Formula XReal Reductions ReductionSpec KernelSum KernelSumSpec LseSpec Postprocess
  CpuReduc Loader LoaderProofs CpuConv CpuConvSpec GpuConv RangesConv RangesSpec Broadcast ArgCheck ArgCheckSpec
  C12Proofs C16Proofs C39Proofs Vmap VmapSpec.
Import ListNotations.
Open Scope nat_scope.

(** ** Positions in contiguous arrays *)
Lemma coords_ravel : forall sh idx, inside idx sh -> coords sh (ravel sh idx) = idx.
Proof.
  intros sh idx I. induction I as [|x f xs fs Hx I IH]; [reflexivity|].
  cbn [ravel coords]. fold (prod fs). pose proof (ravel_bound fs xs I) as B.
  rewrite Nat.div_add_l, (Nat.div_small _ _ B), Nat.add_0_r by lia. f_equal.
  rewrite Nat.add_comm, Nat.mod_add by lia. rewrite Nat.mod_small by assumption. exact IH.
Qed.

Lemma clip_inside : forall s full bs, compatible s full -> inside bs full -> inside (clip s bs) s.
Proof.
  intros s full bs C. revert bs. induction C as [|d n s full H C IH]; intros bs I; inversion I; subst; [constructor|].
  cbn [clip]. constructor; [|apply IH; assumption]. destruct (Nat.eqb_spec d 1); lia.
Qed.
Lemma clip_length : forall s bs, length s = length bs -> length (clip s bs) = length s.
Proof. induction s as [|d s IH]; intros [|b bs] H; cbn [clip length] in *; try lia. rewrite IH; lia. Qed.
Lemma inside_app : forall a s b u, inside a s -> inside b u -> inside (a ++ b) (s ++ u).
Proof. intros. apply Forall2_app; assumption. Qed.

(** ** Terms that agree *)
Definition near (d : nat) (l l' : list (Z * (nat -> R))) : Prop :=
  Forall2 (fun p p' => fst p = fst p' /\ forall k, k < d -> snd p k = snd p' k) l l'.
Lemma near_sym : forall d l l', near d l l' -> near d l' l.
Proof. intros d l l' H. induction H as [|x y l l' [E H] _ IH]; constructor; [|assumption]. split; [congruence|]. intros. symmetry. auto. Qed.
Lemma near_trans : forall d l l' l'', near d l l' -> near d l' l'' -> near d l l''.
Proof.
  intros d l l' l'' H. revert l''. induction H as [|x y l l' [E H] _ IH]; intros l'' H'; inversion H'; subst; [constructor|].
  match goal with X : _ /\ _ |- _ => destruct X as [E' X'] end. constructor; [|apply IH; assumption].
  split; [congruence|]. intros. rewrite H by assumption. auto.
Qed.
Lemma near_map : forall d n g h, (forall m, m < n -> forall k, k < d -> g m k = h m k) ->
  near d (map (fun m => (Z.of_nat m, g m)) (seq 0 n)) (map (fun m => (Z.of_nat m, h m)) (seq 0 n)).
Proof.
  intros d n g h H. assert (X : forall m, In m (seq 0 n) -> m < n) by (intros m Hm; apply in_seq in Hm; lia).
  revert X. generalize (seq 0 n). induction l as [|m l IH]; intros X; [constructor|]. constructor.
  - cbn [fst snd]. split; [reflexivity|]. apply H. apply X. left. reflexivity.
  - apply IH. intros. apply X. right. assumption.
Qed.

Lemma run_near : forall d r l l', reduction_of d r -> near d l l' -> forall acc,
  run r (map (fun p => (fst p, fins (snd p))) l) acc = run r (map (fun p => (fst p, fins (snd p))) l') acc.
Proof.
  intros d r l l' R H. induction H as [|x y l l' [E H] _ IH]; intros acc; [reflexivity|].
  unfold run in *. cbn [map fold_left fst snd]. rewrite E.
  rewrite (short_local d r acc (fins (snd x)) (fins (snd y))); [apply IH|assumption|].
  intros k Hk. unfold fins. f_equal. auto.
Qed.
Lemma lsum_near : forall d l l' k, near d l l' -> k < d -> lsum k l = lsum k l'.
Proof.
  intros d l l' k H Hk. induction H as [|x y l l' [E H] _ IH]; [reflexivity|]. cbn [lsum fold_right].
  fold (lsum k l). fold (lsum k l'). rewrite IH, H by assumption. reflexivity.
Qed.
Lemma exp_sum_near : forall w l l' k, near (S w) l l' -> k < w ->
  exp_sum k (map as_entry l) = exp_sum k (map as_entry l').
Proof.
  intros w l l' k H Hk. induction H as [|x y l l' [E H] _ IH]; [reflexivity|]. cbn [map as_entry exp_sum].
  rewrite IH, !H by lia. reflexivity.
Qed.
Lemma near_nil : forall d l l', near d l l' -> l <> [] -> l' <> [].
Proof. intros d l l' H N. inversion H; subst; [congruence|discriminate]. Qed.

(** The reductions are distinguished by their parts. *)
Lemma sum_dim : forall d e, reduction_of d (Sum_Red e) -> d = e.
Proof.
  intros d e R. remember (Sum_Red e) as r eqn:E. destruct R.
  - apply (f_equal rdim) in E. exact E.
  - apply (f_equal rdim) in E. exact E.
  - apply (f_equal rkahan) in E. discriminate.
  - apply (f_equal rkahan) in E. discriminate.
  - apply (f_equal rkahan) in E. discriminate.
Qed.
Lemma kmin_init_first : forall K d, 0 < K -> 0 < d -> kmin_init K d 0 = PInf.
Proof.
  intros K d HK Hd.
  assert (In1 : forall a n k, k <> 0 -> for_up n (fun s a => let l := k + s * (2 * d) in upd (upd a l PInf) (l + d) (Fin 0)) a 0 = a 0).
  { intros a n k Hk. induction n as [|n IH]; [reflexivity|]. cbn [for_up]. cbv zeta in *. unfold upd at 1 2.
    destruct (Nat.eqb_spec 0 (k + n * (2 * d) + d)); [lia|]. destruct (Nat.eqb_spec 0 (k + n * (2 * d))); [lia|]. exact IH. }
  assert (In0 : forall a n, 0 < n -> for_up n (fun s a => let l := 0 + s * (2 * d) in upd (upd a l PInf) (l + d) (Fin 0)) a 0 = PInf).
  { intros a n Hn. induction n as [|n IH]; [lia|]. cbn [for_up]. cbv zeta in *. unfold upd at 1 2.
    destruct (Nat.eqb_spec 0 (0 + n * (2 * d) + d)); [nia|]. destruct (Nat.eqb_spec 0 (0 + n * (2 * d))); [reflexivity|]. apply IH. destruct n; lia. }
  unfold kmin_init. induction d as [|e IH] eqn:Ed; [lia|]. rewrite <- Ed in *.
  assert (G : forall n, 0 < n -> for_up n (fun k a => for_up K (fun s a => let l := k + s * (2 * d) in upd (upd a l PInf) (l + d) (Fin 0)) a) (fun _ => NaN) 0 = PInf).
  { induction n as [|n IHn]; intros Hn; [lia|]. cbn [for_up]. destruct n as [|n].
    - cbn [for_up]. apply In0. assumption.
    - rewrite In1 by lia. apply IHn. lia. }
  apply G. lia.
Qed.
Lemma lse_dim : forall d w, reduction_of d (LSE_Red w) -> d = S w.
Proof.
  intros d w R. remember (LSE_Red w) as r eqn:E. destruct R.
  - apply (f_equal rkahan) in E. discriminate.
  - apply (f_equal rdim) in E. exact E.
  - apply (f_equal rpair) in E. discriminate.
  - exfalso. pose proof (f_equal rdimred E) as E1. cbn [rdimred KMin_Red LSE_Red] in E1.
    pose proof (f_equal (fun r => rinit r 0) E) as E2. cbn [rinit KMin_Red LSE_Red lse_init] in E2.
    rewrite kmin_init_first in E2 by (destruct K, d; lia). discriminate.
  - apply (f_equal rdim) in E. cbn in E. lia.
Qed.

Lemma row_value_near : forall d r s l l' v, reduction_of d r -> near d l l' -> row_value r s l v -> row_value r s l' v.
Proof.
  intros d r s l l' v R H [V1 [V2 V3]]. split; [|split].
  - intros Es k Hk. rewrite <- (run_near d r l l' R H). apply V1; assumption.
  - intros e Er k Hk. rewrite (V2 e Er k Hk). f_equal. apply (lsum_near d); [assumption|].
    subst r. rewrite (sum_dim _ _ R). assumption.
  - intros w Er Nl k Hk. subst r. pose proof (lse_dim d w R). subst d.
    rewrite <- (exp_sum_near w l l' k) by assumption. apply (V3 w); [reflexivity| |assumption].
    apply (near_nil (S w) l'); [apply near_sym|]; assumption.
Qed.

Lemma row_value_eta : forall r s l v v', (forall k, v k = v' k) -> row_value r s l v -> row_value r s l v'.
Proof.
  intros r s l v v' E [V1 [V2 V3]]. split; [|split].
  - intros Es k Hk. rewrite <- E. exact (V1 Es k Hk).
  - intros d Er k Hk. rewrite <- E. exact (V2 d Er k Hk).
  - intros w Er Nl k Hk P. unfold lse_post. rewrite <- !E. exact (V3 w Er Nl k Hk P).
Qed.

(** Two rows with the same value. *)
Lemma row_value_eq : forall r s l v v', row_value r s l v -> row_value r s l v' -> s = direct_sum \/ (exists d, r = Sum_Red d) ->
  forall k, k < rdim r -> v k = v' k.
Proof.
  intros r s l v v' [V1 [V2 _]] [W1 [W2 _]] [E|[d E]] k Hk.
  - rewrite V1, W1 by assumption. reflexivity.
  - subst r. cbn in Hk. rewrite (V2 d), (W2 d) by auto. reflexivity.
Qed.

(** ** The dense routine, with the rows of RangesSpec *)
Lemma dense_rows : forall decl f r s tagI A M N schedule out,
  declared decl f -> wf f -> categories decl -> tagI <= 1 -> reduction_of (dim f) r -> available r s -> complete schedule ->
  exists out', launch_cpu schedule r s f tagI A M N out = Ok out' /\
    forall x, x < out_rows tagI M N ->
      row_value r s (block_terms decl A f tagI x (seq 0 (red_terms tagI M N))) (fun k => out' (x * rdim r + k)).
Proof.
  intros decl f r s tagI A M N schedule out D W C T R Av Sc.
  assert (E : exists out', launch_cpu schedule r s f tagI A M N out = Ok out').
  { assert (C' : forall i d c, In (i, d, c) (vars f) -> c <= 2).
    { intros i d c Hi. apply (vars_declared decl f D) in Hi. specialize (C i). rewrite Hi in C. exact C. }
    unfold launch_cpu. destruct (if Nat.eqb tagI 1 then (N, M) else (M, N)) as [n m].
    destruct (direct_table_env decl f tagI A 0 0 D T C') as [-> _].
    destruct (conv_rows_spec r s f (loader f tagI) A m (schedule n) out Av) as [o [-> _]]; [|eexists; reflexivity].
    eapply Permutation_NoDup; [apply Permutation_sym, Sc|apply seq_NoDup]. }
  destruct E as [out' E]. exists out'. split; [exact E|]. intros x Hx. split; [|split].
  - intros Es k Hk. subst s. destruct (dense_direct decl f r tagI A M N schedule out D W C T R Sc) as [o [Eo [Ho _]]].
    rewrite E in Eo. injection Eo as <-. rewrite (Ho x k Hx Hk). do 2 f_equal. unfold dense, block_terms. rewrite map_map.
    apply map_ext. intros j. cbn [fst snd]. reflexivity.
  - intros d Er k Hk. subst r. pose proof (sum_dim _ _ R). subst d. destruct (dense_sum decl f s tagI A M N schedule out D W C T Sc) as [o [Eo [Ho _]]].
    rewrite E in Eo. injection Eo as <-. cbn [rdim Sum_Red]. rewrite (Ho x k Hx Hk). f_equal.
    unfold reduce_sum, block_terms, red_terms. cbn [stagI sformula].
    assert (G : forall n (g : nat -> nat -> Rdefinitions.R), rsum n (fun j => g j k) = lsum k (map (fun j => (Z.of_nat j, g j)) (seq 0 n))).
    { clear. intros n g. assert (Sn : forall l a, lsum k (l ++ [a]) = (lsum k l + snd a k)%R).
      { induction l as [|b l IH]; intros a; cbn [app lsum fold_right]; [ring|]. fold (lsum k (l ++ [a])). fold (lsum k l). rewrite IH. ring. }
      induction n as [|n IH]; [reflexivity|]. rewrite seq_S, map_app. cbn [map Nat.add]. rewrite Sn, <- IH. reflexivity. }
    destruct tagI as [|tagI'].
    + apply (G N (fun j => eval f (point decl (contiguous decl A) x j))).
    + apply (G M (fun j => eval f (point decl (contiguous decl A) j x))).
  - intros w Er Nl k Hk P. subst r. pose proof (lse_dim _ _ R) as Ed.
    assert (Ns : s <> kahan_scheme). { intros ->. destruct Av as [p Hp]. discriminate. }
    assert (Pn : 0 < red_terms tagI M N).
    { destruct (red_terms tagI M N); [|lia]. exfalso. apply Nl. reflexivity. }
    destruct (dense_lse decl f s w tagI A M N schedule out D W C T Sc Ed Ns Pn) as [o [Eo [Ho _]]].
    rewrite E in Eo. injection Eo as <-.
    assert (Et : taken (red_terms tagI M N) (entry_of decl A f tagI x) = map as_entry (block_terms decl A f tagI x (seq 0 (red_terms tagI M N)))).
    { unfold taken, block_terms. rewrite map_map. apply map_ext. intros j. reflexivity. }
    specialize (Ho x k Hx Hk). cbv zeta in Ho. rewrite Et in Ho. exact (Ho P).
Qed.

(** ** Tensors and memory *)
Lemma contents_at : forall decl args f bs full M N i j a d c n x s,
  In (a, d, c) (vars f) -> declared decl f -> a = Z.of_nat n -> nth_error args n = Some x -> c <= 2 ->
  compatible s full -> t_size x = s ++ match c with O => [M; d] | 1 => [N; d] | _ => [d] end ->
  inside bs full -> i < M -> j < N ->
  forall k, k < d -> batch_point decl (shape_at (map t_size args)) (contents args) bs i j a k = tensor_point decl args bs i j a k.
Proof.
  intros decl args f bs full M N i j a d c n x s Ha D -> Hx Hc Cs Es I Hi Hj k Hk.
  pose proof (vars_declared decl f D _ d c Ha) as Hd. unfold batch_point, tensor_point, contents.
  assert (Ez : (Z.of_nat n <? 0)%Z = false) by (apply Z.ltb_ge; lia).
  rewrite Ez, Nat2Z.id, Hx, Hd. cbn [fst snd].
  assert (Sh : shape_at (map t_size args) (Z.of_nat n) = t_size x).
  { unfold shape_at. rewrite Ez, Nat2Z.id. apply nth_error_nth. rewrite nth_error_map, Hx. reflexivity. }
  rewrite Sh. pose proof (forall2_len _ _ _ _ _ Cs) as Ls. pose proof (forall2_len _ _ _ _ _ I) as Lb.
  assert (Fs : firstn (length bs) (t_size x) = s) by (rewrite Es, Lb, <- Ls, firstn_app, firstn_all, Nat.sub_diag, app_nil_r; reflexivity).
  rewrite Fs. f_equal. pose proof (clip_inside s full bs Cs I) as Ic. pose proof (clip_length s bs ltac:(congruence)) as Lc.
  destruct c as [|[|[|]]]; [| | |lia]; cbn [row]; unfold numpy_row.
  - assert (En : nth (length bs) (t_size x) 0 = M) by (rewrite Es, Lb, <- Ls, app_nth2, Nat.sub_diag by lia; reflexivity).
    rewrite En. replace (s ++ [M; d]) with ((s ++ [M]) ++ [d]) in Es by (rewrite <- app_assoc; reflexivity).
    rewrite Es, <- (ravel_snoc (s ++ [M]) (clip s bs ++ [i]) d k) by (rewrite !app_length; cbn; lia).
    rewrite coords_ravel; [rewrite <- app_assoc; reflexivity|]. repeat apply inside_app; try assumption; repeat constructor; assumption.
  - assert (En : nth (length bs) (t_size x) 0 = N) by (rewrite Es, Lb, <- Ls, app_nth2, Nat.sub_diag by lia; reflexivity).
    rewrite En. replace (s ++ [N; d]) with ((s ++ [N]) ++ [d]) in Es by (rewrite <- app_assoc; reflexivity).
    rewrite Es, <- (ravel_snoc (s ++ [N]) (clip s bs ++ [j]) d k) by (rewrite !app_length; cbn; lia).
    rewrite coords_ravel; [rewrite <- app_assoc; reflexivity|]. repeat apply inside_app; try assumption; repeat constructor; assumption.
  - rewrite ravel_snoc by assumption. rewrite Nat.mul_1_r, Nat.add_0_r. rewrite Es, <- ravel_snoc by assumption.
    apply coords_ravel. apply inside_app; [assumption|]. repeat constructor. assumption.
Qed.

Section Value.
Context (aliases : list alias) (args : list tensor) (full : list nat) (M N : nat) (f : fm) (decl : declaration) (tagI : nat).
Context (Co : consistent aliases (map t_size args) full M N) (D : declared decl f) (W : wf f) (C : categories decl) (T : tagI <= 1).
Context (Us : uses aliases decl f).

Lemma args_at : forall a d c, In (a, d, c) (vars f) -> exists n x s, a = Z.of_nat n /\ nth_error args n = Some x /\ c <= 2 /\
  compatible s full /\ t_size x = s ++ match c with O => [M; d] | 1 => [N; d] | _ => [d] end.
Proof.
  intros a d c Ha. destruct (var_shape aliases (map t_size args) full M N f decl Co Us a d c Ha) as [n [s [En [Cs E]]]].
  rewrite nth_error_map in E. destruct (nth_error args n) as [x|] eqn:Ex; [|discriminate]. cbn in E. injection E as E.
  exists n, x, s. repeat split; try assumption.
  specialize (C a). rewrite (vars_declared decl f D a d c Ha) in C. exact C.
Qed.

Lemma terms_near : forall idx x, inside idx full -> x < out_rows tagI M N ->
  near (dim f) (batch_terms decl (shape_at (map t_size args)) (contents args) f tagI idx x (red_terms tagI M N))
               (tensor_terms decl args f tagI idx x (red_terms tagI M N)).
Proof.
  intros idx x I Hx. unfold batch_terms, tensor_terms. apply near_map. intros m Hm k Hk.
  apply eval_agree; [assumption| |assumption]. intros a d c Ha q Hq.
  destruct (args_at a d c Ha) as [n [t [s [En [Et [Hc [Cs Es]]]]]]].
  destruct tagI as [|tagI']; cbn [out_rows red_terms] in *;
    eapply (contents_at decl args f idx full M N); eassumption.
Qed.

Context (r : reduction) (s : scheme) (R : reduction_of (dim f) r) (Av : available r s).
Context (HM : 1 <= M) (HN : 1 <= N).
Context (Hall : forall al, In al aliases -> In (Z.of_nat (a_pos al), a_dim al, a_cat al) (vars f)).
Context (Hfit : forall x, In x args -> (Z.of_nat (ArgCheckSpec.entries (t_size x)) <= 2 ^ 31)%Z).
Context (Hdim : forall al, In al aliases -> 1 <= a_dim al).
Context (schedule : nat -> list nat) (junk : rarray) (tmp : cells) (Sc : complete schedule).

Definition the_parameters : parameters :=
  {| formula := f; tag := tagI; red := r; sch := s; nx := M; ny := N; ranges := None; out_shape := None |}.

Lemma forward_value : forall mem, exists o,
  forward schedule junk tmp the_parameters args mem = Ok (full ++ [out_rows tagI M N; rdim r], o) /\
  (forall idx x, inside idx full -> x < out_rows tagI M N ->
     row_value r s (tensor_terms decl args f tagI idx x (red_terms tagI M N))
       (fun k => o (numpy_row full (out_rows tagI M N) idx x * rdim r + k))).
Proof.
  intros mem. set (sh := shape_at (map t_size args)).
  assert (Fit : forall u, In u (map t_size args) -> (Z.of_nat (ArgCheckSpec.entries u) <= 2 ^ 31)%Z).
  { intros u Hu. apply in_map_iff in Hu. destruct Hu as [x [<- Hx]]. apply Hfit. assumption. }
  assert (Er : (if tagI =? 0 then M else N) = out_rows tagI M N) by (destruct tagI; reflexivity).
  assert (Ne : map t_size args <> []).
  { intros E. destruct (co_some _ _ _ _ _ Co) as [al [Ha _]]. destruct (co_shapes _ _ _ _ _ Co al Ha) as [u [_ X]].
    rewrite E in X. destruct (a_pos al); discriminate. }
  pose proof terms_near as TN.
  unfold forward. destruct (map t_size args) as [|sh0 shs] eqn:Es in |- *; [congruence|].
  rewrite <- Es. rewrite (max_rank_full _ _ _ _ _ Co).
  replace (length full + 2 - 2) with (length full) by lia.
  cbn [the_parameters ranges out_shape tag nx ny red sch formula]. rewrite Er, orb_false_r.
  destruct (Nat.eqb_spec (length full) 0) as [E0|E0].
  - clear Co Ne Es Fit. destruct full; [|discriminate]. cbn [rbind map app negb].
    destruct (dense_rows decl f r s tagI (contents args) M N schedule mem D W C T R Av Sc) as [o [Eo Ho]].
    rewrite Eo. cbn [rbind]. exists o. split; [reflexivity|]. intros idx x I Hx. inversion I; subst idx.
    eapply row_value_near; [exact R|apply (TN [] x I Hx)|].
    replace (numpy_row [] (out_rows tagI M N) [] x) with x by (unfold numpy_row; cbn; lia).
    eapply row_value_near; [exact R| |apply (Ho x Hx)].
    unfold block_terms, batch_terms. apply near_map. intros m Hm k Hk. apply eval_agree; [assumption| |assumption].
    intros a d c Ha q Hq. pose proof (vars_declared decl f D a d c Ha) as Hd.
    assert (Z : forall i j, point decl (contiguous decl (contents args)) i j a q = batch_point decl sh (contents args) [] i j a q).
    { intros i j. unfold point, contiguous, batch_point. rewrite Hd. cbn [fst snd length firstn].
      f_equal. f_equal. f_equal. unfold numpy_row. cbn [app clip ravel fold_right]. lia. }
    destruct tagI; apply Z.
  - rewrite (batch_shape _ _ _ _ _ Co). cbn [rbind negb].
    assert (Em : map Z.to_nat (map Z.of_nat full) = full).
    { rewrite map_map. rewrite <- (map_id full) at 2. apply map_ext. intros. apply Nat2Z.id. }
    rewrite Em. unfold ranges_routine. cbn [the_parameters ranges out_shape tag nx ny red sch formula].
    fold sh. unfold sh. rewrite (b_dims aliases (map t_size args) full M N f decl tagI Co D T Us HM HN Hall). fold sh.
    destruct (length full) as [|nb] eqn:El; [lia|]. rewrite <- El.
    destruct (cpu_batch decl f tagI (contents args) sh full M N D W C T) with (r := r) (s := s) (schedule := schedule) (junk := junk)
      (tmp := tmp) (out := mem) as [o [Eo [Ho _]]]; try assumption.
    + intros a d c. exact (b_shape aliases (map t_size args) full M N f decl tagI Co D T Us HM HN a d c).
    + exact (b_common aliases (map t_size args) full M N f tagI Co T HM HN Hall).
    + intros a d c Ha. eapply b_fits; eassumption.
    + assert (Ep : fold_right Nat.mul 1 (removelast (full ++ [out_rows tagI M N; rdim r])) = prod full * mi tagI M N).
      { replace (full ++ [out_rows tagI M N; rdim r]) with ((full ++ [out_rows tagI M N]) ++ [rdim r]) by (rewrite <- app_assoc; reflexivity).
        rewrite removelast_last. fold (prod (full ++ [out_rows tagI M N])). rewrite prod_app. unfold prod at 2. cbn. unfold mi. lia. }
      rewrite Ep, Eo. cbn [rbind]. exists o. split; [reflexivity|]. intros idx x I Hx.
      eapply row_value_near; [exact R|apply (TN idx x I Hx)|]. apply (Ho idx x I Hx).
Qed.
End Value.

(** ** The arguments of vmap *)
Definition map_one (d : option nat) (x : tensor) : res tensor :=
  match d with None => Ok (add_first x) | Some d => transpose x 0 d end.

Lemma swapped_0 : forall l, swapped 0 0 l = l.
Proof.
  intros l. unfold swapped. rewrite (map_ext_in _ (fun q => nth q l 0)).
  - apply nth_ext with (d := 0) (d' := 0); [rewrite map_length, seq_length; reflexivity|].
    intros n Hn. rewrite map_length, seq_length in Hn.
    rewrite (nth_indep _ 0 ((fun q => nth q l 0) 0)) by (rewrite map_length, seq_length; assumption).
    rewrite (map_nth (fun q => nth q l 0)), seq_nth by assumption. reflexivity.
  - intros q _. destruct (Nat.eqb_spec q 0); subst; reflexivity.
Qed.
Lemma swapped_1 : forall a b l, swapped 0 1 (a :: b :: l) = b :: a :: l.
Proof.
  intros a b l. unfold swapped. cbn [length seq map Nat.eqb nth]. do 2 f_equal.
  rewrite <- seq_shift, <- seq_shift, !map_map. transitivity (map (fun q => nth q l 0) (seq 0 (length l))).
  - apply map_ext. intros q. reflexivity.
  - apply nth_ext with (d := 0) (d' := 0); [rewrite map_length, seq_length; reflexivity|].
    intros n Hn. rewrite map_length, seq_length in Hn.
    rewrite (nth_indep _ 0 ((fun q => nth q l 0) 0)) by (rewrite map_length, seq_length; assumption).
    rewrite (map_nth (fun q => nth q l 0)), seq_nth by assumption. reflexivity.
Qed.

(** An argument after the transposition, compared with its slices. *)
Lemma map_one_ok : forall d x B, (match d with None => True | Some d => d <= 1 /\ nth_error (t_size x) d = Some B end) ->
  exists y, map_one d x = Ok y /\
    t_size y = (match d with None => 1 | Some _ => B end) :: t_size (slice d 0 x) /\
    forall b idx, length idx = length (t_size (slice d 0 x)) -> (d = None -> b = 0) ->
      t_at y (b :: idx) = t_at (slice d b x) idx.
Proof.
  intros [d|] x B H.
  - destruct H as [Hd Hn]. unfold map_one, transpose.
    assert (L : d < length (t_size x)) by (apply nth_error_Some; congruence).
    assert (E1 : (0 <? length (t_size x)) = true) by (apply Nat.ltb_lt; lia).
    assert (E2 : (d <? length (t_size x)) = true) by (apply Nat.ltb_lt; lia).
    rewrite E1, E2. cbn [andb]. eexists. split; [reflexivity|]. cbn [t_size t_at slice].
    destruct d as [|[|d]]; [| |lia].
    + rewrite swapped_0. destruct (t_size x) as [|n l]; [discriminate|]. cbn in Hn. injection Hn as ->.
      cbn [firstn skipn app]. split; [reflexivity|]. intros b idx _ _. rewrite swapped_0. reflexivity.
    + destruct (t_size x) as [|n [|m l]]; [discriminate|discriminate|]. cbn in Hn. injection Hn as ->.
      rewrite swapped_1. cbn [firstn skipn app]. split; [reflexivity|]. intros b [|i idx] Hl _; [discriminate|].
      rewrite swapped_1. reflexivity.
  - exists (add_first x). split; [reflexivity|]. split; [reflexivity|]. intros b idx _ _. reflexivity.
Qed.

Lemma vmap_args_ok : forall in_dims args B,
  Forall2 (fun d x => match d with None => True | Some d => nth_error (t_size x) d = Some B end) in_dims args -> leading in_dims ->
  exists ys, vmap_args in_dims args = Ok ys /\ length ys = length args /\
    forall n d x, nth_error in_dims n = Some d -> nth_error args n = Some x ->
      exists y, nth_error ys n = Some y /\
        t_size y = (match d with None => 1 | Some _ => B end) :: t_size (slice d 0 x) /\
        forall b idx, length idx = length (t_size (slice d 0 x)) -> (d = None -> b = 0) ->
          t_at y (b :: idx) = t_at (slice d b x) idx.
Proof.
  intros in_dims args B H. induction H as [|d x in_dims args Hd H IH]; intros Le.
  - exists []. split; [reflexivity|]. split; [reflexivity|]. intros [|n] d x E; discriminate.
  - destruct IH as [ys [Ey [Ly Hy]]]. { intros d' Hd'. apply Le. right. assumption. }
    destruct (map_one_ok d x B) as [y [Eo [Sy Ay]]].
    { destruct d as [d|]; [|exact I]. split; [|assumption]. apply Le. left. reflexivity. }
    exists (y :: ys). cbn [vmap_args]. unfold map_one in Eo. rewrite Eo. cbn [rbind]. rewrite Ey. cbn [rbind].
    split; [reflexivity|]. split; [cbn; lia|]. intros [|n] d' x' E E'; cbn [nth_error] in *.
    + injection E as <-. injection E' as <-. exists y. auto.
    + apply Hy; assumption.
Qed.

Lemma slices_nth : forall in_dims args b n y, nth_error (slices in_dims b args) n = Some y ->
  exists d x, nth_error in_dims n = Some d /\ nth_error args n = Some x /\ y = slice d b x.
Proof.
  intros in_dims args b n y H. unfold slices in H. rewrite nth_error_map in H.
  destruct (nth_error (combine in_dims args) n) as [[d x]|] eqn:E; [|discriminate]. cbn in H. injection H as <-.
  exists d, x. revert args n E. induction in_dims as [|d' in_dims IH]; intros [|x' args] [|n] E; try discriminate.
  - cbn in *. injection E as <- <-. auto.
  - cbn [nth_error combine] in *. apply IH. assumption.
Qed.
Lemma slices_size : forall in_dims args b b', map t_size (slices in_dims b args) = map t_size (slices in_dims b' args).
Proof. intros. unfold slices. rewrite !map_map. apply map_ext. intros [[d|] x]; reflexivity. Qed.
Lemma slices_length : forall in_dims args b, length in_dims = length args -> length (slices in_dims b args) = length args.
Proof. intros. unfold slices. rewrite map_length, combine_length. lia. Qed.
Lemma slices_nth_ok : forall in_dims args b n d x, nth_error in_dims n = Some d -> nth_error args n = Some x ->
  nth_error (slices in_dims b args) n = Some (slice d b x).
Proof.
  intros in_dims args b n d x. unfold slices. revert args n. induction in_dims as [|d' in_dims IH]; intros [|x' args] [|n] E E'; try discriminate.
  - cbn in *. congruence.
  - cbn [nth_error combine map] in *. apply IH; assumption.
Qed.

Section Vmap.
Context (aliases : list alias) (in_dims : list (option nat)) (args ys : list tensor) (full : list nat) (B M N : nat).
Context (Hm : mapped in_dims args B) (Hl : leading in_dims) (HB : 1 <= B).
Context (Ly : length ys = length args).
Context (Hy : forall n d x, nth_error in_dims n = Some d -> nth_error args n = Some x ->
      exists y, nth_error ys n = Some y /\
        t_size y = (match d with None => 1 | Some _ => B end) :: t_size (slice d 0 x) /\
        forall b idx, length idx = length (t_size (slice d 0 x)) -> (d = None -> b = 0) ->
          t_at y (b :: idx) = t_at (slice d b x) idx).
Context (Co : consistent aliases (map t_size (slices in_dims 0 args)) full M N).

Lemma lengths : length in_dims = length args.
Proof. eapply forall2_len. apply (proj1 Hm). Qed.

Lemma at_both : forall n y, nth_error (slices in_dims 0 args) n = Some y ->
  exists d x z, nth_error in_dims n = Some d /\ nth_error args n = Some x /\ y = slice d 0 x /\ nth_error ys n = Some z /\
    t_size z = (match d with None => 1 | Some _ => B end) :: t_size y /\
    forall b idx, length idx = length (t_size y) -> (d = None -> b = 0) -> t_at z (b :: idx) = t_at (slice d b x) idx.
Proof.
  intros n y H. destruct (slices_nth _ _ _ _ _ H) as [d [x [Ed [Ex ->]]]]. destruct (Hy n d x Ed Ex) as [z [Ez [Sz Az]]].
  exists d, x, z. do 4 (split; [assumption || reflexivity|]). split; assumption.
Qed.

Lemma mapped_consistent : consistent aliases (map t_size ys) (B :: full) M N.
Proof.
  assert (Len : length (map t_size ys) = length (map t_size (slices in_dims 0 args))).
  { rewrite !map_length, Ly. symmetry. apply slices_length. apply lengths. }
  constructor.
  - apply (co_positions _ _ _ _ _ Co).
  - rewrite Len. apply (co_count _ _ _ _ _ Co).
  - apply (co_categories _ _ _ _ _ Co).
  - intros al Ha. destruct (co_shapes _ _ _ _ _ Co al Ha) as [s [Cs E]]. rewrite nth_error_map in E.
    destruct (nth_error (slices in_dims 0 args) (a_pos al)) as [y|] eqn:Ey; [|discriminate]. cbn in E. injection E as E.
    destruct (at_both _ _ Ey) as [d [x [z [_ [_ [_ [Ez [Sz _]]]]]]]].
    exists ((match d with None => 1 | Some _ => B end) :: s). split.
    + constructor; [destruct d; auto|assumption].
    + rewrite nth_error_map, Ez. cbn [option_map]. rewrite Sz, E. reflexivity.
  - intros [|q] Hq; cbn [nth].
    + right. split; [assumption|]. destruct Hm as [H [d Hd]]. apply In_nth_error in Hd. destruct Hd as [n Hn].
      assert (X : exists x, nth_error args n = Some x).
      { destruct (nth_error args n) as [x|] eqn:E; [eauto|]. apply nth_error_None in E. pose proof lengths.
        assert (n < length in_dims) by (apply nth_error_Some; congruence). lia. }
      destruct X as [x Ex]. destruct (Hy n (Some d) x Hn Ex) as [y [Ey [Sy _]]]. exists (t_size y). split.
      * apply in_map. apply (nth_error_In _ _ Ey).
      * rewrite Sy. reflexivity.
    + cbn [length] in Hq. destruct (co_full _ _ _ _ _ Co q ltac:(lia)) as [E|[P [u [Hu Eu]]]]; [left; assumption|right].
      split; [assumption|]. apply in_map_iff in Hu. destruct Hu as [y [<- Iy]]. apply In_nth_error in Iy. destruct Iy as [n Hn].
      destruct (at_both _ _ Hn) as [d [x [z [_ [_ [_ [Ez [Sz _]]]]]]]]. exists (t_size z). split.
      * apply in_map. apply (nth_error_In _ _ Ez).
      * rewrite Sz. exact Eu.
  - apply (co_rows _ _ _ _ _ Co).
  - apply (co_cols _ _ _ _ _ Co).
  - apply (co_some _ _ _ _ _ Co).
Qed.

(** The terms of the slice b. *)
Lemma mapped_terms : forall decl f tagI b idx x, declared decl f -> wf f -> categories decl -> tagI <= 1 -> uses aliases decl f ->
  b < B -> inside idx full -> x < out_rows tagI M N ->
  near (dim f) (tensor_terms decl ys f tagI (b :: idx) x (red_terms tagI M N))
               (tensor_terms decl (slices in_dims b args) f tagI idx x (red_terms tagI M N)).
Proof.
  intros decl f tagI b idx x D W C T Us Hb I Hx. unfold tensor_terms. apply near_map. intros m Hmm k Hk.
  apply eval_agree; [assumption| |assumption]. intros a d c Ha q Hq.
  destruct (args_at aliases (slices in_dims 0 args) full M N f decl Co D C Us a d c Ha) as [n [y [s [-> [Ey [Hc [Cs Es]]]]]]].
  pose proof (vars_declared decl f D _ d c Ha) as Hd.
  destruct (at_both _ _ Ey) as [e [u [z [Ee [Eu [-> [Ez [Sz Az]]]]]]]].
  pose proof (slices_nth_ok in_dims args b n e u Ee Eu) as Eb.
  assert (Sb : t_size (slice e b u) = t_size (slice e 0 u)) by (destruct e; reflexivity).
  pose proof (forall2_len _ _ _ _ _ I) as Lb. pose proof (forall2_len _ _ _ _ _ Cs) as Ls.
  assert (G : forall i j, tensor_point decl ys (b :: idx) i j (Z.of_nat n) q = tensor_point decl (slices in_dims b args) idx i j (Z.of_nat n) q).
  { intros i j. unfold tensor_point. rewrite Nat2Z.id, Ez, Eb, Hd. cbn [snd]. rewrite Sz, Sb. cbn [length firstn clip].
    set (p := match c with O => [i; q] | 1 => [j; q] | _ => [q] end).
    assert (Lp : length (clip (firstn (length idx) (t_size (slice e 0 u))) idx ++ p) = length (t_size (slice e 0 u))).
    { rewrite Es, Lb, <- Ls, firstn_app, firstn_all, Nat.sub_diag, app_nil_r, !app_length.
      rewrite clip_length by congruence. f_equal. unfold p. destruct c as [|[|]]; reflexivity. }
    destruct e as [e|].
    - destruct (Nat.eqb_spec B 1) as [E1|E1].
      + replace b with 0 by lia. cbn [app]. apply Az; [assumption|discriminate].
      + cbn [app]. apply Az; [assumption|discriminate].
    - cbn [Nat.eqb app]. rewrite Az by auto. reflexivity. }
  destruct tagI; apply G.
Qed.
End Vmap.

Lemma sizes_ok : forall aliases shapes full M N, consistent aliases shapes full M N -> get_sizes aliases shapes = Ok (M, N).
Proof.
  intros aliases shapes full M N Co. pose proof (call_ok _ _ _ _ _ Co) as E. unfold call in E.
  destruct (length shapes =? length aliases); [|discriminate]. destruct shapes as [|s l]; [discriminate|].
  destruct (get_sizes aliases (s :: l)) as [[m n]| | |]; try discriminate. cbn [rbind fst snd] in E.
  destruct (if _ =? 0 then Ok [] else _) as [z| | |]; try discriminate. cbn [rbind] in E. congruence.
Qed.

Lemma numpy_row_full : forall full n idx x, inside idx full -> numpy_row full n idx x = ravel (full ++ [n]) (idx ++ [x]).
Proof.
  intros full n idx x I. unfold numpy_row. f_equal. f_equal. induction I as [|y g ys gs Hy I IH]; [reflexivity|].
  cbn [clip]. rewrite IH. f_equal. destruct (Nat.eqb_spec g 1); lia.
Qed.

(** ** vmap *)
Section Main.
Context (g : genred) (in_dims : list (option nat)) (args : list tensor) (full : list nat) (B M N : nat) (decl : declaration).
Context (Hm : mapped in_dims args B) (Hl : leading in_dims) (HB : 1 <= B).
Context (Co : consistent (g_aliases g) (map t_size (slices in_dims 0 args)) full M N).
Context (D : declared decl (g_formula g)) (W : wf (g_formula g)) (C : categories decl) (T : g_tag g <= 1).
Context (Us : uses (g_aliases g) decl (g_formula g)).
Context (Hall : forall al, In al (g_aliases g) -> In (Z.of_nat (a_pos al), a_dim al, a_cat al) (vars (g_formula g))).
Context (R : reduction_of (dim (g_formula g)) (g_red g)) (Av : available (g_red g) (g_sch g)).
Context (HM : 1 <= M) (HN : 1 <= N).
Context (Hfit : forall x, In x args -> (Z.of_nat (ArgCheckSpec.entries (t_size x)) <= 2 ^ 31)%Z).
Context (Hdim : forall al, In al (g_aliases g) -> 1 <= a_dim al).
Context (schedule : nat -> list nat) (junk : rarray) (tmp : cells) (Sc : complete schedule).
Let rows := out_rows (g_tag g) M N.
Let n := red_terms (g_tag g) M N.

Lemma prod_split : forall l d v, nth_error l d = Some v -> prod l = v * prod (firstn d l ++ skipn (S d) l).
Proof.
  clear. induction l as [|a l IH]; intros [|d] v E; try discriminate.
  - cbn in E. injection E as ->. reflexivity.
  - cbn [nth_error] in E. change (skipn (S (S d)) (a :: l)) with (skipn (S d) l). cbn [firstn app].
    unfold prod in *. cbn [fold_right]. rewrite (IH d v E). ring.
Qed.

Lemma mapped_fit : forall ys, vmap_args in_dims args = Ok ys -> forall y, In y ys -> (Z.of_nat (ArgCheckSpec.entries (t_size y)) <= 2 ^ 31)%Z.
Proof.
  intros ys E. destruct (vmap_args_ok in_dims args B (proj1 Hm) Hl) as [ys' [E' [Ly Hy]]]. rewrite E in E'. injection E' as <-.
  intros y Iy. apply In_nth_error in Iy. destruct Iy as [q Hq].
  assert (Lq : q < length args) by (rewrite <- Ly; apply nth_error_Some; congruence).
  destruct (nth_error args q) as [x|] eqn:Ex; [|apply nth_error_None in Ex; lia].
  destruct (nth_error in_dims q) as [d|] eqn:Ed.
  2: { apply nth_error_None in Ed. pose proof (forall2_len _ _ _ _ _ (proj1 Hm)). lia. }
  destruct (Hy q d x Ed Ex) as [y' [Ey [Sy _]]]. assert (y' = y) by congruence. subst y'.
  pose proof (Hfit x (nth_error_In _ _ Ex)) as F.
  assert (Ee : ArgCheckSpec.entries (t_size y) = ArgCheckSpec.entries (t_size x)); [|rewrite Ee; exact F].
  rewrite Sy. unfold ArgCheckSpec.entries. cbn [fold_right]. destruct d as [d|]; cbn [slice t_size].
  - symmetry. apply prod_split. pose proof (proj1 Hm) as F2. clear - F2 Ed Ex. revert q Ed Ex.
    induction F2 as [|d' x' ds xs H F2 IH]; intros [|q] Ed Ex; try discriminate.
    + cbn [nth_error] in Ed, Ex. injection Ed as ->. injection Ex as ->. exact H.
    + apply (IH q); assumption.
  - lia.
Qed.

Lemma vmap_value : forall mem, exists o,
  vmap_call schedule junk tmp g None None in_dims args mem = Ok (B :: full ++ [rows; rdim (g_red g)], o) /\
  forall b idx x, b < B -> inside idx full -> x < rows ->
    row_value (g_red g) (g_sch g) (tensor_terms decl (slices in_dims b args) (g_formula g) (g_tag g) idx x n)
      (fun k => o (ravel (B :: full ++ [rows; rdim (g_red g)]) (b :: idx ++ [x; k]))).
Proof.
  intros mem. destruct (vmap_args_ok in_dims args B (proj1 Hm) Hl) as [ys [Ey [Ly Hy]]].
  pose proof (mapped_consistent (g_aliases g) in_dims args ys full B M N Hm HB Ly Hy Co) as Co'.
  pose proof (mapped_fit ys Ey) as Fit.
  destruct (forward_value (g_aliases g) ys (B :: full) M N (g_formula g) decl (g_tag g) Co' D W C T Us (g_red g) (g_sch g) R Av
              HM HN Hall Fit Hdim schedule junk tmp Sc mem) as [o [Eo Ho]].
  exists o. split.
  - unfold vmap_call, call_parameters.
    assert (Eh : map (fun p => hidden (fst p) (t_size (snd p))) (combine in_dims args) = map t_size (slices in_dims 0 args)).
    { unfold slices. rewrite map_map. apply map_ext. intros [[d|] x]; reflexivity. }
    rewrite Eh, (co_count _ _ _ _ _ Co), Nat.eqb_refl, (sizes_ok _ _ _ _ _ Co). cbn [rbind fst snd].
    unfold vmap_rule. rewrite Ey. cbn [rbind]. exact Eo.
  - intros b idx x Hb I Hx. assert (I' : inside (b :: idx) (B :: full)) by (constructor; assumption).
    specialize (Ho (b :: idx) x I' Hx). rewrite numpy_row_full in Ho by assumption. fold rows in Ho. fold n in Ho.
    eapply row_value_near; [exact R|apply (mapped_terms (g_aliases g) in_dims args ys full B M N); eassumption|].
    eapply row_value_eta; [|exact Ho]. intros k. cbv beta. apply (f_equal o).
    replace (B :: full ++ [rows; rdim (g_red g)]) with (((B :: full) ++ [rows]) ++ [rdim (g_red g)]) by (cbn; rewrite <- app_assoc; reflexivity).
    replace (b :: idx ++ [x; k]) with (((b :: idx) ++ [x]) ++ [k]) by (cbn; rewrite <- app_assoc; reflexivity).
    rewrite (ravel_snoc _ ((b :: idx) ++ [x])); [reflexivity|]. rewrite !app_length. cbn. rewrite (forall2_len _ _ _ _ _ I). reflexivity.
Qed.
End Main.

(** ** The theorems *)
Section Theorems.
Context (g : genred) (in_dims : list (option nat)) (args : list tensor) (full : list nat) (B M N : nat) (decl : declaration).
Context (Mp : mappable g in_dims args full B M N decl).
Context (schedule : nat -> list nat) (junk : rarray) (tmp : cells) (Sc : complete schedule).
Let rows := out_rows (g_tag g) M N.
Let sizes := full ++ [rows; rdim (g_red g)].
Let terms b idx x := tensor_terms decl (slices in_dims b args) (g_formula g) (g_tag g) idx x (red_terms (g_tag g) M N).

Lemma plain_value : forall b mem, exists o,
  plain_call schedule junk tmp g None None (slices in_dims b args) mem = Ok (sizes, o) /\
  forall idx x, inside idx full -> x < rows ->
    row_value (g_red g) (g_sch g) (terms b idx x) (fun k => o (ravel sizes (idx ++ [x; k]))).
Proof.
  destruct Mp. intros b mem. pose proof mp_consistent as Co. rewrite (slices_size _ _ 0 b) in Co.
  assert (Fit : forall y, In y (slices in_dims b args) -> (Z.of_nat (ArgCheckSpec.entries (t_size y)) <= 2 ^ 31)%Z).
  { intros y Iy. apply In_nth_error in Iy. destruct Iy as [q Hq]. destruct (slices_nth _ _ _ _ _ Hq) as [d [x [Ed [Ex ->]]]].
    pose proof (mp_size x (nth_error_In _ _ Ex)) as F. destruct d as [d|]; [|exact F]. cbn [slice t_size].
    assert (E : nth_error (t_size x) d = Some B).
    { pose proof (proj1 mp_slices) as F2. clear - F2 Ed Ex. revert q Ed Ex.
      induction F2 as [|d' x' ds xs H F2 IH]; intros [|q] Ed Ex; try discriminate.
      - cbn [nth_error] in Ed, Ex. injection Ed as ->. injection Ex as ->. exact H.
      - apply (IH q); assumption. }
    pose proof (prod_split _ _ _ E) as P. unfold ArgCheckSpec.entries in *. fold (prod (t_size x)) in F. rewrite P in F.
    fold (prod (firstn d (t_size x) ++ skipn (S d) (t_size x))). set (p := prod (firstn _ _ ++ _)) in *. nia. }
  destruct (forward_value (g_aliases g) (slices in_dims b args) full M N (g_formula g) decl (g_tag g) Co mp_declared mp_wf
              mp_categories mp_tag mp_uses (g_red g) (g_sch g) mp_reduction mp_scheme
              mp_rows mp_columns mp_used Fit mp_dims schedule junk tmp Sc mem) as [o [Eo Ho]].
  exists o. split.
  - unfold plain_call, call_parameters. rewrite (co_count _ _ _ _ _ Co), Nat.eqb_refl, (sizes_ok _ _ _ _ _ Co). cbn [rbind fst snd]. exact Eo.
  - intros idx x I Hx. specialize (Ho idx x I Hx). rewrite numpy_row_full in Ho by assumption. fold rows in Ho.
    eapply row_value_eta; [|exact Ho]. intros k. cbv beta. apply (f_equal o). unfold sizes.
    replace (full ++ [rows; rdim (g_red g)]) with ((full ++ [rows]) ++ [rdim (g_red g)]) by (rewrite <- app_assoc; reflexivity).
    replace (idx ++ [x; k]) with ((idx ++ [x]) ++ [k]) by (rewrite <- app_assoc; reflexivity).
    rewrite (ravel_snoc _ (idx ++ [x])); [reflexivity|]. rewrite !app_length. cbn. rewrite (forall2_len _ _ _ _ _ I). reflexivity.
Qed.

Lemma vmap_slices : leading in_dims -> forall mem, exists o,
  vmap_call schedule junk tmp g None None in_dims args mem = Ok (B :: sizes, o) /\
  forall b mem', b < B -> exists o',
    plain_call schedule junk tmp g None None (slices in_dims b args) mem' = Ok (sizes, o') /\
    forall idx x, inside idx full -> x < rows ->
      row_value (g_red g) (g_sch g) (terms b idx x) (fun k => o (ravel (B :: sizes) (b :: idx ++ [x; k]))) /\
      row_value (g_red g) (g_sch g) (terms b idx x) (fun k => o' (ravel sizes (idx ++ [x; k]))).
Proof.
  intros Le mem. pose proof plain_value as P. destruct Mp.
  destruct (vmap_value g in_dims args full B M N decl mp_slices Le mp_count mp_consistent mp_declared mp_wf mp_categories mp_tag
              mp_uses mp_used mp_reduction mp_scheme mp_rows mp_columns mp_size mp_dims schedule junk tmp Sc mem) as [o [Eo Ho]].
  exists o. split; [exact Eo|]. intros b mem' Hb. destruct (P b mem') as [o' [Eo' Ho']].
  exists o'. split; [exact Eo'|]. intros idx x I Hx. split; [apply (Ho b idx x Hb I Hx)|apply (Ho' idx x I Hx)].
Qed.

Lemma vmap_equal : leading in_dims -> g_sch g = direct_sum \/ (exists d, g_red g = Sum_Red d) -> forall mem, exists o,
  vmap_call schedule junk tmp g None None in_dims args mem = Ok (B :: sizes, o) /\
  forall b mem', b < B -> exists o',
    plain_call schedule junk tmp g None None (slices in_dims b args) mem' = Ok (sizes, o') /\
    forall p, inside p sizes -> o (ravel (B :: sizes) (b :: p)) = o' (ravel sizes p).
Proof.
  intros Le Ex mem. destruct (vmap_slices Le mem) as [o [Eo Ho]]. exists o. split; [exact Eo|].
  intros b mem' Hb. destruct (Ho b mem' Hb) as [o' [Eo' H]]. exists o'. split; [exact Eo'|].
  intros p Ip. unfold sizes in Ip. apply Forall2_app_inv_r in Ip. destruct Ip as [idx [rest [I [I2 ->]]]].
  inversion I2 as [|x ? rest' ? Hx I3]; subst. inversion I3 as [|k ? rest'' ? Hk I4]; subst. inversion I4; subst.
  destruct (H idx x I Hx) as [V V']. exact (row_value_eq _ _ _ _ _ V V' Ex k Hk).
Qed.

(** ** Ranges *)
Lemma ranges_undefined : leading in_dims -> forall u out mem, vmap_call schedule junk tmp g (Some u) out in_dims args mem = PyErr.
Proof.
  intros Le u out mem. destruct Mp. destruct (vmap_args_ok in_dims args B (proj1 mp_slices) Le) as [ys [Ey [Ly Hy]]].
  pose proof (mapped_consistent (g_aliases g) in_dims args ys full B M N mp_slices mp_count Ly Hy mp_consistent) as Co.
  unfold vmap_call, call_parameters.
  assert (Eh : map (fun p => hidden (fst p) (t_size (snd p))) (combine in_dims args) = map t_size (slices in_dims 0 args)).
  { unfold slices. rewrite map_map. apply map_ext. intros [[d|] x]; reflexivity. }
  rewrite Eh, (co_count _ _ _ _ _ mp_consistent), Nat.eqb_refl, (sizes_ok _ _ _ _ _ mp_consistent). cbn [rbind fst snd].
  unfold vmap_rule. rewrite Ey. cbn [rbind]. unfold forward.
  destruct (map t_size ys) as [|s0 ss] eqn:Es in |- *; [reflexivity|]. rewrite <- Es.
  rewrite (max_rank_full _ _ _ _ _ Co). replace (length (B :: full) + 2 - 2) with (length (B :: full)) by lia.
  destruct (Nat.eqb_spec (length (B :: full)) 0) as [E|_]; [discriminate|].
  rewrite (batch_shape _ _ _ _ _ Co). cbn [rbind negb orb]. unfold ranges_routine. cbn [ranges formula].
  rewrite (b_dims (g_aliases g) (map t_size ys) (B :: full) M N (g_formula g) decl (g_tag g) Co mp_declared mp_tag mp_uses
             mp_rows mp_columns mp_used). reflexivity.
Qed.
End Theorems.

(** ** Counterexamples *)
Lemma inside_ones : forall l, Forall (le 1) l -> forall q, q < length l -> 1 <= nth q l 0.
Proof. intros l F q Hq. rewrite Forall_forall in F. apply F, nth_In, Hq. Qed.
Lemma compatible_refl : forall l, compatible l l.
Proof. induction l; constructor; [right; reflexivity|assumption]. Qed.

Lemma variable_consistent : forall n full M y, t_size y = full ++ [M; n] -> Forall (le 1) full ->
  consistent (g_aliases (of_variable n)) [t_size y] full M 1.
Proof.
  intros n full M y E F. constructor.
  - cbn. apply Permutation_refl.
  - reflexivity.
  - intros al [<-|[]]. cbn. lia.
  - intros al [<-|[]]. exists full. split; [apply compatible_refl|]. cbn. rewrite E. reflexivity.
  - intros q Hq. right. split; [apply inside_ones; assumption|]. exists (t_size y). split; [left; reflexivity|].
    rewrite E. apply app_nth1. assumption.
  - right. eexists. split; [left; reflexivity|reflexivity].
  - left. reflexivity.
  - eexists. split; [left; reflexivity|cbn; lia].
Qed.

Lemma variable_forward : forall n full M y schedule junk tmp mem, complete schedule ->
  t_size y = full ++ [M; n] -> Forall (le 1) full -> 1 <= M -> 1 <= n -> (Z.of_nat (ArgCheckSpec.entries (t_size y)) <= 2 ^ 31)%Z ->
  exists o, forward schedule junk tmp (the_parameters M 1 (Var 0 n 0) 0 (Sum_Red n) direct_sum) [y] mem = Ok (full ++ [M; n], o) /\
    forall idx x k, inside idx full -> x < M -> k < n ->
      o (ravel (full ++ [M; n]) (idx ++ [x; k])) = Fin (t_at y (idx ++ [x; k])).
Proof.
  intros n full M y schedule junk tmp mem Sc E F HM Hn Fit.
  destruct (forward_value (g_aliases (of_variable n)) [y] full M 1 (Var 0 n 0) (fun _ => (n, 0)) 0
              (variable_consistent n full M y E F)) with (r := Sum_Red n) (s := direct_sum) (schedule := schedule)
              (junk := junk) (tmp := tmp) (mem := mem) as [o [Eo Ho]]; try assumption; try lia.
  - reflexivity.
  - split; [apply Nat.leb_le; assumption|exact I].
  - intros a. cbn. lia.
  - intros a d c [H|[]]. injection H as <- <- <-. eexists. split; [left; reflexivity|]. repeat split.
  - constructor.
  - exact I.
  - intros al [<-|[]]. left. reflexivity.
  - intros z [<-|[]]. exact Fit.
  - intros al [<-|[]]. exact Hn.
  - exists o. split; [exact Eo|]. intros idx x k I Hx Hk. destruct (Ho idx x I Hx) as [_ [H _]].
    specialize (H n eq_refl k Hk). rewrite numpy_row_full in H by assumption.
    replace (full ++ [M; n]) with ((full ++ [M]) ++ [n]) by (rewrite <- app_assoc; reflexivity).
    replace (idx ++ [x; k]) with ((idx ++ [x]) ++ [k]) by (rewrite <- app_assoc; reflexivity).
    rewrite (ravel_snoc _ (idx ++ [x])) by (rewrite !app_length; cbn; rewrite (forall2_len _ _ _ _ _ I); reflexivity).
    cbn [out_rows] in H. change (rdim (Sum_Red n)) with n in H. rewrite H. f_equal.
    unfold tensor_terms. cbn [red_terms seq map lsum fold_right snd fst eval]. unfold tensor_point. cbn [Z.to_nat nth_error snd].
    rewrite E, firstn_app. rewrite (forall2_len _ _ _ _ _ I), firstn_all, Nat.sub_diag. cbn [firstn]. rewrite app_nil_r.
    replace (clip full idx) with idx. { rewrite <- app_assoc. cbn. ring. }
    clear - I. induction I as [|i m idx full H I IH]; [reflexivity|]. unfold clip in *. cbn. rewrite <- IH.
    destruct (Nat.eqb_spec m 1); [replace i with 0 by lia|]; reflexivity.
Qed.

Lemma third_dimension : forall n B x schedule junk tmp, complete schedule -> 1 <= n -> 1 <= B -> t_size x = [n; n; B] ->
  (Z.of_nat (ArgCheckSpec.entries [n; n; B]) <= 2 ^ 31)%Z -> forall mem, exists o,
  vmap_call schedule junk tmp (of_variable n) None None [Some 2] [x] mem = Ok ([B; n; n], o) /\
  (forall b i k, b < B -> i < n -> k < n -> o (ravel [B; n; n] [b; i; k]) = Fin (t_at x [k; i; b])) /\
  forall b mem', b < B -> exists o',
    plain_call schedule junk tmp (of_variable n) None None (slices [Some 2] b [x]) mem' = Ok ([n; n], o') /\
    forall i k, i < n -> k < n -> o' (ravel [n; n] [i; k]) = Fin (t_at x [i; k; b]).
Proof.
  intros n B x schedule junk tmp Sc Hn HB E Fit mem.
  set (y := Tensor [B; n; n] (fun idx => t_at x (swapped 0 2 idx))).
  destruct (variable_forward n [B] n y schedule junk tmp mem Sc eq_refl) as [o [Eo Ho]]; try assumption.
  { repeat constructor. assumption. }
  { unfold y. cbn [t_size]. unfold ArgCheckSpec.entries in *. cbn [fold_right] in *. nia. }
  exists o. split; [|split].
  - unfold vmap_call, call_parameters. cbn [combine map fst snd hidden]. rewrite E. cbn [firstn skipn app length].
    pose proof (sizes_ok _ _ _ _ _ (variable_consistent n [] n (Tensor [n; n] (t_at x)) eq_refl (Forall_nil _))) as G.
    cbn [t_size] in G. rewrite G. cbn [g_aliases of_variable sum_of length Nat.eqb rbind fst snd].
    unfold vmap_rule. cbn [vmap_args]. unfold transpose. rewrite E. cbn [length Nat.ltb Nat.leb andb rbind]. exact Eo.
  - intros b i k Hb Hi Hk. apply (Ho [b] i k); [repeat constructor; assumption|assumption|assumption].
  - intros b mem' Hb.
    destruct (variable_forward n [] n (slice (Some 2) b x) schedule junk tmp mem' Sc) as [o' [Eo' Ho']]; try assumption.
    + cbn. rewrite E. reflexivity.
    + constructor.
    + cbn [slice t_size]. rewrite E. cbn [firstn skipn app]. unfold ArgCheckSpec.entries in *. cbn [fold_right] in *. nia.
    + exists o'. split.
      * unfold plain_call, call_parameters. cbn [slices combine map fst snd].
        assert (Es : t_size (slice (Some 2) b x) = [n; n]) by (cbn; rewrite E; reflexivity).
        pose proof (sizes_ok _ _ _ _ _ (variable_consistent n [] n _ Es (Forall_nil _))) as G.
        rewrite G. cbn [g_aliases of_variable sum_of length Nat.eqb rbind fst snd]. exact Eo'.
      * intros i k Hi Hk. apply (Ho' [] i k); [constructor|assumption|assumption].
Qed.

(** The memory after the end of [out] is written. *)
Lemma out_overrun : forall x junk tmp mem, t_size x = [2; 1; 1] -> exists o,
  vmap_call (fun n => seq 0 n) junk tmp (of_variable 1) None (Some [1; 1]) [Some 0] [x] mem = Ok ([1; 1], o) /\
  o 0%nat = Fin (t_at x [0; 0; 0]) /\ o 1%nat = Fin (t_at x [1; 0; 0]).
Proof.
  intros [sz at_] junk tmp mem E. cbn [t_size] in E. subst sz.
  eexists. split; [cbv -[Rplus Rmult IZR]; reflexivity|]. split; cbv -[Rplus Rmult IZR]; f_equal; ring.
Qed.

(** No columns. *)
Lemma no_columns : forall x y schedule junk tmp mem, complete schedule -> t_size x = [2; 1; 1] -> t_size y = [0; 1] ->
  (forall res, vmap_call schedule junk tmp of_pair None None [Some 0; None] [x; y] mem <> Ok res) /\
  forall b mem', exists o', plain_call schedule junk tmp of_pair None None (slices [Some 0; None] b [x; y]) mem' = Ok ([1; 1], o') /\
    o' 0%nat = Fin 0.
Proof.
  intros [sx ax] [sy ay] schedule junk tmp mem Sc Ex Ey. cbn [t_size] in Ex, Ey. subst sx sy. split.
  - intros res.
    assert (E : schedule 1 = [0]). { apply Permutation_length_1_inv. apply Permutation_sym. exact (Sc 1). }
    unfold vmap_call. cbn -[forward]. unfold forward. cbn -[launch_cpu_ranges contents ranges_routine]. unfold ranges_routine.
    cbn [formula red sch ranges nx ny tag].
    match goal with |- context [nbatchdims ?a ?b ?c] => change (nbatchdims a b c) with 1 end. cbv iota.
    match goal with |- context [batch_data ?f ?t ?s ?n ?x ?y] =>
      let v := eval lazy in (batch_data f t s n x y) in change (batch_data f t s n x y) with v end.
    match goal with |- context [batch_ranges ?s ?t] => let v := eval lazy in (batch_ranges s t) in change (batch_ranges s t) with v end.
    unfold launch_cpu_ranges. change (table_ok _ _) with true. cbv iota. cbn [scheme_code rpair Sum_Red rbind].
    cbn -[prefill write_row load_vars broadcast_index contents].
    assert (B0 : broadcast_index 0 [2] ([2], 1) = Ok 0) by reflexivity. rewrite B0. cbn -[prefill write_row load_vars broadcast_index contents].
    rewrite E. cbn -[prefill write_row load_vars broadcast_index contents]. unfold range_row at 1. cbn -[prefill write_row load_vars range_row contents]. discriminate.
  - intros b mem'.
    destruct (dense_rows (fun a => if (a =? 0)%Z then (1, 0) else (1, 1)) (g_formula of_pair) (Sum_Red 1) direct_sum 0
                (contents (slices [Some 0; None] b [Tensor [2; 1; 1] ax; Tensor [0; 1] ay])) 1 0 schedule mem') as [o [Eo Ho]]; try assumption.
    + cbn. auto.
    + cbn. repeat split.
    + intros a. destruct (a =? 0)%Z; cbn; lia.
    + lia.
    + constructor.
    + exact I.
    + exists o. split.
      * unfold plain_call. cbn -[forward]. unfold forward. cbn -[launch_cpu contents].
        cbn [slices combine map fst snd] in Eo. cbn [g_formula of_pair sum_of] in Eo. cbn -[launch_cpu contents] in Eo. rewrite Eo. reflexivity.
      * destruct (Ho 0) as [_ [H _]]; [cbn; lia|]. specialize (H 1 eq_refl 0 Nat.lt_0_1). cbn in H. exact H.
Qed.

(** Parameters only. *)
Lemma parameters_only : forall d B x schedule junk tmp, complete schedule -> 1 <= d -> t_size x = [B; d] -> forall mem, exists o,
  vmap_call schedule junk tmp (of_parameter d) None None [Some 0] [x] mem = Ok ([1; d], o).
Proof.
  intros d B [sx ax] schedule junk tmp Sc Hd E mem. cbn [t_size] in E. subst sx.
  destruct (dense_rows (fun a => (d, 2)) (g_formula (of_parameter d)) (Sum_Red d) direct_sum 0
              (contents [Tensor [B; d] (fun idx => ax (swapped 0 0 idx))]) 1 1 schedule mem) as [o [Eo _]]; try assumption.
  - reflexivity.
  - split; [apply Nat.leb_le; assumption|exact I].
  - intros a. cbn. lia.
  - lia.
  - constructor.
  - exact I.
  - exists o. unfold vmap_call. cbn -[forward swapped]. unfold forward. cbn -[launch_cpu contents swapped].
    change (swapped 0 0 [B; d]) with [B; d]. cbn -[launch_cpu contents swapped].
    cbn [of_parameter sum_of g_formula] in Eo. rewrite Eo. reflexivity.
Qed.
