(** Lemmas on the GPU model: assignments in any order, shared memory, tiles. *)

From Coq Require Import ZArith Reals Arith Lia List Bool Permutation.
From Verif Require Import Result Formula XReal Reductions ReductionSpec RedLoops KernelSum KernelSumSpec
  SumSpec LseSpec Postprocess CpuReduc Loader LoaderProofs CpuConv CpuConvSpec GpuConv
  C06Proofs C09Proofs C11Proofs C12Proofs.
Import ListNotations.

(** ** Assignments to distinct cells commute *)
Lemma assign_miss : forall (V W : Type) (cell : W -> nat) (val : W -> V) l (x : nat -> V) q,
  ~ In q (map cell l) ->
  fold_left (fun x w => fun p => if Nat.eqb p (cell w) then val w else x p) l x q = x q.
Proof.
  intros V W cell val l. induction l as [|w l IH]; intros x q H; cbn [fold_left]; [reflexivity|].
  cbn [map In] in H. rewrite IH by tauto. destruct (Nat.eqb_spec q (cell w)); [|reflexivity].
  exfalso. apply H. left. congruence.
Qed.
Lemma assign_hit : forall (V W : Type) (cell : W -> nat) (val : W -> V) l (x : nat -> V) w,
  NoDup (map cell l) -> In w l ->
  fold_left (fun x w => fun p => if Nat.eqb p (cell w) then val w else x p) l x (cell w) = val w.
Proof.
  intros V W cell val l. induction l as [|u l IH]; intros x w ND H; [contradiction|].
  cbn [fold_left]. cbn [map] in ND. inversion ND as [|? ? Nu ND']; subst. destruct H as [->|H].
  - rewrite assign_miss by assumption. rewrite Nat.eqb_refl. reflexivity.
  - apply IH; assumption.
Qed.

Lemma perform_hit : forall A l l' x c, Permutation l' l -> NoDup (map dst l) -> In c l ->
  perform A l' x (dst c) = A (src c) (spos c).
Proof.
  intros A l l' x c P ND H. unfold perform, rupd.
  apply (assign_hit _ _ dst (fun c => A (src c) (spos c))).
  - eapply Permutation_NoDup; [|exact ND]. apply Permutation_map, Permutation_sym, P.
  - eapply Permutation_in; [apply Permutation_sym, P|assumption].
Qed.
Lemma stores_hit : forall l l' x w, Permutation l' l -> NoDup (map fst l) -> In w l ->
  perform_stores l' x (fst w) = snd w.
Proof.
  intros l l' x w P ND H. unfold perform_stores, upd. apply (assign_hit _ _ fst snd).
  - eapply Permutation_NoDup; [|exact ND]. apply Permutation_map, Permutation_sym, P.
  - eapply Permutation_in; [apply Permutation_sym, P|assumption].
Qed.
Lemma stores_miss : forall l l' x q, Permutation l' l -> ~ In q (map fst l) ->
  perform_stores l' x q = x q.
Proof.
  intros l l' x q P H. unfold perform_stores, upd. apply (assign_miss _ _ fst snd).
  intros I. apply H. eapply Permutation_in; [apply Permutation_map, P|exact I].
Qed.

(** ** Concatenations without duplicates *)
Lemma nodup_app : forall (T : Type) (l m : list T), NoDup l -> NoDup m ->
  (forall x, In x l -> ~ In x m) -> NoDup (l ++ m).
Proof.
  intros T l m Hl Hm H. induction Hl as [|x l Nx Hl IH]; cbn [app]; [assumption|]. constructor.
  - rewrite in_app_iff. intros [I|I]; [contradiction|]. apply (H x); [left; reflexivity|assumption].
  - apply IH. intros y Hy. apply H. right. assumption.
Qed.

(** Slices of width d written by the elements of seq 0 n, some of them inactive. *)
Lemma slices_nodup : forall d n (g : nat -> list nat),
  (forall t, t < n -> g t = seq (t * d) d \/ g t = []) -> NoDup (flat_map g (seq 0 n)).
Proof.
  intros d n g. induction n as [|n IH]; intros H; [constructor|].
  rewrite seq_S, flat_map_app. cbn [Nat.add flat_map]. rewrite app_nil_r. apply nodup_app.
  - apply IH. intros; apply H; lia.
  - destruct (H n ltac:(lia)) as [->| ->]; [apply seq_NoDup|constructor].
  - intros x Hx Hx'. apply in_flat_map in Hx. destruct Hx as [t [Ht Hx]]. apply in_seq in Ht.
    destruct (H t ltac:(lia)) as [E|E]; rewrite E in Hx; [|contradiction].
    destruct (H n ltac:(lia)) as [E'|E']; rewrite E' in Hx'; [|contradiction].
    apply in_seq in Hx, Hx'.
    assert ((t + 1) * d <= n * d) by (apply Nat.mul_le_mono_r; lia). lia.
Qed.

Lemma map_flat_map : forall (T U W : Type) (h : U -> W) (g : T -> list U) l,
  map h (flat_map g l) = flat_map (fun x => map h (g x)) l.
Proof. induction l as [|x l IH]; cbn; [reflexivity|]. rewrite map_app, IH. reflexivity. Qed.

(** ** load_vars as a list of assignments *)
Lemma load_copies_dst : forall vs rows u a, map dst (load_copies vs rows u a) = seq a (dims vs).
Proof.
  unfold dims. induction vs as [|[i d] vs IH]; intros rows u a; cbn [load_copies fold_right snd]; [reflexivity|].
  rewrite map_app, map_map, IH. cbn [dst]. rewrite seq_app. f_equal.
  assert (G : forall e s, map (fun x => a + x) (seq s e) = seq (a + s) e).
  { induction e as [|d0 IHd]; intros s0; cbn; [reflexivity|]. f_equal. rewrite IHd. f_equal. lia. }
  rewrite G. f_equal. lia.
Qed.

Lemma load_copies_in : forall vs rows u a i d, NoDup (map fst vs) -> In (i, d) vs ->
  forall q, q < d ->
  In {| dst := a + offset vs i + q; src := i; spos := rows (u + place vs i) * d + q |}
     (load_copies vs rows u a).
Proof.
  induction vs as [|[j d0] vs IH]; intros rows u a i d ND H q Hq; [contradiction|].
  cbn [load_copies offset place]. cbn [map fst] in ND. inversion ND as [|? ? Nj ND']; subst.
  apply in_or_app. destruct H as [H|H].
  - left. inversion H; subst. rewrite Z.eqb_refl, !Nat.add_0_r. apply in_map_iff. exists q.
    split; [reflexivity|apply in_seq; lia].
  - destruct (Z.eqb_spec i j) as [->|Ne].
    + exfalso. apply Nj. apply in_map_iff. exists (j, d). auto.
    + right. specialize (IH rows (S u) (a + d0) i d ND' H q Hq).
      replace (a + (d0 + offset vs i) + q) with (a + d0 + offset vs i + q) by lia.
      rewrite <- Nat.add_succ_comm. exact IH.
Qed.

Lemma load_copies_src : forall vs rows u a c, In c (load_copies vs rows u a) ->
  exists d v, In (src c, d) vs /\ v < d /\ exists u', spos c = rows u' * d + v.
Proof.
  induction vs as [|[j d0] vs IH]; intros rows u a c H; cbn [load_copies] in H; [contradiction|].
  apply in_app_or in H. destruct H as [H|H].
  - apply in_map_iff in H. destruct H as [v [<- Hv]]. apply in_seq in Hv. cbn.
    exists d0, v. split; [left; reflexivity|]. split; [lia|]. exists u. reflexivity.
  - destruct (IH _ _ _ _ H) as [d [v [H1 H2]]]. exists d, v. split; [right; assumption|assumption].
Qed.

(** ** Shared memory *)
Lemma block_copies_nodup : forall L bd ny tile, NoDup (map dst (block_copies L bd ny tile)).
Proof.
  intros L bd ny tile. unfold block_copies. rewrite map_flat_map.
  apply (slices_nodup (dims (varsJ L))). intros t _. unfold thread_copies.
  destruct (tile * bd + t <? ny); [left; apply load_copies_dst|right; reflexivity].
Qed.

Lemma block_copies_in : forall L bd ny tile t i d q, NoDup (map fst (varsJ L)) ->
  t < bd -> tile * bd + t < ny -> In (i, d) (varsJ L) -> q < d ->
  In {| dst := t * dims (varsJ L) + offset (varsJ L) i + q; src := i; spos := (tile * bd + t) * d + q |}
     (block_copies L bd ny tile).
Proof.
  intros L bd ny tile t i d q ND Ht Hj Hi Hq. unfold block_copies. apply in_flat_map. exists t.
  split; [apply in_seq; lia|]. unfold thread_copies.
  assert (E : (tile * bd + t <? ny) = true) by (apply Nat.ltb_lt; assumption). rewrite E.
  exact (load_copies_in (varsJ L) (fun _ => tile * bd + t) 0 (t * dims (varsJ L)) i d ND Hi q Hq).
Qed.

Lemma loaded_row : forall A L bd ny tile l x t i d q, Permutation l (block_copies L bd ny tile) ->
  NoDup (map fst (varsJ L)) -> t < bd -> tile * bd + t < ny -> In (i, d) (varsJ L) -> q < d ->
  perform A l x (t * dims (varsJ L) + offset (varsJ L) i + q) = A i ((tile * bd + t) * d + q).
Proof.
  intros A L bd ny tile l x t i d q P ND Ht Hj Hi Hq.
  exact (perform_hit A _ l x _ P (block_copies_nodup L bd ny tile)
           (block_copies_in L bd ny tile t i d q ND Ht Hj Hi Hq)).
Qed.

Lemma shared_row : forall o L A bd ny tile junk t i d q,
  (forall n l, Permutation (o n l) l) -> NoDup (map fst (varsJ L)) ->
  t < bd -> tile * bd + t < ny -> In (i, d) (varsJ L) -> q < d ->
  shared o L A bd ny tile junk (t * dims (varsJ L) + offset (varsJ L) i + q) = A i ((tile * bd + t) * d + q).
Proof.
  intros o L A bd ny tile junk t i d q P ND Ht Hj Hi Hq. destruct tile; cbn [shared];
    eapply loaded_row; eauto.
Qed.

(** ** Tables of local copies *)
Lemma table_agree : forall decl f tagI xi yj pp (gi gj gp : Z -> nat -> R),
  declared decl f -> tagI <= 1 -> categories decl ->
  (forall i d, In (i, d) (varsI (loader f tagI)) -> forall q, q < d -> xi (offset (varsI (loader f tagI)) i + q) = gi i q) ->
  (forall i d, In (i, d) (varsJ (loader f tagI)) -> forall q, q < d -> yj (offset (varsJ (loader f tagI)) i + q) = gj i q) ->
  (forall i d, In (i, d) (varsP (loader f tagI)) -> forall q, q < d -> pp (offset (varsP (loader f tagI)) i + q) = gp i q) ->
  table_ok f (table (loader f tagI) xi yj pp) = true /\
  agree (vars f) (table_env (table (loader f tagI) xi yj pp))
    (fun i => if snd (decl i) =? tagI then gi i else if snd (decl i) =? 1 - tagI then gj i else gp i).
Proof.
  intros decl f tagI xi yj pp gi gj gp D T C HI HJ HP.
  assert (U : forall i d c, In (i, d, c) (vars f) -> decl i = (d, c)) by (apply vars_declared, D).
  assert (G : forall i d c, In (i, d, c) (vars f) ->
    exists a, table (loader f tagI) xi yj pp i = Some a /\
      forall q, q < d -> a q = (if c =? tagI then gi i else if c =? 1 - tagI then gj i else gp i) q).
  { intros i d c Hi. pose proof (U i d c Hi) as Hd.
    assert (Hc : c <= 2) by (specialize (C i); rewrite Hd in C; exact C).
    assert (Miss : forall c', c' <> c -> ~ In i (map fst (vars_cat f c'))).
    { intros c' Hne H. apply in_map_iff in H. destruct H as [[i' d'] [E H]]. cbn in E. subst i'.
      apply vars_cat_in in H. apply U in H. rewrite Hd in H. congruence. }
    assert (Hin : In (i, d) (vars_cat f c)) by (apply vars_cat_in; assumption).
    pose proof (vars_cat_nodup decl f c D) as ND.
    unfold table, loader in *. cbn [varsI varsJ varsP] in *.
    destruct (Nat.eqb_spec c tagI) as [->|N1].
    - rewrite table_fill_miss by (apply Miss; lia).
      rewrite table_fill_miss by (apply Miss; lia).
      destruct (table_fill_hit _ xi 0 no_table i d ND Hin) as [a [E F]]. exists a. split; [assumption|].
      intros q Hq. rewrite F. apply (HI i d Hin q Hq).
    - destruct (Nat.eqb_spec c (1 - tagI)) as [->|N2].
      + rewrite table_fill_miss by (apply Miss; lia).
        destruct (table_fill_hit _ yj 0 (table_fill (vars_cat f tagI) xi 0 no_table) i d ND Hin) as [a [E F]].
        exists a. split; [assumption|]. intros q Hq. rewrite F. apply (HJ i d Hin q Hq).
      + assert (c = 2) by lia. subst.
        destruct (table_fill_hit _ pp 0 (table_fill (vars_cat f (1 - tagI)) yj 0 (table_fill (vars_cat f tagI) xi 0 no_table)) i d ND Hin) as [a [E F]].
        exists a. split; [assumption|]. intros q Hq. rewrite F. apply (HP i d Hin q Hq). }
  split.
  - unfold table_ok. apply forallb_forall. intros [[i d] c] Hi.
    destruct (G i d c Hi) as [a [E _]]. unfold vpos. cbn [fst]. rewrite E. reflexivity.
  - intros i d c Hi k Hk. destruct (G i d c Hi) as [a [E F]]. unfold table_env. rewrite E, (F k Hk).
    rewrite (U i d c Hi). reflexivity.
Qed.

(** The table is complete whatever the arrays contain. *)
Lemma table_complete : forall decl f tagI xi yj pp, declared decl f -> tagI <= 1 -> categories decl ->
  table_ok f (table (loader f tagI) xi yj pp) = true.
Proof.
  intros decl f tagI xi yj pp D T C.
  apply (table_agree decl f tagI xi yj pp
    (fun i q => xi (offset (varsI (loader f tagI)) i + q))
    (fun i q => yj (offset (varsJ (loader f tagI)) i + q))
    (fun i q => pp (offset (varsP (loader f tagI)) i + q)) D T C); reflexivity.
Qed.

(** Values computed by a thread from its registers and a loaded tile. *)
Lemma tile_fout_terms : forall decl f tagI A n j t sh regs,
  declared decl f -> wf f -> categories decl -> tagI <= 1 ->
  (forall i d q, In (i, d) (varsJ (loader f tagI)) -> q < d ->
     sh (t * dims (varsJ (loader f tagI)) + offset (varsJ (loader f tagI)) i + q) = A i (j * d + q)) ->
  same_below (dim f)
    (tile_fout f (loader f tagI) (load_vars (varsI (loader f tagI)) A (fun _ => n) 0 0 regs) sh
               (load_vars (varsP (loader f tagI)) A (fun _ => 0) 0 0 regs) t)
    (terms decl A f tagI n j).
Proof.
  intros decl f tagI A n j t sh regs D W C T H k Hk. unfold tile_fout, terms. f_equal.
  set (L := loader f tagI) in *.
  destruct (table_agree decl f tagI (load_vars (varsI L) A (fun _ => n) 0 0 regs)
              (fun q => sh (t * dims (varsJ L) + q)) (load_vars (varsP L) A (fun _ => 0) 0 0 regs)
              (fun i q => A i (n * fst (decl i) + q)) (fun i q => A i (j * fst (decl i) + q))
              (fun i q => A i (0 * fst (decl i) + q)) D T C) as [_ Ag].
  - intros i d Hi q Hq. pose proof (load_vars_hit (varsI L) A (fun _ => n) 0 0 regs i d) as E.
    cbn [Nat.add] in E. fold L. rewrite E; [|eapply vars_cat_nodup; eauto|assumption|assumption].
    apply vars_cat_in in Hi. apply (vars_declared decl f D) in Hi. rewrite Hi. reflexivity.
  - intros i d Hi q Hq. fold L. rewrite Nat.add_assoc. rewrite (H i d q Hi Hq).
    apply vars_cat_in in Hi. apply (vars_declared decl f D) in Hi. rewrite Hi. reflexivity.
  - intros i d Hi q Hq. pose proof (load_vars_hit (varsP L) A (fun _ => 0) 0 0 regs i d) as E.
    cbn [Nat.add] in E. fold L. rewrite E; [|eapply vars_cat_nodup; eauto|assumption|assumption].
    reflexivity.
  - apply eval_agree; [assumption| |assumption]. intros i d c Hi q Hq. etransitivity; [exact (Ag i d c Hi q Hq)|].
    pose proof (vars_declared decl f D i d c Hi) as Hd.
    assert (Hc : c <= 2) by (specialize (C i); rewrite Hd in C; exact C).
    rewrite Hd. cbn [fst snd].
    destruct tagI as [|[|]]; [| |lia]; unfold point, contiguous, row; rewrite Hd; cbn [fst snd];
      destruct c as [|[|[|]]]; try lia; reflexivity.
Qed.

(** ** Tiles and blocks *)
Lemma tiles_bounds : forall bd ny, 1 <= bd -> ny <= tiles bd ny * bd /\ (0 < ny -> (tiles bd ny - 1) * bd < ny).
Proof.
  intros bd ny H. unfold tiles.
  pose proof (Nat.div_mod (ny + bd - 1) bd ltac:(lia)) as E.
  pose proof (Nat.mod_upper_bound (ny + bd - 1) bd ltac:(lia)) as B.
  set (q := (ny + bd - 1) / bd) in *. split; [nia|]. intros P. destruct q; nia.
Qed.
Lemma blocks_tiles : forall n bd, 1 <= bd -> blocks n bd = tiles bd n.
Proof.
  intros n bd H. unfold blocks, tiles.
  pose proof (Nat.div_mod n bd ltac:(lia)) as E. pose proof (Nat.mod_upper_bound n bd ltac:(lia)) as B.
  destruct (Nat.eqb_spec (n mod bd) 0) as [Z|Z].
  - rewrite Nat.add_0_r. apply (Nat.div_unique _ _ _ (bd - 1)); nia.
  - apply (Nat.div_unique _ _ _ (n mod bd - 1)); nia.
Qed.
Lemma tile_lt : forall bd ny tile, 1 <= bd -> tile < tiles bd ny -> tile * bd < ny.
Proof.
  intros bd ny tile H Ht. destruct (tiles_bounds bd ny H) as [H1 H2].
  assert (0 < ny). { destruct ny; [|lia]. unfold tiles in Ht. rewrite Nat.div_small in Ht; lia. }
  assert (tile * bd <= (tiles bd ny - 1) * bd) by (apply Nat.mul_le_mono_r; lia). lia.
Qed.

(** A loop over tiles, then inside the tile, visits 0, 1, ..., ny-1. *)
Lemma for_up_add : forall (S : Type) m n (body : nat -> S -> S) s,
  for_up (m + n) body s = for_up n (fun k => body (m + k)) (for_up m body s).
Proof.
  intros S m n body s. induction n as [|n IH]; cbn [for_up]; [rewrite Nat.add_0_r; reflexivity|].
  rewrite Nat.add_succ_r. cbn [for_up]. rewrite IH. reflexivity.
Qed.
Lemma tiled_prefix : forall (S : Type) bd ny (body : nat -> S -> S) s m,
  for_up m (fun tile s => for_up (Nat.min bd (ny - tile * bd)) (fun jrel => body (tile * bd + jrel)) s) s
  = for_up (Nat.min ny (m * bd)) body s.
Proof.
  intros S bd ny body s. induction m as [|m IH]; cbn [for_up]; [rewrite Nat.min_0_r; reflexivity|].
  rewrite IH. destruct (Nat.le_gt_cases ny (m * bd)) as [H|H].
  - replace (ny - m * bd) with 0 by lia. rewrite Nat.min_0_r. cbn [for_up]. f_equal. cbn. lia.
  - rewrite (Nat.min_r ny (m * bd)) by lia. rewrite <- for_up_add. f_equal. cbn. lia.
Qed.

(** Abstract tiled reduction: what thread_1d does with the values F 0, F 1, ... *)
Definition tiled (r : reduction) (op : scheme_ops) (bd ny m : nat) (F : nat -> cells) (tmp : cells) : cells * cells :=
  for_up m (fun tile st =>
    final_op op (for_up (Nat.min bd (ny - tile * bd)) (fun jrel st =>
        accumulate op st (F (tile * bd + jrel)) (Z.of_nat (jrel + tile * bd)))
      (fst st, block_init op (snd st)))) (rinit r, first_init op tmp).

Lemma ops_local : forall d r s op st x y z, reduction_of d r -> scheme_code r s = Ok op ->
  same_below d x y -> accumulate op st x z = accumulate op st y z.
Proof.
  intros d r s op st x y z R E H. destruct s; cbn [scheme_code] in E.
  - assert (E' : op = {| first_init := fun tmp => tmp; block_init := fun tmp => tmp;
      accumulate := fun st fout j => (rshort r (fst st) fout j, snd st); final_op := fun st => st |}) by congruence.
    subst op. cbn. f_equal. eapply short_local; eauto.
  - destruct (rpair r) as [p| | |]; cbn in E; try discriminate. inversion E; subst. cbn. f_equal.
    eapply short_local; eauto.
  - destruct (rkahan r) as [p| | |] eqn:K; cbn in E; try discriminate. inversion E; subst. cbn.
    eapply kahan_local; eauto.
Qed.

Lemma thread_1d_terms : forall decl f tagI r s op A bd ny i sh regs tmp,
  declared decl f -> wf f -> categories decl -> tagI <= 1 ->
  reduction_of (dim f) r -> scheme_code r s = Ok op ->
  (forall tile t a d q, t < bd -> tile * bd + t < ny -> In (a, d) (varsJ (loader f tagI)) -> q < d ->
     sh tile (t * dims (varsJ (loader f tagI)) + offset (varsJ (loader f tagI)) a + q) = A a ((tile * bd + t) * d + q)) ->
  thread_1d r op f (loader f tagI) A bd ny i sh regs tmp =
  tiled r op bd ny (tiles bd ny) (terms decl A f tagI i) tmp.
Proof.
  intros decl f tagI r s op A bd ny i sh regs tmp D W C T R E H. unfold thread_1d, tiled. cbv zeta.
  apply for_up_ext. intros tile st Ht. f_equal. apply for_up_ext. intros jrel st' Hj.
  eapply ops_local; [exact R|exact E|]. apply tile_fout_terms; try assumption.
  intros a d q Ha Hq. apply H; [lia|lia|assumption|assumption].
Qed.
