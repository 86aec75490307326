(** Facts about variables, tables and local copies. *)

From Coq Require Import ZArith Reals Arith Lia List Bool.
From Verif Require Import Result Formula SimplifyProofs BuildProofs KernelSum KernelSumSpec Loader.
Import ListNotations.

Lemma fvar_eqb_spec : forall v w, fvar_eqb v w = true <-> v = w.
Proof.
  intros [[i d] c] [[i' d'] c']. unfold fvar_eqb, vpos, vdim, vcat. cbn.
  rewrite !andb_true_iff, Z.eqb_eq, !Nat.eqb_eq. split; [intros [[-> ->] ->]; reflexivity|].
  intros H; inversion H; auto.
Qed.

Lemma insert_var_in : forall v l w, In w (insert_var v l) <-> w = v \/ In w l.
Proof.
  induction l as [|u l IH]; intros w; cbn [insert_var In]; [intuition|].
  destruct (Z.leb (vpos v) (vpos u)); cbn [In]; [intuition|]. rewrite IH. intuition.
Qed.
Lemma exists_var : forall v l, existsb (fvar_eqb v) l = true <-> In v l.
Proof.
  intros v l. rewrite existsb_exists. split.
  - intros [w [H E]]. apply fvar_eqb_spec in E. subst. assumption.
  - intros H. exists v. split; [assumption|]. apply fvar_eqb_spec. reflexivity.
Qed.
Lemma add_var_in : forall v l w, In w (add_var v l) <-> w = v \/ In w l.
Proof.
  intros v l w. unfold add_var. destruct (existsb (fvar_eqb v) l) eqn:E.
  - apply exists_var in E. intuition congruence.
  - apply insert_var_in.
Qed.
Lemma add_var_nodup : forall v l, NoDup l -> NoDup (add_var v l).
Proof.
  intros v l H. unfold add_var. destruct (existsb (fvar_eqb v) l) eqn:E; [assumption|].
  assert (N : ~ In v l) by (intros I; apply exists_var in I; congruence). clear E.
  induction H as [|u l Hu Hl IH]; cbn [insert_var]; [constructor; [intros []|constructor]|].
  destruct (Z.leb (vpos v) (vpos u)); [constructor; [assumption|constructor; assumption]|].
  constructor; [|apply IH; intros I; apply N; right; assumption].
  intros I. apply insert_var_in in I. destruct I as [->|I]; [apply N; left; reflexivity|contradiction].
Qed.
Lemma union_vars_in : forall l m w, In w (union_vars l m) <-> In w l \/ In w m.
Proof.
  unfold union_vars. induction l as [|v l IH]; intros m w; cbn [fold_right In]; [intuition|].
  rewrite add_var_in, IH. intuition.
Qed.

Lemma union_vars_nodup : forall l m, NoDup m -> NoDup (union_vars l m).
Proof.
  unfold union_vars. induction l as [|v l IH]; intros m H; cbn [fold_right]; [assumption|].
  apply add_var_nodup, IH, H.
Qed.
Lemma vars_nodup : forall f, NoDup (vars f).
Proof.
  induction f; cbn [vars]; try (apply union_vars_nodup); try (constructor; fail); try assumption.
  - constructor; [intros []|constructor].
  - apply union_vars_nodup. assumption.
Qed.

(** Every variable of a declared formula is declared, and has positive dimension. *)
Lemma vars_declared : forall decl f, declared decl f ->
  forall i d c, In (i, d, c) (vars f) -> decl i = (d, c).
Proof.
  induction f; cbn [declared vars In]; intros H i0 d0 c0 Hi;
    rewrite ?union_vars_in in Hi; try contradiction; try (intuition eauto; fail).
  destruct Hi as [Hi|[]]. inversion Hi; subst; assumption.
Qed.
Lemma vars_dim_pos : forall f, wf f -> forall i d c, In (i, d, c) (vars f) -> 1 <= d.
Proof.
  induction f; cbn [wf vars In]; intros H i0 d0 c0 Hi;
    rewrite ?union_vars_in in Hi; try contradiction; try (intuition eauto; fail).
  destruct Hi as [Hi|[]]. inversion Hi; subst. destruct H as [H _]. cbn [node_ok] in H.
  apply Nat.leb_le in H. assumption.
Qed.

(** Values depend only on the components of the variables. *)
Definition agree (vs : list fvar) (e e' : env) : Prop :=
  forall i d c, In (i, d, c) vs -> forall k, k < d -> e i k = e' i k.

Lemma agree_l : forall l m e e', agree (union_vars l m) e e' -> agree l e e'.
Proof. intros l m e e' H i d c Hi. apply (H i d c). apply union_vars_in. auto. Qed.
Lemma agree_r : forall l m e e', agree (union_vars l m) e e' -> agree m e e'.
Proof. intros l m e e' H i d c Hi. apply (H i d c). apply union_vars_in. auto. Qed.

Lemma bcv_ext : forall d D u v k, (forall k, k < d -> u k = v k) -> 1 <= d ->
  (d = D \/ d = 1) -> k < D -> bcv d u k = bcv d v k.
Proof.
  intros d D u v k H P Q K. unfold bcv. destruct (Nat.eqb_spec d 1); apply H; lia.
Qed.

Lemma eval_agree : forall f, wf f -> forall e e', agree (vars f) e e' ->
  forall k, k < dim f -> eval f e k = eval f e' k.
Proof.
  induction f; intros W e e' H k0 K; cbn [vars] in H; cbn [eval]; pose proof W as W0;
    cbn [wf] in W; destruct W as [N W].
  - apply (H i d c); [left; reflexivity|exact K].
  - reflexivity.
  - reflexivity.
  - reflexivity.
  - rewrite (IHf W e e' H) by exact K. reflexivity.
  - destruct W as [W1 W2]. pose proof (dim_pos _ W1) as Q1. pose proof (dim_pos _ W2) as Q2.
    pose proof (agree_l _ _ _ _ H) as H1. pose proof (agree_r _ _ _ _ H) as H2.
    cbn [dim] in K. cbn [node_ok] in N. unfold vcompat2 in N.
    rewrite orb_true_iff, !Nat.eqb_eq in N.
    rewrite (bcv_ext (dim f1) (max (dim f1) (dim f2)) _ (eval f1 e')); try lia.
    + rewrite (bcv_ext (dim f2) (max (dim f1) (dim f2)) _ (eval f2 e')); try lia; [reflexivity|].
      intros; apply IHf2; assumption.
    + intros; apply IHf1; assumption.
  - destruct W as (W1 & W2 & W3). pose proof (dim_pos _ W1) as Q1. pose proof (dim_pos _ W2) as Q2. pose proof (dim_pos _ W3) as Q3.
    pose proof (agree_l _ _ _ _ H) as H1. pose proof (agree_r _ _ _ _ H) as H2.
    pose proof (agree_l _ _ _ _ H2) as H3. pose proof (agree_r _ _ _ _ H2) as H4.
    cbn [dim] in K. cbn [node_ok] in N. unfold vcompat3 in N.
    rewrite !andb_true_iff, !orb_true_iff, !Nat.eqb_eq in N.
    set (D := max (max (dim f1) (dim f2)) (dim f3)) in *.
    rewrite (bcv_ext (dim f1) D _ (eval f1 e')); try lia.
    + rewrite (bcv_ext (dim f2) D _ (eval f2 e')); try lia.
      * rewrite (bcv_ext (dim f3) D _ (eval f3 e')); try lia; [reflexivity|]. intros; apply IHf3; assumption.
      * intros; apply IHf2; assumption.
    + intros; apply IHf1; assumption.
  - assert (G : forall k, k < dim f -> eval f e k = eval f e' k) by (intros; apply IHf; assumption).
    pose proof (dim_pos _ W).
    destruct l; cbn [linR]; cbn [node_ok] in N; cbn [dim] in K;
      rewrite ?andb_true_iff, ?Nat.eqb_eq, ?Nat.ltb_lt, ?Nat.leb_le in N.
    + apply rsum_ext; assumption.
    + apply G; lia.
    + apply G; lia.
    + destruct (k0 =? m); [apply G; lia|reflexivity].
    + apply G; lia.
    + destruct (Nat.leb_spec s k0); cbn [andb]; [|reflexivity].
      destruct (Nat.ltb_spec k0 (s + dim f)); [apply G; lia|reflexivity].
  - destruct W as [W1 W2]. pose proof (dim_pos _ W1) as P1. pose proof (dim_pos _ W2) as P2.
    assert (G : forall k, k < dim f1 -> eval f1 e k = eval f1 e' k)
      by (intros; apply IHf1; try assumption; eapply agree_l; eassumption).
    assert (G' : forall k, k < dim f2 -> eval f2 e k = eval f2 e' k)
      by (intros; apply IHf2; try assumption; eapply agree_r; eassumption).
    destruct b; cbn [bilR]; cbn [node_ok] in N; cbn [dim] in K; rewrite ?Nat.eqb_eq in N.
    + apply rsum_ext. intros k Hk. rewrite G, G' by lia. reflexivity.
    + apply rsum_ext. intros j Hj. rewrite G, G'; [reflexivity|lia|].
      pose proof (Nat.div_mod (dim f1) (dim f2) ltac:(lia)).
      assert ((k0 + 1) * dim f2 <= dim f1 / dim f2 * dim f2) by (apply Nat.mul_le_mono_r; lia). nia.
    + apply rsum_ext. intros j Hj. rewrite G, G'; [reflexivity| |lia].
      pose proof (Nat.div_mod (dim f2) (dim f1) ltac:(lia)).
      assert ((j + 1) * (dim f2 / dim f1) <= dim f1 * (dim f2 / dim f1)) by (apply Nat.mul_le_mono_r; lia). nia.
    + rewrite G, G'; [reflexivity| |].
      * apply Nat.mod_upper_bound. lia.
      * apply Nat.div_lt_upper_bound; lia.
  - destruct W as [W1 W2].
    assert (G : forall k, k < dim f1 -> eval f1 e k = eval f1 e' k)
      by (intros; apply IHf1; try assumption; eapply agree_l; eassumption).
    assert (G' : forall k, k < dim f2 -> eval f2 e k = eval f2 e' k)
      by (intros; apply IHf2; try assumption; eapply agree_r; eassumption).
    cbn [dim] in K. destruct (Nat.ltb_spec k0 (dim f1)); [apply G; assumption|apply G'; lia].
  - assert (G : forall k, k < dim f -> eval f e k = eval f e' k) by (intros; apply IHf; assumption).
    pose proof (dim_pos _ W) as P.
    destruct s; cbn [selR];
      try (rewrite (argsel_ext _ _ _ _ G); try reflexivity; apply G, argsel_lt, P).
    rewrite G by lia. reflexivity.
Qed.

(** ** Tables *)

(** Positions are distinct in a list of declared variables. *)
Lemma table_fill_miss : forall vs xloc k t i, ~ In i (map fst vs) -> table_fill vs xloc k t i = t i.
Proof.
  induction vs as [|[j d] vs IH]; intros xloc k t i H; cbn [table_fill]; [reflexivity|].
  cbn [map fst In] in H. rewrite IH by tauto. unfold put. destruct (Z.eqb_spec i j); [subst; tauto|reflexivity].
Qed.
Lemma direct_fill_miss : forall vs A r t i, ~ In i (map fst vs) -> direct_fill vs A r t i = t i.
Proof.
  induction vs as [|[j d] vs IH]; intros A r t i H; cbn [direct_fill]; [reflexivity|].
  cbn [map fst In] in H. rewrite IH by tauto. unfold put. destruct (Z.eqb_spec i j); [subst; tauto|reflexivity].
Qed.

Lemma direct_fill_hit : forall vs A r t i d,
  (forall d', In (i, d') vs -> d' = d) -> In (i, d) vs ->
  exists a, direct_fill vs A r t i = Some a /\ forall q, a q = A i (r * d + q).
Proof.
  induction vs as [|[j d0] vs IH]; intros A r t i d U H; [contradiction|]. cbn [direct_fill].
  destruct (in_dec Z.eq_dec i (map fst vs)) as [I|I].
  - apply IH; [intros; apply U; right; assumption|].
    apply in_map_iff in I. destruct I as [[i' d'] [E I]]. cbn in E. subst.
    rewrite (U d') in I by (right; exact I). exact I.
  - rewrite direct_fill_miss by assumption. destruct H as [H|H].
    + inversion H; subst. unfold put. rewrite Z.eqb_refl. eexists. split; [reflexivity|]. reflexivity.
    + exfalso. apply I. apply in_map_iff. exists (i, d). auto.
Qed.

(** A local copy, read back through the table. *)
Fixpoint offset (vs : list (Z * nat)) (i : Z) : nat :=
  match vs with
  | [] => 0
  | (j, d) :: vs => if Z.eqb i j then 0 else d + offset vs i
  end.
Fixpoint place (vs : list (Z * nat)) (i : Z) : nat :=
  match vs with
  | [] => 0
  | (j, d) :: vs => if Z.eqb i j then 0 else S (place vs i)
  end.

Lemma table_fill_hit : forall vs xloc k t i d, NoDup (map fst vs) -> In (i, d) vs ->
  exists a, table_fill vs xloc k t i = Some a /\ forall q, a q = xloc (k + offset vs i + q).
Proof.
  induction vs as [|[j d0] vs IH]; intros xloc k t i d ND H; [contradiction|]. cbn [table_fill offset].
  cbn [map fst] in ND. inversion ND as [|? ? Nj ND']; subst. destruct H as [H|H].
  - inversion H; subst. rewrite table_fill_miss by assumption. unfold put. rewrite Z.eqb_refl.
    exists (fun q => xloc (k + q)). split; [reflexivity|]. intros q. cbv beta. f_equal. lia.
  - destruct (Z.eqb_spec i j) as [->|Ne].
    + exfalso. apply Nj. apply in_map_iff. exists (j, d). auto.
    + destruct (IH xloc (k + d0) (put t j (fun q => xloc (k + q))) i d ND' H) as [a [E F]].
      exists a. split; [assumption|]. intros q. rewrite F. f_equal. lia.
Qed.

Lemma for_upR_block : forall d (g : nat -> R) a x,
  (forall v, v < d -> for_upR d (fun v x => rupd x (a + v) (g v)) x (a + v) = g v) /\
  (forall q, q < a \/ a + d <= q -> for_upR d (fun v x => rupd x (a + v) (g v)) x q = x q).
Proof.
  induction d as [|d IH]; intros g a x; cbn [for_upR]; [split; [lia|reflexivity]|].
  destruct (IH g a x) as [H1 H2]. split.
  - intros v Hv. unfold rupd at 1. destruct (Nat.eqb_spec (a + v) (a + d)) as [E|E].
    + f_equal. lia.
    + apply H1. lia.
  - intros q Hq. unfold rupd at 1. destruct (Nat.eqb_spec q (a + d)); [lia|]. apply H2. lia.
Qed.

Lemma load_vars_below : forall vs A rows u a x q, q < a -> load_vars vs A rows u a x q = x q.
Proof.
  induction vs as [|[j d] vs IH]; intros A rows u a x q H; cbn [load_vars]; [reflexivity|].
  rewrite IH by lia. apply (for_upR_block d (fun v => A j (rows u * d + v))). lia.
Qed.

Lemma load_vars_above : forall vs A rows u a x q, a + dims vs <= q -> load_vars vs A rows u a x q = x q.
Proof.
  unfold dims. induction vs as [|[j d] vs IH]; intros A rows u a x q H; cbn [load_vars]; [reflexivity|].
  cbn [fold_right snd] in H. rewrite IH by lia. apply (for_upR_block d (fun v => A j (rows u * d + v))). lia.
Qed.

Lemma load_vars_hit : forall vs A rows u a x i d, NoDup (map fst vs) -> In (i, d) vs ->
  forall q, q < d ->
    load_vars vs A rows u a x (a + offset vs i + q) = A i (rows (u + place vs i) * d + q).
Proof.
  induction vs as [|[j d0] vs IH]; intros A rows u a x i d ND H q Hq; [contradiction|].
  cbn [load_vars offset place]. cbn [map fst] in ND. inversion ND as [|? ? Nj ND']; subst. destruct H as [H|H].
  - inversion H; subst. rewrite Z.eqb_refl. rewrite !Nat.add_0_r. rewrite load_vars_below by lia.
    apply (for_upR_block d (fun v => A i (rows u * d + v))). assumption.
  - destruct (Z.eqb_spec i j) as [->|Ne].
    + exfalso. apply Nj. apply in_map_iff. exists (j, d). auto.
    + replace (a + (d0 + offset vs i) + q) with (a + d0 + offset vs i + q) by lia.
      rewrite IH with (d := d) by assumption. rewrite <- Nat.add_succ_comm. reflexivity.
Qed.

(** ** Loaders of declared formulas *)
Lemma vars_cat_in : forall f c i d, In (i, d) (vars_cat f c) <-> In (i, d, c) (vars f).
Proof.
  intros f c i d. unfold vars_cat. rewrite in_map_iff. split.
  - intros [[[i' d'] c'] [E H]]. apply filter_In in H. destruct H as [H Ec]. cbn in E, Ec.
    apply Nat.eqb_eq in Ec. unfold vcat in Ec. cbn in Ec. inversion E; subst. assumption.
  - intros H. exists (i, d, c). split; [reflexivity|]. apply filter_In. split; [assumption|].
    unfold vcat. cbn. apply Nat.eqb_refl.
Qed.

Lemma vars_cat_nodup : forall decl f c, declared decl f -> NoDup (map fst (vars_cat f c)).
Proof.
  intros decl f c D. pose proof (vars_declared decl f D) as U. pose proof (vars_nodup f) as ND.
  unfold vars_cat. induction (vars f) as [|[[i d] c'] l IH]; [constructor|].
  inversion ND as [|? ? Nv ND']; subst.
  assert (IH' : NoDup (map fst (map fst (filter (fun v => vcat v =? c) l)))).
  { apply IH; [intros; apply U; right; assumption|assumption]. }
  cbn [filter]. destruct (vcat (i, d, c') =? c); [|assumption]. cbn [map fst]. constructor; [|assumption].
  intros I. apply in_map_iff in I. destruct I as [[i' d'] [E I]]. cbn in E. subst i'.
  apply in_map_iff in I. destruct I as [[[i2 d2] c2] [E I]]. cbn in E. inversion E; subst.
  apply filter_In in I. destruct I as [I _]. apply Nv.
  pose proof (U i d' c2 (or_intror I)) as E1. pose proof (U i d c' (or_introl eq_refl)) as E2.
  rewrite E1 in E2. inversion E2; subst. assumption.
Qed.

(** Row read for a category when the outer index is n and the inner index m. *)
Definition loop_row (tagI c n m : nat) : nat :=
  if c =? tagI then n else if c =? 1 - tagI then m else 0.

Lemma direct_table_env : forall decl f tagI A n m, declared decl f -> tagI <= 1 ->
  (forall i d c, In (i, d, c) (vars f) -> c <= 2) ->
  table_ok f (direct_table (loader f tagI) A n m) = true /\
  agree (vars f) (table_env (direct_table (loader f tagI) A n m))
    (fun i q => A i (loop_row tagI (snd (decl i)) n m * fst (decl i) + q)).
Proof.
  intros decl f tagI A n m D T C.
  assert (U : forall i d c, In (i, d, c) (vars f) -> decl i = (d, c)) by (apply vars_declared, D).
  assert (G : forall i d c, In (i, d, c) (vars f) ->
    exists a, direct_table (loader f tagI) A n m i = Some a /\
      forall q, a q = A i (loop_row tagI c n m * d + q)).
  { intros i d c Hi. pose proof (C i d c Hi) as Hc. pose proof (U i d c Hi) as Hd.
    assert (Hit : forall c' d', In (i, d') (vars_cat f c') -> d' = d /\ c' = c).
    { intros c' d' H. apply vars_cat_in in H. apply U in H. rewrite Hd in H. inversion H; auto. }
    assert (Miss : forall c', c' <> c -> ~ In i (map fst (vars_cat f c'))).
    { intros c' Hne H. apply in_map_iff in H. destruct H as [[i' d'] [E H]]. cbn in E. subst i'.
      apply Hit in H. tauto. }
    unfold direct_table, loader, loop_row. cbn [varsI varsJ varsP].
    assert (Hin : In (i, d) (vars_cat f c)) by (apply vars_cat_in; assumption).
    destruct (Nat.eqb_spec c tagI) as [->|N1].
    - rewrite direct_fill_miss by (apply Miss; lia).
      rewrite direct_fill_miss by (apply Miss; lia).
      apply direct_fill_hit; [|assumption]. intros; apply Hit in H; tauto.
    - destruct (Nat.eqb_spec c (1 - tagI)) as [->|N2].
      + rewrite direct_fill_miss by (apply Miss; lia).
        apply direct_fill_hit; [|assumption]. intros; apply Hit in H; tauto.
      + assert (c = 2) by lia. subst. apply direct_fill_hit; [|assumption]. intros; apply Hit in H; tauto. }
  split.
  - unfold table_ok. apply forallb_forall. intros [[i d] c] Hi.
    destruct (G i d c Hi) as [a [E _]]. unfold vpos. cbn [fst]. rewrite E. reflexivity.
  - intros i d c Hi k Hk. destruct (G i d c Hi) as [a [E F]]. unfold table_env. rewrite E, F.
    rewrite (U i d c Hi). reflexivity.
Qed.
