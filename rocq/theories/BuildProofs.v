From Coq Require Import ZArith Reals List Bool Lia Lra.
From Verif Require Import Result Formula Simplify SimplifyProofs Termination NoError Build.
Local Open Scope nat_scope.

(** Two formulas with the same dimension and the same entries. *)
Definition same_at (e : env) (f h : fm) : Prop :=
  dim h = dim f /\ forall k, k < dim f -> eval h e k = eval f e k.

Lemma same_val : forall e f h k, same_at e f h -> 1 <= dim f -> vok (dim f) k ->
  val h e k = val f e k.
Proof.
  intros e f h k [D E] P K. unfold val, bcv. rewrite D.
  destruct (Nat.eqb_spec (dim f) 1) as [D1|D1].
  - apply E; lia.
  - apply E. destruct K; lia.
Qed.

Lemma val_same : forall e f h, dim h = dim f ->
  (forall k, vok (dim f) k -> val h e k = val f e k) -> same_at e f h.
Proof.
  intros e f h D V. split; auto. intros k K.
  rewrite <- !val_lt by lia. apply V. left; auto.
Qed.

Lemma argsel_S : forall lt u n, argsel lt u (S (S n)) =
  if lt (u (argsel lt u (S n))) (u (S n)) then S n else argsel lt u (S n).
Proof. reflexivity. Qed.

Lemma argsel_lt : forall lt n u, 1 <= n -> argsel lt u n < n.
Proof.
  intros lt n u H. destruct n as [|n]; [lia|]. clear H. induction n as [|n IH]; [simpl; lia|].
  rewrite argsel_S. destruct (lt _ _); lia.
Qed.

Lemma argsel_ext : forall lt n u v, (forall k, k < n -> u k = v k) ->
  argsel lt u n = argsel lt v n.
Proof.
  intros lt n u v. destruct n as [|n]; auto. induction n as [|n IH]; intros H; auto.
  rewrite !argsel_S, IH by auto. rewrite !H; auto.
  assert (B := argsel_lt lt (S n) v). lia.
Qed.

(** The result agrees with the node applied to children that agree. *)
Definition sim (f h : fm) : Prop :=
  wf h /\ dim h = dim f /\ forall e, safe e f -> safe e h /\ same_at e f h.

Lemma sim_of2 : forall op f g h raw, sound2 safe_doms op f g h -> wf f -> wf g ->
  dim raw = max (dim f) (dim g) ->
  (forall e, safe e raw -> safe e f /\ safe e g) ->
  (forall e k, val raw e k = op (val f e k) (val g e k)) -> sim raw h.
Proof.
  intros op f g h raw S Wf Wg D Sf V. destruct (S Wf Wg) as (A & _ & B & C).
  split; auto. split; [congruence|]. intros e Se. destruct (Sf e Se).
  destruct (C e) as [C1 C2]; auto. split; auto. apply val_same; [congruence|].
  intros k K. rewrite C2, V; auto. congruence.
Qed.

Lemma build_un_sim : forall u f h, build_un u f = Ok h -> wf f -> sim (Un u f) h.
Proof.
  intros u f h H W.
  assert (G : forall op, sound1 safe_doms op f h ->
            (forall x, unR u x = op x) -> (forall x, unDom u x) -> sim (Un u f) h).
  { intros op S E D. destruct (S W) as (A & B & C). split; auto. split; auto.
    intros e [Se _]. destruct (C e Se) as [C1 C2]. split; auto.
    apply val_same; auto. intros k K. rewrite C2, val_un, E; auto. cbn [dim] in K. congruence. }
  assert (M : mk (Un u f) = Ok h -> sim (Un u f) h).
  { intros E. apply mk_ok in E as [-> _]. split; [split; auto|]. split; auto.
    intros e Se. split; auto. repeat split. }
  destruct u; try (apply M; exact H).
  - apply (G Ropp); [|intros; reflexivity|simpl; auto].
    eapply Minus_ok; eauto using safe_arith_ok.
  - apply (G (fun x => x * x)%R); [|intros; reflexivity|simpl; auto].
    eapply Square_ok; eauto using safe_arith_ok.
  - cbn [build_un] in H. apply (Pow_ok safe_doms safe_arith_ok) in H; auto.
    destruct H as (A & B & C). split; auto. split; auto. intros e [Se Sd].
    destruct (C e Se Sd) as [C1 C2]. split; auto. apply val_same; auto.
    intros k _. rewrite C2, val_un. reflexivity.
Qed.

Lemma build_bin_sim : forall b f g h, build_bin b f g = Ok h -> wf f -> wf g ->
  wf (Bin b f g) /\ sim (Bin b f g) h.
Proof.
  intros b f g h H Wf Wg. assert (Pf := dim_pos _ Wf). assert (Pg := dim_pos _ Wg).
  assert (G : forall op, sound2 safe_doms op f g h ->
            (forall x y, binR b x y = op x y) -> wf (Bin b f g) /\ sim (Bin b f g) h).
  { intros op S E. destruct (S Wf Wg) as (A & C & _).
    split; [apply wf_bin; auto|].
    eapply sim_of2; eauto.
    - intros e Se. cbn in Se. tauto.
    - intros e k. rewrite val_bin, E; auto. }
  assert (M : mk (Bin b f g) = Ok h -> wf (Bin b f g) /\ sim (Bin b f g) h).
  { intros E. apply mk_ok in E as [-> N].
    assert (W : wf (Bin b f g)) by (split; auto).
    split; auto. split; auto. split; auto.
    intros e Se. split; auto. repeat split. }
  destruct b; try (apply M; exact H).
  - apply (G Rplus); [|intros; reflexivity]. eapply Add_ok; eauto using safe_arith_ok.
  - apply (G Rminus); [|intros; reflexivity]. eapply Subtract_ok; eauto using safe_arith_ok.
  - apply (G Rmult); [|intros; reflexivity]. eapply Mult_ok; eauto using safe_arith_ok.
  - cbn [build_bin] in H. apply (Divide_ok safe_doms safe_arith_ok) in H; auto.
    destruct H as (A & B & C & D).
    split; [apply wf_bin; auto|]. split; auto. split; auto. intros e Se. cbn in Se.
    destruct Se as (S1 & S2 & S3).
    destruct (D e S1 S2) as [D1 D2].
    { intros k K. apply S3. rewrite <- C. exact K. }
    split; auto. apply val_same; auto. intros k K. rewrite D2, val_bin; auto.
    rewrite C. exact K.
Qed.

Lemma build_lin_sim : forall l f h, build_lin l f = Ok h -> wf f ->
  wf (Lin l f) /\ sim (Lin l f) h.
Proof.
  intros l f h H W. assert (P := dim_pos _ W).
  assert (M : mk (Lin l f) = Ok h -> wf (Lin l f) /\ sim (Lin l f) h).
  { intros E. apply mk_ok in E as [-> N].
    assert (W' : wf (Lin l f)) by (split; auto).
    split; auto. split; auto. split; auto.
    intros e Se. split; auto. repeat split. }
  destruct l; try (apply M; exact H).
  - cbn [build_lin] in H. apply (Sum_ok safe_doms safe_arith_ok) in H; auto.
    destruct (H W) as (A & B & C). split; [split; auto|].
    split; auto. split; auto. intros e Se. destruct (C e Se) as [C1 C2]. split; auto.
    split; auto. intros k K. cbn [dim] in K. replace k with 0 by lia. exact C2.
  - cbn [build_lin] in H. apply (SumT_ok safe_doms) in H; auto.
    destruct H as (A & B & C & D & E).
    split; [apply wf_sumT; auto|]. split; auto. split; auto.
    intros e Se. destruct (E e Se) as [E1 E2]. split; auto. apply val_same; auto.
    intros k K. rewrite E2, val_sumT; auto.
Qed.

Lemma build_bil_sim : forall b f g h, build_bil b f g = Ok h -> wf f -> wf g ->
  wf (Bil b f g) ->  sim (Bil b f g) h.
Proof.
  intros b f g h H Wf Wg W. assert (Pf := dim_pos _ Wf). assert (Pg := dim_pos _ Wg).
  assert (M : mk (Bil b f g) = Ok h -> sim (Bil b f g) h).
  { intros E. apply mk_ok in E as [-> N].
    split; auto. split; auto.
    intros e Se. split; auto. repeat split. }
  destruct b; try (apply M; exact H).
  cbn [build_bil] in H. apply (Scalprod_ok safe_doms safe_arith_ok) in H.
  destruct (H Wf Wg) as (A & B & C & D). split; auto. split; auto.
  intros e [S1 S2]. destruct (D e S1 S2) as [D1 D2]. split; auto. split; auto.
  intros k K. cbn [dim] in K. replace k with 0 by lia. rewrite D2.
  cbn [eval bilR].
  destruct W as [N _]. cbn [node_ok] in N. apply Nat.eqb_eq in N. rewrite <- N, Nat.max_id.
  apply rsum_ext. intros i I. rewrite !val_lt by lia. reflexivity.
Qed.

(** Nodes applied to children that agree agree. *)
Lemma same_un : forall u e f f', same_at e f f' -> same_at e (Un u f) (Un u f').
Proof. intros u e f f' [D E]. split; auto. intros k K. cbn in *. rewrite E; auto. Qed.

Lemma bc_same : forall e f f' d k, same_at e f f' -> 1 <= dim f -> k < d ->
  dim f = d \/ dim f = 1 ->
  bcv (dim f') (eval f' e) k = bcv (dim f) (eval f e) k.
Proof.
  intros e f f' d k [D E] P K C. unfold bcv. rewrite D.
  destruct (Nat.eqb_spec (dim f) 1); apply E; lia.
Qed.

Lemma same_bin : forall b e f f' g g', wf (Bin b f g) -> same_at e f f' -> same_at e g g' ->
  same_at e (Bin b f g) (Bin b f' g').
Proof.
  intros b e f f' g g' W Sf Sg. apply wf_bin in W. destruct W as (_ & _ & Pf & Pg & C).
  split; [cbn; destruct Sf, Sg; congruence|].
  intros k K. cbn [eval dim] in *. unfold compat in C.
  rewrite (bc_same e f f' (max (dim f) (dim g))), (bc_same e g g' (max (dim f) (dim g))); auto; lia.
Qed.

Lemma same_ter : forall t e f f' g g' h h', wf (Ter t f g h) ->
  same_at e f f' -> same_at e g g' -> same_at e h h' ->
  same_at e (Ter t f g h) (Ter t f' g' h').
Proof.
  intros t e f f' g g' h h' (N & Wf & Wg & Wh) Sf Sg Sh. cbn [node_ok] in N.
  apply vcompat3_spec in N. cbv zeta in N. destruct N as (Nf & Ng & Nh).
  apply dim_pos in Wf, Wg, Wh.
  split; [cbn; destruct Sf, Sg, Sh; congruence|].
  intros k K. cbn [eval dim] in *.
  rewrite (bc_same e f f' (max (max (dim f) (dim g)) (dim h))),
          (bc_same e g g' (max (max (dim f) (dim g)) (dim h))),
          (bc_same e h h' (max (max (dim f) (dim g)) (dim h))); auto.
Qed.

Lemma same_lin : forall l e f f', wf (Lin l f) -> same_at e f f' ->
  same_at e (Lin l f) (Lin l f').
Proof.
  intros l e f f' [N W] [D E]. apply dim_pos in W.
  split; [destruct l; cbn; auto|].
  intros k K. destruct l; cbn [eval dim linR node_ok] in *; rewrite ?D;
    rewrite ?andb_true_iff, ?Nat.leb_le, ?Nat.ltb_lt, ?Nat.eqb_eq in N.
  - apply rsum_ext; auto.
  - apply E; lia.
  - apply E; lia.
  - destruct (k =? m); auto; apply E; lia.
  - apply E; lia.
  - destruct (Nat.leb_spec s k), (Nat.ltb_spec k (s + dim f)); simpl; auto. apply E; lia.
Qed.

Lemma div_exact : forall a b, 1 <= b -> a mod b = 0 -> a = b * (a / b).
Proof. intros a b P M. rewrite (Nat.div_mod a b) at 1 by lia. lia. Qed.

Lemma same_bil : forall b e f f' g g', wf (Bil b f g) -> same_at e f f' -> same_at e g g' ->
  same_at e (Bil b f g) (Bil b f' g').
Proof.
  intros b e f f' g g' (N & Wf & Wg) [Df Ef] [Dg Eg]. apply dim_pos in Wf, Wg.
  split; [destruct b; cbn; rewrite ?Df, ?Dg; auto|].
  intros k K. destruct b; cbn [eval dim bilR node_ok] in *; rewrite ?Df, ?Dg;
    rewrite ?Nat.eqb_eq in N.
  - apply rsum_ext; intros i I. rewrite Ef, Eg; auto; lia.
  - apply div_exact in N; auto. apply rsum_ext; intros i I. rewrite Ef, Eg; auto. nia.
  - apply div_exact in N; auto. apply rsum_ext; intros i I. rewrite Ef, Eg; auto. nia.
  - rewrite Ef, Eg; auto.
    + apply Nat.mod_upper_bound; lia.
    + apply Nat.div_lt_upper_bound; lia.
Qed.

Lemma same_cat : forall e f f' g g', same_at e f f' -> same_at e g g' ->
  same_at e (Cat f g) (Cat f' g').
Proof.
  intros e f f' g g' [Df Ef] [Dg Eg]. split; [cbn; congruence|].
  intros k K. cbn [eval dim] in *. rewrite Df. destruct (Nat.ltb_spec k (dim f)); auto.
  apply Eg; lia.
Qed.

Lemma same_sel : forall s e f f', wf (Sel s f) -> same_at e f f' ->
  same_at e (Sel s f) (Sel s f').
Proof.
  intros s e f f' [N W] [D E]. apply dim_pos in W. split; [destruct s; auto|].
  intros k K. destruct s; cbn [eval selR]; rewrite ?D.
  1-4: rewrite (argsel_ext _ _ (eval f' e) (eval f e)) by auto; try reflexivity;
       apply E, argsel_lt; auto.
  rewrite E by auto. reflexivity.
Qed.

Lemma same_trans : forall e f g h, same_at e f g -> same_at e g h -> same_at e f h.
Proof.
  intros e f g h [D E] [D' E']. split; [congruence|].
  intros k K. rewrite E', E; auto. congruence.
Qed.

(** Safety transfers along agreeing children. *)
Lemma safe_un_same : forall u e f f', safe e (Un u f) -> safe e f' -> same_at e f f' ->
  safe e (Un u f').
Proof.
  intros u e f f' [_ S] S' [D E]. split; auto. intros k K. rewrite D in K. rewrite E by auto.
  apply S; auto.
Qed.

Lemma dim_same : forall e f f', same_at e f f' -> dim f' = dim f.
Proof. intros e f f' [D _]; auto. Qed.

Lemma safe_bin_same : forall b e f f' g g', wf (Bin b f g) -> safe e (Bin b f g) ->
  safe e f' -> safe e g' -> same_at e f f' -> same_at e g g' -> safe e (Bin b f' g').
Proof.
  intros b e f f' g g' W (_ & _ & S) Sf' Sg' Sf Sg. split; [exact Sf'|]. split; [exact Sg'|].
  intros k K. rewrite (dim_same _ _ _ Sf), (dim_same _ _ _ Sg) in K.
  apply wf_bin in W. destruct W as (_ & _ & Pf & Pg & C). unfold compat in C.
  rewrite (bc_same e f f' (max (dim f) (dim g))), (bc_same e g g' (max (dim f) (dim g)));
    auto; try lia.
Qed.

Lemma safe_ter_same : forall t e f f' g g' h h', wf (Ter t f g h) -> safe e (Ter t f g h) ->
  safe e f' -> safe e g' -> safe e h' ->
  same_at e f f' -> same_at e g g' -> same_at e h h' -> safe e (Ter t f' g' h').
Proof.
  intros t e f f' g g' h h' W (_ & _ & _ & S) Sf' Sg' Sh' Sf Sg Sh.
  split; [exact Sf'|]. split; [exact Sg'|]. split; [exact Sh'|].
  intros k K. rewrite (dim_same _ _ _ Sf), (dim_same _ _ _ Sg), (dim_same _ _ _ Sh) in K.
  destruct W as (N & Wf & Wg & Wh). cbn [node_ok] in N.
  apply vcompat3_spec in N. cbv zeta in N. destruct N as (Nf & Ng & Nh).
  apply dim_pos in Wf, Wg, Wh.
  rewrite (bc_same e f f' (max (max (dim f) (dim g)) (dim h))),
          (bc_same e g g' (max (max (dim f) (dim g)) (dim h))),
          (bc_same e h h' (max (max (dim f) (dim g)) (dim h))); auto.
Qed.

Lemma node_ok_dims : forall l f f', dim f' = dim f ->
  node_ok (Lin l f') = node_ok (Lin l f).
Proof. intros l f f' D. destruct l; cbn; rewrite ?D; auto. Qed.
Lemma node_ok_bil : forall b f f' g g', dim f' = dim f -> dim g' = dim g ->
  node_ok (Bil b f' g') = node_ok (Bil b f g).
Proof. intros b f f' g g' D D'. destruct b; cbn; rewrite ?D, ?D'; auto. Qed.

Theorem build_sound : forall f h, build f = Ok h -> wf f ->
  wf h /\ dim h = dim f /\
  forall e, safe e f -> safe e h /\ same_at e f h.
Proof.
  induction f; intros h H W; cbn [build] in H.
  - apply mk_ok in H as [-> _]. repeat split; auto. apply W.
  - apply mk_ok in H as [-> _]. repeat split; auto. apply W.
  - inversion H. split; [apply IntCst_wf|]. split; [apply IntCst_dim|].
    intros e _. split; [apply IntCst_safe|]. apply val_same; [apply IntCst_dim|].
    intros k _. rewrite IntCst_val. reflexivity.
  - apply (RatCst_ok safe_doms) in H. destruct H as (A & B & C & D).
    split; auto. split; auto. intros e _. destruct (D e) as [D1 D2]. split; auto.
    apply val_same; auto.
  - bind_inv. destruct W as [_ W]. destruct (IHf _ H0 W) as (A & B & C).
    apply build_un_sim in H; auto. destruct H as (A' & B' & C').
    split; auto. split; [cbn in *; congruence|]. intros e S.
    destruct (C e (proj1 S)) as [C1 C2].
    destruct (C' e) as [D1 D2]; [eapply safe_un_same; eauto|]. split; auto.
    eapply same_trans; eauto using same_un.
  - bind_inv. assert (W' := W). destruct W as (_ & W1 & W2).
    destruct (IHf1 _ H0 W1) as (A1 & B1 & C1). destruct (IHf2 _ H1 W2) as (A2 & B2 & C2).
    apply build_bin_sim in H; auto. destruct H as (Wb & A' & B' & C').
    split; auto. split; [cbn in *; congruence|]. intros e S.
    destruct (C1 e (proj1 S)) as [D1 E1]. destruct (C2 e (proj1 (proj2 S))) as [D2 E2].
    destruct (C' e) as [D3 E3]; [eapply safe_bin_same; [exact W'| | | | |]; eauto|].
    split; auto. eapply same_trans; eauto using same_bin.
  - bind_inv. apply mk_ok in H as [-> N]. assert (W' := W). destruct W as (_ & W1 & W2 & W3).
    destruct (IHf1 _ H0 W1) as (A1 & B1 & C1). destruct (IHf2 _ H1 W2) as (A2 & B2 & C2).
    destruct (IHf3 _ H2 W3) as (A3 & B3 & C3).
    split; [split; auto|]. split; [cbn; congruence|]. intros e S.
    destruct (C1 e (proj1 S)) as [D1 E1]. destruct (C2 e (proj1 (proj2 S))) as [D2 E2].
    destruct (C3 e (proj1 (proj2 (proj2 S)))) as [D3 E3].
    split; [eapply safe_ter_same; [exact W'| | | | | | |]; eauto|].
    eapply same_ter; eauto.
  - bind_inv. assert (W' := W). destruct W as [N W]. destruct (IHf _ H0 W) as (A & B & C).
    apply build_lin_sim in H; auto. destruct H as (Wl & A' & B' & C').
    split; auto. split; [destruct l; cbn in *; congruence|]. intros e S.
    destruct (C e S) as [C1 C2].
    destruct (C' e) as [D1 D2]; [exact C1|]. split; auto.
    eapply same_trans; eauto using same_lin.
  - bind_inv. assert (W' := W). destruct W as (N & W1 & W2).
    destruct (IHf1 _ H0 W1) as (A1 & B1 & C1). destruct (IHf2 _ H1 W2) as (A2 & B2 & C2).
    apply build_bil_sim in H; auto.
    2: { split; [rewrite (node_ok_bil _ f1 x f2 x0); auto|auto]. }
    destruct H as (A' & B' & C').
    split; auto. split; [rewrite B'; destruct b; cbn; rewrite ?B1, ?B2; auto|]. intros e S.
    destruct (C1 e (proj1 S)) as [D1 E1]. destruct (C2 e (proj2 S)) as [D2 E2].
    destruct (C' e) as [D3 E3]; [split; auto|].
    split; auto. eapply same_trans; eauto using same_bil.
  - bind_inv. apply mk_ok in H as [-> N]. destruct W as (_ & W1 & W2).
    destruct (IHf1 _ H0 W1) as (A1 & B1 & C1). destruct (IHf2 _ H1 W2) as (A2 & B2 & C2).
    split; [split; auto|]. split; [cbn; congruence|]. intros e S.
    destruct (C1 e (proj1 S)) as [D1 E1]. destruct (C2 e (proj2 S)) as [D2 E2].
    split; [split; auto|]. eapply same_cat; eauto.
  - bind_inv. apply mk_ok in H as [-> N]. assert (W' := W). destruct W as (_ & W1).
    destruct (IHf _ H0 W1) as (A1 & B1 & C1).
    split; [split; auto|]. split; [destruct s; auto|]. intros e S.
    destruct (C1 e (proj1 S)) as [D1 E1].
    split; [split; auto|eapply same_sel; eauto].
    destruct s; cbn in *; auto.
    destruct E1 as [_ E1]. apply dim_pos in W1. rewrite E1 by lia. apply S.
Qed.

(** ** Building never runs forever, and succeeds on clean expressions *)

Lemma build_terminates : forall f, build f <> OutOfFuel.
Proof.
  induction f; cbn [build]; try apply mk_noof; try apply RatCst_noof; try discriminate.
  - intros H. apply rbind_oof in H as [H|(x & _ & H)]; [tauto|].
    destruct u; cbn in H; revert H; try apply mk_noof; try discriminate.
    + apply Minus_terminates.
    + apply Square_noof.
    + unfold Pow. destruct (m =? 1)%Z; [discriminate|apply mk_noof].
  - intros H. apply rbind_oof in H as [H|(x & _ & H)]; [tauto|].
    apply rbind_oof in H as [H|(y & _ & H)]; [tauto|].
    destruct b; cbn [build_bin] in H; revert H; try apply mk_noof.
    + apply Add_terminates.
    + apply Subtract_terminates.
    + apply Mult_terminates.
    + apply Divide_terminates.
  - intros H. apply rbind_oof in H as [H|(x & _ & H)]; [tauto|].
    apply rbind_oof in H as [H|(y & _ & H)]; [tauto|].
    apply rbind_oof in H as [H|(z & _ & H)]; [tauto|]. revert H; apply mk_noof.
  - intros H. apply rbind_oof in H as [H|(x & _ & H)]; [tauto|].
    destruct l; cbn [build_lin] in H; revert H; try apply mk_noof.
    + apply Sum_terminates.
    + apply SumT_noof.
  - intros H. apply rbind_oof in H as [H|(x & _ & H)]; [tauto|].
    apply rbind_oof in H as [H|(y & _ & H)]; [tauto|].
    destruct b; cbn [build_bil] in H; revert H; try apply mk_noof.
    apply Scalprod_terminates.
  - intros H. apply rbind_oof in H as [H|(x & _ & H)]; [tauto|].
    apply rbind_oof in H as [H|(y & _ & H)]; [tauto|]. revert H; apply mk_noof.
  - intros H. apply rbind_oof in H as [H|(x & _ & H)]; [tauto|]. revert H; apply mk_noof.
Qed.

(** No division (which can create rational constants). *)
Fixpoint nodiv (f : fm) : Prop :=
  match f with
  | Var _ _ _ | Zero _ | Int _ | Rat _ _ => True
  | Un _ f => nodiv f
  | Bin b f g => b <> BDiv /\ nodiv f /\ nodiv g
  | Ter _ f g h => nodiv f /\ nodiv g /\ nodiv h
  | Lin _ f => nodiv f
  | Bil _ f g => nodiv f /\ nodiv g
  | Cat f g => nodiv f /\ nodiv g
  | Sel _ f => nodiv f
  end.

Lemma mk_clean : forall f, node_ok f = true -> clean f -> exists h, mk f = Ok h /\ clean h.
Proof. intros f N C. exists f. unfold mk. rewrite N. auto. Qed.

Theorem build_succeeds : forall f, wf f -> clean f -> nodiv f ->
  exists h, build f = Ok h /\ clean h.
Proof.
  induction f; intros W C V; cbn [build].
  - apply mk_clean; auto. apply W.
  - apply mk_clean; auto. apply W.
  - eexists; split; eauto. apply clean_IntCst.
  - destruct C.
  - destruct W as [_ W]. destruct IHf as (x & Hx & Cx); auto. rewrite Hx. cbn [rbind].
    destruct (build_sound _ _ Hx W) as (Wx & _).
    destruct u; cbn [build_un]; try (apply mk_clean; auto; reflexivity).
    + apply Minus_succeeds; auto.
    + apply fine_ok; [apply fine_Square; auto|apply Square_noof].
    + unfold Pow. destruct (m =? 1)%Z; [eauto|apply mk_clean; auto].
  - destruct W as (N & W1 & W2). destruct C as [C1 C2]. destruct V as (V & V1 & V2).
    destruct IHf1 as (x & Hx & Cx); auto. destruct IHf2 as (y & Hy & Cy); auto.
    rewrite Hx, Hy. cbn [rbind].
    destruct (build_sound _ _ Hx W1) as (Wx & Dx & _).
    destruct (build_sound _ _ Hy W2) as (Wy & Dy & _).
    assert (N' : node_ok (Bin b x y) = true) by (cbn [node_ok] in *; rewrite Dx, Dy; auto).
    assert (K : compat (dim x) (dim y)).
    { cbn [node_ok] in N'. apply vcompat2_spec in N'; auto using dim_pos. }
    destruct b; cbn [build_bin]; try (apply mk_clean; [auto|split; auto]).
    + apply Add_succeeds; auto.
    + apply Subtract_succeeds; auto.
    + apply Mult_succeeds; auto.
    + congruence.
  - destruct W as (N & W1 & W2 & W3). destruct C as (C1 & C2 & C3). destruct V as (V1 & V2 & V3).
    destruct IHf1 as (x & Hx & Cx); auto. destruct IHf2 as (y & Hy & Cy); auto.
    destruct IHf3 as (z & Hz & Cz); auto.
    rewrite Hx, Hy, Hz. cbn [rbind].
    destruct (build_sound _ _ Hx W1) as (_ & Dx & _).
    destruct (build_sound _ _ Hy W2) as (_ & Dy & _).
    destruct (build_sound _ _ Hz W3) as (_ & Dz & _).
    apply mk_clean; [|repeat split; auto]. cbn [node_ok] in *. rewrite Dx, Dy, Dz; auto.
  - destruct W as (N & W). destruct C as [C C']. 
    destruct IHf as (x & Hx & Cx); auto. rewrite Hx. cbn [rbind].
    destruct (build_sound _ _ Hx W) as (Wx & Dx & _).
    assert (N' : node_ok (Lin l x) = true) by (rewrite (node_ok_dims _ f); auto).
    destruct l; cbn [build_lin]; try (apply mk_clean; [auto|split; auto]).
    + apply Sum_succeeds; auto.
    + apply fine_ok; [|apply SumT_noof]. cbn [node_ok] in N'.
      rewrite andb_true_iff, Nat.eqb_eq, Nat.leb_le in N'. apply fine_SumT; auto; lia.
  - destruct W as (N & W1 & W2). destruct C as [C1 C2]. destruct V as (V1 & V2).
    destruct IHf1 as (x & Hx & Cx); auto. destruct IHf2 as (y & Hy & Cy); auto.
    rewrite Hx, Hy. cbn [rbind].
    destruct (build_sound _ _ Hx W1) as (Wx & Dx & _).
    destruct (build_sound _ _ Hy W2) as (Wy & Dy & _).
    assert (N' : node_ok (Bil b x y) = true) by (rewrite (node_ok_bil _ f1 x f2 y); auto).
    destruct b; cbn [build_bil]; try (apply mk_clean; [auto|split; auto]).
    cbn [node_ok] in N'. apply Nat.eqb_eq in N'.
    apply Scalprod_succeeds; auto. left; auto.
  - destruct W as (N & W1 & W2). destruct C as [C1 C2]. destruct V as (V1 & V2).
    destruct IHf1 as (x & Hx & Cx); auto. destruct IHf2 as (y & Hy & Cy); auto.
    rewrite Hx, Hy. cbn [rbind]. apply mk_clean; [reflexivity|split; auto].
  - destruct W as (N & W).
    destruct IHf as (x & Hx & Cx); auto. rewrite Hx. cbn [rbind].
    destruct (build_sound _ _ Hx W) as (Wx & Dx & _).
    apply mk_clean; auto. destruct s; cbn [node_ok] in *; rewrite Dx; auto.
Qed.
