(** Lemmas on the formulas of the chunk mode. *)

From Coq Require Import ZArith Reals Arith Lia List Bool Permutation.
From Verif Require Import Result Formula Simplify SimplifyProofs KernelSum KernelSumSpec Loader LoaderProofs
  Adjoint Chunks ChunkSpec.
Import ListNotations.

(** ** Pure versions *)
Fixpoint cvt (dc : nat) (f : fm) : fm :=
  match f with
  | Var i _ c => Var i dc c
  | Un u f => Un u (if Nat.eqb (dim f) 1 then f else cvt dc f)
  | Bin b f g => Bin b (if Nat.eqb (dim f) 1 then f else cvt dc f) (if Nat.eqb (dim g) 1 then g else cvt dc g)
  | Ter t f g h => Ter t (if Nat.eqb (dim f) 1 then f else cvt dc f) (if Nat.eqb (dim g) 1 then g else cvt dc g)
                     (if Nat.eqb (dim h) 1 then h else cvt dc h)
  | Lin LSum f => Lin LSum (cvt dc f)
  | Bil KScal f g => Bil KScal (cvt dc f) (cvt dc g)
  | _ => f
  end.

Lemma mk_ok : forall f, node_ok f = true -> mk f = Ok f.
Proof. intros f H. unfold mk. rewrite H. reflexivity. Qed.

Lemma compat2 : forall a b D, vcompat2 a b = true -> 1 <= a -> 1 <= b -> max a b = D ->
  (a = 1 \/ a = D) /\ (b = 1 \/ b = D).
Proof. intros a b D H A B E. apply vcompat2_spec in H; unfold compat in *; lia. Qed.

(** A chunkable formula of dimension D <> 1. *)
Lemma cvt_ok : forall dc, 1 <= dc -> forall f, is_chunkable f = true -> wf f -> dim f <> 1 ->
  chunked_version dc f = Ok (cvt dc f) /\ dim (cvt dc f) = dc /\ wf (cvt dc f).
Proof.
  intros dc Hdc. induction f; intros Ck W N; cbn [is_chunkable] in Ck; try discriminate.
  - cbn. repeat split. destruct dc; [lia|reflexivity].
  - cbn [wf] in W. destruct W as [O W]. cbn [dim] in N. cbn [chunked_version cvt dim].
    destruct (Nat.eqb_spec (dim f) 1) as [E|E]; [lia|].
    destruct (IHf Ck W N) as (E1 & E2 & E3). rewrite E1. cbn [rbind]. rewrite mk_ok by reflexivity.
    repeat split; auto. 
  - cbn [wf] in W. destruct W as [O [W1 W2]]. cbn [dim] in N. cbn [chunked_version cvt dim].
    apply andb_true_iff in Ck. destruct Ck as [C1 C2].
    assert (P1 := dim_pos _ W1). assert (P2 := dim_pos _ W2). cbn [node_ok] in O.
    apply compat2 with (D := max (dim f1) (dim f2)) in O; auto.
    assert (G : forall x, is_chunkable x = true -> wf x -> (dim x <> 1 ->
               chunked_version dc x = Ok (cvt dc x) /\ dim (cvt dc x) = dc /\ wf (cvt dc x)) ->
             let x' := if dim x =? 1 then x else cvt dc x in
             (if dim x =? 1 then Ok x else chunked_version dc x) = Ok x' /\ wf x' /\
             ((dim x = 1 /\ dim x' = 1) \/ (dim x <> 1 /\ dim x' = dc))).
    { intros x Cx Wx H. cbv zeta. destruct (Nat.eqb_spec (dim x) 1) as [E|E]; [auto|].
      destruct (H E) as (H1 & H2 & H3). auto. }
    destruct (G f1 C1 W1 (IHf1 C1 W1)) as (E1 & W1' & D1).
    destruct (G f2 C2 W2 (IHf2 C2 W2)) as (E2 & W2' & D2).
    rewrite E1. cbn [rbind]. rewrite E2. cbn [rbind].
    set (g1 := if dim f1 =? 1 then f1 else cvt dc f1) in *.
    set (g2 := if dim f2 =? 1 then f2 else cvt dc f2) in *.
    assert (Nk : node_ok (Bin b g1 g2) = true).
    { cbn [node_ok]. apply vcompat2_spec; unfold compat; lia. }
    rewrite mk_ok by exact Nk. split; [reflexivity|]. split; [lia|]. cbn [wf]. auto.
  - cbn [wf] in W. destruct W as [O [W1 [W2 W3]]]. cbn [dim] in N. cbn [chunked_version cvt dim].
    apply andb_true_iff in Ck. destruct Ck as [Ck C3]. apply andb_true_iff in Ck. destruct Ck as [C1 C2].
    assert (P1 := dim_pos _ W1). assert (P2 := dim_pos _ W2). assert (P3 := dim_pos _ W3). cbn [node_ok] in O.
    apply vcompat3_spec in O. cbv zeta in O.
    assert (G : forall x, is_chunkable x = true -> wf x -> (dim x <> 1 ->
               chunked_version dc x = Ok (cvt dc x) /\ dim (cvt dc x) = dc /\ wf (cvt dc x)) ->
             let x' := if dim x =? 1 then x else cvt dc x in
             (if dim x =? 1 then Ok x else chunked_version dc x) = Ok x' /\ wf x' /\
             ((dim x = 1 /\ dim x' = 1) \/ (dim x <> 1 /\ dim x' = dc))).
    { intros x Cx Wx H. cbv zeta. destruct (Nat.eqb_spec (dim x) 1) as [E|E]; [auto|].
      destruct (H E) as (H1 & H2 & H3). auto. }
    destruct (G f1 C1 W1 (IHf1 C1 W1)) as (E1 & W1' & D1).
    destruct (G f2 C2 W2 (IHf2 C2 W2)) as (E2 & W2' & D2).
    destruct (G f3 C3 W3 (IHf3 C3 W3)) as (E3 & W3' & D3).
    rewrite E1. cbn [rbind]. rewrite E2. cbn [rbind]. rewrite E3. cbn [rbind].
    set (g1 := if dim f1 =? 1 then f1 else cvt dc f1) in *.
    set (g2 := if dim f2 =? 1 then f2 else cvt dc f2) in *.
    set (g3 := if dim f3 =? 1 then f3 else cvt dc f3) in *.
    assert (Nk : node_ok (Ter t g1 g2 g3) = true).
    { cbn [node_ok]. unfold vcompat3. rewrite !andb_true_iff, !orb_true_iff, !Nat.eqb_eq. lia. }
    rewrite mk_ok by exact Nk. split; [reflexivity|]. split; [lia|]. cbn [wf]. auto.
Qed.

(** ** Values of the chunked version *)
Lemma scalar_vars : forall f, is_chunkable f = true -> wf f -> dim f = 1 ->
  forall i d c, In (i, d, c) (vars f) -> d = 1.
Proof.
  induction f; intros Ck W N i0 d0 c0 H; cbn [is_chunkable] in Ck; try discriminate; cbn [vars] in H; cbn [wf] in W.
  - destruct H as [H|[]]. inversion H; subst. exact N.
  - destruct W. cbn [dim] in N. eauto.
  - destruct W as [_ [W1 W2]]. apply andb_true_iff in Ck. destruct Ck. cbn [dim] in N.
    assert (P1 := dim_pos _ W1). assert (P2 := dim_pos _ W2).
    apply union_vars_in in H. destruct H; [eapply IHf1|eapply IHf2]; eauto; lia.
  - destruct W as [_ [W1 [W2 W3]]]. apply andb_true_iff in Ck. destruct Ck as [Ck ?].
    apply andb_true_iff in Ck. destruct Ck. cbn [dim] in N.
    assert (P1 := dim_pos _ W1). assert (P2 := dim_pos _ W2). assert (P3 := dim_pos _ W3).
    rewrite !union_vars_in in H. destruct H as [H|[H|H]]; [eapply IHf1|eapply IHf2|eapply IHf3]; eauto; lia.
Qed.

(** A value depends on the variables of the formula only. *)
Lemma linR_ext : forall l d u v k, (forall q, u q = v q) -> linR l d u k = linR l d v k.
Proof.
  intros l d u v k H. destruct l; cbn [linR]; rewrite ?H; auto.
  - induction d as [|d IH]; cbn; congruence.
Qed.
Lemma bilR_ext : forall b m n u u' v v' k, (forall q, u q = u' q) -> (forall q, v q = v' q) ->
  bilR b m n u v k = bilR b m n u' v' k.
Proof.
  intros b m n u u' v v' k H H'. destruct b; cbn [bilR]; rewrite ?H, ?H'; auto;
    apply rsum_ext; intros; rewrite ?H, ?H'; reflexivity.
Qed.
Lemma argsel_ext : forall lt u v n, (forall q, u q = v q) -> argsel lt u n = argsel lt v n.
Proof. intros lt u v n H. induction n as [|n IH]; cbn [argsel]; [reflexivity|]. rewrite IH, !H. reflexivity. Qed.
Lemma selR_ext : forall s d u v k, (forall q, u q = v q) -> selR s d u k = selR s d v k.
Proof.
  intros s d u v k H. destruct s; cbn [selR]; rewrite ?H, ?(argsel_ext _ u v) by assumption; try reflexivity; apply H.
Qed.
Lemma eval_ext : forall f e e', (forall i d c, In (i, d, c) (vars f) -> forall q, e i q = e' i q) ->
  forall k, eval f e k = eval f e' k.
Proof.
  induction f; intros e e' H k; cbn [vars] in H; cbn [eval]; try reflexivity.
  - eapply H. left. reflexivity.
  - f_equal. auto.
  - unfold bcv. f_equal; [apply IHf1|apply IHf2]; intros; eapply H; apply union_vars_in; eauto.
  - unfold bcv. f_equal; [apply IHf1|apply IHf2|apply IHf3]; intros; eapply H; rewrite !union_vars_in; eauto.
  - apply linR_ext. auto.
  - apply bilR_ext; [apply IHf1|apply IHf2]; intros; eapply H; apply union_vars_in; eauto.
  - rewrite (IHf1 e e'), (IHf2 e e'); [reflexivity| |]; intros; eapply H; apply union_vars_in; eauto.
  - apply selR_ext. auto.
Qed.

Lemma scalar_chunk : forall decl f k e, declared decl f -> is_chunkable f = true -> wf f -> dim f = 1 ->
  forall q, eval f (chunk_of decl k e) q = eval f e q.
Proof.
  intros decl f k e D Ck W N q. apply eval_ext. intros i d c Hi p.
  pose proof (scalar_vars f Ck W N i d c Hi). subst. apply (vars_declared decl f D) in Hi.
  unfold chunk_of. rewrite Hi. reflexivity.
Qed.

Lemma cvt_eval : forall decl dc k e f, 1 <= dc -> declared decl f -> is_chunkable f = true -> wf f -> dim f <> 1 ->
  forall q, q < dc -> eval (cvt dc f) (chunk_of decl k e) q = eval f e (64 * k + q).
Proof.
  intros decl dc k e f Hdc. 
  assert (G : forall x D, declared decl x -> is_chunkable x = true -> wf x ->
    (dim x <> 1 -> forall q, q < dc -> eval (cvt dc x) (chunk_of decl k e) q = eval x e (64 * k + q)) ->
    forall q, q < dc -> dim x = 1 \/ dim x = D -> 
    let x' := if dim x =? 1 then x else cvt dc x in
    bcv (dim x') (eval x' (chunk_of decl k e)) q = bcv (dim x) (eval x e) (64 * k + q)).
  { intros x D Dx Cx Wx H q Hq HD. cbv zeta. destruct (Nat.eqb_spec (dim x) 1) as [E|E].
    - unfold bcv. rewrite E. cbn [Nat.eqb]. apply scalar_chunk; assumption.
    - destruct (cvt_ok dc Hdc x Cx Wx E) as (_ & E2 & _). rewrite E2. unfold bcv.
      destruct (Nat.eqb_spec (dim x) 1); [contradiction|]. rewrite <- H by assumption.
      destruct (Nat.eqb_spec dc 1); [|reflexivity]. replace q with 0 by lia. reflexivity. }
  induction f; intros D Ck W N q0 Hq; cbn [is_chunkable] in Ck; try discriminate; cbn [declared] in D; cbn [wf] in W.
  - cbn [cvt eval dim] in *. unfold chunk_of. rewrite D. cbn [fst]. apply Nat.eqb_neq in N. rewrite N. reflexivity.
  - destruct W as [_ W]. cbn [dim] in N. cbn [cvt eval]. destruct (Nat.eqb_spec (dim f) 1); [contradiction|].
    f_equal. apply IHf; assumption.
  - destruct W as [O [W1 W2]]. destruct D as [D1 D2]. apply andb_true_iff in Ck. destruct Ck as [C1 C2].
    assert (P1 := dim_pos _ W1). assert (P2 := dim_pos _ W2). cbn [node_ok] in O.
    apply compat2 with (D := max (dim f1) (dim f2)) in O; auto. cbn [cvt eval dim].
    f_equal; eapply G; eauto; apply O.
  - destruct W as [O [W1 [W2 W3]]]. destruct D as [D1 [D2 D3]]. apply andb_true_iff in Ck.
    destruct Ck as [Ck C3]. apply andb_true_iff in Ck. destruct Ck as [C1 C2].
    cbn [node_ok] in O. apply vcompat3_spec in O. cbv zeta in O. cbn [cvt eval dim].
    destruct O as (O1 & O2 & O3).
    f_equal; eapply G; eauto; tauto.
Qed.

(** ** Sizes of the chunks *)
Definition chunk_count (D : nat) : nat := 1 + (D - 1) / dimchunk.
Definition chunk_last (D : nat) : nat := D - (chunk_count D - 1) * dimchunk.
Definition chunk_size (D k : nat) : nat := if k =? chunk_count D - 1 then chunk_last D else dimchunk.

Lemma chunk_sizes : forall D, 1 <= D ->
  1 <= chunk_last D <= 64 /\ D = (chunk_count D - 1) * 64 + chunk_last D.
Proof.
  intros D H. unfold chunk_last, chunk_count. change dimchunk with 64.
  pose proof (Nat.div_mod (D - 1) 64 ltac:(lia)). pose proof (Nat.mod_upper_bound (D - 1) 64 ltac:(lia)). lia.
Qed.

Lemma chunk_size_bounds : forall D k, 1 <= D -> 1 <= chunk_size D k <= 64.
Proof.
  intros D k H. unfold chunk_size. pose proof (chunk_sizes D H). change dimchunk with 64.
  destruct (k =? chunk_count D - 1); lia.
Qed.

Lemma rsum_chunks : forall D u, 1 <= D ->
  rsum D u = rsum (chunk_count D) (fun k => rsum (chunk_size D k) (fun q => u (64 * k + q))).
Proof.
  intros D u H. destruct (chunk_sizes D H) as [B E]. rewrite E at 1.
  assert (C : 1 <= chunk_count D) by (unfold chunk_count; lia).
  rewrite rsum_split. replace (chunk_count D) with (S (chunk_count D - 1)) at 2 by lia.
  set (n := chunk_count D - 1) in *. cbn [rsum]. f_equal.
  - rewrite Nat.mul_comm. 
    assert (G : forall m, m <= n -> rsum (64 * m) u = rsum m (fun k => rsum (chunk_size D k) (fun q => u (64 * k + q)))).
    { induction m as [|m IH]; intros L; [reflexivity|]. 
      replace (64 * S m) with (64 * m + 64) by lia. rewrite rsum_split, IH by lia. cbn [rsum]. f_equal.
      unfold chunk_size. fold n. destruct (Nat.eqb_spec m n); [lia|]. reflexivity. }
    apply G. lia.
  - unfold chunk_size. fold n. rewrite Nat.eqb_refl. apply rsum_ext. intros q Hq. f_equal. lia.
Qed.

(** ** Chunked nodes *)
Definition node_dim (g : fm) : nat :=
  match g with Lin LSum g => dim g | Bil KScal g _ => dim g | _ => 0 end.

Lemma large_spec : forall d, large d = true -> 99 <= d.
Proof.
  intros d H. unfold large in H. apply orb_true_iff in H. destruct H as [H|H].
  - apply Nat.leb_le in H. lia.
  - apply existsb_exists in H. destruct H as [x [I E]]. apply Nat.eqb_eq in E. subst.
    cbn [In] in I. lia.
Qed.

Lemma node_large : forall g, use_chunk g = true -> 99 <= node_dim g /\ dim g = 1.
Proof.
  intros g H. destruct g as [| | | | | | |l g|b g h| |]; try discriminate.
  - destruct l; try discriminate. cbn in *. apply andb_true_iff in H. split; [apply large_spec; tauto|reflexivity].
  - destruct b; try discriminate. cbn in *. apply andb_true_iff in H. split; [apply large_spec; tauto|reflexivity].
Qed.

Lemma node_cvt : forall g dc, 1 <= dc -> use_chunk g = true -> wf g ->
  chunked_version dc g = Ok (cvt dc g) /\ dim (cvt dc g) = 1 /\ wf (cvt dc g).
Proof.
  intros g dc Hdc H W. pose proof (node_large g H) as [L _]. destruct g as [| | | | | | |l g|b g h| |]; try discriminate.
  - destruct l; try discriminate. cbn [use_chunk] in H. apply andb_true_iff in H. destruct H as [C _].
    cbn [wf] in W. destruct W as [_ W]. cbn [node_dim] in L.
    destruct (cvt_ok dc Hdc g C W ltac:(lia)) as (E1 & E2 & E3).
    cbn [chunked_version cvt]. rewrite E1. cbn [rbind]. rewrite mk_ok by reflexivity. cbn [wf]. auto.
  - destruct b; try discriminate. cbn [use_chunk] in H. apply andb_true_iff in H. destruct H as [C _].
    apply andb_true_iff in C. destruct C as [C1 C2].
    cbn [wf] in W. destruct W as [O [W1 W2]]. cbn [node_ok] in O. apply Nat.eqb_eq in O. cbn [node_dim] in L.
    destruct (cvt_ok dc Hdc g C1 W1 ltac:(lia)) as (E1 & E2 & E3).
    destruct (cvt_ok dc Hdc h C2 W2 ltac:(lia)) as (F1 & F2 & F3).
    cbn [chunked_version cvt]. rewrite E1. cbn [rbind]. rewrite F1. cbn [rbind].
    assert (Nk : node_ok (Bil KScal (cvt dc g) (cvt dc h)) = true) by (cbn; apply Nat.eqb_eq; congruence).
    rewrite mk_ok by exact Nk. cbn [wf dim]. auto.
Qed.

Lemma node_value : forall decl g e, declared decl g -> use_chunk g = true -> wf g ->
  forall q, eval g e q =
  rsum (chunk_count (node_dim g)) (fun k => eval (cvt (chunk_size (node_dim g) k) g) (chunk_of decl k e) 0).
Proof.
  intros decl g e D H W q. pose proof (node_large g H) as [L _]. 
  destruct g as [| | | | | | |l g|b g h| |]; try discriminate.
  - destruct l; try discriminate. cbn [use_chunk] in H. apply andb_true_iff in H. destruct H as [C _].
    cbn [wf] in W. destruct W as [_ W]. cbn [node_dim] in *. cbn [eval linR cvt].
    rewrite rsum_chunks by lia. apply rsum_ext. intros k Hk.
    pose proof (chunk_size_bounds (dim g) k ltac:(lia)) as B.
    destruct (cvt_ok (chunk_size (dim g) k) ltac:(lia) g C W ltac:(lia)) as (_ & E2 & _). rewrite E2.
    apply rsum_ext. intros v Hv. symmetry. apply cvt_eval; auto; lia.
  - destruct b; try discriminate. cbn [use_chunk] in H. apply andb_true_iff in H. destruct H as [C _].
    apply andb_true_iff in C. destruct C as [C1 C2]. destruct D as [D1 D2].
    cbn [wf] in W. destruct W as [O [W1 W2]]. cbn [node_ok] in O. apply Nat.eqb_eq in O. cbn [node_dim] in *.
    cbn [eval bilR cvt]. rewrite rsum_chunks by lia. apply rsum_ext. intros k Hk.
    pose proof (chunk_size_bounds (dim g) k ltac:(lia)) as B.
    destruct (cvt_ok (chunk_size (dim g) k) ltac:(lia) g C1 W1 ltac:(lia)) as (_ & E2 & _). rewrite E2.
    apply rsum_ext. intros v Hv. rewrite !(cvt_eval decl) by (auto; lia). reflexivity.
Qed.

Fixpoint chunk_nodes (f : fm) : list fm :=
  match f with
  | Var _ _ _ | Zero _ | Int _ | Rat _ _ => []
  | Lin _ g => (if use_chunk f then [f] else []) ++ chunk_nodes g
  | Un _ g | Sel _ g => chunk_nodes g
  | Bil _ g h => (if use_chunk f then [f] else []) ++ chunk_nodes g ++ chunk_nodes h
  | Bin _ g h | Cat g h => chunk_nodes g ++ chunk_nodes h
  | Ter _ g h k => chunk_nodes g ++ chunk_nodes h ++ chunk_nodes k
  end.

Lemma chunk_nodes_in : forall f g, wf f -> In g (chunk_nodes f) -> part g f /\ use_chunk g = true /\ wf g.
Proof.
  induction f; intros g0 W H; cbn [chunk_nodes] in H; pose proof W as W0; cbn [wf] in W; try contradiction;
    rewrite ?in_app_iff in H;
    repeat match goal with
    | H : _ /\ _ |- _ => destruct H
    | H : _ \/ _ |- _ => destruct H
    | IH : forall g, wf ?f -> In g (chunk_nodes ?f) -> _, H : In _ (chunk_nodes ?f) |- _ => apply IH in H; [|assumption]
    | |- _ /\ _ => split
    | H : In _ (if ?b then _ else _) |- _ => destruct b eqn:?; [destruct H as [<-|[]]|contradiction]
    end; try assumption; try (constructor; assumption); try constructor.
Qed.

Lemma chunked_formulas_nodes : forall dc, 1 <= dc -> forall f, wf f ->
  chunked_formulas dc f = Ok (map (fun g => (cvt dc g, node_dim g)) (chunk_nodes f)).
Proof.
  intros dc Hdc. 
  assert (O : forall f, wf f -> use_chunk f = true \/ use_chunk f = false -> own_chunk dc f (node_dim f) =
            Ok (map (fun g => (cvt dc g, node_dim g)) (if use_chunk f then [f] else []))).
  { intros f W _. unfold own_chunk. destruct (use_chunk f) eqn:E; [|reflexivity].
    destruct (node_cvt f dc Hdc E W) as (E1 & _ & _). rewrite E1. reflexivity. }
  assert (B : forall b : bool, b = true \/ b = false) by (intros []; auto).
  induction f; intros W; pose proof W as W0; cbn [wf] in W0; cbn [chunked_formulas chunk_nodes map]; try reflexivity.
  - apply IHf. tauto.
  - rewrite IHf1, IHf2 by tauto. cbn [rbind]. rewrite map_app. reflexivity.
  - rewrite IHf1, IHf2, IHf3 by tauto. cbn [rbind]. rewrite !map_app. reflexivity.
  - assert (E : chunked_formulas dc f = Ok (map (fun g => (cvt dc g, node_dim g)) (chunk_nodes f))) by (apply IHf; tauto).
    destruct l; try (cbn [use_chunk app]; exact E).
    pose proof (O (Lin LSum f) W (B _)) as O1. cbn [node_dim] in O1. rewrite O1, E. cbn [rbind].
    rewrite map_app. reflexivity.
  - assert (E : chunked_formulas dc f1 = Ok (map (fun g => (cvt dc g, node_dim g)) (chunk_nodes f1))) by (apply IHf1; tauto).
    assert (E' : chunked_formulas dc f2 = Ok (map (fun g => (cvt dc g, node_dim g)) (chunk_nodes f2))) by (apply IHf2; tauto).
    destruct b; try (cbn [use_chunk app]; rewrite E, E'; cbn [rbind]; rewrite map_app; reflexivity).
    pose proof (O (Bil KScal f1 f2) W (B _)) as O1. cbn [node_dim] in O1. rewrite O1, E, E'. cbn [rbind].
    rewrite !map_app. reflexivity.
  - rewrite IHf1, IHf2 by tauto. cbn [rbind]. rewrite map_app. reflexivity.
  - apply IHf. tauto.
Qed.

(** ** Post-chunk formula *)
Lemma node_ok_dims1 : forall f f', dim f' = dim f ->
  (forall u, node_ok (Un u f') = node_ok (Un u f) /\ dim (Un u f') = dim (Un u f)) /\
  (forall l, node_ok (Lin l f') = node_ok (Lin l f) /\ dim (Lin l f') = dim (Lin l f)) /\
  (forall s, node_ok (Sel s f') = node_ok (Sel s f) /\ dim (Sel s f') = dim (Sel s f)).
Proof.
  intros f f' E. repeat split; intros; cbn [node_ok dim]; rewrite ?E; try reflexivity; destruct l; reflexivity.
Qed.
Lemma node_ok_dims2 : forall f f' g g', dim f' = dim f -> dim g' = dim g ->
  (forall b, node_ok (Bin b f' g') = node_ok (Bin b f g) /\ dim (Bin b f' g') = dim (Bin b f g)) /\
  (forall b, node_ok (Bil b f' g') = node_ok (Bil b f g) /\ dim (Bil b f' g') = dim (Bil b f g)) /\
  (node_ok (Cat f' g') = node_ok (Cat f g) /\ dim (Cat f' g') = dim (Cat f g)).
Proof. intros f f' g g' E E'. repeat split; intros; cbn [node_ok dim]; rewrite ?E, ?E'; reflexivity. Qed.

Lemma post_ok : forall f, wf f -> forall ind, exists p,
  post_chunk ind f = Ok p /\ dim p = dim f /\ wf p /\
  (forall v, In v (vars p) -> In v (vars f) \/ (exists n, v = ((ind + Z.of_nat n)%Z, 1, 3))).
Proof.
  assert (Sh : forall ind n v (p : Prop), (p \/ exists m, v = (((ind + Z.of_nat n) + Z.of_nat m)%Z, 1, 3)) ->
     (p \/ exists m, v = ((ind + Z.of_nat m)%Z, 1, 3))).
  { intros ind n v p [H|[m H]]; [auto|right]. exists (n + m). rewrite H. do 2 f_equal. lia. }
  assert (Nw : forall f ind, use_chunk f = true -> exists p,
    Ok (Var ind 1 3) = Ok p /\ dim p = dim f /\ wf p /\
    (forall v, In v (vars p) -> In v (vars f) \/ (exists n, v = ((ind + Z.of_nat n)%Z, 1, 3)))).
  { intros f ind H. exists (Var ind 1 3). split; [reflexivity|]. split; [symmetry; apply (node_large f H)|].
    split; [repeat split|]. intros v [<-|[]]. right. exists 0. do 2 f_equal. lia. }
  induction f; intros W ind; pose proof W as W0; cbn [wf] in W0.
  - exists (Var i d c). cbn. auto.
  - exists (Zero d). cbn. auto.
  - exists (Int z). cbn. auto.
  - exists (Rat p q). cbn. auto.
  - destruct W0 as [N W0]. destruct (IHf W0 ind) as (g & E & Dg & Wg & V).
    destruct (node_ok_dims1 f g Dg) as (H & _ & _). destruct (H u) as [H1 H2].
    exists (Un u g). cbn [post_chunk]. rewrite E. cbn [rbind]. rewrite mk_ok by congruence. cbn [wf vars].
    repeat split; auto; congruence.
  - destruct W0 as [N [W1 W2]]. destruct (IHf1 W1 ind) as (g & E & Dg & Wg & V).
    destruct (IHf2 W2 (ind + Z.of_nat (num_chunked f1))%Z) as (h & F & Dh & Wh & V').
    destruct (node_ok_dims2 f1 g f2 h Dg Dh) as (H & _ & _). destruct (H b) as [H1 H2].
    exists (Bin b g h). cbn [post_chunk]. rewrite E. cbn [rbind]. rewrite F. cbn [rbind].
    rewrite mk_ok by congruence. cbn [wf vars]. repeat split; auto; try congruence.
    intros v Hv. rewrite union_vars_in in *. destruct Hv as [Hv|Hv]; [apply V in Hv|apply V', Sh in Hv]; tauto.
  - destruct W0 as [N [W1 [W2 W3]]]. destruct (IHf1 W1 ind) as (g & E & Dg & Wg & V).
    destruct (IHf2 W2 (ind + Z.of_nat (num_chunked f1))%Z) as (h & F & Dh & Wh & V').
    destruct (IHf3 W3 (ind + Z.of_nat (num_chunked f1) + Z.of_nat (num_chunked f2))%Z) as (k & G & Dk & Wk & V'').
    exists (Ter t g h k). cbn [post_chunk]. rewrite E. cbn [rbind]. rewrite F. cbn [rbind]. rewrite G. cbn [rbind].
    rewrite mk_ok by (cbn [node_ok] in *; congruence). cbn [wf vars dim node_ok].
    split; [reflexivity|]. split; [congruence|]. split; [split; [cbn [node_ok] in N; congruence|auto]|].
    intros v Hv. rewrite !union_vars_in in *. destruct Hv as [Hv|[Hv|Hv]];
      [apply V in Hv|apply V', Sh in Hv|apply V'', Sh, Sh in Hv]; tauto.
  - destruct W0 as [N W0]. destruct (IHf W0 ind) as (g & E & Dg & Wg & V).
    destruct (node_ok_dims1 f g Dg) as (_ & H & _). destruct (H l) as [H1 H2].
    assert (G : exists p, (do g' <- post_chunk ind f ; mk (Lin l g')) = Ok p /\ dim p = dim (Lin l f) /\ wf p /\
      (forall v, In v (vars p) -> In v (vars (Lin l f)) \/ (exists n, v = ((ind + Z.of_nat n)%Z, 1, 3)))).
    { exists (Lin l g). rewrite E. cbn [rbind]. rewrite mk_ok by congruence. cbn [wf vars].
      repeat split; auto; congruence. }
    destruct l; try exact G. unfold post_chunk; fold post_chunk.
    destruct (use_chunk (Lin LSum f)) eqn:U; [apply Nw, U|exact G].
  - destruct W0 as [N [W1 W2]]. destruct (IHf1 W1 ind) as (g & E & Dg & Wg & V).
    assert (G : forall ind', (exists n, ind' = ind + Z.of_nat n)%Z ->
      exists p, (do g' <- post_chunk ind f1 ; do h' <- post_chunk ind' f2 ; mk (Bil b g' h')) = Ok p /\
      dim p = dim (Bil b f1 f2) /\ wf p /\
      (forall v, In v (vars p) -> In v (vars (Bil b f1 f2)) \/ (exists n, v = ((ind + Z.of_nat n)%Z, 1, 3)))).
    { intros ind' [n ->]. destruct (IHf2 W2 (ind + Z.of_nat n)%Z) as (h & F & Dh & Wh & V').
      destruct (node_ok_dims2 f1 g f2 h Dg Dh) as (_ & H & _). destruct (H b) as [H1 H2].
      exists (Bil b g h). rewrite E. cbn [rbind]. rewrite F. cbn [rbind].
      rewrite mk_ok by congruence. cbn [wf vars]. repeat split; auto; try congruence.
      intros v Hv. rewrite union_vars_in in *. destruct Hv as [Hv|Hv]; [apply V in Hv|apply V', Sh in Hv]; tauto. }
    destruct b; try (apply G; eexists; reflexivity).
    unfold post_chunk; fold post_chunk. destruct (use_chunk (Bil KScal f1 f2)) eqn:U; [apply Nw, U|].
    apply G. exists 0. lia.
  - destruct W0 as [N [W1 W2]]. destruct (IHf1 W1 ind) as (g & E & Dg & Wg & V).
    destruct (IHf2 W2 (ind + Z.of_nat (num_chunked f1))%Z) as (h & F & Dh & Wh & V').
    destruct (node_ok_dims2 f1 g f2 h Dg Dh) as (_ & _ & [H1 H2]).
    exists (Cat g h). cbn [post_chunk]. rewrite E. cbn [rbind]. rewrite F. cbn [rbind].
    rewrite mk_ok by congruence. cbn [wf vars]. repeat split; auto; try congruence.
    intros v Hv. rewrite union_vars_in in *. destruct Hv as [Hv|Hv]; [apply V in Hv|apply V', Sh in Hv]; tauto.
  - destruct W0 as [N W0]. destruct (IHf W0 ind) as (g & E & Dg & Wg & V).
    destruct (node_ok_dims1 f g Dg) as (_ & _ & H). destruct (H s) as [H1 H2].
    exists (Sel s g). cbn [post_chunk]. rewrite E. cbn [rbind]. rewrite mk_ok by congruence. cbn [wf vars].
    repeat split; auto; congruence.
Qed.

(** Without a chunked node the formula is rebuilt. *)
Lemma post_none : forall f, wf f -> chunk_nodes f = [] -> forall ind, post_chunk ind f = Ok f.
Proof.
  induction f; intros W H ind; pose proof W as W0; cbn [wf] in W0; cbn [chunk_nodes] in H;
    try reflexivity; repeat (apply app_eq_nil in H; let H' := fresh in destruct H as [H' H]);
    repeat match goal with H : _ /\ _ |- _ => destruct H end.
  - cbn [post_chunk]. rewrite IHf by assumption. cbn [rbind]. apply mk_ok. assumption.
  - cbn [post_chunk]. rewrite IHf1 by assumption. cbn [rbind]. rewrite IHf2 by assumption. cbn [rbind]. apply mk_ok; assumption.
  - cbn [post_chunk]. rewrite IHf1 by assumption. cbn [rbind]. rewrite IHf2 by assumption. cbn [rbind].
    rewrite IHf3 by assumption. cbn [rbind]. apply mk_ok; assumption.
  - destruct (use_chunk (Lin l f)) eqn:U; [discriminate|].
    destruct l; unfold post_chunk; fold post_chunk; rewrite ?U; rewrite IHf by assumption; cbn [rbind]; apply mk_ok; assumption.
  - destruct (use_chunk (Bil b f1 f2)) eqn:U; [discriminate|].
    destruct b; unfold post_chunk; fold post_chunk; rewrite ?U; rewrite IHf1 by assumption; cbn [rbind];
      rewrite IHf2 by assumption; cbn [rbind]; apply mk_ok; assumption.
  - cbn [post_chunk]. rewrite IHf1 by assumption. cbn [rbind]. rewrite IHf2 by assumption. cbn [rbind]. apply mk_ok; assumption.
  - cbn [post_chunk]. rewrite IHf by assumption. cbn [rbind]. apply mk_ok. assumption.
Qed.

Lemma num_nodes : forall f, num_chunked f = length (chunk_nodes f).
Proof.
  induction f; cbn [chunk_nodes num_chunked length]; rewrite ?app_length; try lia.
  - destruct l; cbn [use_chunk length]; try lia.
    destruct (is_chunkable f && large (dim f)); cbn [Nat.b2n length]; lia.
  - destruct b; cbn [use_chunk length]; try lia.
    destruct (is_chunkable f1 && is_chunkable f2 && large (dim f1)); cbn [Nat.b2n length]; lia.
Qed.

Definition below (ind : Z) (f : fm) : Prop := forall v, In v (vars f) -> (vpos v < ind)%Z.
Lemma with_value_other : forall f ind e v, below ind f -> forall k, eval f (with_value e ind v) k = eval f e k.
Proof.
  intros f ind e v H k. apply eval_ext. intros i d c Hi q. apply H in Hi. cbn in Hi. unfold with_value.
  destruct (Z.eqb_spec i ind); [lia|reflexivity].
Qed.

(** What the post-chunk formula must satisfy with respect to f, g being the chunked node. *)
Definition post_spec (ind : Z) (g f p : fm) : Prop :=
  (forall e k, eval p (with_value e ind (eval g e 0)) k = eval f e k) /\
  (forall v, In v (vars f) -> In v (vars p) \/ In v (vars g)) /\
  (forall v, In v (vars p) -> In v (vars f) \/ v = (ind, 1, 3)) /\
  dim p = dim f /\ wf p.

Lemma post_spec_node : forall f ind, use_chunk f = true -> post_spec ind f f (Var ind 1 3).
Proof.
  intros f ind U. split; [|split; [|split; [|split]]].
  - intros e k. cbn [eval]. unfold with_value. rewrite Z.eqb_refl.
    destruct f as [| | | | | | |l f|b f h| |]; try discriminate; [destruct l|destruct b]; try discriminate; reflexivity.
  - auto.
  - intros v [<-|[]]. auto.
  - symmetry. apply (node_large f U).
  - repeat split.
Qed.
Lemma post_spec_same : forall f ind g, wf f -> below ind f ->
  (forall e k, eval f (with_value e ind (eval g e 0)) k = eval f e k) /\
  (forall v, In v (vars f) -> In v (vars f) \/ In v (vars g)) /\
  (forall v, In v (vars f) -> In v (vars f) \/ v = (ind, 1, 3)) /\
  dim f = dim f /\ wf f.
Proof. intros f ind g W B. repeat split; auto. intros. apply with_value_other, B. Qed.

Lemma post_spec1 : forall ind g f p, post_spec ind g f p ->
  (forall u, wf (Un u f) -> post_spec ind g (Un u f) (Un u p)) /\
  (forall l, wf (Lin l f) -> post_spec ind g (Lin l f) (Lin l p)) /\
  (forall s, wf (Sel s f) -> post_spec ind g (Sel s f) (Sel s p)).
Proof.
  intros ind g f p (E & V & V' & D & W). destruct (node_ok_dims1 f p D) as (N1 & N2 & N3).
  repeat split; auto; try (cbn [wf] in H; destruct H as [N _]; rewrite <- N; try apply N1; try apply N2; apply N3);
    try apply N1; try apply N2; try apply N3.
  - intros e k. cbn [eval]. rewrite E. reflexivity.
  - intros e k. cbn [eval]. rewrite D. apply linR_ext. intros. apply E.
  - intros e k. cbn [eval]. rewrite D. apply selR_ext. intros. apply E.
Qed.
Lemma post_spec2 : forall ind g f p h q, post_spec ind g f p -> post_spec ind g h q ->
  (forall b, wf (Bin b f h) -> post_spec ind g (Bin b f h) (Bin b p q)) /\
  (forall b, wf (Bil b f h) -> post_spec ind g (Bil b f h) (Bil b p q)) /\
  (wf (Cat f h) -> post_spec ind g (Cat f h) (Cat p q)).
Proof.
  intros ind g f p h q (E & V & V' & D & W) (E2 & V2 & V2' & D2 & W2).
  destruct (node_ok_dims2 f p h q D D2) as (N1 & N2 & N3).
  assert (Va : forall v, In v (union_vars (vars f) (vars h)) ->
                 In v (union_vars (vars p) (vars q)) \/ In v (vars g)).
  { intros v Hv. rewrite union_vars_in in *. destruct Hv as [Hv|Hv]; [apply V in Hv|apply V2 in Hv]; tauto. }
  assert (Vb : forall v, In v (union_vars (vars p) (vars q)) ->
                 In v (union_vars (vars f) (vars h)) \/ v = (ind, 1, 3)).
  { intros v Hv. rewrite union_vars_in in *. destruct Hv as [Hv|Hv]; [apply V' in Hv|apply V2' in Hv]; tauto. }
  repeat split; auto; try (destruct H as [N _]; rewrite <- N); try apply N1; try apply N2; try apply N3.
  - intros e k. cbn [eval]. rewrite D, D2. unfold bcv. rewrite E, E2. reflexivity.
  - intros e k. cbn [eval]. rewrite D, D2. apply bilR_ext; auto.
  - intros e k. cbn [eval]. rewrite D, E, E2. reflexivity.
Qed.

Lemma post_unique : forall f g, wf f -> chunk_nodes f = [g] -> forall ind, below ind f ->
  exists p, post_chunk ind f = Ok p /\ post_spec ind g f p.
Proof.
  assert (Z0 : forall f ind, chunk_nodes f = [] -> (ind + Z.of_nat (num_chunked f) = ind)%Z).
  { intros f ind H. rewrite num_nodes, H. cbn [length]. lia. }
  assert (Sm : forall f ind g, wf f -> below ind f -> post_spec ind g f f) by (intros; apply post_spec_same; assumption).
  induction f; intros g0 W H ind B; pose proof W as W0; cbn [wf] in W0; cbn [chunk_nodes] in H; try discriminate.
  - destruct W0 as [N W0]. destruct (IHf g0 W0 H ind B) as (p & E & S). exists (Un u p). cbn [post_chunk].
    rewrite E. cbn [rbind]. pose proof (proj1 (post_spec1 _ _ _ _ S) u W) as S'.
    split; [apply mk_ok; destruct S' as (_ & _ & _ & _ & [X _]); exact X|exact S'].
  - destruct W0 as [N [W1 W2]].
    assert (B1 : below ind f1) by (intros v Hv; apply B; cbn [vars]; apply union_vars_in; auto).
    assert (B2 : below ind f2) by (intros v Hv; apply B; cbn [vars]; apply union_vars_in; auto).
    assert (G : exists p q, post_chunk ind f1 = Ok p /\ post_chunk (ind + Z.of_nat (num_chunked f1)) f2 = Ok q /\
                post_spec ind g0 f1 p /\ post_spec ind g0 f2 q).
    { apply app_eq_unit in H. destruct H as [[H1 H2]|[H1 H2]].
      - destruct (IHf2 g0 W2 H2 ind B2) as (q & E & S). exists f1, q. rewrite Z0 by assumption.
        rewrite post_none by assumption. auto.
      - destruct (IHf1 g0 W1 H1 ind B1) as (p & E & S). exists p, f2. rewrite (post_none f2) by assumption. auto. }
    destruct G as (p & q & Ep & Eq & Sp & Sq). exists (Bin b p q). cbn [post_chunk]. rewrite Ep. cbn [rbind].
    rewrite Eq. cbn [rbind]. pose proof (proj1 (post_spec2 _ _ _ _ _ _ Sp Sq) b W) as S'.
    split; [apply mk_ok; destruct S' as (_ & _ & _ & _ & [X _]); exact X|exact S'].
  - destruct W0 as [N [W1 [W2 W3]]].
    assert (B1 : below ind f1) by (intros v Hv; apply B; cbn [vars]; rewrite !union_vars_in; auto).
    assert (B2 : below ind f2) by (intros v Hv; apply B; cbn [vars]; rewrite !union_vars_in; auto).
    assert (B3 : below ind f3) by (intros v Hv; apply B; cbn [vars]; rewrite !union_vars_in; auto).
    assert (G : exists p q r, post_chunk ind f1 = Ok p /\ post_chunk (ind + Z.of_nat (num_chunked f1)) f2 = Ok q /\
                post_chunk (ind + Z.of_nat (num_chunked f1) + Z.of_nat (num_chunked f2)) f3 = Ok r /\
                post_spec ind g0 f1 p /\ post_spec ind g0 f2 q /\ post_spec ind g0 f3 r).
    { apply app_eq_unit in H. destruct H as [[H1 H]|[H1 H]].
      - apply app_eq_unit in H. rewrite Z0 by assumption. rewrite post_none by assumption.
        destruct H as [[H2 H3]|[H2 H3]].
        + rewrite Z0 by assumption. destruct (IHf3 g0 W3 H3 ind B3) as (q & E & S). exists f1, f2, q.
          rewrite post_none by assumption. auto 12.
        + destruct (IHf2 g0 W2 H2 ind B2) as (q & E & S). exists f1, q, f3.
          rewrite (post_none f3) by assumption. auto 12.
      - apply app_eq_nil in H. destruct H as [H2 H3].
        destruct (IHf1 g0 W1 H1 ind B1) as (p & E & S). exists p, f2, f3.
        rewrite (post_none f2), (post_none f3) by assumption. auto 12. }
    destruct G as (p & q & r & Ep & Eq & Er & Sp & Sq & Sr). exists (Ter t p q r). cbn [post_chunk].
    rewrite Ep. cbn [rbind]. rewrite Eq. cbn [rbind]. rewrite Er. cbn [rbind].
    destruct Sp as (P1 & P2 & P3 & P4 & P5). destruct Sq as (Q1 & Q2 & Q3 & Q4 & Q5).
    destruct Sr as (R1 & R2 & R3 & R4 & R5).
    assert (X : node_ok (Ter t p q r) = true) by (cbn [node_ok] in *; congruence).
    split; [apply mk_ok; exact X|]. split; [|split; [|split; [|split]]].
    + intros e k. cbn [eval]. rewrite P4, Q4, R4. unfold bcv. rewrite P1, Q1, R1. reflexivity.
    + intros v Hv. cbn [vars] in *. rewrite !union_vars_in in *.
      destruct Hv as [Hv|[Hv|Hv]]; [apply P2 in Hv|apply Q2 in Hv|apply R2 in Hv]; tauto.
    + intros v Hv. cbn [vars] in *. rewrite !union_vars_in in *.
      destruct Hv as [Hv|[Hv|Hv]]; [apply P3 in Hv|apply Q3 in Hv|apply R3 in Hv]; tauto.
    + cbn [dim]. congruence.
    + cbn [wf]. auto.
  - destruct W0 as [N W0]. destruct (use_chunk (Lin l f)) eqn:U.
    + cbn [app] in H. inversion H; subst. exists (Var ind 1 3).
      split; [|apply post_spec_node; exact U]. destruct l; try discriminate.
      unfold post_chunk; fold post_chunk; rewrite U; reflexivity.
    + cbn [app] in H. destruct (IHf g0 W0 H ind B) as (p & E & S). exists (Lin l p).
      pose proof (proj1 (proj2 (post_spec1 _ _ _ _ S)) l W) as S'.
      split; [|exact S'].
      assert (X : (do g' <- post_chunk ind f; mk (Lin l g')) = Ok (Lin l p)).
      { rewrite E. cbn [rbind]. apply mk_ok; destruct S' as (_ & _ & _ & _ & [X _]); exact X. }
      destruct l; try exact X. unfold post_chunk; fold post_chunk; rewrite U; exact X.
  - destruct W0 as [N [W1 W2]]. destruct (use_chunk (Bil b f1 f2)) eqn:U.
    + cbn [app] in H. inversion H; subst. exists (Var ind 1 3).
      split; [|apply post_spec_node; exact U]. destruct b; try discriminate.
      unfold post_chunk; fold post_chunk; rewrite U; reflexivity.
    + cbn [app] in H.
      assert (B1 : below ind f1) by (intros v Hv; apply B; cbn [vars]; apply union_vars_in; auto).
      assert (B2 : below ind f2) by (intros v Hv; apply B; cbn [vars]; apply union_vars_in; auto).
      assert (G : exists p q, post_chunk ind f1 = Ok p /\ post_chunk (ind + Z.of_nat (num_chunked f1)) f2 = Ok q /\
                  post_chunk ind f2 = Ok q /\ post_spec ind g0 f1 p /\ post_spec ind g0 f2 q).
      { apply app_eq_unit in H. destruct H as [[H1 H2]|[H1 H2]].
        - destruct (IHf2 g0 W2 H2 ind B2) as (q & E & S). exists f1, q. rewrite Z0 by assumption.
          rewrite post_none by assumption. auto 12.
        - destruct (IHf1 g0 W1 H1 ind B1) as (p & E & S). exists p, f2. rewrite !(post_none f2) by assumption. auto 12. }
      destruct G as (p & q & Ep & Eq & Eq' & Sp & Sq). exists (Bil b p q).
      pose proof (proj1 (proj2 (post_spec2 _ _ _ _ _ _ Sp Sq)) b W) as S'. split; [|exact S'].
      assert (X : mk (Bil b p q) = Ok (Bil b p q)) by (apply mk_ok; destruct S' as (_ & _ & _ & _ & [X _]); exact X).
      destruct b; unfold post_chunk; fold post_chunk; rewrite ?U; rewrite Ep; cbn [rbind]; rewrite ?Eq, ?Eq'; exact X.
  - destruct W0 as [N [W1 W2]].
    assert (B1 : below ind f1) by (intros v Hv; apply B; cbn [vars]; apply union_vars_in; auto).
    assert (B2 : below ind f2) by (intros v Hv; apply B; cbn [vars]; apply union_vars_in; auto).
    assert (G : exists p q, post_chunk ind f1 = Ok p /\ post_chunk (ind + Z.of_nat (num_chunked f1)) f2 = Ok q /\
                post_spec ind g0 f1 p /\ post_spec ind g0 f2 q).
    { apply app_eq_unit in H. destruct H as [[H1 H2]|[H1 H2]].
      - destruct (IHf2 g0 W2 H2 ind B2) as (q & E & S). exists f1, q. rewrite Z0 by assumption.
        rewrite post_none by assumption. auto.
      - destruct (IHf1 g0 W1 H1 ind B1) as (p & E & S). exists p, f2. rewrite (post_none f2) by assumption. auto. }
    destruct G as (p & q & Ep & Eq & Sp & Sq). exists (Cat p q). cbn [post_chunk]. rewrite Ep. cbn [rbind].
    rewrite Eq. cbn [rbind]. pose proof (proj2 (proj2 (post_spec2 _ _ _ _ _ _ Sp Sq)) W) as S'.
    split; [apply mk_ok; destruct S' as (_ & _ & _ & _ & [X _]); exact X|exact S'].
  - destruct W0 as [N W0]. destruct (IHf g0 W0 H ind B) as (p & E & S). exists (Sel s p). cbn [post_chunk].
    rewrite E. cbn [rbind]. pose proof (proj2 (proj2 (post_spec1 _ _ _ _ S)) s W) as S'.
    split; [apply mk_ok; destruct S' as (_ & _ & _ & _ & [X _]); exact X|exact S'].
Qed.

Lemma nminargs_below : forall f, below (nminargs f) f.
Proof.
  intros f. unfold below, nminargs. induction (vars f) as [|w l IH]; intros v Hv; [contradiction|].
  cbn [fold_right]. destruct Hv as [<-|Hv]; [lia|]. apply IH in Hv. lia.
Qed.

(** ** Variables of the chunked version *)
Lemma cvt_vars : forall dc f, is_chunkable f = true -> wf f -> dim f <> 1 ->
  forall i d c, In (i, d, c) (vars (cvt dc f)) ->
  (d = dc /\ In (i, dim f, c) (vars f)) \/ (d = 1 /\ In (i, 1, c) (vars f)).
Proof.
  intros dc f.
  assert (G : forall x D, is_chunkable x = true -> wf x -> dim x = 1 \/ dim x = D ->
    (dim x <> 1 -> forall i d c, In (i, d, c) (vars (cvt dc x)) ->
       (d = dc /\ In (i, dim x, c) (vars x)) \/ (d = 1 /\ In (i, 1, c) (vars x))) ->
    forall i d c, In (i, d, c) (vars (if dim x =? 1 then x else cvt dc x)) ->
       (d = dc /\ In (i, D, c) (vars x)) \/ (d = 1 /\ In (i, 1, c) (vars x))).
  { intros x D Cx Wx HD H i d c Hi. destruct (Nat.eqb_spec (dim x) 1) as [E|E].
    - right. pose proof (scalar_vars x Cx Wx E i d c Hi). subst. auto.
    - destruct HD as [HD|HD]; [contradiction|]. rewrite <- HD. apply H; assumption. }
  induction f; intros Ck W N i0 d0 c0 Hi; cbn [is_chunkable] in Ck; try discriminate; cbn [wf] in W.
  - destruct Hi as [Hi|[]]. inversion Hi; subst. left. cbn. auto.
  - destruct W as [_ W]. cbn [cvt vars dim] in *. eapply G; eauto.
  - destruct W as [O [W1 W2]]. apply andb_true_iff in Ck. destruct Ck as [C1 C2].
    assert (P1 := dim_pos _ W1). assert (P2 := dim_pos _ W2). cbn [node_ok] in O.
    apply compat2 with (D := max (dim f1) (dim f2)) in O; auto. destruct O as [O1 O2].
    cbn [cvt vars dim] in *. rewrite !union_vars_in in *.
    destruct Hi as [Hi|Hi]; [apply (G f1 _ C1 W1 O1) in Hi|apply (G f2 _ C2 W2 O2) in Hi]; auto; tauto.
  - destruct W as [O [W1 [W2 W3]]]. apply andb_true_iff in Ck. destruct Ck as [Ck C3].
    apply andb_true_iff in Ck. destruct Ck as [C1 C2].
    cbn [node_ok] in O. apply vcompat3_spec in O. cbv zeta in O. destruct O as (O1 & O2 & O3).
    apply or_comm in O1, O2, O3.
    cbn [cvt vars dim] in *. rewrite !union_vars_in in *.
    destruct Hi as [Hi|[Hi|Hi]]; [apply (G f1 _ C1 W1 O1) in Hi|apply (G f2 _ C2 W2 O2) in Hi|apply (G f3 _ C3 W3 O3) in Hi]; auto; tauto.
Qed.

Lemma chunk_vars_in : forall dc c f, 2 <= dc -> is_chunkable f = true -> wf f -> dim f <> 1 ->
  NoDup (chunked_vars c (cvt dc f)) /\
  forall v, In v (chunked_vars c (cvt dc f)) <-> vdim v = dc /\ vcat v = c /\ In (vpos v, dim f, c) (vars f).
Proof.
  intros dc c f Hdc.
  assert (G : forall x D, is_chunkable x = true -> wf x -> dim x = 1 \/ dim x = D -> D <> 1 ->
    (dim x <> 1 -> NoDup (chunked_vars c (cvt dc x)) /\
       forall v, In v (chunked_vars c (cvt dc x)) <-> vdim v = dc /\ vcat v = c /\ In (vpos v, dim x, c) (vars x)) ->
    let x' := if dim x =? 1 then x else cvt dc x in
    NoDup (if dim x' =? 1 then [] else chunked_vars c x') /\
    forall v, In v (if dim x' =? 1 then [] else chunked_vars c x')
      <-> vdim v = dc /\ vcat v = c /\ In (vpos v, D, c) (vars x)).
  { intros x D Cx Wx HD ND H x'. subst x'. destruct (Nat.eqb_spec (dim x) 1) as [E|E].
    - rewrite E. cbn [Nat.eqb]. split; [constructor|]. intros v. split; [intros []|].
      intros (_ & _ & Hv). apply (scalar_vars x Cx Wx E) in Hv. contradiction.
    - destruct HD as [HD|HD]; [contradiction|]. destruct (cvt_ok dc ltac:(lia) x Cx Wx E) as (_ & E2 & _). rewrite E2.
      destruct (Nat.eqb_spec dc 1); [lia|]. rewrite <- HD. apply H, E. }
  induction f; intros Ck W N; cbn [is_chunkable] in Ck; try discriminate; cbn [wf] in W.
  - cbn [cvt chunked_vars dim vars].
    change (cat_vars (Var i dc c0) c) with (if c0 =? c then [(i, dc, c0)] else []).
    destruct (Nat.eqb_spec c0 c) as [->|E].
    + split; [constructor; [intros []|constructor]|]. intros [[i' d'] c']. unfold vdim, vcat, vpos. cbn. split.
      * intros [H|[]]. inversion H; subst. auto.
      * intros (-> & -> & [H|[]]). inversion H; subst. auto.
    + split; [constructor|]. intros v. split; [intros []|]. intros (_ & _ & [H|[]]). inversion H; subst. contradiction.
  - destruct W as [_ W]. cbn [cvt chunked_vars dim vars] in *. apply G; auto.
  - destruct W as [O [W1 W2]]. apply andb_true_iff in Ck. destruct Ck as [C1 C2].
    assert (P1 := dim_pos _ W1). assert (P2 := dim_pos _ W2). cbn [node_ok] in O.
    apply compat2 with (D := max (dim f1) (dim f2)) in O; auto. destruct O as [O1 O2].
    cbn [cvt chunked_vars dim vars] in *.
    destruct (G f1 _ C1 W1 O1 N (IHf1 C1 W1)) as [N1 H1]. destruct (G f2 _ C2 W2 O2 N (IHf2 C2 W2)) as [N2 H2].
    split; [apply union_vars_nodup; exact N2|]. intros v. rewrite !union_vars_in, H1, H2. tauto.
  - destruct W as [O [W1 [W2 W3]]]. apply andb_true_iff in Ck. destruct Ck as [Ck C3].
    apply andb_true_iff in Ck. destruct Ck as [C1 C2].
    cbn [node_ok] in O. apply vcompat3_spec in O. cbv zeta in O. destruct O as (O1 & O2 & O3).
    apply or_comm in O1, O2, O3. cbn [cvt chunked_vars dim vars] in *.
    destruct (G f1 _ C1 W1 O1 N (IHf1 C1 W1)) as [N1 H1]. destruct (G f2 _ C2 W2 O2 N (IHf2 C2 W2)) as [N2 H2].
    destruct (G f3 _ C3 W3 O3 N (IHf3 C3 W3)) as [N3 H3].
    split; [apply union_vars_nodup, union_vars_nodup; exact N3|]. intros v. rewrite !union_vars_in, H1, H2, H3. tauto.
Qed.

(** The same for a chunked node. *)
Lemma node_vars : forall dc g, use_chunk g = true -> wf g ->
  forall i d c, In (i, d, c) (vars (cvt dc g)) ->
  (d = dc /\ In (i, node_dim g, c) (vars g)) \/ (d = 1 /\ In (i, 1, c) (vars g)).
Proof.
  intros dc g U W i d c H. pose proof (node_large g U) as [L _].
  destruct g as [| | | | | | |l g|b g h| |]; try discriminate.
  - destruct l; try discriminate. cbn [use_chunk] in U. apply andb_true_iff in U. destruct U as [C _].
    cbn [wf] in W. destruct W as [_ W]. cbn [node_dim cvt vars] in *. apply cvt_vars in H; auto; lia.
  - destruct b; try discriminate. cbn [use_chunk] in U. apply andb_true_iff in U. destruct U as [C _].
    apply andb_true_iff in C. destruct C as [C1 C2].
    cbn [wf] in W. destruct W as [O [W1 W2]]. cbn [node_ok] in O. apply Nat.eqb_eq in O. cbn [node_dim cvt vars] in *.
    rewrite !union_vars_in in *. destruct H as [H|H]; apply cvt_vars in H; auto; try lia; [tauto|].
    rewrite <- O in H. tauto.
Qed.
Lemma node_chunked : forall dc c g, 2 <= dc -> use_chunk g = true -> wf g ->
  NoDup (chunked_vars c (cvt dc g)) /\
  forall v, In v (chunked_vars c (cvt dc g)) <-> vdim v = dc /\ vcat v = c /\ In (vpos v, node_dim g, c) (vars g).
Proof.
  intros dc c g Hdc U W. pose proof (node_large g U) as [L _].
  destruct g as [| | | | | | |l g|b g h| |]; try discriminate.
  - destruct l; try discriminate. cbn [use_chunk] in U. apply andb_true_iff in U. destruct U as [C _].
    cbn [wf] in W. destruct W as [_ W]. cbn [node_dim cvt vars chunked_vars] in *. apply chunk_vars_in; auto; lia.
  - destruct b; try discriminate. cbn [use_chunk] in U. apply andb_true_iff in U. destruct U as [C _].
    apply andb_true_iff in C. destruct C as [C1 C2].
    cbn [wf] in W. destruct W as [O [W1 W2]]. cbn [node_ok] in O. apply Nat.eqb_eq in O.
    cbn [node_dim cvt vars chunked_vars] in *.
    destruct (chunk_vars_in dc c g Hdc C1 W1 ltac:(lia)) as [N1 H1].
    destruct (chunk_vars_in dc c h Hdc C2 W2 ltac:(lia)) as [N2 H2].
    split; [apply union_vars_nodup; exact N2|]. intros v. rewrite !union_vars_in, H1, H2. rewrite O. tauto.
Qed.
(** Scalar variables are kept. *)
Lemma cvt_scalar : forall dc f, is_chunkable f = true -> dim f <> 1 ->
  forall i c, In (i, 1, c) (vars f) -> In (i, 1, c) (vars (cvt dc f)).
Proof.
  intros dc f.
  assert (G : forall x, (dim x <> 1 -> forall i c, In (i, 1, c) (vars x) -> In (i, 1, c) (vars (cvt dc x))) ->
    forall i c, In (i, 1, c) (vars x) -> In (i, 1, c) (vars (if dim x =? 1 then x else cvt dc x))).
  { intros x H i c. destruct (Nat.eqb_spec (dim x) 1); auto. }
  induction f; intros Ck N i0 c0 Hi; cbn [is_chunkable] in Ck; try discriminate;
    rewrite ?andb_true_iff in Ck; cbn [cvt vars] in *.
  - destruct Hi as [Hi|[]]. inversion Hi; subst. cbn in N. congruence.
  - apply G; auto.
  - rewrite union_vars_in in *. destruct Hi; [left|right]; apply G; tauto.
  - rewrite !union_vars_in in *. destruct Hi as [Hi|[Hi|Hi]]; [left|right; left|right; right]; apply G; tauto.
Qed.
Lemma scalar_kept : forall dc g, use_chunk g = true -> wf g -> forall i c,
  In (i, 1, c) (vars g) -> In (i, 1, c) (vars (cvt dc g)).
Proof.
  intros dc g U W i c H. pose proof (node_large g U) as [L _].
  destruct g as [| | | | | | |l g|b g h| |]; try discriminate.
  - destruct l; try discriminate. cbn [use_chunk] in U. apply andb_true_iff in U. destruct U as [C _].
    cbn [node_dim cvt vars] in *. apply cvt_scalar; auto; lia.
  - destruct b; try discriminate. cbn [use_chunk] in U. apply andb_true_iff in U. destruct U as [C _].
    apply andb_true_iff in C. destruct C as [C1 C2].
    cbn [wf] in W. destruct W as [O _]. cbn [node_ok] in O. apply Nat.eqb_eq in O. cbn [node_dim cvt vars] in *.
    rewrite !union_vars_in in *. destruct H; [left|right]; apply cvt_scalar; auto; lia.
Qed.

Lemma node_notchunked : forall dc c g, use_chunk g = true -> notchunked_vars c (cvt dc g) = [].
Proof.
  intros dc c g U. destruct g as [| | | | | | |l g|b g h| |]; try discriminate; [destruct l|destruct b]; try discriminate; reflexivity.
Qed.

Lemma part_declared : forall decl g f, part g f -> declared decl f -> declared decl g.
Proof. intros decl g f P. induction P; cbn [declared]; tauto. Qed.
Lemma part_vars : forall g f, part g f -> forall v, In v (vars g) -> In v (vars f).
Proof. intros g f P v H. induction P; cbn [vars]; rewrite ?union_vars_in; tauto. Qed.

(** ** Constants *)
Definition is_node (f g : fm) : Prop := chunk_nodes f = [g].

Lemma constants_ok : forall order f tagI g, wf f -> is_node f g ->
  exists p, post_spec (nminargs f) g f p /\
  chunk_constants order f tagI = Ok
  {| c_fun := cvt dimchunk g; c_last := cvt (chunk_last (node_dim g)) g; c_post := p;
     c_org := node_dim g; c_nchunks := chunk_count (node_dim g); c_dimlast := chunk_last (node_dim g);
     c_new := nminargs f;
     c_iN := not_chunked order p (cvt dimchunk g) tagI;
     c_jN := not_chunked order p (cvt dimchunk g) (1 - tagI);
     c_pN := not_chunked order p (cvt dimchunk g) 2;
     c_iC := chunked_inds order (cvt dimchunk g) tagI;
     c_jC := chunked_inds order (cvt dimchunk g) (1 - tagI);
     c_pC := chunked_inds order (cvt dimchunk g) 2 |}.
Proof.
  intros order f tagI g W H. destruct (chunk_nodes_in f g W) as (_ & U & Wg); [rewrite H; left; reflexivity|].
  destruct (node_large g U) as [L _].
  destruct (post_unique f g W H (nminargs f) (nminargs_below f)) as (p & E & S). exists p. split; [exact S|].
  unfold chunk_constants. rewrite chunked_formulas_nodes by (assumption || (unfold dimchunk; lia)).
  rewrite H. cbn [map rbind head_chunk]. rewrite E. cbn [rbind].
  change (1 + (node_dim g - 1) / dimchunk) with (chunk_count (node_dim g)).
  change (node_dim g - (chunk_count (node_dim g) - 1) * dimchunk) with (chunk_last (node_dim g)).
  rewrite chunked_formulas_nodes by (try assumption; apply chunk_sizes; lia).
  rewrite H. reflexivity.
Qed.
