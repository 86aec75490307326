(** Forward derivatives, divergences, Laplacians: proofs. *)

From Coq Require Import ZArith Reals Lia Lra List Bool FunctionalExtensionality.
From Verif Require Import Result Formula Simplify SimplifyProofs BuildProofs Diff GradSpec Calculus Tangent
  DiffRules Adjoint DiffProofs Closure Termination DiffTermination LinOps LinOpsSpec Degree DegreeDiff C40Proofs
  TraceProofs.
Import ListNotations.
Local Open Scope nat_scope.

(** Fresh indices. *)
Lemma fold_max : forall l a, (a <= fold_left Z.max l a)%Z /\ forall x, In x l -> (x <= fold_left Z.max l a)%Z.
Proof.
  induction l as [|b l IH]; intros a; cbn [fold_left]; [split; [lia|contradiction]|].
  destruct (IH (Z.max a b)) as [H1 H2]. split; [lia|]. intros x [<-|H]; [lia|auto].
Qed.
Lemma new_index_fresh : forall l, ~ In (new_index l) l.
Proof.
  intros [|a l]; [auto|]. unfold new_index. destruct (fold_max l a) as [H1 H2]. intros [H|H]; [lia|].
  apply H2 in H. lia.
Qed.
Lemma fresh_deg : forall j f, ~ In j (indices f) -> degree j f = 0.
Proof.
  intros j f H. apply occurs_deg.
  induction f; cbn [indices occurs] in *; rewrite ?in_app_iff in H; auto.
  - apply Z.eqb_neq. intros ->. apply H. left. auto.
  - rewrite IHf1, IHf2 by tauto. auto.
  - rewrite IHf1, IHf2, IHf3 by tauto. auto.
  - rewrite IHf1, IHf2 by tauto. auto.
  - rewrite IHf1, IHf2 by tauto. auto.
Qed.

Lemma total_rsum : forall n v, total n v = rsum n v.
Proof. induction n; intros; cbn; rewrite ?IHn; auto. Qed.

Lemma moved_upd : forall i j H x e t, agree j (moved i H (upd j x e) t) (moved i H e t).
Proof.
  intros i j H x e t l N. apply functional_extensionality. intros k. unfold moved, upd.
  apply Z.eqb_neq in N. rewrite N. auto.
Qed.

Lemma ip_basis : forall n k u, k < n -> ip n (basis k) u = u k.
Proof.
  intros n k u K. unfold ip. rewrite <- (rsum_single n k u K). apply rsum_ext. intros l L. unfold basis.
  destruct (l =? k); ring.
Qed.
Lemma ip_comm : forall n u w, ip n u w = ip n w u.
Proof. intros. apply rsum_ext. intros. ring. Qed.

(** The adjoint. *)
Lemma adjoint_main : forall f i d c u h, AdjointOperator f (Var i d c) u = Ok h ->
  wf f -> wf u -> dim u = dim f -> degree i f <= 1 -> occurs i u = false ->
  wf h /\ dim h = d /\
  forall e, safe e f -> safe e u -> safe e h /\
    forall x, inner d (eval h e) x = inner (dim f) (eval u e) (eval f (upd i x e)).
Proof.
  intros f i d c u h E Wf Wu Du G O. apply occurs_deg in O.
  destruct (adjoint_ok i d c _ _ _ _ E Wf Wu Du) as (A & B & C & V).
  split; [auto|]. split; [auto|]. intros e Sf Su. split; [apply V; auto|]. intros x.
  assert (A1 : agree i (upd i x e) e) by apply agree_upd.
  destruct (V (upd i x e)) as [_ Q].
  - apply (safe_off i f e); auto using agree_sym.
  - apply (safe_off i u e); auto using agree_sym. lia.
  - rewrite !ip_inner. rewrite (ip_comm _ (eval u e)).
    rewrite (eval_off i h (upd i x e) e), (eval_off i u (upd i x e) e) in Q by (auto; apply C; lia).
    unfold upd in Q at 1. rewrite Z.eqb_refl in Q. exact Q.
Qed.

(** Sums of coefficients and traces. *)
Lemma sum_main : forall f i d c h, SumLinOperator f (Var i d c) One One = Ok h ->
  wf f -> degree i f <= 1 ->
  wf h /\ dim h = 1 /\ forall e, safe e f -> safe e h /\
    eval h e 0 = total (dim f) (fun k => total d (fun j => eval f (upd i (basis j) e) k)).
Proof.
  intros f i d c h E Wf G.
  destruct (sumlin_ok i d c _ _ _ _ _ E Wf wf_one wf_one) as (A & B & _ & _ & V); [split; auto|].
  split; [auto|]. split; [auto|]. intros e S. destruct (V e S (safe_one e) (safe_one e)) as [S' Q].
  split; [auto|]. rewrite Q. change total with rsum. unfold WS. apply rsum_ext. intros k K.
  apply rsum_ext. intros j J. rewrite !val_one. unfold ej. ring.
Qed.
Lemma wsum_main : forall f i d c wl wr h, SumLinOperator f (Var i d c) (Wt wl) (Wt wr) = Ok h ->
  wf f -> wf wl -> wf wr -> degree i f <= 1 -> sum_depth i f = 0 ->
  wf h /\ dim h = 1 /\ forall e, safe e f -> safe e wl -> safe e wr -> safe e h /\
    eval h e 0 = weighted_sum i d f wl wr e.
Proof.
  intros f i d c wl wr h E Wf Wl Wr G Z.
  destruct (sumlin_ok i d c _ _ _ _ _ E Wf Wl Wr) as (A & B & _ & _ & V); [split; auto|].
  split; [auto|]. split; [auto|]. intros e S Sl Sr. destruct (V e S Sl Sr) as [S' Q].
  split; [auto|]. rewrite Q. unfold weighted_sum. change total with rsum. unfold WS. apply rsum_ext. intros k K.
  apply rsum_ext. intros j J. unfold ej. cbn [wfm].
  change (entry wl e k) with (val wl e k). change (entry wr e j) with (val wr e j). unfold entry.
  destruct (dim f =? 1) eqn:D; auto. apply Nat.eqb_eq in D. replace k with 0 by lia. auto.
Qed.
Lemma trace_main : forall f i d c h, TraceOperator f (Var i d c) One = Ok h ->
  wf f -> degree i f <= 1 -> sum_depth i f <= 1 ->
  wf h /\ dim h = 1 /\ forall e, safe e f -> safe e h /\
    eval h e 0 = total d (fun k => entry f (upd i (basis k) e) k).
Proof.
  intros f i d c h E Wf G Z.
  destruct (trace_ok i d c _ _ _ _ E Wf wf_one G Z) as (A & B & _ & _ & V).
  split; [auto|]. split; [auto|]. intros e S. destruct (V e S (safe_one e)) as [S' Q].
  split; [auto|]. rewrite Q. change total with rsum. unfold TR. apply rsum_ext. intros k K. rewrite val_one.
  unfold ej. change (val f) with (entry f). ring.
Qed.
Lemma wtrace_main : forall f i d c w h, TraceOperator f (Var i d c) (Wt w) = Ok h ->
  wf f -> wf w -> degree i f <= 1 -> sum_depth i f <= 1 ->
  wf h /\ dim h = 1 /\ forall e, safe e f -> safe e w -> safe e h /\ eval h e 0 = weighted_trace i d f w e.
Proof.
  intros f i d c w h E Wf Ww G Z.
  destruct (trace_ok i d c _ _ _ _ E Wf Ww G Z) as (A & B & _ & _ & V).
  split; [auto|]. split; [auto|]. intros e S Sw. destruct (V e S Sw) as [S' Q].
  split; [auto|]. rewrite Q. unfold weighted_trace. change total with rsum. unfold TR. apply rsum_ext. intros k K.
  reflexivity.
Qed.

(** The gradient with respect to a fresh variable: the derivative of each entry. *)
Lemma gradient_entries : forall f i d c j c' Gf, DiffT f (Var i d c) (Var j (dim f) c') = Ok Gf -> 1 <= d ->
  wf f -> consistent i d c f -> unmixed f -> degree j f = 0 ->
  wf Gf /\ dim Gf = d /\ degree j Gf <= 1 /\
  forall e, smooth e f -> safe e Gf /\
    forall k H, k < dim f -> directional f i H e k (ip d (eval Gf (upd j (basis k) e)) H).
Proof.
  intros f i d c j c' Gf E Hd Wf K U Z.
  assert (Pf : 1 <= dim f) by (apply dim_pos; auto).
  assert (Wg : wf (Var j (dim f) c')) by (split; [cbn; destruct (dim f); [lia|auto]|exact I]).
  destruct (DiffTn_ok i d c Hd _ f _ _ E) as (Wh & Dh & _); auto; [repeat split; auto|].
  destruct (DiffT_adjoint _ _ _ _ _ _ E Hd Wf K U Wg eq_refl) as [_ P].
  split; [auto|]. split; [auto|]. split.
  { apply (DiffT_deg j) in E; auto. cbn [degree] in E. rewrite Z.eqb_refl in E. auto. }
  intros e S. split; [apply (P e S I)|]. intros k H Hk.
  destruct (P (upd j (basis k) e)) as [_ Q].
  - apply (inside_off _ j f e); auto. apply agree_sym, agree_upd.
  - exact I.
  - specialize (Q H). rewrite ip_inner in Q. unfold directional.
    eapply d0_ext; [|exact Q]; cbv beta; intros t. rewrite ip_inner. cbn [eval]. unfold upd at 1. rewrite Z.eqb_refl.
    rewrite ip_basis by auto. rewrite (eval_off j f _ (moved i H e t)); auto. apply moved_upd.
Qed.

Lemma diff_main : forall f i d c u h, Diff f (Var i d c) u = Ok h -> 1 <= d ->
  wf f -> wf u -> dim u = d -> consistent i d c f -> unmixed f ->
  wf h /\ dim h = dim f /\
  forall e, smooth e f -> safe e u -> safe e h /\
    forall k, k < dim f -> directional f i (eval u e) e k (eval h e k).
Proof.
  intros f i d c u h E Hd Wf Wu Du K U. unfold Diff in E. set (j := new_index _) in E.
  assert (N := new_index_fresh (indices f ++ indices (Var i d c) ++ indices u)). fold j in N.
  rewrite !in_app_iff in N.
  assert (Zf : degree j f = 0) by (apply fresh_deg; tauto).
  assert (Zu : degree j u = 0) by (apply fresh_deg; tauto). bind_inv.
  destruct (gradient_entries _ _ _ _ _ _ _ H Hd Wf K U Zf) as (Wg & Dg & Gg & P).
  destruct (adjoint_main _ _ _ _ _ _ E Wg Wu) as (Wh & Dh & Q); [lia|auto|apply occurs_deg; auto|].
  split; [auto|]. split; [auto|]. intros e S Su. destruct (P e S) as [Sg P']. destruct (Q e Sg Su) as [Sh Q'].
  split; [auto|]. intros k Hk. specialize (P' k (eval u e) Hk).
  specialize (Q' (basis k)). rewrite !ip_inner, ip_comm, ip_basis in Q' by auto. rewrite Dg, ip_comm in Q'.
  rewrite Q'. exact P'.
Qed.

Lemma divergence_main : forall f i d c h, Divergence f (Var i d c) = Ok h -> 1 <= d ->
  wf f -> consistent i d c f -> unmixed f ->
  (forall Gf, DiffT f (Var i d c) (Var (new_index (indices f)) d 3) = Ok Gf ->
     sum_depth (new_index (indices f)) Gf <= 1) ->
  wf h /\ dim h = 1 /\ dim f = d /\
  forall e, smooth e f -> safe e h /\ is_divergence f i d e (eval h e 0).
Proof.
  intros f i d c h E Hd Wf K U Hs. unfold Divergence in E. cbn [dim] in E. set (j := new_index (indices f)) in *.
  destruct (dim f =? d) eqn:Df; [|discriminate]. apply Nat.eqb_eq in Df.
  apply rbind_ok in E as (Gf & H & E).
  assert (Zf : degree j f = 0) by (apply fresh_deg; apply new_index_fresh).
  specialize (Hs _ H). rewrite <- Df in H at 2.
  destruct (gradient_entries _ _ _ _ _ _ _ H Hd Wf K U Zf) as (Wg & Dg & Gg & P).
  destruct (trace_main _ _ _ _ _ E Wg Gg Hs) as (Wh & Dh & Q).
  split; [auto|]. split; [auto|]. split; [auto|]. intros e S. destruct (P e S) as [Sg P'].
  destruct (Q e Sg) as [Sh V]. split; [auto|].
  exists (fun k => entry Gf (upd j (basis k) e) k). split; [|exact V].
  intros k Hk. specialize (P' k (basis k)). rewrite ip_comm, ip_basis in P' by auto.
  unfold entry. rewrite Dg. destruct (d =? 1) eqn:D1; [apply Nat.eqb_eq in D1; replace k with 0 in * by lia|];
    apply P'; lia.
Qed.

(** Laplacians. *)
Lemma moved_moved : forall i H e t s, moved i H (moved i H e t) s = moved i H e (t + s)%R.
Proof.
  intros i H e t s. apply functional_extensionality. intros j. apply functional_extensionality. intros k.
  unfold moved. destruct (Z.eqb j i); ring.
Qed.

Lemma derivable_shift : forall (p : R -> R) t l, derivable_pt_lim (fun s => p (t + s)%R) 0 l ->
  derivable_pt_lim p t l.
Proof.
  intros p t l H eps He. destruct (H eps He) as [del D]. exists del. intros s Hs Hd.
  specialize (D s Hs Hd). cbv beta in D. rewrite !Rplus_0_l, Rplus_0_r in D. exact D.
Qed.

Lemma laplacian_main : forall f i d c h, Laplacian f (Var i d c) = Ok h -> 1 <= d ->
  wf f -> consistent i d c f -> unmixed f ->
  (forall dFT, DiffT f (Var i d c) (Int 1) = Ok dFT -> consistent i d c dFT /\ unmixed dFT) ->
  (forall dFT Gf, DiffT f (Var i d c) (Int 1) = Ok dFT ->
     DiffT dFT (Var i d c) (Var (new_index (indices dFT)) d 3) = Ok Gf ->
     sum_depth (new_index (indices dFT)) Gf <= 1) ->
  wf h /\ dim h = 1 /\ dim f = 1 /\
  exists dFT, DiffT f (Var i d c) (Int 1) = Ok dFT /\
  forall e eps, (0 < eps)%R -> (forall k t, (Rabs t < eps)%R -> smooth (moved i (basis k) e t) f) -> smooth e dFT ->
    safe e h /\ is_laplacian (fun e => eval f e 0) i d e (eval h e 0).
Proof.
  intros f i d c h E Hd Wf K U C Hs. unfold Laplacian in E.
  destruct (dim f =? 1) eqn:Df; [|discriminate]. apply Nat.eqb_eq in Df.
  apply rbind_ok in E as (dFT & H & E). change (IntCst 1) with (Int 1) in H.
  destruct (C _ H) as [K' U'].
  assert (W1 : wf (Int 1)) by (split; [reflexivity|exact I]).
  destruct (DiffTn_ok i d c Hd _ f _ _ H) as (Wh & Dh & _); auto; [repeat split; auto|].
  destruct (DiffT_adjoint _ _ _ _ _ _ H Hd Wf K U W1 (eq_sym Df)) as [_ P].
  destruct (divergence_main _ _ _ _ _ E Hd Wh K' U' (fun Gf => Hs dFT Gf H)) as (A1 & A2 & A3 & V).
  split; [auto|]. split; [auto|]. split; [auto|]. exists dFT. split; [auto|].
  intros e eps He S Sd. destruct (V e Sd) as [Sh (p & Hp & Dp)]. split; [auto|].
  exists eps, (fun k t => eval dFT (moved i (basis k) e t) k), p.
  split; [auto|]. split; [|split; [|exact Dp]].
  - intros k t Hk Ht. apply derivable_shift.
    destruct (P _ (S k t Ht) I) as [_ Q]. specialize (Q (basis k)).
    rewrite ip_inner, ip_comm, ip_basis in Q by auto.
    eapply d0_ext; [|exact Q]. intros s. cbv beta. rewrite ip_inner, Df. unfold ip. rewrite rsum_1.
    rewrite moved_moved. cbn [eval]. ring.
  - intros k Hk. exact (Hp k Hk).
Qed.

(** Depth of the calls. *)
Lemma Broadcast_self : forall a, Broadcast a (dim a) = Ok a.
Proof. intros a. unfold Broadcast. rewrite Nat.eqb_refl. reflexivity. Qed.

Ltac noof H :=
  repeat (apply rbind_oof in H; destruct H as [H|(? & ? & H)]);
  try solve [ discriminate
            | revert H; apply mk_noof | revert H; apply Broadcast_noof | revert H; apply SumT_noof
            | revert H; apply Mult_terminates | revert H; apply Divide_terminates | revert H; apply Sum_terminates
            | revert H; unfold Inv; apply mk_noof ].
Ltac bounds :=
  repeat match goal with
  | H : Broadcast _ _ = Ok _ |- _ => apply (Broadcast_m 0%Z) in H; destruct H as (_ & _ & H)
  | H : Mult _ _ = Ok _ |- _ => apply (Mult_m 0%Z) in H; destruct H as (_ & _ & H)
  end; cbn [bound] in *;
  repeat match goal with
  | H : context [bound ?f] |- _ => lazymatch goal with _ : 1 <= bound f |- _ => fail | _ => idtac end;
      assert (1 <= bound f) by apply bound_pos
  end; try lia.

Lemma operator_noof : forall W (self : fm -> W -> res fm) call v f w,
  (forall a w, bound a < bound f -> self a w <> OutOfFuel) ->
  (forall w, call f w = Some OutOfFuel -> False) ->
  operator self call v f w <> OutOfFuel.
Proof.
  intros W self call v f w Hs Hc H. unfold operator in H. destruct (is_linear v f); [|discriminate].
  assert (G : match call f w with Some r => r | None => KErr end = OutOfFuel -> False).
  { destruct (call f w) as [r|] eqn:E; [intros ->; eauto|discriminate]. }
  destruct f as [| | | |op a|op a b| |op a|op a b| |]; try solve [auto];
  destruct op; try solve [auto].
  - cbn [dim] in H. rewrite Broadcast_self in H. cbn [rbind] in H. noof H.
    revert H. apply Hs. cbn. lia.
  - noof H; revert H; apply Hs; bounds.
  - noof H; revert H; apply Hs; bounds.
  - noof H; revert H; apply Hs; bounds.
Qed.

Ltac selfcall IH H := revert H; apply IH; bounds.

Lemma AdjointN_noof : forall n v f u, bound f <= n -> AdjointN n v f u <> OutOfFuel.
Proof.
  induction n as [|n IH]; intros v f u L.
  - assert (1 <= bound f) by apply bound_pos. lia.
  - cbn [AdjointN]. apply operator_noof; [intros a w B; apply IH; lia|].
    intros w H. destruct f as [| | | |op a|op a b|op a b r|op a|op a b|a b|op a]; cbn [adjoint_call] in H;
    try discriminate.
    + apply (f_equal (fun o => match o with Some r => r | None => KErr end)) in H. noof H.
    + destruct op; try discriminate.
      * destruct (is_linear v a); [|destruct (is_linear v b); [|discriminate]];
          apply (f_equal (fun o => match o with Some r => r | None => KErr end)) in H; noof H; selfcall IH H.
      * apply (f_equal (fun o => match o with Some r => r | None => KErr end)) in H; noof H; selfcall IH H.
    + destruct op; apply (f_equal (fun o => match o with Some r => r | None => KErr end)) in H; noof H;
        selfcall IH H.
Qed.

Lemma wdiv_noof : forall w f, wdiv w f <> OutOfFuel.
Proof. intros [|g] f; [apply mk_noof|apply Divide_terminates]. Qed.

Lemma SumLinN_noof : forall n v f ws, bound f <= n -> SumLinN n v f ws <> OutOfFuel.
Proof.
  induction n as [|n IH]; intros v f ws L.
  - assert (1 <= bound f) by apply bound_pos. lia.
  - cbn [SumLinN]. apply operator_noof; [intros a w B; apply IH; lia|].
    intros [wl wr] H. unfold sumlin_call in H. destruct (_ && _)%bool in H; [|discriminate].
    destruct f as [| | | |op a|op a b|op a b r|op a|op a b|a b|op a]; try discriminate.
    + destruct (_ && _)%bool in H;
      apply (f_equal (fun o => match o with Some r => r | None => KErr end)) in H; noof H.
    + destruct op; try discriminate.
      * destruct (is_linear v a); [|destruct (is_linear v b); [|discriminate]];
          apply (f_equal (fun o => match o with Some r => r | None => KErr end)) in H; noof H; selfcall IH H.
      * apply (f_equal (fun o => match o with Some r => r | None => KErr end)) in H; noof H;
        [revert H; apply wdiv_noof|selfcall IH H].
    + destruct op; try discriminate;
      apply (f_equal (fun o => match o with Some r => r | None => KErr end)) in H; noof H; try selfcall IH H.
      destruct (_ =? 1) in H; [destruct wl|]; noof H.
Qed.

Lemma TraceN_noof : forall n v f w, bound f <= n -> TraceN n v f w <> OutOfFuel.
Proof.
  induction n as [|n IH]; intros v f ws L.
  - assert (1 <= bound f) by apply bound_pos. lia.
  - cbn [TraceN]. apply operator_noof; [intros a w B; apply IH; lia|].
    intros w H. unfold trace_call in H. destruct (negb _) in H; [discriminate|].
    destruct (negb _) in H; [discriminate|].
    destruct f as [| | | |op a|op a b|op a b r|op a|op a b|a b|op a]; try discriminate.
    + destruct (_ =? 1) in H;
      apply (f_equal (fun o => match o with Some r => r | None => KErr end)) in H; noof H.
    + destruct op; try discriminate.
      * destruct (is_linear v a); [destruct (_ =? 1) in H|destruct (is_linear v b); [|discriminate]];
          apply (f_equal (fun o => match o with Some r => r | None => KErr end)) in H; noof H; selfcall IH H.
      * apply (f_equal (fun o => match o with Some r => r | None => KErr end)) in H; noof H;
        [revert H; apply wdiv_noof|selfcall IH H].
    + destruct op; try discriminate;
      apply (f_equal (fun o => match o with Some r => r | None => KErr end)) in H.
      * revert H; apply SumLinN_noof; lia.
      * selfcall IH H.
Qed.

Lemma operators_terminate : forall f v u w wl wr,
  AdjointOperator f v u <> OutOfFuel /\ TraceOperator f v w <> OutOfFuel /\
  SumLinOperator f v wl wr <> OutOfFuel.
Proof.
  intros. split; [apply AdjointN_noof; lia|]. split; [apply TraceN_noof; lia|apply SumLinN_noof; lia].
Qed.
Lemma Divergence_noof : forall f v, Divergence f v <> OutOfFuel.
Proof.
  intros f v H. unfold Divergence in H. destruct (_ =? _); [|discriminate].
  apply rbind_oof in H; destruct H as [H|(? & ? & H)]; [revert H; apply DiffT_terminates|].
  revert H. apply TraceN_noof. lia.
Qed.
Lemma derivatives_terminate : forall f v u,
  Diff f v u <> OutOfFuel /\ Divergence f v <> OutOfFuel /\ Laplacian f v <> OutOfFuel.
Proof.
  intros f v u. split; [|split; [apply Divergence_noof|]]; intros H.
  - unfold Diff in H. apply rbind_oof in H; destruct H as [H|(? & ? & H)]; [revert H; apply DiffT_terminates|].
    revert H. apply AdjointN_noof. lia.
  - unfold Laplacian in H. destruct (_ =? _); [|discriminate].
    apply rbind_oof in H; destruct H as [H|(? & ? & H)]; [revert H; apply DiffT_terminates|].
    revert H. apply Divergence_noof.
Qed.
