(** Adjoints, traces and forward derivatives: proofs. *)

From Coq Require Import ZArith Reals Lia Lra List Bool FunctionalExtensionality.
From Verif Require Import Result Formula Simplify SimplifyProofs BuildProofs Diff GradSpec Calculus Tangent
  DiffRules Adjoint DiffProofs Termination DiffTermination LinOps LinOpsSpec Degree DegreeDiff.
Import ListNotations.
Local Open Scope nat_scope.

(** ** Formulas of degree 0 and 1 *)

Definition agree (i : Z) (e1 e2 : env) : Prop := forall j, j <> i -> e1 j = e2 j.

Lemma agree_sym : forall i e1 e2, agree i e1 e2 -> agree i e2 e1.
Proof. intros i e1 e2 A j N. symmetry. auto. Qed.
Lemma agree_upd : forall i x e, agree i (upd i x e) e.
Proof. intros i x e j N. unfold upd. apply Z.eqb_neq in N. rewrite N. auto. Qed.
Lemma agree_upd2 : forall i x y e, agree i (upd i x e) (upd i y e).
Proof. intros i x y e j N. unfold upd. apply Z.eqb_neq in N. rewrite N. auto. Qed.

Lemma eval_off : forall i f e1 e2, degree i f = 0 -> agree i e1 e2 -> eval f e1 = eval f e2.
Proof.
  intros i f e1 e2 Z A. apply functional_extensionality. intros k. revert k.
  assert (G : eval f e1 = eval f e2); [|intros; rewrite G; auto].
  induction f; cbn [degree] in Z; apply functional_extensionality; intros k; cbn [eval].
  - destruct (Z.eqb_spec i0 i) as [|N]; [discriminate|]. rewrite (A _ N). auto.
  - auto.
  - auto.
  - auto.
  - rewrite IHf; auto. destruct u; lia.
  - rewrite IHf1, IHf2; auto; destruct b; lia.
  - rewrite IHf1, IHf2, IHf3; auto; destruct t; lia.
  - rewrite IHf; auto.
  - rewrite IHf1, IHf2; auto; lia.
  - rewrite IHf1, IHf2; auto; lia.
  - rewrite IHf; auto; lia.
Qed.

Lemma inside_off : forall D i f e1 e2, degree i f = 0 -> agree i e1 e2 -> inside D e1 f -> inside D e2 f.
Proof.
  intros D i f e1 e2 Z A.
  induction f; cbn [degree] in Z; cbn [inside]; auto; intros S.
  - destruct S as [S1 S2]. assert (degree i f = 0) by (destruct u; lia).
    split; [auto|]. rewrite (eval_off i f e2 e1); auto using agree_sym.
  - destruct S as (S1 & S2 & S3).
    assert (degree i f1 = 0) by (destruct b; lia). assert (degree i f2 = 0) by (destruct b; lia).
    split; [auto|]. split; [auto|].
    rewrite (eval_off i f1 e2 e1), (eval_off i f2 e2 e1); auto using agree_sym.
  - destruct S as (S1 & S2 & S3 & S4).
    assert (degree i f1 = 0) by (destruct t; lia). assert (degree i f2 = 0) by (destruct t; lia).
    assert (degree i f3 = 0) by (destruct t; lia).
    split; [auto|]. split; [auto|]. split; [auto|].
    rewrite (eval_off i f1 e2 e1), (eval_off i f2 e2 e1), (eval_off i f3 e2 e1); auto using agree_sym.
  - destruct S as (S1 & S2). split; [apply IHf1|apply IHf2]; auto; lia.
  - destruct S as (S1 & S2). split; [apply IHf1|apply IHf2]; auto; lia.
  - destruct S as (S1 & S2). assert (degree i f = 0) by lia.
    split; [auto|]. rewrite (eval_off i f e2 e1); auto using agree_sym.
Qed.

(** An affine formula is defined or not whatever the value of the variable. *)
Lemma safe_off : forall i f e1 e2, degree i f <= 1 -> agree i e1 e2 -> safe e1 f -> safe e2 f.
Proof.
  intros i f e1 e2. unfold safe.
  induction f; intros Z A S; cbn [degree] in Z; cbn [inside] in *; auto.
  - destruct S as [S1 S2]. destruct u; try (split; [apply IHf; auto; lia|]);
    try (intros; exact I);
    try (rewrite (eval_off i f e2 e1); [exact S2|lia|apply agree_sym; auto]).
  - destruct S as (S1 & S2 & S3).
    split; [apply IHf1; auto; destruct b; lia|]. split; [apply IHf2; auto; destruct b; lia|].
    destruct b; try (intros; exact I);
    try (rewrite (eval_off i f1 e2 e1), (eval_off i f2 e2 e1); [exact S3|..]; auto using agree_sym; lia).
    rewrite (eval_off i f2 e2 e1); [exact S3|lia|auto using agree_sym].
  - destruct S as (S1 & S2 & S3 & S4).
    split; [apply IHf1; auto; destruct t; lia|]. split; [apply IHf2; auto; destruct t; lia|].
    split; [apply IHf3; auto; destruct t; lia|].
    destruct t; try (intros; exact I).
    rewrite (eval_off i f1 e2 e1), (eval_off i f2 e2 e1), (eval_off i f3 e2 e1);
      [exact S4|..]; auto using agree_sym; lia.
  - destruct S as (S1 & S2). split; [apply IHf1|apply IHf2]; auto; lia.
  - destruct S as (S1 & S2). split; [apply IHf1|apply IHf2]; auto; lia.
  - destruct S as (S1 & S2). split; [apply IHf; auto; lia|].
    rewrite (eval_off i f e2 e1); [exact S2|lia|auto using agree_sym].
Qed.

Ltac mkwf H := apply mk_ok in H as [-> H].

Section Ops.
Variables (i : Z) (d c : nat).
Notation v := (Var i d c).

Lemma lin_zero : forall f, is_linear v f = true -> degree i f = 0 -> forall e k, eval f e k = 0%R.
Proof.
  assert (X : forall a b, xorb a b = true -> a = true \/ b = true) by (intros [|] [|]; auto).
  induction f; intros L Z e k; cbn [is_linear degree eval] in *; try discriminate.
  - apply feqb_eq in L. injection L as -> _ _. rewrite Z.eqb_refl in Z. discriminate.
  - auto.
  - destruct u; try discriminate. cbn [unR]. rewrite IHf by auto. ring.
  - unfold bcv. destruct b; try discriminate; cbn [binR].
    + apply andb_true_iff in L as [? ?]. rewrite IHf1, IHf2 by (auto; lia). ring.
    + apply andb_true_iff in L as [? ?]. rewrite IHf1, IHf2 by (auto; lia). ring.
    + apply X in L as [L|L]; [rewrite IHf1|rewrite IHf2]; auto; try lia; ring.
    + rewrite IHf1 by (auto; lia). unfold Rdiv. ring.
  - destruct l; cbn [linR]; rewrite ?IHf by auto; auto.
    + apply rsum_0. intros; apply IHf; auto.
    + destruct (k =? m); auto.
    + destruct (_ && _); auto.
  - apply X in L. destruct b; cbn [bilR];
    repeat (apply rsum_0; intros);
    (destruct L as [L|L]; [rewrite IHf1|rewrite IHf2]; auto; try lia; ring).
  - apply andb_true_iff in L as [? ?]. destruct (k <? dim f1); [rewrite IHf1|rewrite IHf2]; auto; lia.
Qed.

Lemma lin_swap : forall a b e1 e2 k l, is_linear v a = true -> degree i a + degree i b <= 1 -> agree i e1 e2 ->
  (eval a e1 k * eval b e1 l = eval a e1 k * eval b e2 l)%R.
Proof.
  intros a b e1 e2 k l L Z A. destruct (Nat.eq_dec (degree i b) 0) as [E|E].
  - rewrite (eval_off i b e1 e2); auto.
  - rewrite (lin_zero a L); [ring|lia].
Qed.

(** [is_linear] is right for formulas of degree at most 1. *)
Lemma linear_ok : forall f, is_linear v f = true -> degree i f <= 1 ->
  forall e a b x y k, eval f (upd i (fun l => a * x l + b * y l)%R e) k
    = (a * eval f (upd i x e) k + b * eval f (upd i y e) k)%R.
Proof.
  assert (X : forall a b, xorb a b = true -> a = true \/ b = true) by (intros [|] [|]; auto).
  induction f; intros L Z e al be x y k; cbn [is_linear degree eval] in *; try discriminate.
  - apply feqb_eq in L. injection L as -> _ _. unfold upd. rewrite Z.eqb_refl. auto.
  - ring.
  - destruct u; try discriminate. cbn [unR]. rewrite IHf by auto. ring.
  - set (E := upd i (fun l => al * x l + be * y l)%R e).
    assert (A1 : agree i E (upd i x e)) by apply agree_upd2.
    assert (A2 : agree i E (upd i y e)) by apply agree_upd2.
    unfold bcv. destruct b; try discriminate; cbn [binR].
    + apply andb_true_iff in L as [? ?]. unfold E. rewrite IHf1, IHf2 by (auto; lia). ring.
    + apply andb_true_iff in L as [? ?]. unfold E. rewrite IHf1, IHf2 by (auto; lia). ring.
    + apply X in L as [L|L].
      * rewrite (lin_swap f1 f2 (upd i x e) E), (lin_swap f1 f2 (upd i y e) E) by (auto using agree_sym).
        unfold E at 1. rewrite IHf1 by (auto; lia). ring.
      * rewrite !(Rmult_comm (eval f1 _ _)).
        rewrite (lin_swap f2 f1 (upd i x e) E), (lin_swap f2 f1 (upd i y e) E) by (auto using agree_sym; lia).
        unfold E at 1. rewrite IHf2 by (auto; lia). ring.
    + rewrite <- (eval_off i f2 E (upd i x e)), <- (eval_off i f2 E (upd i y e)) by (auto; lia).
      unfold E at 1. rewrite IHf1 by (auto; lia). unfold Rdiv. ring.
  - destruct l; cbn [linR]; rewrite ?IHf by auto; auto.
    + rewrite <- !rsum_scal, <- rsum_plus. apply rsum_ext. intros; apply IHf; auto.
    + destruct (k =? m); [auto|ring].
    + destruct (_ && _); [auto|ring].
  - set (E := upd i (fun l => al * x l + be * y l)%R e).
    assert (A1 : agree i E (upd i x e)) by apply agree_upd2.
    assert (A2 : agree i E (upd i y e)) by apply agree_upd2.
    assert (P : forall m n, (eval f1 E m * eval f2 E n
        = al * (eval f1 (upd i x e) m * eval f2 (upd i x e) n)
          + be * (eval f1 (upd i y e) m * eval f2 (upd i y e) n))%R).
    { intros m n. apply X in L as [L|L].
      - rewrite (lin_swap f1 f2 (upd i x e) E), (lin_swap f1 f2 (upd i y e) E) by (auto using agree_sym).
        unfold E at 1. rewrite IHf1 by (auto; lia). ring.
      - rewrite !(Rmult_comm (eval f1 _ _)).
        rewrite (lin_swap f2 f1 (upd i x e) E), (lin_swap f2 f1 (upd i y e) E) by (auto using agree_sym; lia).
        unfold E at 1. rewrite IHf2 by (auto; lia). ring. }
    destruct b; cbn [bilR].
    + rewrite <- !rsum_scal, <- rsum_plus. apply rsum_ext. intros; apply P.
    + rewrite <- !rsum_scal, <- rsum_plus. apply rsum_ext. intros; apply P.
    + rewrite <- !rsum_scal, <- rsum_plus. apply rsum_ext. intros.
      rewrite !(Rmult_comm (eval f2 _ _)). apply P.
    + apply P.
  - apply andb_true_iff in L as [? ?]. destruct (k <? dim f1); [apply IHf1|apply IHf2]; auto; lia.
Qed.

(** ** Operands of the recursive calls *)

Lemma i_bcast : forall a m a', Broadcast a m = Ok a' -> wf a -> 1 <= m -> dim a <= m ->
  wf a' /\ dim a' = m /\ degree i a' = degree i a /\ sum_depth i a' = sum_depth i a /\
  forall e, safe e a -> safe e a' /\ forall k, k < m -> eval a' e k = val a e k.
Proof.
  intros a m a' E Wa Pm Le.
  destruct (Broadcast_m i _ _ _ E) as (G1 & G2 & _).
  destruct (Broadcast_ok safe_doms _ _ _ E Wa Pm) as (A & B & C & V).
  split; [auto|]. split; [lia|]. split; [auto|]. split; [auto|]. intros e S. destruct (V e S) as [S' V'].
  split; [auto|]. intros k K. rewrite <- V'. symmetry. apply val_lt. lia.
Qed.

Lemma bin_le : forall b x y, wf (Bin b x y) -> wf x /\ wf y /\ dim x <= dim (Bin b x y) /\ dim y <= dim (Bin b x y) /\
  1 <= dim (Bin b x y) /\ (dim x = dim (Bin b x y) \/ dim x = 1) /\ (dim y = dim (Bin b x y) \/ dim y = 1).
Proof.
  intros b x y W. apply wf_bin in W as (? & ? & ? & ? & C). unfold compat in C. cbn [dim]. intuition lia.
Qed.

Lemma val_dim : forall f e k, dim f = 1 \/ k < dim f -> val f e k = eval f e (if dim f =? 1 then 0 else k).
Proof. reflexivity. Qed.

(** Transposes of the linear operations. *)
Lemma lin_adj : forall l a g s,
  match l with
  | LSum => SumT g (dim a) | LSumT _ => Sum g
  | LElem m => mk (Lin (LElemT (dim a) m) g) | LElemT _ m => mk (Lin (LElem m) g)
  | LExtract st _ => mk (Lin (LExtractT st (dim a)) g)
  | LExtractT st _ => mk (Lin (LExtract st (dim a)) g)
  end = Ok s ->
  wf (Lin l a) -> wf g -> dim g = dim (Lin l a) ->
  wf s /\ dim s = dim a /\ degree i s <= degree i g /\
  forall e, safe e g -> safe e s /\ forall T, ip (dim a) (eval s e) T =
     ip (dim (Lin l a)) (eval g e) (linR l (dim a) T).
Proof.
  intros l a g s Es [N Wa] Wg Dg. assert (Pa := dim_pos _ Wa). assert (Pg := dim_pos _ Wg).
  destruct l as [|n|m|n m|st n|st n]; cbn [dim node_ok] in *.
  - assert (G := SumT_m i _ _ _ Es). destruct (i_sumT _ _ _ Es Wg) as (A & B & C).
    split; [auto|]. split; [auto|]. split; [lia|]. intros e Sg. destruct (C e Sg) as [S V].
    split; [auto|]. intros T. unfold ip. cbn [dim linR rsum].
    rewrite Rplus_0_l, <- rsum_scal. apply rsum_ext. intros k K. rewrite V; auto.
  - assert (G := Sum_deg i _ _ Es). destruct (i_sum _ _ Es Wg) as (A & B & C).
    apply andb_true_iff in N as [N _]. apply Nat.eqb_eq in N.
    split; [auto|]. split; [lia|]. split; [lia|]. intros e Sg. destruct (C e Sg) as [S V].
    split; [auto|]. intros T. unfold ip. rewrite N. cbn [dim linR rsum].
    rewrite V by lia. rewrite Rplus_0_l, Dg, <- rsum_scal_r. reflexivity.
  - mkwf Es. assert (Es' := Es). cbn [node_ok] in Es'. apply andb_true_iff in Es' as [N1 N2].
    apply Nat.ltb_lt in N2. apply Nat.ltb_lt in N.
    split; [split; auto|]. split; [auto|]. split; [cbn; lia|].
    intros e Sg. split; [exact Sg|]. intros T. unfold ip. cbn [dim linR eval]. rewrite rsum_1.
    rewrite <- (rsum_single (dim a) m (fun k => eval g e 0 * T k)%R N). apply rsum_ext.
    intros k K. destruct (k =? m); ring.
  - mkwf Es. assert (Es' := Es). cbn [node_ok] in Es'. apply Nat.ltb_lt in Es'.
    apply andb_true_iff in N as [N1 N2]. apply Nat.eqb_eq in N1. apply Nat.ltb_lt in N2.
    split; [split; auto|]. split; [auto|]. split; [cbn; lia|].
    intros e Sg. split; [exact Sg|]. intros T. unfold ip. cbn [dim linR eval].
    rewrite N1, rsum_1. cbn [eval linR].
    rewrite <- (rsum_single n m (fun k => eval g e k * T O)%R N2). apply rsum_ext.
    intros k K. destruct (k =? m); ring.
  - mkwf Es. apply andb_true_iff in N as [N1 N2]. apply Nat.leb_le in N1.
    split; [split; auto|]. split; [auto|]. split; [cbn; lia|].
    intros e Sg. split; [exact Sg|]. intros T. unfold ip. cbn [dim linR eval].
    replace (dim a) with (st + (n + (dim a - st - n))) by lia.
    rewrite !rsum_split. rewrite (rsum_0 st), (rsum_0 (dim a - st - n)).
    + rewrite Rplus_0_l, Rplus_0_r. apply rsum_ext. intros k K. rewrite Dg.
      replace ((st <=? st + k) && (st + k <? st + n)) with true.
      * replace (st + k - st) with k by lia. reflexivity.
      * symmetry. apply andb_true_iff. split; [apply Nat.leb_le; lia|apply Nat.ltb_lt; lia].
    + intros k K. rewrite Dg. replace (st + (n + k) <? st + n) with false.
      * rewrite andb_false_r. ring.
      * symmetry. apply Nat.ltb_ge. lia.
    + intros k K. replace (st <=? k) with false; [cbn; ring|].
      symmetry. apply Nat.leb_gt. lia.
  - mkwf Es. apply Nat.leb_le in N.
    split; [split; auto|]. split; [auto|]. split; [cbn; lia|].
    intros e Sg. split; [exact Sg|]. intros T. unfold ip. cbn [dim linR eval].
    replace n with (st + (dim a + (n - st - dim a))) by lia.
    rewrite !rsum_split. rewrite (rsum_0 st), (rsum_0 (n - st - dim a)).
    + rewrite Rplus_0_l, Rplus_0_r. apply rsum_ext. intros k K.
      replace ((st <=? st + k) && (st + k <? st + dim a)) with true.
      * replace (st + k - st) with k by lia. reflexivity.
      * symmetry. apply andb_true_iff. split; [apply Nat.leb_le; lia|apply Nat.ltb_lt; lia].
    + intros k K. replace (st + (dim a + k) <? st + dim a) with false.
      * rewrite andb_false_r. ring.
      * symmetry. apply Nat.ltb_ge. lia.
    + intros k K. replace (st <=? k) with false; [cbn; ring|].
      symmetry. apply Nat.leb_gt. lia.
Qed.

(** ** Adjoint *)

Definition adj_ok (f u h : fm) : Prop :=
  wf h /\ dim h = d /\ (degree i f + degree i u <= 1 -> degree i h = 0) /\
  forall e, safe e f -> safe e u -> safe e h /\
    ip d (eval h e) (e i) = ip (dim f) (eval f e) (eval u e).

Lemma adj_lin : forall self l a u s h,
  (forall f u h, self f u = Ok h -> wf f -> wf u -> dim u = dim f -> adj_ok f u h) ->
  match l with
  | LSum => SumT u (dim a) | LSumT _ => Sum u
  | LElem m => mk (Lin (LElemT (dim a) m) u) | LElemT _ m => mk (Lin (LElem m) u)
  | LExtract st _ => mk (Lin (LExtractT st (dim a)) u)
  | LExtractT st _ => mk (Lin (LExtract st (dim a)) u)
  end = Ok s -> self a s = Ok h ->
  wf (Lin l a) -> wf u -> dim u = dim (Lin l a) -> adj_ok (Lin l a) u h.
Proof.
  intros self l a u s h IH Es E W Wu Du.
  destruct (lin_adj l a u s Es W Wu Du) as (Ws & Ds & Gs & Vs).
  destruct (IH _ _ _ E (proj2 W) Ws Ds) as (A & B & G & C).
  split; [auto|]. split; [auto|]. split; [cbn [degree]; intros; apply G; lia|].
  intros e Sf Su. destruct (Vs e Su) as [Ss V]. destruct (C e Sf Ss) as [Sh Vh].
  split; [auto|]. rewrite Vh. cbn [eval]. unfold ip at 1.
  rewrite (rsum_ext _ _ (fun k => eval s e k * eval a e k)%R) by (intros; ring).
  change (ip (dim a) (eval s e) (eval a e) = ip (dim (Lin l a)) (linR l (dim a) (eval a e)) (eval u e)).
  rewrite V. apply rsum_ext. intros; ring.
Qed.

Lemma bin_eval : forall b x y e k, eval (Bin b x y) e k = binR b (val x e k) (val y e k).
Proof. reflexivity. Qed.

Lemma adj_add : forall self b a1 a2 x1 y1 x2 y2 u h, b = BAdd \/ b = BSub ->
  (forall f u h, self f u = Ok h -> wf f -> wf u -> dim u = dim f -> adj_ok f u h) ->
  Broadcast a1 (dim (Bin b a1 a2)) = Ok x1 -> self x1 u = Ok y1 ->
  Broadcast a2 (dim (Bin b a1 a2)) = Ok x2 -> self x2 u = Ok y2 ->
  mk (Bin b y1 y2) = Ok h ->
  wf (Bin b a1 a2) -> wf u -> dim u = dim (Bin b a1 a2) -> adj_ok (Bin b a1 a2) u h.
Proof.
  intros self b a1 a2 x1 y1 x2 y2 u h Hb IH E1 E2 E3 E4 E5 W Wu Du.
  destruct (bin_le _ _ _ W) as (W1 & W2 & L1 & L2 & P & D1 & D2).
  destruct (i_bcast _ _ _ E1 W1 P L1) as (B1 & B2 & B3 & _ & B4).
  destruct (i_bcast _ _ _ E3 W2 P L2) as (C1 & C2 & C3 & _ & C4).
  destruct (IH _ _ _ E2 B1 Wu) as (X1 & X2 & X3 & X4); [lia|].
  destruct (IH _ _ _ E4 C1 Wu) as (Y1 & Y2 & Y3 & Y4); [lia|].
  apply mk_ok in E5 as [-> _].
  assert (Wh : wf (Bin b y1 y2)).
  { apply wf_bin. assert (Q1 := dim_pos _ X1). assert (Q2 := dim_pos _ Y1).
    unfold compat. repeat split; auto; lia. }
  assert (Hmax : degree i (Bin b a1 a2) = max (degree i a1) (degree i a2)) by (destruct Hb; subst b; auto).
  split; [auto|]. split; [cbn [dim]; lia|]. split.
  { rewrite Hmax. intros G. rewrite B3 in X3. rewrite C3 in Y3.
    assert (Z1 : degree i y1 = 0) by (apply X3; lia). assert (Z2 : degree i y2 = 0) by (apply Y3; lia).
    destruct Hb; subst b; cbn [degree]; lia. }
  intros e Sf Su. destruct Sf as (S1 & S2 & _).
  destruct (B4 e S1) as [S1' V1]. destruct (C4 e S2) as [S2' V2].
  destruct (X4 e S1' Su) as [T1 U1]. destruct (Y4 e S2' Su) as [T2 U2].
  split; [split; [auto|]; split; [auto|]; destruct Hb; subst b; intros; exact I|].
  assert (F : forall k, k < dim (Bin b a1 a2) -> (eval (Bin b a1 a2) e k = binR b (eval x1 e k) (eval x2 e k))).
  { intros k K. rewrite bin_eval, V1, V2 by auto. auto. }
  assert (F' : forall k, k < d -> (eval (Bin b y1 y2) e k = binR b (eval y1 e k) (eval y2 e k))).
  { intros k K. rewrite bin_eval, !val_lt by lia. auto. }
  unfold ip in *. rewrite B2 in U1. rewrite C2 in U2.
  destruct Hb; subst b; cbn [binR] in *.
  - rewrite (rsum_ext d _ (fun k => eval y1 e k * e i k + eval y2 e k * e i k)%R)
      by (intros; rewrite F' by auto; ring).
    rewrite rsum_plus, U1, U2, <- rsum_plus. apply rsum_ext. intros. rewrite F by auto. ring.
  - rewrite (rsum_ext d _ (fun k => eval y1 e k * e i k + - (eval y2 e k * e i k))%R)
      by (intros; rewrite F' by auto; ring).
    rewrite rsum_plus, rsum_opp, U1, U2, <- rsum_opp, <- rsum_plus. apply rsum_ext. intros. rewrite F by auto. ring.
Qed.

(** One operand of a product or quotient is the linear one; the other goes into u. *)
Lemma adj_side : forall self b x y a r w a' u h,
  (forall f u h, self f u = Ok h -> wf f -> wf u -> dim u = dim f -> adj_ok f u h) ->
  (a = x /\ r = y \/ b = BMult /\ a = y /\ r = x) -> b = BMult \/ b = BDiv ->
  Broadcast a (dim (Bin b x y)) = Ok a' ->
  (if match b with BMult => true | _ => false end then Mult r u else Divide u r) = Ok w -> self a' w = Ok h ->
  wf (Bin b x y) -> wf u -> dim u = dim (Bin b x y) -> adj_ok (Bin b x y) u h.
Proof.
  intros self b x y a r w a' u h IH Hs Hb E1 E2 E3 W Wu Du.
  destruct (bin_le _ _ _ W) as (W1 & W2 & L1 & L2 & P & D1 & D2).
  assert (Wa : wf a) by (intuition subst; auto). assert (Wr : wf r) by (intuition subst; auto).
  assert (La : dim a <= dim (Bin b x y)) by (intuition subst; auto).
  assert (Dr : dim r = dim (Bin b x y) \/ dim r = 1) by (intuition subst; auto).
  assert (Pr := dim_pos _ Wr).
  destruct (i_bcast _ _ _ E1 Wa P La) as (B1 & B2 & B3 & _ & B4).
  assert (Q : wf w /\ dim w = dim (Bin b x y) /\ degree i a + degree i w <= degree i (Bin b x y) + degree i u /\
    forall e, safe e (Bin b x y) -> safe e u -> safe e w /\ forall k, k < dim (Bin b x y) ->
      (val a e k * eval w e k = eval (Bin b x y) e k * eval u e k)%R).
  { destruct Hb; subst b.
    - assert (G := Mult_m i _ _ _ E2). destruct (i_mult _ _ _ E2 Wr Wu) as (M1 & M2 & M3).
      split; [auto|]. split; [lia|]. split; [cbn [degree]; intuition subst; lia|].
      intros e (S1 & S2 & _) Su.
      assert (Sr : safe e r) by (intuition subst; auto).
      destruct (M3 e (conj Sr Su)) as [S V]. split; [auto|]. intros k K.
      rewrite V, (val_lt u) by lia. rewrite bin_eval. cbn [binR]. intuition subst; ring.
    - assert (G := Divide_deg i _ _ _ E2). destruct (i_div _ _ _ E2 Wu Wr) as (M1 & M2 & M3).
      destruct Hs as [[-> ->]|[? _]]; [|discriminate].
      split; [auto|]. split; [lia|]. split; [cbn [degree]; lia|].
      intros e (S1 & S2 & S3) Su.
      destruct (M3 e) as [S V].
      { split; [auto|]. split; [auto|]. intros k K. apply S3. cbn [dim] in *. lia. }
      split; [auto|]. intros k K.
      rewrite V, (val_lt u) by lia. rewrite bin_eval. cbn [binR]. unfold Rdiv. ring. }
  destruct Q as (Q1 & Q2 & Q3 & Q4).
  destruct (IH _ _ _ E3 B1 Q1) as (X1 & X2 & X3 & X4); [lia|].
  split; [auto|]. split; [auto|]. split; [intros; apply X3; lia|].
  intros e Sf Su. destruct (Q4 e Sf Su) as [Sw Vw].
  assert (Sa : safe e a) by (destruct Sf as (? & ? & _); intuition subst; auto).
  destruct (B4 e Sa) as [Sa' Va]. destruct (X4 e Sa' Sw) as [Sh Vh]. split; [auto|].
  rewrite Vh, B2. apply rsum_ext. intros k K. rewrite Va by auto. apply Vw. auto.
Qed.

Lemma bil_sum : forall a b p, Mult a b = Ok p -> wf (Bil KScal a b) ->
  wf (Lin LSum p) /\ degree i (Lin LSum p) <= degree i (Bil KScal a b) /\
  sum_depth i (Lin LSum p) <= sum_depth i (Bil KScal a b) /\
  forall e, safe e (Bil KScal a b) -> safe e (Lin LSum p) /\
    forall k, eval (Lin LSum p) e k = eval (Bil KScal a b) e k.
Proof.
  intros a b p E [N [Wa Wb]]. cbn [node_ok] in N. apply Nat.eqb_eq in N.
  destruct (Mult_m i _ _ _ E) as (G1 & G2 & _).
  destruct (i_mult _ _ _ E Wa Wb) as (A & B & C).
  split; [split; auto|]. split; [cbn; lia|]. split.
  { cbn [sum_depth]. destruct (occurs i p) eqn:O; [|lia].
    destruct (occurs i a || occurs i b) eqn:O'; [lia|].
    apply orb_false_iff in O' as [O1 O2]. apply occurs_deg in O1, O2.
    assert (Z : degree i p = 0) by lia. apply occurs_deg in Z. congruence. }
  intros e S. destruct (C e S) as [S' V]. split; [auto|]. intros k. cbn [eval linR bilR].
  replace (dim p) with (dim a) by lia. apply rsum_ext. intros l K. rewrite V, !val_lt by lia. auto.
Qed.

Lemma adjoint_ok : forall n f u h, AdjointN n v f u = Ok h -> wf f -> wf u -> dim u = dim f -> adj_ok f u h.
Proof.
  induction n as [|n IH]; intros f u h E Wf Wu Du; [discriminate|].
  cbn [AdjointN] in E. unfold operator in E. destruct (is_linear v f) eqn:L; [|discriminate].
  destruct f as [j dj cj|z|z|p q|op a|op a b|op a b r|op a|op a b|a b|op a]; cbn [adjoint_call] in E.
  - (* Var *) injection E as <-. cbn in L. apply feqb_eq in L. injection L as -> -> ->.
    split; [auto|]. split; [auto|]. split; [cbn [degree]; rewrite Z.eqb_refl; lia|].
    intros e _ Su. split; [auto|]. cbn [dim eval]. apply rsum_ext. intros; ring.
  - (* Zero *) mkwf E. split; [split; auto|]. split; [auto|]. split; [auto|].
    intros e _ Su. split; [exact I|]. cbn [eval]. unfold ip.
    rewrite !rsum_0; auto; intros; ring.
  - discriminate.
  - discriminate.
  - (* Minus *) destruct op; try discriminate. bind_inv. destruct Wf as [_ Wa]. cbn [dim] in *.
    destruct (i_bcast _ _ _ H Wa (dim_pos _ Wa) (Nat.le_refl _)) as (B1 & B2 & B3 & _ & B4).
    destruct (IH _ _ _ H0 B1 Wu) as (X1 & X2 & X3 & X4); [lia|].
    mkwf E. split; [split; auto|]. split; [auto|]. split; [cbn [degree]; intros; apply X3; lia|].
    intros e [Sa _] Su. destruct (B4 e Sa) as [S1 V1]. destruct (X4 e S1 Su) as [S2 V2].
    split; [split; [auto|intros; exact I]|]. unfold ip in *. cbn [eval unR dim].
    rewrite (rsum_ext d _ (fun k => - (eval x0 e k * e i k))%R) by (intros; ring).
    rewrite rsum_opp, V2, <- rsum_opp, B2. apply rsum_ext. intros k K.
    rewrite V1, val_lt by auto. ring.
  - destruct op; try discriminate.
    + bind_inv. eapply (adj_add (AdjointN n v) BAdd); eauto.
    + bind_inv. eapply (adj_add (AdjointN n v) BSub); eauto.
    + destruct (is_linear v a) eqn:La.
      * bind_inv. eapply (adj_side (AdjointN n v) BMult a b a b); eauto.
      * destruct (is_linear v b) eqn:Lb; [|discriminate].
        bind_inv. eapply (adj_side (AdjointN n v) BMult a b b a); eauto.
    + bind_inv. eapply (adj_side (AdjointN n v) BDiv a b a b); eauto.
  - discriminate.
  - destruct op; bind_inv; eapply (adj_lin (AdjointN n v)); eauto; cbv beta iota; eassumption.
  - destruct op; try discriminate. bind_inv.
    destruct (bil_sum _ _ _ H Wf) as (P1 & P2 & _ & P3).
    destruct (IH _ _ _ E P1 Wu Du) as (X1 & X2 & X3 & X4).
    split; [auto|]. split; [auto|]. split; [intros; apply X3; lia|].
    intros e Sf Su. destruct (P3 e Sf) as [S1 V1]. destruct (X4 e S1 Su) as [S2 V2]. split; [auto|].
    rewrite V2. apply rsum_ext. intros k K. rewrite V1. auto.
  - discriminate.
  - discriminate.
Qed.

(** ** Weighted sums of the coefficients *)

Lemma wf_one : wf (wfm One).
Proof. split; [reflexivity|exact I]. Qed.
Lemma safe_one : forall e, safe e (wfm One).
Proof. intros; exact I. Qed.
Lemma val_one : forall e k, val (wfm One) e k = 1%R.
Proof. intros; reflexivity. Qed.
Lemma wdim_dim : forall w, wdim w = dim (wfm w).
Proof. destruct w; reflexivity. Qed.

Definition ej (e : env) (j : nat) : env := upd i (basis j) e.

Lemma safe_ej : forall f e j, degree i f <= 1 -> safe e f -> safe (ej e j) f.
Proof. intros f e j G. apply (safe_off i f e); auto. apply agree_sym, agree_upd. Qed.

Definition WS (f L Rr : fm) (e : env) : R :=
  rsum (dim f) (fun k => rsum d (fun j => val L e k * eval f (ej e j) k * val Rr e j))%R.

Definition sl_ok (wl wr : wgt) (f h : fm) : Prop :=
  wf h /\ dim h = 1 /\ (wdim wl = 1 \/ wdim wl = dim f) /\ (wdim wr = 1 \/ wdim wr = d) /\
  forall e, safe e f -> safe e (wfm wl) -> safe e (wfm wr) ->
    safe e h /\ eval h e 0 = WS f (wfm wl) (wfm wr) e.

Definition sl_pre (wr : wgt) (f : fm) : Prop :=
  degree i f <= 1 /\ (wdim wr = 1 \/ sum_depth i f = 0).

Definition sl_spec (self : fm -> wgt * wgt -> res fm) : Prop :=
  forall f wl wr h, self f (wl, wr) = Ok h -> wf f -> wf (wfm wl) -> wf (wfm wr) -> sl_pre wr f ->
    sl_ok wl wr f h.

Lemma mult_val : forall x y h, Mult x y = Ok h -> wf x -> wf y ->
  wf h /\ dim h = max (dim x) (dim y) /\ compat (dim x) (dim y) /\
  forall e, safe e x -> safe e y -> safe e h /\
    forall k, k < dim h \/ dim h = 1 -> val h e k = (val x e k * val y e k)%R.
Proof.
  intros x y h E Wx Wy. destruct (Mult_ok safe_doms safe_arith_ok _ _ _ E Wx Wy) as (A & B & C & D).
  split; [auto|]. split; [auto|]. split; [auto|]. intros e Sx Sy. destruct (D e Sx Sy) as [S V]. split; auto.
Qed.

Lemma mult1 : forall x y h, Mult x y = Ok h -> wf x -> wf y -> dim x = 1 -> dim y = 1 ->
  wf h /\ dim h = 1 /\ forall e, safe e x -> safe e y -> safe e h /\ eval h e 0 = (eval x e 0 * eval y e 0)%R.
Proof.
  intros x y h E Wx Wy Dx Dy. destruct (mult_val _ _ _ E Wx Wy) as (A & B & _ & V).
  rewrite Dx, Dy in B. cbn in B. split; [auto|]. split; [auto|]. intros e Sx Sy.
  destruct (V e Sx Sy) as [S Q]. split; [auto|]. specialize (Q 0 (or_intror B)).
  rewrite !val_1 in Q by auto. auto.
Qed.

Lemma wdiv_ok : forall w f p, wdiv w f = Ok p -> wf (wfm w) -> wf f ->
  wf p /\ dim p = max (wdim w) (dim f) /\
  forall e, safe e (wfm w) -> safe e f -> (forall k, k < dim p -> val f e k <> 0%R) ->
    safe e p /\ forall k, k < dim p \/ dim p = 1 -> val p e k = (val (wfm w) e k / val f e k)%R.
Proof.
  intros w f p E Ww Wf. assert (Pf := dim_pos _ Wf). destruct w as [|g]; cbn [wdiv] in E.
  - unfold Inv in E. mkwf E. split; [split; auto|]. split; [cbn [wdim dim]; lia|].
    intros e _ Sf N. split.
    + split; [exact Sf|]. intros k K. cbn. rewrite <- (val_lt f) by auto. apply N. exact K.
    + intros k K. rewrite val_un. reflexivity.
  - destruct (Divide_ok safe_doms safe_arith_ok _ _ _ E Ww Wf) as (A & B & C & D).
    split; [auto|]. split; [auto|]. intros e Sg Sf N. destruct (D e Sg Sf N) as [S V]. split; auto.
Qed.

Lemma sl_add : forall self b a1 a2 x1 y1 x2 y2 wl wr h, b = BAdd \/ b = BSub -> sl_spec self ->
  Broadcast a1 (dim (Bin b a1 a2)) = Ok x1 -> self x1 (wl, wr) = Ok y1 ->
  Broadcast a2 (dim (Bin b a1 a2)) = Ok x2 -> self x2 (wl, wr) = Ok y2 ->
  mk (Bin b y1 y2) = Ok h ->
  wf (Bin b a1 a2) -> wf (wfm wl) -> wf (wfm wr) -> sl_pre wr (Bin b a1 a2) -> sl_ok wl wr (Bin b a1 a2) h.
Proof.
  intros self b a1 a2 x1 y1 x2 y2 wl wr h Hb IH E1 E2 E3 E4 E5 W Wl Wr [G1 G2].
  destruct (bin_le _ _ _ W) as (W1 & W2 & L1 & L2 & P & D1 & D2).
  destruct (i_bcast _ _ _ E1 W1 P L1) as (B1 & B2 & B3 & B5 & B4).
  destruct (i_bcast _ _ _ E3 W2 P L2) as (C1 & C2 & C3 & C5 & C4).
  assert (Hmax : degree i (Bin b a1 a2) = max (degree i a1) (degree i a2)) by (destruct Hb; subst b; auto).
  assert (Hsd : sum_depth i (Bin b a1 a2) = max (sum_depth i a1) (sum_depth i a2)) by (destruct Hb; subst b; auto).
  destruct (IH _ _ _ _ E2 B1 Wl Wr) as (X1 & X2 & X3 & X3' & X4); [split; lia|].
  destruct (IH _ _ _ _ E4 C1 Wl Wr) as (Y1 & Y2 & Y3 & Y3' & Y4); [split; lia|].
  mkwf E5.
  split; [split; auto|]. split; [cbn [dim]; lia|]. split; [lia|]. split; [auto|].
  intros e Sf Sl Sr. assert (Sf' := fun j => safe_ej _ _ j G1 Sf). destruct Sf as (S1 & S2 & _).
  destruct (B4 e S1) as [S1' _]. destruct (C4 e S2) as [S2' _].
  destruct (X4 e S1' Sl Sr) as [T1 U1]. destruct (Y4 e S2' Sl Sr) as [T2 U2].
  split; [split; [auto|]; split; [auto|]; destruct Hb; subst b; intros; exact I|].
  assert (F : forall j k, k < dim (Bin b a1 a2) ->
            (eval (Bin b a1 a2) (ej e j) k = binR b (eval x1 (ej e j) k) (eval x2 (ej e j) k))).
  { intros j k K. destruct (Sf' j) as (Q1 & Q2 & _).
    destruct (B4 _ Q1) as [_ V1]. destruct (C4 _ Q2) as [_ V2]. rewrite bin_eval, V1, V2 by auto. auto. }
  rewrite bin_eval, !val_1, U1, U2 by auto. unfold WS. rewrite B2, C2.
  destruct Hb; subst b; cbn [binR] in *.
  - rewrite <- rsum_plus. apply rsum_ext. intros k K. rewrite <- rsum_plus. apply rsum_ext. intros j J.
    rewrite F by auto. ring.
  - unfold Rminus. rewrite <- rsum_opp, <- rsum_plus. apply rsum_ext. intros k K.
    rewrite <- rsum_opp, <- rsum_plus. apply rsum_ext. intros j J. rewrite F by auto. ring.
Qed.

(** The linear operand of a product or quotient, the other going into the weight [p]. *)
Lemma side_val : forall b x y a r e k j, (a = x /\ r = y \/ b = BMult /\ a = y /\ r = x) ->
  b = BMult \/ b = BDiv -> is_linear v a = true -> degree i (Bin b x y) <= 1 ->
  eval (Bin b x y) (ej e j) k
  = if match b with BMult => true | _ => false end then (val a (ej e j) k * val r e k)%R
    else (val a (ej e j) k / val r e k)%R.
Proof.
  intros b x y a r e k j Hs Hb La G. rewrite bin_eval.
  assert (A : agree i (ej e j) e) by apply agree_upd.
  destruct Hb; subst b; cbn [binR degree] in *.
  - unfold val, bcv. destruct Hs as [[-> ->]|(_ & -> & ->)].
    + apply lin_swap; auto.
    + rewrite Rmult_comm. apply lin_swap; auto. lia.
  - destruct Hs as [[-> ->]|[? _]]; [|discriminate].
    unfold val, bcv. rewrite (eval_off i y (ej e j) e); auto. lia.
Qed.

Definition side_weight (b : binop) (r : fm) (w : wgt) (p : fm) : Prop :=
  (if match b with BMult => true | _ => false end then Mult r (wfm w) else wdiv w r) = Ok p.

Lemma side_weight_ok : forall b x y a r w p, (a = x /\ r = y \/ b = BMult /\ a = y /\ r = x) ->
  b = BMult \/ b = BDiv -> side_weight b r w p -> wf (Bin b x y) -> wf (wfm w) ->
  wf p /\ dim p = max (dim r) (wdim w) /\
  forall e, dim p <= dim (Bin b x y) \/ dim r = 1 -> safe e (Bin b x y) -> safe e (wfm w) -> safe e p /\
    forall k, k < dim p \/ dim p = 1 ->
      val p e k = if match b with BMult => true | _ => false end then (val r e k * val (wfm w) e k)%R
                  else (val (wfm w) e k / val r e k)%R.
Proof.
  intros b x y a r w p Hs Hb E W Ww. unfold side_weight in E.
  destruct (bin_le _ _ _ W) as (W1 & W2 & L1 & L2 & P & D1 & D2).
  assert (Wr : wf r) by (intuition subst; auto).
  destruct Hb; subst b.
  - destruct (mult_val _ _ _ E Wr Ww) as (A & B & _ & C). split; [auto|].
    split; [rewrite wdim_dim; auto|]. intros e _ (S1 & S2 & _) Sw.
    apply C; auto. intuition subst; auto.
  - destruct Hs as [[-> ->]|[? _]]; [|discriminate].
    destruct (wdiv_ok _ _ _ E Ww Wr) as (A & B & C). split; [auto|]. split; [lia|].
    intros e Le (S1 & S2 & S3) Sw. apply C; auto. intros k K. destruct Le as [Le|Le].
    + apply S3. cbn [dim] in Le. lia.
    + specialize (S3 0 P). rewrite val_1 by auto. unfold bcv in S3. rewrite Le in S3. exact S3.
Qed.

Lemma sl_side : forall self b x y a r p a' wl wr h, sl_spec self ->
  (a = x /\ r = y \/ b = BMult /\ a = y /\ r = x) -> b = BMult \/ b = BDiv -> is_linear v a = true ->
  (wdim wl = 1 \/ wdim wl = dim (Bin b x y)) ->
  Broadcast a (dim (Bin b x y)) = Ok a' -> side_weight b r wl p -> self a' (Wt p, wr) = Ok h ->
  wf (Bin b x y) -> wf (wfm wl) -> wf (wfm wr) -> sl_pre wr (Bin b x y) -> sl_ok wl wr (Bin b x y) h.
Proof.
  intros self b x y a r p a' wl wr h IH Hs Hb La Dl E1 E2 E3 W Wl Wr [G1 G2].
  destruct (bin_le _ _ _ W) as (W1 & W2 & L1 & L2 & P & D1 & D2).
  assert (Wa : wf a) by (intuition subst; auto). assert (Wr' : wf r) by (intuition subst; auto).
  assert (Le : dim a <= dim (Bin b x y)) by (intuition subst; auto).
  assert (Dr : dim r = dim (Bin b x y) \/ dim r = 1) by (intuition subst; auto).
  destruct (i_bcast _ _ _ E1 Wa P Le) as (B1 & B2 & B3 & B5 & B4).
  destruct (side_weight_ok _ _ _ _ _ _ _ Hs Hb E2 W Wl) as (Q1 & Q2 & Q3).
  assert (Ga : degree i a <= degree i (Bin b x y)) by (destruct Hb; subst b; cbn [degree]; intuition subst; lia).
  assert (Sa : sum_depth i a <= sum_depth i (Bin b x y)) by (destruct Hb; subst b; cbn [sum_depth]; intuition subst; lia).
  destruct (IH _ (Wt p) _ _ E3 B1 Q1 Wr) as (X1 & X2 & X3 & X3' & X4); [split; lia|].
  split; [auto|]. split; [auto|]. split; [auto|]. split; [auto|].
  intros e Sf Sl Sr. assert (Sf' := fun j => safe_ej _ _ j G1 Sf).
  destruct (Q3 e) as [Sp Vp]; auto; [left; lia|].
  assert (Sae : forall e, safe e (Bin b x y) -> safe e a) by (intros e' (? & ? & _); intuition subst; auto).
  destruct (B4 e (Sae _ Sf)) as [Sa' _].
  destruct (X4 e Sa' Sp Sr) as [Sh Vh]. split; [auto|]. rewrite Vh. unfold WS. rewrite B2. cbn [wfm].
  apply rsum_ext. intros k K. apply rsum_ext. intros j J.
  destruct (B4 _ (Sae _ (Sf' j))) as [_ V]. rewrite V by auto.
  rewrite (side_val b x y a r e k j) by auto. rewrite Vp by lia.
  destruct Hb; subst b; unfold Rdiv; ring.
Qed.

Lemma sum_basis : forall n k, k < n -> forall (u : nat -> R),
  rsum n (fun j => u j * basis j k)%R = u k.
Proof.
  intros n k K u. rewrite <- (rsum_single n k u K). apply rsum_ext. intros j J. unfold basis.
  rewrite (Nat.eqb_sym k j). destruct (j =? k); ring.
Qed.

Lemma sumlin_ok : forall n, sl_spec (SumLinN n v).
Proof.
  induction n as [|n IH]; intros f wl wr h E Wf Wl Wr G; [discriminate|].
  cbn [SumLinN] in E. unfold operator in E. destruct (is_linear v f) eqn:L; [|discriminate].
  assert (K : forall r, match sumlin_call (SumLinN n v) v f (wl, wr) with Some r => r | None => KErr end = Ok r ->
    (wdim wl = 1 \/ wdim wl = dim f) /\ (wdim wr = 1 \/ wdim wr = d)).
  { intros r. unfold sumlin_call. cbn [dim].
    destruct ((wdim wl =? 1) || (wdim wl =? dim f)) eqn:K1; [|discriminate].
    destruct ((wdim wr =? 1) || (wdim wr =? d)) eqn:K2; [|discriminate]. intros _.
    apply orb_true_iff in K1, K2. rewrite !Nat.eqb_eq in K1, K2. auto. }
  assert (K' : forall r, match sumlin_call (SumLinN n v) v f (wl, wr) with Some r => r | None => KErr end = Ok r ->
    ((wdim wl =? 1) || (wdim wl =? dim f)) && ((wdim wr =? 1) || (wdim wr =? dim v)) = true).
  { intros r. unfold sumlin_call. destruct (_ && _); [auto|discriminate]. }
  destruct f as [j dj cj|z|z|p q|op a|op a b|op a b r|op a|op a b|a b|op a].
  - (* Var *)
    destruct (K _ E) as [K1 K2]. specialize (K' _ E). unfold sumlin_call in E. rewrite K' in E. clear K K'.
    cbn in L. apply feqb_eq in L. injection L as -> -> ->. assert (Hd := dim_pos _ Wf). cbn [dim] in *.
    assert (V : forall e j k, eval v (ej e j) k = basis j k).
    { intros e j k. cbn [eval]. unfold ej, upd. rewrite Z.eqb_refl. auto. }
    destruct ((wdim wl =? 1) && (wdim wr =? 1)) eqn:B.
    + apply andb_true_iff in B as [B1 B2]. apply Nat.eqb_eq in B1, B2. rewrite wdim_dim in B1, B2. bind_inv.
      destruct (mult1 _ _ _ H (wf_int _) Wl eq_refl B1) as (A1 & A2 & A3).
      destruct (mult1 _ _ _ E A1 Wr A2 B2) as (C1 & C2 & C3).
      split; [auto|]. split; [auto|]. split; [auto|]. split; [auto|]. intros e _ Sl Sr.
      destruct (A3 e I Sl) as [S1 V1]. destruct (C3 e S1 Sr) as [S2 V2]. split; [auto|].
      rewrite V2, V1. cbn [eval]. rewrite <- INR_IZR_INZ. unfold WS. cbn [dim].
      rewrite (rsum_ext d _ (fun _ => eval (wfm wl) e 0 * eval (wfm wr) e 0)%R), rsum_const; [ring|].
      intros k Kk. rewrite (rsum_ext d _ (fun j => (eval (wfm wl) e 0 * eval (wfm wr) e 0) * basis j k)%R).
      * apply (sum_basis d k Kk (fun _ => eval (wfm wl) e 0 * eval (wfm wr) e 0)%R).
      * intros j _. rewrite V, !val_1 by auto. ring.
    + bind_inv. destruct (mult_val _ _ _ H Wl Wr) as (A1 & A2 & _ & A3).
      rewrite !wdim_dim in *.
      assert (Dx : dim x = d).
      { apply andb_false_iff in B. rewrite !Nat.eqb_neq in B. lia. }
      destruct (i_sum _ _ E A1) as (C1 & C2 & C3).
      split; [auto|]. split; [auto|]. rewrite !wdim_dim. split; [auto|]. split; [auto|]. intros e _ Sl Sr.
      destruct (A3 e Sl Sr) as [S1 V1]. destruct (C3 e S1) as [S2 V2]. split; [auto|].
      rewrite V2 by lia. unfold WS. rewrite Dx. cbn [dim]. apply rsum_ext. intros k Kk.
      rewrite (rsum_ext d _ (fun j => (val (wfm wl) e k * val (wfm wr) e j) * basis j k)%R)
        by (intros; rewrite V; ring).
      rewrite (sum_basis d k Kk (fun j => val (wfm wl) e k * val (wfm wr) e j)%R).
      rewrite <- V1 by lia. rewrite val_lt by lia. auto.
  - unfold sumlin_call in E. destruct (_ && _); discriminate.
  - discriminate.
  - discriminate.
  - (* Minus *) destruct op; try discriminate. bind_inv. destruct Wf as [_ Wa]. cbn [dim] in *.
    destruct G as [G1 G2]. cbn [degree sum_depth] in *.
    destruct (i_bcast _ _ _ H Wa (dim_pos _ Wa) (Nat.le_refl _)) as (B1 & B2 & B3 & B5 & B4).
    destruct (IH _ _ _ _ H0 B1 Wl Wr) as (X1 & X2 & X3 & X3' & X4); [split; lia|].
    mkwf E. split; [split; auto|]. split; [auto|]. split; [cbn [dim]; lia|]. split; [auto|].
    intros e [Sa _] Sl Sr. destruct (B4 e Sa) as [S1 _]. destruct (X4 e S1 Sl Sr) as [S2 V2].
    split; [split; [auto|intros; exact I]|]. unfold WS in *. cbn [eval unR dim].
    rewrite V2, <- rsum_opp, B2. apply rsum_ext. intros k Kk. rewrite <- rsum_opp. apply rsum_ext. intros j J.
    destruct (B4 _ (safe_ej a e j G1 Sa)) as [_ V]. rewrite V, (val_lt a) by auto. ring.
  - destruct op; try (specialize (K' _ E); unfold sumlin_call in E; rewrite K' in E; discriminate).
    + bind_inv. eapply (sl_add (SumLinN n v) BAdd); eauto.
    + bind_inv. eapply (sl_add (SumLinN n v) BSub); eauto.
    + destruct (K _ E) as [K1 K2]. specialize (K' _ E). unfold sumlin_call in E. rewrite K' in E.
      destruct (is_linear v a) eqn:La.
      * bind_inv. eapply (sl_side (SumLinN n v) BMult a b a b); eauto.
      * destruct (is_linear v b) eqn:Lb; [|discriminate].
        bind_inv. eapply (sl_side (SumLinN n v) BMult a b b a); eauto.
    + destruct (K _ E) as [K1 K2]. specialize (K' _ E). unfold sumlin_call in E. rewrite K' in E.
      cbn [is_linear] in L. bind_inv. eapply (sl_side (SumLinN n v) BDiv a b a b); eauto.
  - discriminate.
  - destruct (K _ E) as [K1 K2]. specialize (K' _ E). unfold sumlin_call in E. rewrite K' in E.
    destruct op; try discriminate; cbn [is_linear] in L; bind_inv; destruct G as [G1 G2]; cbn [degree] in G1.
    + (* Sum *) destruct Wf as [_ Wa].
      destruct (IH _ _ _ _ H Wa Wr wf_one) as (X1 & X2 & X3 & _ & X4); [split; auto|].
      cbn [dim] in K1. rewrite wdim_dim in K1. assert (D1 : dim (wfm wl) = 1) by lia.
      destruct (mult1 _ _ _ E Wl X1 D1 X2) as (C1 & C2 & C3).
      split; [auto|]. split; [auto|]. split; [rewrite wdim_dim; auto|]. split; [auto|]. intros e Sf Sl Sr.
      destruct (X4 e Sf Sr (safe_one e)) as [S1 V1]. destruct (C3 e Sl S1) as [S2 V2]. split; [auto|].
      rewrite V2, V1. unfold WS. cbn [dim]. rewrite rsum_1. cbn [eval linR].
      rewrite (rsum_ext (dim a) _ (fun k => val (wfm wr) e k * rsum d (fun j => eval a (ej e j) k))%R).
      2:{ intros k Kk. rewrite <- rsum_scal. apply rsum_ext. intros j J. rewrite val_one. ring. }
      destruct G2 as [G2|G2].
      * rewrite wdim_dim in G2.
        rewrite (rsum_ext (dim a) _ (fun k => eval (wfm wr) e 0 * rsum d (fun j => eval a (ej e j) k))%R)
          by (intros; rewrite val_1 by auto; auto).
        rewrite rsum_scal, rsum_swap, <- !rsum_scal. apply rsum_ext. intros j J.
        rewrite !val_1 by auto. change (fun i0 : nat => eval a (ej e j) i0) with (eval a (ej e j)). ring.
      * cbn [sum_depth] in G2. destruct (occurs i a) eqn:O; [discriminate|]. apply occurs_deg in O.
        rewrite (rsum_0 (dim a)), (rsum_0 d); [ring|..].
        -- intros j J. rewrite rsum_0; [ring|]. intros; apply lin_zero; auto.
        -- intros k Kk. rewrite rsum_0; [ring|]. intros; apply lin_zero; auto.
    + (* SumT *) assert (Wf' := Wf). apply wf_sumT in Wf' as (Wa & Da & Pd0). cbn [dim] in K1.
      destruct (IH _ _ _ _ H0 Wa wf_one Wr) as (X1 & X2 & _ & _ & X4); [split; auto|].
      assert (Q : wf x /\ dim x = 1 /\ forall e, safe e (wfm wl) ->
        safe e x /\ eval x e 0 = rsum d0 (fun k => val (wfm wl) e k)).
      { destruct (wdim wl =? 1) eqn:D1.
        - apply Nat.eqb_eq in D1. destruct wl as [|g].
          + injection H as <-. split; [apply IntCst_wf|]. split; [apply IntCst_dim|]. intros e _.
            split; [apply IntCst_safe|].
            rewrite <- (val_1 _ e 0) by apply IntCst_dim. rewrite IntCst_val, <- INR_IZR_INZ.
            rewrite (rsum_ext d0 _ (fun _ => 1%R)) by (intros; apply val_one). rewrite rsum_const. cbn [dim]. ring.
          + cbn [wfm wdim] in *.
            destruct (mult1 _ _ _ H Wl (IntCst_wf _) D1 (IntCst_dim _)) as (Y1 & Y2 & Y3).
            split; [auto|]. split; [auto|]. intros e Sg. destruct (Y3 e Sg (IntCst_safe _ _ _)) as [S V].
            split; [auto|]. rewrite V. rewrite <- (val_1 (IntCst _) e 0) by apply IntCst_dim.
            rewrite IntCst_val, <- INR_IZR_INZ.
            rewrite (rsum_ext d0 _ (fun _ => eval g e 0)) by (intros; apply val_1; auto).
            rewrite rsum_const. cbn [dim]. ring.
        - apply Nat.eqb_neq in D1. destruct (i_sum _ _ H Wl) as (Y1 & Y2 & Y3).
          split; [auto|]. split; [auto|]. intros e Sg. destruct (Y3 e Sg) as [S V]. split; [auto|].
          rewrite V by lia. rewrite wdim_dim in *. replace (dim (wfm wl)) with d0 by lia.
          apply rsum_ext. intros k Kk. rewrite val_lt by lia. auto. }
      destruct Q as (Y1 & Y2 & Y3).
      destruct (mult1 _ _ _ E Y1 X1 Y2 X2) as (C1 & C2 & C3).
      split; [auto|]. split; [auto|]. split; [auto|]. split; [auto|]. intros e Sf Sl Sr.
      destruct (Y3 e Sl) as [S1 V1]. destruct (X4 e Sf (safe_one e) Sr) as [S2 V2].
      destruct (C3 e S1 S2) as [S3 V3]. split; [auto|]. rewrite V3, V1, V2. unfold WS. rewrite Da, rsum_1.
      cbn [dim eval linR]. rewrite <- rsum_scal_r. apply rsum_ext. intros k Kk.
      rewrite <- rsum_scal. apply rsum_ext. intros j J. rewrite val_one. ring.
  - destruct op; try (specialize (K' _ E); unfold sumlin_call in E; rewrite K' in E; discriminate). bind_inv.
    destruct (bil_sum _ _ _ H Wf) as (P1 & P2 & P2' & P3). destruct G as [G1 G2].
    destruct (IH _ _ _ _ E P1 Wl Wr) as (X1 & X2 & X3 & X3' & X4); [split; lia|].
    split; [auto|]. split; [auto|]. split; [auto|]. split; [auto|].
    intros e Sf Sl Sr. destruct (P3 e Sf) as [S1 _]. destruct (X4 e S1 Sl Sr) as [S2 V2]. split; [auto|].
    rewrite V2. apply rsum_ext. intros k Kk. apply rsum_ext. intros j J.
    destruct (P3 _ (safe_ej _ e j G1 Sf)) as [_ V]. rewrite V. auto.
  - specialize (K' _ E); unfold sumlin_call in E; rewrite K' in E; discriminate.
  - discriminate.
Qed.
End Ops.
