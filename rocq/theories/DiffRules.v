(** Interface lemmas for the adjoint rules: the simplifying constructors on operands of
    known dimensions, and the derivative formulas of the one-argument operations. *)

From Coq Require Import ZArith Reals Lia Lra List Bool.
From Verif Require Import Result Formula Simplify SimplifyProofs BuildProofs Diff
  GradSpec Calculus ScalarDeriv Tangent.
Local Open Scope nat_scope.

Lemma val_pos : forall f e k, val f e k = eval f e (pos (dim f) k).
Proof. reflexivity. Qed.

(** [h] is a formula of dimension [n] that is defined where [S] holds, with entries [V]. *)
Definition is_fm (h : fm) (n : nat) (S : env -> Prop) (V : env -> nat -> R) : Prop :=
  wf h /\ dim h = n /\ forall e, S e -> safe e h /\ forall k, k < n -> eval h e k = V e k.

Lemma i_bin : forall op x y h, sound2 safe_doms op x y h -> wf x -> wf y ->
  is_fm h (max (dim x) (dim y)) (fun e => safe e x /\ safe e y)
    (fun e k => op (val x e k) (val y e k)).
Proof.
  intros op x y h S Wx Wy. destruct (S Wx Wy) as (A & B & C & D).
  split; [auto|]. split; [auto|]. intros e [Sx Sy]. destruct (D e Sx Sy) as [D1 D2].
  split; [auto|]. intros k K. rewrite <- (val_lt h) by lia. apply D2. left; lia.
Qed.
Lemma i_add : forall x y h, Add x y = Ok h -> wf x -> wf y ->
  is_fm h (max (dim x) (dim y)) (fun e => safe e x /\ safe e y)
    (fun e k => val x e k + val y e k)%R.
Proof. intros x y h H. apply (i_bin Rplus). eapply Add_ok; eauto using safe_arith_ok. Qed.
Lemma i_sub : forall x y h, Subtract x y = Ok h -> wf x -> wf y ->
  is_fm h (max (dim x) (dim y)) (fun e => safe e x /\ safe e y)
    (fun e k => val x e k - val y e k)%R.
Proof. intros x y h H. apply (i_bin Rminus). eapply Subtract_ok; eauto using safe_arith_ok. Qed.
Lemma i_mult : forall x y h, Mult x y = Ok h -> wf x -> wf y ->
  is_fm h (max (dim x) (dim y)) (fun e => safe e x /\ safe e y)
    (fun e k => val x e k * val y e k)%R.
Proof. intros x y h H. apply (i_bin Rmult). eapply Mult_ok; eauto using safe_arith_ok. Qed.
Lemma i_div : forall x y h, Divide x y = Ok h -> wf x -> wf y ->
  is_fm h (max (dim x) (dim y))
    (fun e => safe e x /\ safe e y /\ forall k, k < max (dim x) (dim y) -> val y e k <> 0%R)
    (fun e k => val x e k / val y e k)%R.
Proof.
  intros x y h H Wx Wy.
  destruct (Divide_ok safe_doms safe_arith_ok _ _ _ H Wx Wy) as (A & B & C & D).
  split; [auto|]. split; [auto|]. intros e (Sx & Sy & N). rewrite <- C in N.
  destruct (D e Sx Sy N) as [D1 D2]. split; [auto|]. intros k K.
  rewrite <- (val_lt h) by lia. apply D2. left; lia.
Qed.
Lemma i_un : forall op x h, sound1 safe_doms op x h -> wf x ->
  is_fm h (dim x) (fun e => safe e x) (fun e k => op (eval x e k)).
Proof.
  intros op x h S Wx. destruct (S Wx) as (A & C & D).
  split; [auto|]. split; [auto|]. intros e Sx. destruct (D e Sx) as [D1 D2].
  split; [auto|]. intros k K. rewrite <- (val_lt h), <- (val_lt x) by lia. apply D2. left; lia.
Qed.
Lemma i_minus : forall x h, Minus x = Ok h -> wf x ->
  is_fm h (dim x) (fun e => safe e x) (fun e k => - eval x e k)%R.
Proof. intros x h H. apply (i_un Ropp). eapply Minus_ok; eauto using safe_arith_ok. Qed.
Lemma i_square : forall x h, Square x = Ok h -> wf x ->
  is_fm h (dim x) (fun e => safe e x) (fun e k => eval x e k * eval x e k)%R.
Proof.
  intros x h H. apply (i_un (fun x => x * x)%R). eapply Square_ok; eauto using safe_arith_ok.
Qed.
Lemma i_sum : forall x h, Sum x = Ok h -> wf x ->
  is_fm h 1 (fun e => safe e x) (fun e _ => rsum (dim x) (eval x e)).
Proof.
  intros x h H Wx. destruct (Sum_ok safe_doms safe_arith_ok _ _ H Wx) as (A & B & C).
  split; [auto|]. split; [auto|]. intros e Sx. destruct (C e Sx) as [C1 C2].
  split; [auto|]. intros k K. replace k with 0 by lia. auto.
Qed.
Lemma i_scal : forall x y h, Scalprod x y = Ok h -> wf x -> wf y ->
  is_fm h 1 (fun e => safe e x /\ safe e y)
    (fun e _ => rsum (max (dim x) (dim y)) (fun k => val x e k * val y e k)%R).
Proof.
  intros x y h H Wx Wy.
  destruct (Scalprod_ok safe_doms safe_arith_ok _ _ _ H Wx Wy) as (A & B & C & D).
  split; [auto|]. split; [auto|]. intros e [Sx Sy]. destruct (D e Sx Sy) as [D1 D2].
  split; [auto|]. intros k K. replace k with 0 by lia. auto.
Qed.
Lemma i_sumT : forall x n h, SumT x n = Ok h -> wf x ->
  is_fm h n (fun e => safe e x) (fun e _ => eval x e 0).
Proof.
  intros x n h H Wx. destruct (SumT_ok safe_doms _ _ _ H Wx) as (A & B & C & D & E).
  split; [auto|]. split; [auto|]. intros e Sx. destruct (E e Sx) as [E1 E2].
  split; [auto|]. intros k K. rewrite <- (val_lt h), E2 by lia. apply val_1; auto.
Qed.
Lemma i_rat : forall a b h, RatCst a b = Ok h ->
  is_fm h 1 (fun _ => True) (fun _ _ => IZR a / IZR b)%R.
Proof.
  intros a b h H. destruct (RatCst_ok safe_doms _ _ _ H) as (A & B & C & D).
  split; [auto|]. split; [auto|]. intros e _. destruct (D e) as [D1 D2].
  split; [auto|]. intros k K. rewrite <- (val_lt h) by lia. apply D2.
Qed.
Lemma i_pow : forall x m h, Pow x m = Ok h -> wf x ->
  is_fm h (dim x) (fun e => safe e x /\
      forall k, k < dim x -> (0 <= m)%Z \/ eval x e k <> 0%R)
    (fun e k => powerRZ (eval x e k) m).
Proof.
  intros x m h H Wx. destruct (Pow_ok safe_doms safe_arith_ok _ _ _ H Wx) as (A & C & D).
  split; [auto|]. split; [auto|]. intros e [Sx N]. destruct (D e Sx N) as [D1 D2].
  split; [auto|]. intros k K. rewrite <- (val_lt h), <- (val_lt x) by lia. apply D2.
Qed.
Lemma i_mkun : forall u x h, mk (Un u x) = Ok h -> wf x ->
  is_fm h (dim x) (fun e => safe e x /\ forall k, k < dim x -> unDom u (eval x e k))
    (fun e k => unR u (eval x e k)).
Proof.
  intros u x h H Wx. apply mk_ok in H as [-> _]. split; [split; auto|].
  split; [auto|]. intros e S. split; auto.
Qed.

(** Derivative formulas of the one-argument operations. *)
Lemma val_own : forall f e k, k < dim f -> val f e k = eval f e k.
Proof. intros; apply val_lt; auto. Qed.
Lemma val_int1 : forall z e k, val (Int z) e k = IZR z.
Proof. reflexivity. Qed.

Ltac spec H e :=
  let S := fresh "Sf" in let V := fresh "Vf" in destruct (H e) as [S V].

Lemma some_inj : forall (A : Type) (x y : A), Some x = Some y -> x = y.
Proof. congruence. Qed.

Lemma unDer_ok : forall u f r df, unDer u f = Some r -> r = Ok df -> wf f ->
  is_fm df (dim f) (fun e => smooth e (Un u f)) (fun e k => un' u (eval f e k)).
Proof.
  intros u f r df E R W. assert (P := dim_pos _ W).
  assert (WU : forall u', wf (Un u' f)) by (intros; split; auto).
  destruct u; cbn [unDer] in E; try discriminate E; apply some_inj in E; rewrite <- E in R; clear E; cbn [un'];
    change (IntCst 2) with (Int 2) in R; change (IntCst 1) with (Int 1) in R;
    change (IntCst (-1)) with (Int (-1)) in R.
  - (* Square *) apply i_mult in R; [|apply wf_int|auto].
    destruct R as (A & B & C). cbn [dim] in B. split; [auto|]. split; [lia|].
    intros e [S _]. spec C e; [split; [exact I|apply smooth_safe; auto]|].
    split; [auto|]. intros k K. rewrite Vf by lia. rewrite (val_own f) by auto. reflexivity.
  - (* Exp *) apply i_mkun in R; auto. destruct R as (A & B & C).
    split; [auto|]. split; [auto|]. intros e [S _].
    apply C. split; [apply smooth_safe; auto|]. cbn; auto.
  - (* Log *) apply i_mkun in R; auto. destruct R as (A & B & C).
    split; [auto|]. split; [auto|]. intros e [S S'].
    apply C. split; [apply smooth_safe; auto|]. intros k K. specialize (S' k K). cbn in *. lra.
  - (* Inv *) bind_inv. apply i_square in H; auto. destruct H as (A & B & C).
    apply i_div in R; [|apply wf_int|auto]. destruct R as (A' & B' & C'). cbn [dim] in *.
    split; [auto|]. split; [lia|]. intros e [S S']. spec C e; [apply smooth_safe; auto|].
    assert (Q : forall k, k < dim f -> val x e k = (eval f e k * eval f e k)%R).
    { intros k K. rewrite val_own by lia. auto. }
    spec C' e.
    { split; [exact I|]. split; [auto|]. intros k K. rewrite Q by lia.
      assert (S2 := S' k). cbn in S2. assert (eval f e k <> 0)%R by (apply S2; lia). apply Rmult_integral_contrapositive_currified; auto. }
    split; [auto|]. intros k K. rewrite Vf0 by lia. rewrite Q by auto. reflexivity.
  - (* Sin *) apply i_mkun in R; auto. destruct R as (A & B & C).
    split; [auto|]. split; [auto|]. intros e [S _].
    apply C. split; [apply smooth_safe; auto|]. cbn; auto.
  - (* Cos *) apply i_minus in R; auto. destruct R as (A & B & C).
    split; [auto|]. split; [auto|]. intros e [S _].
    apply C. split; [apply smooth_safe; auto|]. cbn; auto.
  - (* Sqrt *) bind_inv. apply i_rat in H. destruct H as (A & B & C).
    apply i_mult in R; auto. destruct R as (A' & B' & C'). cbn [dim] in *.
    split; [auto|]. split; [lia|]. intros e [S S']. spec C e; [auto|].
    spec C' e.
    { split; [auto|]. split; [apply smooth_safe; auto|]. intros k K. specialize (S' k K).
      cbn in *. lra. }
    split; [auto|]. intros k K. rewrite Vf0 by lia. rewrite (val_1 x), Vf, val_own by (cbn [dim]; auto; lia).
    cbn [eval unR]. f_equal. lra.
  - (* Rsqrt *) bind_inv. apply i_rat in H. destruct H as (A & B & C).
    apply i_pow in H0; auto. destruct H0 as (A1 & B1 & C1).
    apply i_mult in R; auto. destruct R as (A' & B' & C'). cbn [dim] in *.
    split; [auto|]. split; [lia|]. intros e [S S']. spec C e; [auto|].
    spec C1 e.
    { split; [|intros; left; lia]. split; [apply smooth_safe; auto|]. intros k K.
      specialize (S' k K). cbn in *. lra. }
    spec C' e; [auto|].
    split; [auto|]. intros k K. rewrite Vf1 by lia. rewrite (val_1 x), Vf, val_own by (auto; lia).
    rewrite Vf0 by auto. cbn [eval unR powerRZ]. change (Pos.to_nat 3) with 3. cbn [pow].
    lra.
  - (* Abs *) apply i_mkun in R; auto. destruct R as (A & B & C).
    split; [auto|]. split; [auto|]. intros e [S _].
    apply C. split; [apply smooth_safe; auto|]. cbn; auto.
  - (* ReLU *) apply i_mkun in R; auto. destruct R as (A & B & C).
    split; [auto|]. split; [auto|]. intros e [S _].
    apply C. split; [apply smooth_safe; auto|]. cbn; auto.
  - (* XLogX *) apply i_add in R; [|auto|apply wf_int]. destruct R as (A & B & C).
    cbn [dim] in *. split; [auto|]. split; [lia|]. intros e [S S'].
    spec C e.
    { split; [|exact I]. split; [apply smooth_safe; auto|]. intros k K. apply S'; auto. }
    split; [auto|]. intros k K. rewrite Vf by lia. rewrite val_own by auto. reflexivity.
  - (* SinXDivX *) bind_inv. apply i_div in H; auto. destruct H as (A & B & C).
    apply i_square in H0; auto. destruct H0 as (A1 & B1 & C1).
    apply i_div in H1; auto. destruct H1 as (A2 & B2 & C2).
    apply i_sub in R; auto. destruct R as (A3 & B3 & C3). cbn [dim] in *.
    split; [auto|]. split; [lia|]. intros e [S S']. apply smooth_safe in S.
    assert (NZ : forall k, k < dim f -> eval f e k <> 0%R) by exact S'.
    spec C1 e; [auto|].
    assert (Q : forall k, k < dim f -> val x0 e k = (eval f e k * eval f e k)%R).
    { intros k K. rewrite val_own by lia. auto. }
    spec C e.
    { split; [split; cbn; auto|]. split; [auto|]. intros k K. rewrite val_own by lia.
      apply NZ. lia. }
    spec C2 e.
    { split; [split; cbn; auto|]. split; [auto|]. intros k K. rewrite Q by lia.
      apply Rmult_integral_contrapositive_currified; apply NZ; lia. }
    spec C3 e; [auto|]. split; [auto|]. intros k K. rewrite Vf2 by lia.
    rewrite (val_own x), (val_own x1) by lia. rewrite Vf0, Vf1 by lia.
    rewrite Q by auto.
    rewrite !val_own by (cbn [dim]; lia). reflexivity.
  - (* Asin *) bind_inv. apply i_square in H; auto. destruct H as (A & B & C).
    apply i_sub in H0; [|apply wf_int|auto]. destruct H0 as (A1 & B1 & C1). cbn [dim] in *.
    apply i_mkun in R; auto. destruct R as (A2 & B2 & C2).
    split; [auto|]. split; [lia|]. intros e [S S']. apply smooth_safe in S.
    spec C e; [auto|]. spec C1 e; [split; [exact I|auto]|].
    assert (Q : forall k, k < dim f -> eval x0 e k = (1 - eval f e k * eval f e k)%R).
    { intros k K. rewrite Vf0 by lia. rewrite (val_own x) by lia. rewrite Vf by auto.
      reflexivity. }
    spec C2 e.
    { split; [auto|]. intros k K. assert (K' : k < dim f) by lia.
      rewrite Q by auto. specialize (S' k K'). cbn in *. nra. }
    split; [auto|]. intros k K. rewrite Vf1 by lia. cbn [unR]. rewrite Q; auto.
  - (* Acos *) bind_inv. apply i_square in H; auto. destruct H as (A & B & C).
    apply i_sub in H0; [|apply wf_int|auto]. destruct H0 as (A1 & B1 & C1). cbn [dim] in *.
    apply i_minus in R; [|split; auto]. destruct R as (A2 & B2 & C2). cbn [dim] in *.
    split; [auto|]. split; [lia|]. intros e [S S']. apply smooth_safe in S.
    spec C e; [auto|]. spec C1 e; [split; [exact I|auto]|].
    assert (Q : forall k, k < dim f -> eval x0 e k = (1 - eval f e k * eval f e k)%R).
    { intros k K. rewrite Vf0 by lia. rewrite (val_own x) by lia. rewrite Vf by auto.
      reflexivity. }
    spec C2 e.
    { split; [auto|]. intros k K. assert (K' : k < dim f) by lia.
      rewrite Q by auto. specialize (S' k K'). cbn in *. nra. }
    split; [auto|]. intros k K. rewrite Vf1 by lia. cbn [eval unR]. rewrite Q; auto.
  - (* Atan *) bind_inv. apply i_square in H; auto. destruct H as (A & B & C).
    apply i_add in H0; [|apply wf_int|auto]. destruct H0 as (A1 & B1 & C1). cbn [dim] in *.
    apply i_mkun in R; auto. destruct R as (A2 & B2 & C2).
    split; [auto|]. split; [lia|]. intros e [S S']. apply smooth_safe in S.
    spec C e; [auto|]. spec C1 e; [split; [exact I|auto]|].
    assert (Q : forall k, k < dim f -> eval x0 e k = (1 + eval f e k * eval f e k)%R).
    { intros k K. rewrite Vf0 by lia. rewrite (val_own x) by lia. rewrite Vf by auto.
      reflexivity. }
    spec C2 e.
    { split; [auto|]. intros k K. assert (K' : k < dim f) by lia.
      rewrite Q by auto. cbn [unDom].
      assert (0 <= eval f e k * eval f e k)%R by apply Rle_0_sqr. lra. }
    split; [auto|]. intros k K. rewrite Vf1 by lia. cbn [unR]. rewrite Q; auto.
  - (* Pow *) bind_inv. apply i_pow in H; auto. destruct H as (A & B & C).
    destruct (Z.eq_dec m 0) as [->|M].
    + assert (R' := R). apply i_mult in R; [|split; auto|auto]. destruct R as (A1 & B1 & _).
      cbn [dim] in B1. rewrite IntCst_dim in B1. assert (D : dim df = dim f) by lia.
      assert (Z0 : exists n, df = Zero n).
      { change (IntCst 0) with (Zero 1) in R'. clear - R'.
        assert (E : Broadcast (Zero 1) (dim x) = Ok df) by exact R'. clear R'.
        unfold Broadcast, SumT in E. cbn [dim as_zero] in E.
        destruct ((1 =? dim x) || (dim x =? 1)); [inversion E; eauto|].
        cbn in E. apply mk_ok in E as [-> _]. eauto. }
      destruct Z0 as [n ->]. split; [auto|]. split; [auto|]. intros e S.
      split; [exact I|]. intros k K. cbn [eval]. ring.
    + apply i_mult in R; [|unfold IntCst; destruct (m =? 0)%Z; repeat split|auto].
      destruct R as (A1 & B1 & C1). rewrite IntCst_dim in B1. split; [auto|]. split; [lia|].
      intros e [S S']. spec C e.
      { split; [apply smooth_safe; auto|]. intros k K. specialize (S' k K). cbn in S'.
        destruct S'; [left; lia|auto]. }
      spec C1 e; [split; [apply IntCst_safe|auto]|].
      split; [auto|]. intros k K. rewrite Vf0 by (rewrite IntCst_dim; lia).
      rewrite IntCst_val, val_own by lia. rewrite Vf; auto.
  - (* ClampInt *) apply i_mkun in R; auto. destruct R as (A1 & B1 & C).
    split; [auto|]. split; [auto|]. intros e [S _].
    apply C. split; [apply smooth_safe; auto|]. cbn; auto.
Qed.
