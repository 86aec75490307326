(** Facts of real analysis used for derivatives along a line, at parameter 0. *)

From Coq Require Import ZArith Reals Lia Lra List.
Local Open Scope R_scope.

(** ** Properties that hold in a neighbourhood of 0 *)

Definition ev (P : R -> Prop) : Prop := exists d, 0 < d /\ forall t, Rabs t < d -> P t.

Lemma ev_true : forall P : R -> Prop, (forall t, P t) -> ev P.
Proof. intros P H. exists 1. split; [lra|auto]. Qed.

Lemma ev_and : forall P Q, ev P -> ev Q -> ev (fun t => P t /\ Q t).
Proof.
  intros P Q (a & A & HA) (b & B & HB). exists (Rmin a b). split; [apply Rmin_pos; auto|].
  intros t T. split; [apply HA|apply HB]; eapply Rlt_le_trans; eauto.
  - apply Rmin_l.
  - apply Rmin_r.
Qed.

Lemma ev_imp : forall P Q : R -> Prop, (forall t, P t -> Q t) -> ev P -> ev Q.
Proof. intros P Q H (a & A & HA). exists a. auto. Qed.

Lemma ev_0 : forall P, ev P -> P 0.
Proof. intros P (d & D & H). apply H. rewrite Rabs_R0. auto. Qed.

Lemma ev_fin : forall n (P : nat -> R -> Prop), (forall k, (k < n)%nat -> ev (P k)) ->
  ev (fun t => forall k, (k < n)%nat -> P k t).
Proof.
  induction n as [|n IH]; intros P H.
  - apply ev_true. intros t k K. lia.
  - assert (A : ev (fun t => (forall k, (k < n)%nat -> P k t) /\ P n t)).
    { apply ev_and; auto. }
    revert A. apply ev_imp. intros t [A B] k K.
    destruct (Nat.eq_dec k n) as [->|]; auto. apply A. lia.
Qed.

(** ** Derivatives at 0 *)

Definition d0 (p : R -> R) (l : R) : Prop := derivable_pt_lim p 0 l.

Lemma d0_unique : forall p a b, d0 p a -> d0 p b -> a = b.
Proof. intros p a b A B. eapply uniqueness_limite; eauto. Qed.

Lemma d0_ext_ev : forall p q l, ev (fun t => p t = q t) -> d0 p l -> d0 q l.
Proof.
  intros p q l E D eps He. assert (E0 := ev_0 _ E). cbn in E0.
  destruct (D eps He) as [del H]. destruct E as (a & A & HA).
  assert (M : 0 < Rmin a del) by (apply Rmin_pos; auto; apply cond_pos).
  exists (mkposreal _ M). intros h Hn Hh. cbn in Hh.
  rewrite <- E0. rewrite <- HA.
  - apply H; auto. eapply Rlt_le_trans; eauto. apply Rmin_r.
  - rewrite Rplus_0_l. eapply Rlt_le_trans; eauto. apply Rmin_l.
Qed.

Lemma d0_ext : forall p q l, (forall t, p t = q t) -> d0 p l -> d0 q l.
Proof. intros p q l H. apply d0_ext_ev. apply ev_true. auto. Qed.

Lemma d0_eq : forall p l l', l = l' -> d0 p l -> d0 p l'.
Proof. intros; subst; auto. Qed.

Lemma d0_const : forall c, d0 (fun _ => c) 0.
Proof. intros c. apply (derivable_pt_lim_const c 0). Qed.

Lemma d0_plus : forall p q a b, d0 p a -> d0 q b -> d0 (fun t => p t + q t) (a + b).
Proof. intros p q a b. apply derivable_pt_lim_plus. Qed.

Lemma d0_minus : forall p q a b, d0 p a -> d0 q b -> d0 (fun t => p t - q t) (a - b).
Proof. intros p q a b. apply derivable_pt_lim_minus. Qed.

Lemma d0_opp : forall p a, d0 p a -> d0 (fun t => - p t) (- a).
Proof. intros p a. apply derivable_pt_lim_opp. Qed.

Lemma d0_mult : forall p q a b, d0 p a -> d0 q b ->
  d0 (fun t => p t * q t) (a * q 0 + p 0 * b).
Proof. intros p q a b. apply derivable_pt_lim_mult. Qed.

Lemma d0_scal : forall c p a, d0 p a -> d0 (fun t => c * p t) (c * a).
Proof.
  intros c p a D. eapply d0_eq; [|apply (d0_mult (fun _ => c) p 0 a); auto using d0_const].
  cbn. ring.
Qed.

Lemma d0_div : forall p q a b, d0 p a -> d0 q b -> q 0 <> 0 ->
  d0 (fun t => p t / q t) ((a * q 0 - b * p 0) / (q 0 * q 0)).
Proof. intros p q a b. apply derivable_pt_lim_div. Qed.

Lemma d0_comp : forall f p a l, d0 p a -> derivable_pt_lim f (p 0) l ->
  d0 (fun t => f (p t)) (l * a).
Proof. intros f p a l. apply derivable_pt_lim_comp. Qed.

Lemma d0_near : forall p a, d0 p a -> forall eps, 0 < eps ->
  ev (fun t => Rabs (p t - p 0) < eps).
Proof.
  intros p a D eps He.
  assert (C : continuity_pt p 0) by (apply derivable_continuous_pt; exists a; exact D).
  destruct (C eps He) as (al & Hal & H). exists al. split; [exact Hal|].
  intros t T. destruct (Req_dec t 0) as [->|N].
  - unfold Rminus. rewrite Rplus_opp_r, Rabs_R0. exact He.
  - apply (H t). split; [split; [exact I|auto]|]. cbn. unfold R_dist.
    rewrite Rminus_0_r. exact T.
Qed.

Lemma d0_lt : forall p q a b, d0 p a -> d0 q b -> p 0 < q 0 -> ev (fun t => p t < q t).
Proof.
  intros p q a b Dp Dq L. assert (D := d0_minus _ _ _ _ Dq Dp).
  assert (N := d0_near _ _ D (q 0 - p 0)). cbn in N.
  assert (E : ev (fun t => Rabs (q t - p t - (q 0 - p 0)) < q 0 - p 0)) by (apply N; lra).
  revert E. apply ev_imp. intros t T. apply Rabs_def2 in T. lra.
Qed.

Lemma d0_ne : forall p q a b, d0 p a -> d0 q b -> p 0 <> q 0 -> ev (fun t => p t <> q t).
Proof.
  intros p q a b Dp Dq N. destruct (Rtotal_order (p 0) (q 0)) as [L|[E|L]]; [|lra|].
  - generalize (d0_lt _ _ _ _ Dp Dq L). apply ev_imp. intros; lra.
  - generalize (d0_lt _ _ _ _ Dq Dp L). apply ev_imp. intros; lra.
Qed.

Lemma d0_lt_c : forall p a c, d0 p a -> p 0 < c -> ev (fun t => p t < c).
Proof. intros p a c D L. apply (d0_lt p (fun _ => c) a 0); auto using d0_const. Qed.
Lemma d0_gt_c : forall p a c, d0 p a -> c < p 0 -> ev (fun t => c < p t).
Proof. intros p a c D L. apply (d0_lt (fun _ => c) p 0 a); auto using d0_const. Qed.
Lemma d0_ne_c : forall p a c, d0 p a -> p 0 <> c -> ev (fun t => p t <> c).
Proof. intros p a c D L. apply (d0_ne p (fun _ => c) a 0); auto using d0_const. Qed.

(** ** Integer part *)

Lemma Int_part_unique : forall x z, IZR z <= x < IZR z + 1 -> Int_part x = z.
Proof.
  intros x z [A B]. destruct (base_Int_part x) as [C D].
  assert (P : (Int_part x < z + 1)%Z) by (apply lt_IZR; rewrite plus_IZR; lra).
  assert (Q : (z < Int_part x + 1)%Z) by (apply lt_IZR; rewrite plus_IZR; lra).
  lia.
Qed.

Lemma Int_part_bounds : forall x, IZR (Int_part x) <= x < IZR (Int_part x) + 1.
Proof. intros x. destruct (base_Int_part x). lra. Qed.

Definition integer (x : R) : Prop := exists z, x = IZR z.

Lemma Int_part_ev : forall p a, d0 p a -> ~ integer (p 0) ->
  ev (fun t => Int_part (p t) = Int_part (p 0)).
Proof.
  intros p a D N. destruct (Int_part_bounds (p 0)) as [A B].
  assert (A' : IZR (Int_part (p 0)) < p 0).
  { destruct A as [A|A]; auto. exfalso. apply N. exists (Int_part (p 0)). auto. }
  generalize (ev_and _ _ (d0_gt_c _ _ _ D A') (d0_lt_c _ _ _ D B)). apply ev_imp.
  intros t [T1 T2]. apply Int_part_unique. lra.
Qed.

(** ** Integer powers *)

Lemma powerRZ_deriv : forall m x, (1 <= m)%Z \/ x <> 0 ->
  derivable_pt_lim (fun y => powerRZ y m) x (IZR m * powerRZ x (m - 1)).
Proof.
  intros m x H. destruct (Z_lt_le_dec m 0) as [L|L].
  - assert (X : x <> 0) by (destruct H; [lia|auto]).
    destruct m as [|p|p]; try lia.
    assert (D := derivable_pt_lim_pow x (Pos.to_nat p)).
    assert (PN : x ^ Pos.to_nat p <> 0) by (apply pow_nonzero; auto).
    assert (E := derivable_pt_lim_div (fct_cte 1) (fun y => y ^ Pos.to_nat p) x 0 _
                   (derivable_pt_lim_const 1 x) D PN).
    cbv beta in E. unfold fct_cte in E.
    assert (E' : derivable_pt_lim (fun y => powerRZ y (Z.neg p)) x
       ((0 * x ^ Pos.to_nat p - INR (Pos.to_nat p) * x ^ pred (Pos.to_nat p) * 1) /
        (x ^ Pos.to_nat p)²)).
    { eapply derivable_pt_lim_ext; [|exact E]. intros z. unfold div_fct. cbn. unfold Rdiv. ring. }
    replace (IZR (Z.neg p) * powerRZ x (Z.neg p - 1)) with
       ((0 * x ^ Pos.to_nat p - INR (Pos.to_nat p) * x ^ pred (Pos.to_nat p) * 1) /
        (x ^ Pos.to_nat p)²); auto.
    replace (Z.neg p - 1)%Z with (Z.neg (p + 1)) by lia.
    change (Z.neg p) with (- Z.pos p)%Z at 1. rewrite opp_IZR.
    rewrite <- (positive_nat_Z p), <- INR_IZR_INZ. cbn [powerRZ]. rewrite Pos2Nat.inj_add.
    destruct (Pos.to_nat p) as [|n] eqn:N; [lia|].
    replace (S n + Pos.to_nat 1)%nat with (S (S n)) by (rewrite Pos2Nat.inj_1; lia).
    unfold Rsqr. cbn [Nat.pred pow].
    assert (x ^ n <> 0) by (apply pow_nonzero; auto).
    field. split; auto.
  - destruct (Z.eq_dec m 0) as [->|M].
    + replace (IZR 0 * powerRZ x (0 - 1)) with 0 by ring.
      apply (derivable_pt_lim_const 1 x).
    + destruct m as [|p|p]; try lia.
      assert (D := derivable_pt_lim_pow x (Pos.to_nat p)).
      replace (IZR (Z.pos p) * powerRZ x (Z.pos p - 1)) with
        (INR (Pos.to_nat p) * x ^ pred (Pos.to_nat p)); auto.
      rewrite INR_IZR_INZ, positive_nat_Z. f_equal.
      replace (Z.pos p - 1)%Z with (Z.of_nat (pred (Pos.to_nat p))) by lia.
      rewrite <- pow_powerRZ. reflexivity.
Qed.
