(** Derivatives of the scalar functions of the catalogue. *)

From Coq Require Import ZArith Reals Lia Lra.
From Verif Require Import Formula GradSpec Calculus.
Local Open Scope R_scope.

Lemma d0_of : forall f p a l, d0 p a -> derivable_pt_lim f (p 0) l ->
  forall l', l' = l -> d0 (fun t => f (p t)) (l' * a).
Proof. intros; subst. apply d0_comp; auto. Qed.

Lemma d0_loc : forall q p a l, d0 q l -> ev (fun t => p t = q t) -> a = l -> d0 p a.
Proof.
  intros q p a l D E ->. eapply d0_ext_ev; [|exact D]. revert E. apply ev_imp. auto.
Qed.

Lemma d0_locconst : forall p c, ev (fun t => p t = c) -> d0 p 0.
Proof. intros p c E. eapply (d0_loc (fun _ => c)); eauto using d0_const. Qed.

Definition un' (u : unop) (x : R) : R :=
  match u with
  | UMinus => -1
  | USquare => 2 * x
  | UExp => exp x
  | ULog => 1 / x
  | UInv => -1 / (x * x)
  | USin => cos x
  | UCos => - sin x
  | USqrt => / 2 * Rrsqrt x
  | URsqrt => - / 2 * (Rrsqrt x * Rrsqrt x * Rrsqrt x)
  | UAbs => Rsign x
  | USign | UStep | UFloor | UDiffClampInt _ _ => 0
  | UReLU => Rstep x
  | UXLogX => ln x + 1
  | USinXDivX => cos x / x - sin x / (x * x)
  | UAsin => Rrsqrt (1 - x * x)
  | UAcos => - Rrsqrt (1 - x * x)
  | UAtan => 1 / (1 + x * x)
  | UPow m => IZR m * powerRZ x (m - 1)
  | UClampInt a b => Rdiffclamp x (IZR a) (IZR b)
  end.

Ltac cases :=
  repeat match goal with
  | |- context [Rlt_dec ?a ?b] => destruct (Rlt_dec a b); try lra
  | |- context [Req_EM_T ?a ?b] => destruct (Req_EM_T a b); try lra
  end.

Lemma Rrsqrt_pos : forall x, 0 < x -> Rrsqrt x = / sqrt x.
Proof. intros x H. unfold Rrsqrt. cases; unfold Rdiv; ring. Qed.

Lemma Rrsqrt_sq : forall x, 0 < x -> Rrsqrt x * Rrsqrt x = / x.
Proof.
  intros x H. rewrite Rrsqrt_pos by auto. rewrite <- Rinv_mult, sqrt_sqrt by lra. auto.
Qed.

Ltac ev_from H := generalize H; apply ev_imp; intros.

Lemma un_d0 : forall u p a, d0 p a -> un_smooth u (p 0) ->
  d0 (fun t => unR u (p t)) (un' u (p 0) * a).
Proof.
  intros u p a D S. destruct u; cbn [unR un' un_smooth] in *.
  - eapply d0_eq; [|apply d0_opp; eauto]. ring.
  - eapply d0_eq; [|apply d0_mult; eauto]. ring.
  - eapply d0_of; [exact D|apply derivable_pt_lim_exp|auto].
  - eapply d0_of; [exact D|apply derivable_pt_lim_ln; auto|unfold Rdiv; ring].
  - eapply d0_eq; [|apply (d0_div (fun _ => 1) p 0 a); eauto using d0_const]. field. auto.
  - eapply d0_of; [exact D|apply derivable_pt_lim_sin|auto].
  - eapply d0_of; [exact D|apply derivable_pt_lim_cos|auto].
  - eapply d0_of; [exact D|apply derivable_pt_lim_sqrt; auto|].
    rewrite Rrsqrt_pos by auto. assert (0 < sqrt (p 0)) by (apply sqrt_lt_R0; auto). field. lra.
  - assert (P : 0 < sqrt (p 0)) by (apply sqrt_lt_R0; auto).
    assert (E : d0 (fun t => 1 / sqrt (p t))
              ((0 * sqrt (p 0) - (/ (2 * sqrt (p 0)) * a) * 1) / (sqrt (p 0) * sqrt (p 0)))).
    { apply (d0_div (fun _ => 1) (fun t => sqrt (p t))); auto using d0_const; [|lra].
      apply d0_comp; auto. apply derivable_pt_lim_sqrt; auto. }
    eapply d0_loc; [exact E| |].
    + ev_from (d0_gt_c _ _ _ D S). unfold Rrsqrt. cases; reflexivity.
    + rewrite Rrsqrt_pos by auto. field. lra.
  - destruct (Rtotal_order (p 0) 0) as [L|[L|L]]; [|lra|].
    + eapply d0_loc; [apply (d0_opp p a D)| |].
      * ev_from (d0_lt_c _ _ _ D L). apply Rabs_left; auto.
      * unfold Rsign. cases; ring.
    + eapply d0_loc; [exact D| |].
      * ev_from (d0_gt_c _ _ _ D L). apply Rabs_right; lra.
      * unfold Rsign. cases; ring.
  - rewrite Rmult_0_l. destruct (Rtotal_order (p 0) 0) as [L|[L|L]]; [|lra|].
    + apply (d0_locconst _ (-1)). ev_from (d0_lt_c _ _ _ D L). unfold Rsign. cases.
    + apply (d0_locconst _ 1). ev_from (d0_gt_c _ _ _ D L). unfold Rsign. cases.
  - rewrite Rmult_0_l. destruct (Rtotal_order (p 0) 0) as [L|[L|L]]; [|lra|].
    + apply (d0_locconst _ 0). ev_from (d0_lt_c _ _ _ D L). unfold Rstep. cases.
    + apply (d0_locconst _ 1). ev_from (d0_gt_c _ _ _ D L). unfold Rstep. cases.
  - destruct (Rtotal_order (p 0) 0) as [L|[L|L]]; [|lra|].
    + eapply (d0_loc (fun _ => 0)); [apply d0_const| |].
      * ev_from (d0_lt_c _ _ _ D L). unfold Rrelu. cases.
      * unfold Rstep. cases.
    + eapply d0_loc; [exact D| |].
      * ev_from (d0_gt_c _ _ _ D L). unfold Rrelu. cases.
      * unfold Rstep. cases.
  - eapply d0_loc.
    + apply d0_mult; [exact D|]. apply d0_comp; [exact D|]. apply derivable_pt_lim_ln; auto.
    + ev_from (d0_gt_c _ _ _ D S). unfold Rxlogx. cases; reflexivity.
    + cbn beta. field. lra.
  - eapply d0_loc.
    + apply d0_div; [|exact D|auto]. apply d0_comp; [exact D|]. apply derivable_pt_lim_sin.
    + ev_from (d0_ne_c _ _ _ D S). unfold Rsinxdivx. cases; reflexivity.
    + cbn beta. field. auto.
  - assert (E := derive_pt_asin _ S). apply derive_pt_eq_1 in E.
    eapply d0_of; [exact D|exact E|]. assert (0 < 1 - p 0 * p 0) by nra.
    rewrite Rrsqrt_pos by auto. unfold Rsqr, Rdiv. ring.
  - assert (E := derive_pt_acos _ S). apply derive_pt_eq_1 in E.
    eapply d0_of; [exact D|exact E|]. assert (0 < 1 - p 0 * p 0) by nra.
    rewrite Rrsqrt_pos by auto. unfold Rsqr, Rdiv. ring.
  - eapply d0_of; [exact D|apply derivable_pt_lim_atan|].
    replace (1 + p 0 * p 0) with (1 + (p 0) ^ 2) by ring. unfold Rdiv; ring.
  - rewrite Rmult_0_l. apply (d0_locconst _ (Rfloor (p 0))).
    ev_from (Int_part_ev _ _ D S). unfold Rfloor. rewrite H. reflexivity.
  - destruct (Z.eq_dec m 0) as [->|M].
    + rewrite Rmult_0_l, Rmult_0_l. apply (d0_const 1).
    + apply (d0_comp (fun y => powerRZ y m)); auto. apply powerRZ_deriv.
      destruct S; [left; lia|auto].
  - destruct S as [Sa Sb]. unfold Rdiffclamp, Rclamp.
    destruct (Rlt_dec (p 0) (IZR a0)) as [L|L].
    + rewrite Rmult_0_l. apply (d0_locconst _ (IZR a0)).
      ev_from (d0_lt_c _ _ _ D L). cases.
    + assert (L' : IZR a0 < p 0) by lra. destruct (Rlt_dec (IZR b) (p 0)) as [M|M].
      * rewrite Rmult_0_l. apply (d0_locconst _ (IZR b)).
        ev_from (ev_and _ _ (d0_gt_c _ _ _ D L') (d0_gt_c _ _ _ D M)). cases.
      * assert (M' : p 0 < IZR b) by lra.
        eapply d0_loc; [exact D| |ring].
        ev_from (ev_and _ _ (d0_gt_c _ _ _ D L') (d0_lt_c _ _ _ D M')). cases.
  - destruct S as [Sa Sb]. unfold Rdiffclamp. rewrite Rmult_0_l.
    destruct (Rlt_dec (p 0) (IZR a0)) as [L|L].
    + apply (d0_locconst _ 0). ev_from (d0_lt_c _ _ _ D L). cases.
    + assert (L' : IZR a0 < p 0) by lra. destruct (Rlt_dec (IZR b) (p 0)) as [M|M].
      * apply (d0_locconst _ 0).
        ev_from (ev_and _ _ (d0_gt_c _ _ _ D L') (d0_gt_c _ _ _ D M)). cases.
      * assert (M' : p 0 < IZR b) by lra. apply (d0_locconst _ 1).
        ev_from (ev_and _ _ (d0_gt_c _ _ _ D L') (d0_lt_c _ _ _ D M')). cases.
Qed.

Definition bin1 (b : binop) (x y : R) : R :=
  match b with
  | BAdd | BSub => 1
  | BMult => y
  | BDiv => 1 / y
  | BAtan2 => y / (x * x + y * y)
  | BPowf => y * Rpower x (y - 1)
  | _ => 0
  end.
Definition bin2 (b : binop) (x y : R) : R :=
  match b with
  | BAdd => 1
  | BSub => -1
  | BMult => x
  | BDiv => - (x / (y * y))
  | BAtan2 => - x / (x * x + y * y)
  | BPowf => ln x * Rpower x y
  | _ => 0
  end.

(** atan2(y,x) away from the negative x axis, in the half planes y > 0 and y < 0. *)
Lemma atan2_up : forall y x, 0 < y -> Ratan2 y x = PI / 2 - atan (x / y).
Proof.
  intros y x P. unfold Ratan2. cases.
  - replace (y / x) with (/ (x / y)) by (field; lra).
    rewrite atan_inv; auto. apply Rdiv_lt_0_compat; auto.
  - replace (y / x) with (- / (- x / y)) by (field; lra).
    rewrite atan_opp, atan_inv by (apply Rdiv_lt_0_compat; lra).
    replace (- x / y) with (- (x / y)) by (field; lra). rewrite atan_opp. field.
  - assert (x = 0) by lra. subst x. replace (0 / y) with 0 by (field; lra). rewrite atan_0. ring.
Qed.
Lemma atan2_down : forall y x, y < 0 -> Ratan2 y x = - (PI / 2) - atan (x / y).
Proof.
  intros y x P. unfold Ratan2. cases.
  - replace (y / x) with (- / (- (x / y))) by (field; lra).
    rewrite atan_opp, atan_inv, atan_opp; [ring|].
    replace (- (x / y)) with (x / (- y)) by (field; lra). apply Rdiv_lt_0_compat; lra.
  - replace (y / x) with (/ (x / y)) by (field; lra).
    rewrite atan_inv; [field|]. replace (x / y) with ((- x) / (- y)) by (field; lra).
    apply Rdiv_lt_0_compat; lra.
  - assert (x = 0) by lra. subst x. replace (0 / y) with 0 by (field; lra). rewrite atan_0. ring.
Qed.

Lemma atan_d0 : forall p a, d0 p a -> d0 (fun t => atan (p t)) (a / (1 + p 0 * p 0)).
Proof.
  intros p a D. eapply d0_eq; [|apply d0_comp; [exact D|apply derivable_pt_lim_atan]].
  replace (1 + p 0 * p 0) with (1 + (p 0) ^ 2) by ring. unfold Rdiv. ring.
Qed.

Lemma sq_pos : forall x y, x <> 0 \/ y <> 0 -> 0 < x * x + y * y.
Proof.
  intros x y [H|H].
  - assert (0 < x * x) by (apply Rsqr_pos_lt; auto). assert (0 <= y * y) by apply Rle_0_sqr. lra.
  - assert (0 < y * y) by (apply Rsqr_pos_lt; auto). assert (0 <= x * x) by apply Rle_0_sqr. lra.
Qed.

Lemma bin_d0 : forall b p q l m, d0 p l -> d0 q m -> bin_smooth b (p 0) (q 0) ->
  d0 (fun t => binR b (p t) (q t)) (bin1 b (p 0) (q 0) * l + bin2 b (p 0) (q 0) * m).
Proof.
  assert (Cmp : forall p q l m (f : R -> R -> R), d0 p l -> d0 q m -> p 0 <> q 0 ->
    (forall x y x' y', x < y -> x' < y' -> f x y = f x' y') ->
    (forall x y x' y', y < x -> y' < x' -> f x y = f x' y') ->
    d0 (fun t => f (p t) (q t)) (0 * l + 0 * m)).
  { intros p q l m f Dp Dq N H1 H2. replace (0 * l + 0 * m) with 0 by ring.
    apply (d0_locconst _ (f (p 0) (q 0))).
    destruct (Rtotal_order (p 0) (q 0)) as [L|[L|L]]; [|lra|].
    - ev_from (d0_lt _ _ _ _ Dp Dq L). apply H1; auto.
    - ev_from (d0_lt _ _ _ _ Dq Dp L). apply H2; auto. }
  intros b p q l m Dp Dq S. destruct b; cbn [binR bin1 bin2 bin_smooth] in *.
  - eapply d0_eq; [|apply d0_plus; eauto]. ring.
  - eapply d0_eq; [|apply d0_minus; eauto]. ring.
  - eapply d0_eq; [|apply d0_mult; eauto]. ring.
  - eapply d0_eq; [|apply d0_div; eauto]. field. auto.
  - destruct (Rtotal_order (p 0) 0) as [L|[L|L]].
    + assert (P := sq_pos (p 0) (q 0)).
      eapply d0_loc.
      * apply d0_minus; [apply (d0_const (- (PI / 2)))|]. apply atan_d0.
        apply (d0_div q p); eauto. lra.
      * ev_from (d0_lt_c _ _ _ Dp L). apply atan2_down; auto.
      * cbn beta. field. split; lra.
    + assert (Q : 0 < q 0) by (destruct S; [auto|lra]).
      assert (P := sq_pos (p 0) (q 0)).
      eapply d0_loc.
      * apply atan_d0. apply (d0_div p q); eauto. lra.
      * ev_from (d0_gt_c _ _ _ Dq Q). unfold Ratan2. cases; reflexivity.
      * cbn beta. field. split; lra.
    + assert (P := sq_pos (p 0) (q 0)).
      eapply d0_loc.
      * apply d0_minus; [apply (d0_const (PI / 2))|]. apply atan_d0.
        apply (d0_div q p); eauto. lra.
      * ev_from (d0_gt_c _ _ _ Dp L). apply atan2_up; auto.
      * cbn beta. field. split; lra.
  - unfold Rpower. eapply d0_eq.
    2: { apply (d0_comp exp (fun t => q t * ln (p t))).
         - apply d0_mult; [exact Dq|]. apply d0_comp; [exact Dp|].
           apply derivable_pt_lim_ln. exact S.
         - apply derivable_pt_lim_exp. }
    cbn beta.
    replace ((q 0 - 1) * ln (p 0)) with (q 0 * ln (p 0) + - ln (p 0)) by ring.
    rewrite exp_plus, exp_Ropp, exp_ln by auto. field. lra.
  - apply (Cmp p q l m (fun x y => b2r (Reqb x y))); auto; intros; unfold Reqb; cases; auto.
  - apply (Cmp p q l m (fun x y => b2r (negb (Reqb x y)))); auto; intros; unfold Reqb; cases; auto.
  - apply (Cmp p q l m (fun x y => b2r (Rltb x y))); auto; intros; unfold Rltb; cases; auto.
  - apply (Cmp p q l m (fun x y => b2r (negb (Rltb y x)))); auto; intros; unfold Rltb; cases; auto.
Qed.

(** For the three-argument operations the existence of the derivative suffices, except
    IfElse. *)
Lemma ifelse_d0 : forall c a b lc la lb, d0 c lc -> d0 a la -> d0 b lb -> c 0 <> 0 ->
  d0 (fun t => terR TIfElse (c t) (a t) (b t)) (if Rlt_dec (c 0) 0 then lb else la).
Proof.
  intros c a b lc la lb Dc Da Db N. cbn [terR].
  destruct (Rlt_dec (c 0) 0) as [L|L].
  - eapply d0_loc; [exact Db| |auto]. ev_from (d0_lt_c _ _ _ Dc L). cases; auto.
  - assert (L' : 0 < c 0) by lra.
    eapply d0_loc; [exact Da| |auto]. ev_from (d0_gt_c _ _ _ Dc L'). cases; auto.
Qed.

Lemma ter_d0 : forall s x a b lx la lb, d0 x lx -> d0 a la -> d0 b lb ->
  ter_smooth s (x 0) (a 0) (b 0) -> exists l, d0 (fun t => terR s (x t) (a t) (b t)) l.
Proof.
  intros s x a b lx la lb Dx Da Db S. destruct s; cbn [ter_smooth] in S.
  - eexists. eapply ifelse_d0; eauto.
  - destruct S as (S1 & S2 & S3). cbn [terR]. unfold Rclamp.
    destruct (Rlt_dec (x 0) (a 0)) as [L|L].
    + exists la. eapply d0_loc; [exact Da| |auto]. ev_from (d0_lt _ _ _ _ Dx Da L). cases.
    + assert (L' : a 0 < x 0) by lra. destruct (Rlt_dec (b 0) (x 0)) as [M|M].
      * exists lb. eapply d0_loc; [exact Db| |auto].
        ev_from (ev_and _ _ (d0_lt _ _ _ _ Da Dx L') (d0_lt _ _ _ _ Db Dx M)). cases.
      * assert (M' : x 0 < b 0) by lra.
        exists lx. eapply d0_loc; [exact Dx| |auto].
        ev_from (ev_and _ _ (d0_lt _ _ _ _ Da Dx L') (d0_lt _ _ _ _ Dx Db M')). cases.
  - destruct S as [S1 S2]. cbn [terR].
    assert (Dq := d0_div _ _ _ _ (d0_minus _ _ _ _ Dx Db) Da S1).
    eexists. eapply d0_loc; [| |reflexivity].
    + apply d0_minus; [exact Dx|]. apply d0_mult; [exact Da|].
      apply (d0_const (Rfloor ((x 0 - b 0) / a 0))).
    + ev_from (Int_part_ev _ _ Dq S2). cbn beta. unfold Rfloor. rewrite H. reflexivity.
Qed.
