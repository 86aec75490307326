(** Adjoint correctness of DiffT, node by node. *)

From Coq Require Import ZArith Reals Lia Lra List Bool FunctionalExtensionality.
From Verif Require Import Result Formula Simplify SimplifyProofs BuildProofs Diff
  GradSpec Calculus ScalarDeriv Tangent DiffRules Closure Adjoint.
Local Open Scope nat_scope.

Section Diff.
Variables (i : Z) (d c : nat).
Hypothesis Hd : 1 <= d.

Definition tangent (e : env) (H : nat -> R) (f : fm) (T : nat -> R) : Prop :=
  forall k, k < dim f -> d0 (along i H e f k) (T k).

Lemma tangent_ex : forall e H f, wf f -> smooth e f -> exists T, tangent e H f T.
Proof. intros. apply smooth_tangent; auto. Qed.

(** [h] pairs with any direction H as [g] does with the derivative of [f] along H. *)
Definition grad (f g h : fm) : Prop :=
  wf h /\ dim h = d /\ forall e, smooth e f -> safe e g -> safe e h /\
  forall H T, tangent e H f T -> ip d (eval h e) H = ip (dim f) (eval g e) T.

Definition good (f : fm) : Prop := wf f /\ consistent i d c f /\ unmixed f.

(** ** Tangents of the nodes *)

Lemma un_T : forall e H u a T Ta, smooth e (Un u a) -> tangent e H (Un u a) T ->
  tangent e H a Ta -> forall k, k < dim a -> T k = (un' u (eval a e k) * Ta k)%R.
Proof.
  intros e H u a T Ta [_ S] HT Ha k K. eapply d0_unique; [apply HT; auto|].
  rewrite <- (along_0 i H e a k). apply (un_d0 u (along i H e a k)); [apply Ha; auto|].
  rewrite along_0. apply S; auto.
Qed.

Lemma vc2 : forall a b, vcompat2 a b = true -> 1 <= a -> 1 <= b ->
  (a = max a b \/ a = 1) /\ (b = max a b \/ b = 1).
Proof.
  unfold vcompat2. intros a b H A B. apply orb_true_iff in H as [H|H].
  - apply Nat.eqb_eq in H. lia.
  - apply Nat.eqb_eq in H. lia.
Qed.

Lemma bin_T : forall e H b x y T Ta Tb, wf (Bin b x y) -> smooth e (Bin b x y) ->
  tangent e H (Bin b x y) T -> tangent e H x Ta -> tangent e H y Tb ->
  forall k, k < max (dim x) (dim y) ->
  T k = (bin1 b (val x e k) (val y e k) * Ta (pos (dim x) k) +
         bin2 b (val x e k) (val y e k) * Tb (pos (dim y) k))%R.
Proof.
  intros e H b x y T Ta Tb (N & Wx & Wy) (_ & _ & S) HT Hx Hy k K. cbn [node_ok] in N.
  destruct (vc2 _ _ N (dim_pos _ Wx) (dim_pos _ Wy)) as [Cx Cy].
  assert (Px := pos_lt _ _ _ (dim_pos _ Wx) Cx K). assert (Py := pos_lt _ _ _ (dim_pos _ Wy) Cy K).
  eapply d0_unique; [apply HT; auto|]. rewrite !val_pos.
  rewrite <- (along_0 i H e x), <- (along_0 i H e y).
  apply (bin_d0 b (along i H e x (pos (dim x) k)) (along i H e y (pos (dim y) k)));
    [apply Hx; auto|apply Hy; auto|].
  rewrite !along_0. apply S; auto.
Qed.

Lemma zero_T : forall f g h, mk (Zero d) = Ok h ->
  (forall e H T, smooth e f -> tangent e H f T -> forall k, k < dim f -> T k = 0%R) ->
  grad f g h.
Proof.
  intros f g h E Z. apply mk_ok in E as [-> N]. split; [split; auto|]. split; [auto|].
  intros e S Sg. split; [exact I|]. intros H T HT. unfold ip. cbn [eval].
  rewrite !rsum_0; auto.
  - intros k K. rewrite (Z e H T) by auto. ring.
  - intros; ring.
Qed.

Lemma lin_T : forall e H l a T Ta, wf (Lin l a) -> tangent e H (Lin l a) T ->
  tangent e H a Ta -> forall k, k < dim (Lin l a) -> T k = linR l (dim a) Ta k.
Proof.
  intros e H l a T Ta [N W] HT Ha k K. eapply d0_unique; [apply HT; auto|].
  assert (P := dim_pos _ W).
  destruct l; cbn [linR dim node_ok] in *.
  - apply (rsum_d0 (dim a) (along i H e a) Ta); auto.
  - apply andb_true_iff in N as [N _]. apply Nat.eqb_eq in N.
    apply (Ha 0). lia.
  - apply Nat.ltb_lt in N. apply (Ha m). lia.
  - apply andb_true_iff in N as [N _]. apply Nat.eqb_eq in N.
    unfold along; cbn [eval linR]. destruct (k =? m); [apply (Ha 0); lia|apply d0_const].
  - apply andb_true_iff in N as [N _]. apply Nat.leb_le in N. apply (Ha (s + k)). lia.
  - apply Nat.leb_le in N. unfold along; cbn [eval linR].
    destruct ((s <=? k) && (k <? s + dim a)) eqn:B; [|apply d0_const].
    apply andb_true_iff in B as [B1 B2]. apply Nat.leb_le in B1. apply Nat.ltb_lt in B2.
    apply (Ha (k - s)). lia.
Qed.

Variable D : fm -> fm -> res fm.
Hypothesis IH : forall f g h, D f g = Ok h -> good f -> wf g -> dim g = dim f -> grad f g h.

(** The term f.DiffT(v, g*df) of VectorizedScalarOp.DiffT. *)
Lemma vecterm_ok : forall f df g x, vecterm D f df g = Ok x -> good f -> wf df -> wf g ->
  dim df = dim f -> dim g = dim f ->
  wf x /\ dim x = d /\ forall e, smooth e f -> safe e df -> safe e g -> safe e x /\
  forall H T, tangent e H f T ->
    ip d (eval x e) H = rsum (dim f) (fun k => eval g e k * eval df e k * T k)%R.
Proof.
  intros f df g x E G Wdf Wg D1 D2. unfold vecterm in E.
  destruct (Nat.eqb_spec (dim df) 1) as [E1|E1]; bind_inv.
  - rename x0 into y. destruct (IH _ _ _ H G Wg D2) as (Wy & Dy & Py).
    destruct (c_mulr d Hd _ _ _ E Wy Wdf Dy E1) as (A & B & C).
    split; [auto|]. split; [auto|]. intros e S Sd Sg. destruct (Py e S Sg) as [Sy Vy].
    destruct (C e Sy Sd) as [Sx Vx]. split; [auto|]. intros H0 T HT.
    rewrite Vx, (Vy H0 T HT). unfold ip. rewrite <- D1, E1. cbn [rsum]. ring.
  - rename x0 into y. destruct (i_mult _ _ _ H Wg Wdf) as (Wy & Dy & Py).
    assert (Dy' : dim y = dim f) by lia.
    destruct (IH _ _ _ E G Wy Dy') as (A & B & C).
    split; [auto|]. split; [auto|]. intros e S Sd Sg.
    destruct (Py e (conj Sg Sd)) as [Sy Vy]. destruct (C e S Sy) as [Sx Vx].
    split; [auto|]. intros H0 T HT. rewrite (Vx H0 T HT). apply rsum_ext. intros k K.
    rewrite Vy by lia. rewrite !val_own by lia. ring.
Qed.

Lemma good_un : forall u a, good (Un u a) -> good a.
Proof. intros u a ((_ & W) & C & U). repeat split; auto. Qed.
Lemma good_lin : forall u a, good (Lin u a) -> good a.
Proof. intros u a ((_ & W) & C & U). repeat split; auto. Qed.
Lemma good_sel : forall u a, good (Sel u a) -> good a.
Proof. intros u a ((_ & W) & C & U). repeat split; auto. Qed.
Lemma good_bin : forall b x y, good (Bin b x y) -> good x /\ good y.
Proof. intros b x y ((_ & W & W') & (C & C') & (_ & U & U')). repeat split; auto. Qed.
Lemma good_bil : forall b x y, good (Bil b x y) -> good x /\ good y.
Proof. intros b x y ((_ & W & W') & (C & C') & (U & U')). repeat split; auto. Qed.
Lemma good_cat : forall x y, good (Cat x y) -> good x /\ good y.
Proof. intros x y ((_ & W & W') & (C & C') & (U & U')). repeat split; auto. Qed.

(** ** One-argument vectorized operations *)

Lemma diff_minus : forall a g h, (do x <- D a g; Minus x) = Ok h -> good (Un UMinus a) ->
  wf g -> dim g = dim a -> grad (Un UMinus a) g h.
Proof.
  intros a g h E G Wg Dg. assert (G' := good_un _ _ G). bind_inv.
  destruct (IH _ _ _ H G' Wg Dg) as (Wx & Dx & Px).
  destruct (c_minus d Hd _ _ E Wx Dx) as (A & B & C).
  split; [auto|]. split; [auto|]. intros e S Sg. destruct (Px e (proj1 S) Sg) as [Sx Vx].
  destruct (C e Sx) as [Sh Vh]. split; [auto|]. intros H0 T HT.
  destruct (tangent_ex e H0 a (proj1 G') (proj1 S)) as [Ta Ha].
  rewrite Vh, (Vx H0 Ta Ha). unfold ip. rewrite <- rsum_opp. apply rsum_ext. intros k K.
  rewrite (un_T e H0 UMinus a T Ta S HT Ha k K). cbn [un']. ring.
Qed.

Lemma diff_un : forall u a g h df x, unDer u a = Some (Ok df) ->
  vecterm D a df g = Ok x -> Add (IntCst 0) x = Ok h -> good (Un u a) ->
  wf g -> dim g = dim a -> grad (Un u a) g h.
Proof.
  intros u a g h df x E Ex E0 G Wg Dg. assert (G' := good_un _ _ G).
  destruct (unDer_ok u a _ df E eq_refl (proj1 G')) as (Wdf & Ddf & Pdf).
  destruct (vecterm_ok a df g x Ex G' Wdf Wg Ddf Dg) as (Wx & Dx & Px).
  destruct (c_add0 d Hd _ _ E0 Wx Dx) as (A & B & C).
  split; [auto|]. split; [auto|]. intros e S Sg. destruct (Pdf e S) as [Sdf Vdf].
  destruct (Px e (proj1 S) Sdf Sg) as [Sx Vx].
  destruct (C e Sx) as [Sh Vh]. split; [auto|]. intros H0 T HT.
  destruct (tangent_ex e H0 a (proj1 G') (proj1 S)) as [Ta Ha].
  rewrite Vh, (Vx H0 Ta Ha). unfold ip. apply rsum_ext. intros k K.
  rewrite (un_T e H0 u a T Ta S HT Ha k K), Vdf by auto. ring.
Qed.

Lemma diff_un0 : forall u a g h, u <> UMinus -> unDer u a = None -> mk (Zero d) = Ok h ->
  good (Un u a) -> grad (Un u a) g h.
Proof.
  intros u a g h M E Eh G. apply zero_T; auto. intros e H T S HT k K.
  destruct (tangent_ex e H a (proj1 (good_un _ _ G)) (proj1 S)) as [Ta Ha].
  rewrite (un_T e H u a T Ta S HT Ha k K).
  destruct u; try discriminate; try congruence; cbn [un']; ring.
Qed.

(** ** Two-argument vectorized operations *)

(** The pairing of [g] with the tangent, split over the operands. *)
Lemma bin_pair : forall e H b x y g T Ta Tb wx wy,
  wf (Bin b x y) -> smooth e (Bin b x y) ->
  tangent e H (Bin b x y) T -> tangent e H x Ta -> tangent e H y Tb ->
  let n := max (dim x) (dim y) in
  let ux k := (eval g e k * bin1 b (val x e k) (val y e k))%R in
  let uy k := (eval g e k * bin2 b (val x e k) (val y e k))%R in
  (dim x = n /\ (forall k, k < n -> wx k = ux k)) \/ (dim x = 1 /\ wx 0 = rsum n ux) ->
  (dim y = n /\ (forall k, k < n -> wy k = uy k)) \/ (dim y = 1 /\ wy 0 = rsum n uy) ->
  ip (dim (Bin b x y)) (eval g e) T = (ip (dim x) wx Ta + ip (dim y) wy Tb)%R.
Proof.
  intros e H b x y g T Ta Tb wx wy W S HT Hx Hy n ux uy Cx Cy.
  destruct W as (N & Wx & Wy).
  rewrite (arg_sum n (dim x) ux wx Ta (dim_pos _ Wx) Cx).
  rewrite (arg_sum n (dim y) uy wy Tb (dim_pos _ Wy) Cy).
  rewrite <- rsum_plus. apply rsum_ext. intros k K. cbn [dim] in K.
  rewrite (bin_T e H b x y T Ta Tb) by (auto; split; auto).
  unfold ux, uy. ring.
Qed.

Lemma diff_cmp : forall b x y g h,
  match b with BEqual | BNotEqual | BLess | BLessEq => True | _ => False end ->
  mk (Zero d) = Ok h -> good (Bin b x y) -> grad (Bin b x y) g h.
Proof.
  intros b x y g h B Eh G. apply zero_T; auto. intros e H T S HT k K.
  destruct (good_bin _ _ _ G) as [Gx Gy].
  destruct (tangent_ex e H x (proj1 Gx) (proj1 S)) as [Ta Ha].
  destruct (tangent_ex e H y (proj1 Gy) (proj1 (proj2 S))) as [Tb Hb].
  rewrite (bin_T e H b x y T Ta Tb (proj1 G) S HT Ha Hb k K).
  destruct b; try contradiction; cbn [bin1 bin2]; ring.
Qed.

Ltac gb G :=
  let Gx := fresh "Gx" in let Gy := fresh "Gy" in
  destruct (good_bin _ _ _ G) as [Gx Gy];
  assert (Px := dim_pos _ (proj1 Gx)); assert (Py := dim_pos _ (proj1 Gy));
  assert (Dxy := vc2 _ _ (wf_node _ (proj1 G)) Px Py); cbn [dim] in *.

(** Addition-like nodes: x and y receive g or its sum, and are combined by + or -. *)
Lemma diff_lin2 : forall b (s : R) x y g ga gb p q h,
  (b = BAdd /\ s = 1%R \/ b = BSub /\ s = (-1)%R) ->
  good (Bin b x y) -> wf g -> dim g = max (dim x) (dim y) ->
  (ga = g /\ dim x = max (dim x) (dim y) \/ Sum g = Ok ga /\ dim x = 1) ->
  (gb = g /\ dim y = max (dim x) (dim y) \/ Sum g = Ok gb /\ dim y = 1) ->
  D x ga = Ok p -> D y gb = Ok q ->
  match b with BAdd => Add p q | _ => Subtract p q end = Ok h ->
  grad (Bin b x y) g h.
Proof.
  intros b s x y g ga gb p q h Bs G Wg Dg Ca Cb Ea Eb Eh. gb G.
  assert (Fa : wf ga /\ dim ga = dim x /\ forall e, safe e g -> safe e ga).
  { destruct Ca as [[-> ?]|[E ?]]; [repeat split; auto; lia|].
    destruct (i_sum _ _ E Wg) as (? & ? & P). repeat split; auto; [lia|]. apply P; auto. }
  assert (Fb : wf gb /\ dim gb = dim y /\ forall e, safe e g -> safe e gb).
  { destruct Cb as [[-> ?]|[E ?]]; [repeat split; auto; lia|].
    destruct (i_sum _ _ E Wg) as (? & ? & P). repeat split; auto; [lia|]. apply P; auto. }
  destruct Fa as (Wa & Da & Sa). destruct Fb as (Wb & Db & Sb).
  destruct (IH _ _ _ Ea Gx Wa Da) as (Wp & Dp & Pp).
  destruct (IH _ _ _ Eb Gy Wb Db) as (Wq & Dq & Pq).
  assert (C : wf h /\ dim h = d /\ forall e, safe e p -> safe e q -> safe e h /\
    forall H, ip d (eval h e) H = (ip d (eval p e) H + s * ip d (eval q e) H)%R).
  { destruct Bs as [[-> ->]|[-> ->]].
    - destruct (c_add d Hd _ _ _ Eh Wp Wq Dp Dq) as (A & B & C). split; [auto|]. split; [auto|].
      intros e Sp Sq. destruct (C e Sp Sq) as [S V]. split; auto. intros H. rewrite V. ring.
    - destruct (c_sub d Hd _ _ _ Eh Wp Wq Dp Dq) as (A & B & C). split; [auto|]. split; [auto|].
      intros e Sp Sq. destruct (C e Sp Sq) as [S V]. split; auto. intros H. rewrite V. ring. }
  destruct C as (Wh & Dh & C). split; [auto|]. split; [auto|]. intros e S Sg.
  destruct (Pp e (proj1 S) (Sa e Sg)) as [Sp Vp].
  destruct (Pq e (proj1 (proj2 S)) (Sb e Sg)) as [Sq Vq].
  destruct (C e Sp Sq) as [Sh Vh]. split; [auto|]. intros H T HT.
  destruct (tangent_ex e H x (proj1 Gx) (proj1 S)) as [Ta Ha].
  destruct (tangent_ex e H y (proj1 Gy) (proj1 (proj2 S))) as [Tb Hb].
  rewrite Vh, (Vp H Ta Ha), (Vq H Tb Hb).
  rewrite (bin_pair e H b x y g T Ta Tb (eval ga e) (fun k => s * eval gb e k)%R
            (proj1 G) S HT Ha Hb).
  - f_equal. unfold ip. rewrite <- rsum_scal. apply rsum_ext. intros; ring.
  - destruct Ca as [[-> ?]|[E ?]]; [left|right]; (split; [auto|]).
    + intros k K. destruct Bs as [[-> _]|[-> _]]; cbn [bin1]; ring.
    + destruct (i_sum _ _ E Wg) as (_ & _ & P). destruct (P e Sg) as [_ V].
      rewrite V by lia. rewrite Dg. apply rsum_ext. intros k K.
      destruct Bs as [[-> _]|[-> _]]; cbn [bin1]; ring.
  - destruct Cb as [[-> ?]|[E ?]]; [left|right]; (split; [auto|]).
    + intros k K. destruct Bs as [[-> ->]|[-> ->]]; cbn [bin2]; ring.
    + destruct (i_sum _ _ E Wg) as (_ & _ & P). destruct (P e Sg) as [_ V].
      rewrite V by lia. rewrite Dg, <- rsum_scal. apply rsum_ext. intros k K.
      destruct Bs as [[-> ->]|[-> ->]]; cbn [bin2]; ring.
Qed.

Lemma diff_bin_gen : forall b (s : R) (r : env -> R) x y g ga gb p q h,
  good (Bin b x y) ->
  wf ga -> dim ga = dim x -> wf gb -> dim gb = dim y ->
  (forall e, smooth e (Bin b x y) -> safe e g ->
    let n := max (dim x) (dim y) in
    let ux k := (eval g e k * bin1 b (val x e k) (val y e k))%R in
    let uy k := (eval g e k * bin2 b (val x e k) (val y e k))%R in
    safe e ga /\ safe e gb /\
    ((dim x = n /\ forall k, k < n -> (r e * eval ga e k)%R = ux k) \/
     (dim x = 1 /\ (r e * eval ga e 0)%R = rsum n ux)) /\
    ((dim y = n /\ forall k, k < n -> (r e * s * eval gb e k)%R = uy k) \/
     (dim y = 1 /\ (r e * s * eval gb e 0)%R = rsum n uy))) ->
  D x ga = Ok p -> D y gb = Ok q ->
  (wf p -> wf q -> dim p = d -> dim q = d ->
   wf h /\ dim h = d /\ forall e, smooth e (Bin b x y) -> safe e p -> safe e q -> safe e h /\
    forall H, ip d (eval h e) H = (r e * (ip d (eval p e) H + s * ip d (eval q e) H))%R) ->
  grad (Bin b x y) g h.
Proof.
  intros b s r x y g ga gb p q h G Wa Da Wb Db F Ea Eb C.
  destruct (good_bin _ _ _ G) as [Gx Gy].
  destruct (IH _ _ _ Ea Gx Wa Da) as (Wp & Dp & Pp).
  destruct (IH _ _ _ Eb Gy Wb Db) as (Wq & Dq & Pq).
  destruct (C Wp Wq Dp Dq) as (Wh & Dh & C'). split; [auto|]. split; [auto|]. intros e S Sg.
  destruct (F e S Sg) as (Sa & Sb & Ca & Cb).
  destruct (Pp e (proj1 S) Sa) as [Sp Vp].
  destruct (Pq e (proj1 (proj2 S)) Sb) as [Sq Vq].
  destruct (C' e S Sp Sq) as [Sh Vh]. split; [auto|]. intros H T HT.
  destruct (tangent_ex e H x (proj1 Gx) (proj1 S)) as [Ta Ha].
  destruct (tangent_ex e H y (proj1 Gy) (proj1 (proj2 S))) as [Tb Hb].
  rewrite Vh, (Vp H Ta Ha), (Vq H Tb Hb).
  rewrite (bin_pair e H b x y g T Ta Tb (fun k => r e * eval ga e k)%R
    (fun k => r e * s * eval gb e k)%R (proj1 G) S HT Ha Hb Ca Cb).
  unfold ip. rewrite Rmult_plus_distr_l, <- !rsum_scal. f_equal; apply rsum_ext; intros; ring.
Qed.

Lemma comb_add1 : forall f p q h, Add p q = Ok h -> wf p -> wf q -> dim p = d -> dim q = d ->
   wf h /\ dim h = d /\ forall e, smooth e f -> safe e p -> safe e q -> safe e h /\
    forall H, ip d (eval h e) H = (1 * (ip d (eval p e) H + 1 * ip d (eval q e) H))%R.
Proof.
  intros f p q h E Wp Wq Dp Dq. destruct (c_add d Hd _ _ _ E Wp Wq Dp Dq) as (A & B & C).
  split; [auto|]. split; [auto|]. intros e _ Sp Sq. destruct (C e Sp Sq) as [S V].
  split; [auto|]. intros H. rewrite V. ring.
Qed.
Lemma comb_sub1 : forall f p q h, Subtract p q = Ok h -> wf p -> wf q -> dim p = d -> dim q = d ->
   wf h /\ dim h = d /\ forall e, smooth e f -> safe e p -> safe e q -> safe e h /\
    forall H, ip d (eval h e) H = (1 * (ip d (eval p e) H + -1 * ip d (eval q e) H))%R.
Proof.
  intros f p q h E Wp Wq Dp Dq. destruct (c_sub d Hd _ _ _ E Wp Wq Dp Dq) as (A & B & C).
  split; [auto|]. split; [auto|]. intros e _ Sp Sq. destruct (C e Sp Sq) as [S V].
  split; [auto|]. intros H. rewrite V. ring.
Qed.

Ltac sm S := destruct S as (Sx & Sy & SS); apply smooth_safe in Sx; apply smooth_safe in Sy.

(** What is sent to an operand of a product: the other operand times g, summed up when
    the operand is a scalar and g is not. *)
Lemma mult_arg : forall y g gy n, wf g -> wf y -> dim g = n -> n = max 1 n ->
  (dim y = n \/ dim y = 1) ->
  (Mult y g = Ok gy -> wf gy /\ dim gy = n /\ forall e, safe e y -> safe e g ->
     safe e gy /\ forall k, k < n -> eval gy e k = (eval g e k * val y e k)%R) /\
  (Scalprod g y = Ok gy -> dim y = n -> wf gy /\ dim gy = 1 /\ forall e, safe e y -> safe e g ->
     safe e gy /\ eval gy e 0 = rsum n (fun k => eval g e k * val y e k)%R).
Proof.
  intros y g gy n Wg Wy Dg Pn Cy. split.
  - intros E. destruct (i_mult _ _ _ E Wy Wg) as (A & B & C). split; [auto|].
    split; [lia|]. intros e Sy Sg. destruct (C e (conj Sy Sg)) as [S V]. split; [auto|].
    intros k K. rewrite V by lia. rewrite (val_own g) by lia. ring.
  - intros E Ny. destruct (i_scal _ _ _ E Wg Wy) as (A & B & C). split; [auto|].
    split; [lia|]. intros e Sy Sg. destruct (C e (conj Sg Sy)) as [S V]. split; [auto|].
    rewrite V by lia. replace (max (dim g) (dim y)) with n by lia. apply rsum_ext.
    intros k K. rewrite (val_own g) by lia. ring.
Qed.

Definition mult_plain (a b g : fm) : res fm :=
  if (dim a =? 1) && (1 <? dim b) then
    do s <- Scalprod g b; do x <- D a s; do p <- Mult a g; do y <- D b p; Add x y
  else if (dim b =? 1) && (1 <? dim a) then
    do p <- Mult b g; do x <- D a p; do s <- Scalprod g a; do y <- D b s; Add x y
  else
    do p <- Mult b g; do x <- D a p; do q <- Mult a g; do y <- D b q; Add x y.

Lemma diff_mult_plain : forall x y g h, mult_plain x y g = Ok h ->
  good (Bin BMult x y) -> wf g -> dim g = max (dim x) (dim y) -> grad (Bin BMult x y) g h.
Proof.
  intros x y g h E G Wg Dg. gb G. unfold mult_plain in E.
  assert (Wx := proj1 Gx). assert (Wy := proj1 Gy).
  set (n := max (dim x) (dim y)) in *. assert (Pn : n = max 1 n) by lia.
  assert (Mx : forall gy, _) by (exact (fun gy => mult_arg x g gy n Wg Wx Dg Pn ltac:(lia))).
  assert (My : forall gy, _) by (exact (fun gy => mult_arg y g gy n Wg Wy Dg Pn ltac:(lia))).
  destruct ((dim x =? 1) && (1 <? dim y)) eqn:B1.
  - apply andb_true_iff in B1 as [B1 B2]. apply Nat.eqb_eq in B1. apply Nat.ltb_lt in B2.
    bind_inv. destruct (proj2 (My _) H) as (A1 & A2 & A3); [lia|].
    destruct (proj1 (Mx _) H1) as (A4 & A5 & A6).
    eapply (diff_bin_gen BMult 1 (fun _ => 1%R) x y g);
      [exact G|exact A1|lia|exact A4|lia| |exact H0|exact H2|apply comb_add1; exact E].
    intros e S Sg. sm S. destruct (A3 e Sy Sg) as [S1 V1]. destruct (A6 e Sx Sg) as [S2 V2].
    cbn zeta. split; [auto|]. split; [auto|]. split; [right|left].
    + split; [auto|]. rewrite V1. cbn [bin1]. fold n. rewrite Rmult_1_l. reflexivity.
    + split; [lia|]. intros k K. rewrite V2 by auto. cbn [bin2]. ring.
  - destruct ((dim y =? 1) && (1 <? dim x)) eqn:B2.
    + apply andb_true_iff in B2 as [B2 B3]. apply Nat.eqb_eq in B2. apply Nat.ltb_lt in B3.
      bind_inv. destruct (proj1 (My _) H) as (A1 & A2 & A3).
      destruct (proj2 (Mx _) H1) as (A4 & A5 & A6); [lia|].
      eapply (diff_bin_gen BMult 1 (fun _ => 1%R) x y g);
        [exact G|exact A1|lia|exact A4|lia| |exact H0|exact H2|apply comb_add1; exact E].
      intros e S Sg. sm S. destruct (A3 e Sy Sg) as [S1 V1]. destruct (A6 e Sx Sg) as [S2 V2].
      cbn zeta. split; [auto|]. split; [auto|]. split; [left|right].
      * split; [lia|]. intros k K. rewrite V1 by auto. cbn [bin1]. ring.
      * split; [auto|]. rewrite V2. cbn [bin2]. fold n. rewrite !Rmult_1_l. reflexivity.
    + assert (Q : dim x = n /\ dim y = n).
      { destruct (Nat.eqb_spec (dim x) 1), (Nat.ltb_spec 1 (dim y)), (Nat.eqb_spec (dim y) 1),
          (Nat.ltb_spec 1 (dim x)); cbn in B1, B2; try discriminate; lia. }
      bind_inv. destruct (proj1 (My _) H) as (A1 & A2 & A3).
      destruct (proj1 (Mx _) H1) as (A4 & A5 & A6).
      eapply (diff_bin_gen BMult 1 (fun _ => 1%R) x y g);
        [exact G|exact A1|lia|exact A4|lia| |exact H0|exact H2|apply comb_add1; exact E].
      intros e S Sg. sm S. destruct (A3 e Sy Sg) as [S1 V1]. destruct (A6 e Sx Sg) as [S2 V2].
      cbn zeta. split; [auto|]. split; [auto|]. split; left; (split; [lia|]); intros k K.
      * rewrite V1 by auto. cbn [bin1]. ring.
      * rewrite V2 by auto. cbn [bin2]. ring.
Qed.

(** x * Exp(u), with a scalar exponential. *)
Lemma diff_mult_exp : forall x u g p s q z h, dim u = 1 ->
  D x g = Ok p -> Scalprod g x = Ok s -> D u s = Ok q -> Add p q = Ok z ->
  Mult z (Un UExp u) = Ok h ->
  good (Bin BMult x (Un UExp u)) -> wf g -> dim g = max (dim x) (dim u) ->
  grad (Bin BMult x (Un UExp u)) g h.
Proof.
  intros x u g p s q z h Du Ep Es Eq Ez Eh G Wg Dg.
  destruct (good_bin _ _ _ G) as [Gx Gy]. assert (Gu := good_un _ _ Gy).
  assert (Px := dim_pos _ (proj1 Gx)).
  assert (Dgx : dim g = dim x) by lia.
  destruct (proj2 (mult_arg x g s (dim x) Wg (proj1 Gx) Dgx ltac:(lia) ltac:(lia)) Es)
    as (A1 & A2 & A3); [auto|].
  destruct (IH _ _ _ Ep Gx Wg Dgx) as (Wp & Dp & Pp).
  destruct (IH _ _ _ Eq Gu A1 ltac:(lia)) as (Wq & Dq & Pq).
  destruct (c_add d Hd _ _ _ Ez Wp Wq Dp Dq) as (Wz & Dz & Pz).
  destruct (c_mulr d Hd _ _ _ Eh Wz (proj1 Gy) Dz Du) as (Wh & Dh & Ph).
  split; [auto|]. split; [auto|]. intros e S Sg. assert (S' := S). sm S'.
  destruct (Pp e (proj1 S) Sg) as [Sp Vp]. destruct (A3 e Sx Sg) as [Ss Vs].
  destruct (Pq e (proj1 (proj1 (proj2 S))) Ss) as [Sq Vq].
  destruct (Pz e Sp Sq) as [Sz Vz]. destruct (Ph e Sz Sy) as [Sh Vh].
  split; [auto|]. intros H T HT.
  destruct (tangent_ex e H x (proj1 Gx) (proj1 S)) as [Ta Ha].
  destruct (tangent_ex e H u (proj1 Gu) (proj1 (proj1 (proj2 S)))) as [Tu Hu].
  destruct (tangent_ex e H (Un UExp u) (proj1 Gy) (proj1 (proj2 S))) as [Tb Hb].
  assert (B0 := un_T e H UExp u Tb Tu (proj1 (proj2 S)) Hb Hu 0 ltac:(lia)).
  rewrite Vh, Vz, (Vp H Ta Ha), (Vq H Tu Hu).
  unfold ip at 2. rewrite Du. cbn [rsum]. rewrite Vs.
  cbn [dim]. replace (max (dim x) (dim u)) with (dim x) by lia.
  unfold ip. rewrite Rplus_0_l, <- rsum_scal_r, <- rsum_plus, <- rsum_scal_r.
  apply rsum_ext. intros k K.
  rewrite (bin_T e H BMult x (Un UExp u) T Ta Tb (proj1 G) S HT Ha Hb k) by (cbn [dim]; lia).
  cbn [bin1 bin2]. rewrite (val_1 (Un UExp u)), (val_own x) by auto.
  cbn [dim]. rewrite Du. change (pos 1 k) with 0. rewrite B0. cbn [eval unR un'].
  unfold pos. destruct (Nat.eqb_spec (dim x) 1); [replace k with 0 by lia|]; ring.
Qed.

(** Division *)
Lemma div_arg1 : forall y g p n, Divide g y = Ok p -> wf g -> wf y -> dim g = n ->
  1 <= n -> (dim y = n \/ dim y = 1) ->
  wf p /\ dim p = n /\ forall e, safe e y -> safe e g ->
    (forall k, k < n -> val y e k <> 0%R) ->
    safe e p /\ forall k, k < n -> eval p e k = (eval g e k * (1 / val y e k))%R.
Proof.
  intros y g p n E Wg Wy Dg Pn Cy. destruct (i_div _ _ _ E Wg Wy) as (A & B & C).
  split; [auto|]. split; [lia|]. intros e Sy Sg N.
  destruct (C e) as [S V]; [split; [auto|split; [auto|]]|].
  { intros k K. apply N. lia. }
  split; [auto|]. intros k K. rewrite V by lia. rewrite (val_own g) by lia.
  unfold Rdiv. ring.
Qed.

Lemma div_arg2 : forall x y g q y2 r n, Mult x g = Ok q -> Square y = Ok y2 ->
  Divide q y2 = Ok r -> wf g -> wf x -> wf y -> dim g = n ->
  1 <= n -> (dim x = n \/ dim x = 1) -> (dim y = n \/ dim y = 1) ->
  wf r /\ dim r = n /\ forall e, safe e x -> safe e y -> safe e g ->
    (forall k, k < n -> val y e k <> 0%R) ->
    safe e r /\ forall k, k < n ->
      eval r e k = (eval g e k * (val x e k / (val y e k * val y e k)))%R.
Proof.
  intros x y g q y2 r n E1 E2 E3 Wg Wx Wy Dg Pn Cx Cy.
  destruct (i_mult _ _ _ E1 Wx Wg) as (A1 & B1 & C1).
  destruct (i_square _ _ E2 Wy) as (A2 & B2 & C2).
  destruct (i_div _ _ _ E3 A1 A2) as (A & B & C).
  split; [auto|]. split; [lia|]. intros e Sx Sy Sg N.
  destruct (C1 e (conj Sx Sg)) as [S1 V1]. destruct (C2 e Sy) as [S2 V2].
  assert (Py := dim_pos _ Wy).
  assert (Q : forall k, k < n -> val y2 e k = (val y e k * val y e k)%R).
  { intros k K. rewrite !val_pos, B2. apply V2. apply (pos_lt _ n); lia. }
  destruct (C e) as [S V]; [split; [auto|split; [auto|]]|].
  { intros k K. assert (K' : k < n) by lia. rewrite Q by auto. specialize (N k K').
    apply Rmult_integral_contrapositive_currified; auto. }
  split; [auto|]. intros k K. rewrite V by lia. rewrite (val_own q) by lia.
  rewrite V1, Q by lia. rewrite (val_own g) by lia. unfold Rdiv. ring.
Qed.

Definition div_diff (a b g : fm) : res fm :=
  if (dim a =? 1) && (1 <? dim b) then
    do p <- Divide g b; do s <- Sum p; do x <- D a s;
    do q <- Mult a g; do b2 <- Square b; do r <- Divide q b2; do y <- D b r;
    Subtract x y
  else if (dim b =? 1) && (1 <? dim a) then
    do p <- Mult b g; do x <- D a p;
    do s <- Scalprod g a; do y <- D b s;
    do z <- Subtract x y; do b2 <- Square b; Divide z b2
  else
    do p <- Divide g b; do x <- D a p;
    do q <- Mult a g; do b2 <- Square b; do r <- Divide q b2; do y <- D b r;
    Subtract x y.

Lemma diff_div : forall x y g h, div_diff x y g = Ok h ->
  good (Bin BDiv x y) -> wf g -> dim g = max (dim x) (dim y) -> grad (Bin BDiv x y) g h.
Proof.
  intros x y g h E G Wg Dg. gb G. unfold div_diff in E.
  assert (Wx := proj1 Gx). assert (Wy := proj1 Gy).
  set (n := max (dim x) (dim y)) in *.
  assert (NZ : forall e, smooth e (Bin BDiv x y) -> forall k, k < n -> val y e k <> 0%R).
  { intros e (_ & _ & S) k K. apply (S k K). }
  destruct ((dim x =? 1) && (1 <? dim y)) eqn:B1.
  - apply andb_true_iff in B1 as [B1 B2]. apply Nat.eqb_eq in B1. apply Nat.ltb_lt in B2.
    bind_inv. destruct (div_arg1 y g _ n H Wg Wy Dg ltac:(lia) ltac:(lia)) as (A1 & A2 & A3).
    destruct (i_sum _ _ H0 A1) as (A4 & A5 & A6).
    destruct (div_arg2 x y g _ _ _ n H2 H3 H4 Wg Wx Wy Dg ltac:(lia) ltac:(lia) ltac:(lia))
      as (A7 & A8 & A9).
    eapply (diff_bin_gen BDiv (-1) (fun _ => 1%R) x y g);
      [exact G|exact A4|lia|exact A7|lia| |exact H1|exact H5|apply comb_sub1; exact E].
    intros e S Sg. assert (N := NZ e S). sm S. destruct (A3 e Sy Sg N) as [S1 V1].
    destruct (A6 e S1) as [S2 V2]. destruct (A9 e Sx Sy Sg N) as [S3 V3].
    cbn zeta. split; [auto|]. split; [auto|]. split; [right|left].
    + split; [auto|]. rewrite V2 by lia. rewrite A2, Rmult_1_l. apply rsum_ext.
      intros k K. rewrite V1 by auto. cbn [bin1]. ring.
    + split; [lia|]. intros k K. rewrite V3 by auto. cbn [bin2]. ring.
  - destruct ((dim y =? 1) && (1 <? dim x)) eqn:B2.
    + apply andb_true_iff in B2 as [B2 B3]. apply Nat.eqb_eq in B2. apply Nat.ltb_lt in B3.
      bind_inv.
      destruct (proj1 (mult_arg y g x0 n Wg Wy Dg ltac:(lia) ltac:(lia)) H) as (A1 & A2 & A3).
      destruct (proj2 (mult_arg x g x2 n Wg Wx Dg ltac:(lia) ltac:(lia)) H1 ltac:(lia))
        as (A4 & A5 & A6).
      destruct (i_square _ _ H4 Wy) as (A7 & A8 & A9).
      eapply (diff_bin_gen BDiv (-1) (fun e => / (eval y e 0 * eval y e 0))%R x y g);
        [exact G|exact A1|lia|exact A4|lia| |exact H0|exact H2|].
      * intros e S Sg. assert (N := NZ e S). assert (N0 := N 0 ltac:(lia)).
        rewrite val_1 in N0 by auto. sm S.
        destruct (A3 e Sy Sg) as [S1 V1]. destruct (A6 e Sx Sg) as [S2 V2].
        cbn zeta. split; [auto|]. split; [auto|]. split; [left|right].
        -- split; [lia|]. intros k K. rewrite V1 by auto. cbn [bin1].
           rewrite (val_1 y) by auto. field. auto.
        -- split; [auto|]. rewrite V2. fold n. rewrite <- rsum_scal. apply rsum_ext.
           intros k K. cbn [bin2]. rewrite (val_1 y) by auto. field. auto.
      * intros Wp Wq Dp Dq.
        destruct (c_sub d Hd _ _ _ H3 Wp Wq Dp Dq) as (C1 & C2 & C3).
        destruct (c_div1 d Hd _ _ _ E C1 A7 C2 ltac:(lia)) as (C4 & C5 & C6).
        split; [auto|]. split; [auto|]. intros e S Sp Sq.
        assert (N := NZ e S 0 ltac:(lia)). rewrite val_1 in N by auto. sm S.
        destruct (C3 e Sp Sq) as [S1 V1]. destruct (A9 e Sy) as [S2 V2].
        assert (Q : (eval x5 e 0 <> 0)%R).
        { rewrite V2 by lia. apply Rmult_integral_contrapositive_currified; auto. }
        destruct (C6 e S1 S2 Q) as [S3 V3]. split; [auto|]. intros Hh.
        rewrite V3, V1, V2 by lia. unfold Rdiv. ring.
    + assert (Q : dim x = n /\ dim y = n).
      { destruct (Nat.eqb_spec (dim x) 1), (Nat.ltb_spec 1 (dim y)), (Nat.eqb_spec (dim y) 1),
          (Nat.ltb_spec 1 (dim x)); cbn in B1, B2; try discriminate; lia. }
      bind_inv. destruct (div_arg1 y g _ n H Wg Wy Dg ltac:(lia) ltac:(lia)) as (A1 & A2 & A3).
      destruct (div_arg2 x y g _ _ _ n H1 H2 H3 Wg Wx Wy Dg ltac:(lia) ltac:(lia) ltac:(lia))
        as (A7 & A8 & A9).
      eapply (diff_bin_gen BDiv (-1) (fun _ => 1%R) x y g);
        [exact G|exact A1|lia|exact A7|lia| |exact H0|exact H4|apply comb_sub1; exact E].
      intros e S Sg. assert (N := NZ e S). sm S. destruct (A3 e Sy Sg N) as [S1 V1].
      destruct (A9 e Sx Sy Sg N) as [S3 V3].
      cbn zeta. split; [auto|]. split; [auto|]. split; left; (split; [lia|]); intros k K.
      * rewrite V1 by auto. cbn [bin1]. ring.
      * rewrite V3 by auto. cbn [bin2]. ring.
Qed.

(** Atan2 and Powf: the sum of two vectorized terms. *)
Lemma diff_vec2 : forall b x y g da db p p0 q h, good (Bin b x y) -> dim x = dim y ->
  wf g -> dim g = dim x ->
  is_fm da (dim x) (fun e => smooth e (Bin b x y))
    (fun e k => bin1 b (val x e k) (val y e k)) ->
  is_fm db (dim x) (fun e => smooth e (Bin b x y))
    (fun e k => bin2 b (val x e k) (val y e k)) ->
  vecterm D x da g = Ok p -> Add (IntCst 0) p = Ok p0 ->
  vecterm D y db g = Ok q -> Add p0 q = Ok h -> grad (Bin b x y) g h.
Proof.
  intros b x y g da db p p0 q h G Dxy Wg Dg (Wa & Da & Fa) (Wb & Db & Fb) Ep Ep0 Eq Eh.
  destruct (good_bin _ _ _ G) as [Gx Gy]. assert (Px := dim_pos _ (proj1 Gx)).
  destruct (vecterm_ok x da g p Ep Gx Wa Wg Da Dg) as (Wp & Dp & Pp).
  destruct (c_add0 d Hd _ _ Ep0 Wp Dp) as (Wp0 & Dp0 & Pp0).
  destruct (vecterm_ok y db g q Eq Gy Wb Wg ltac:(lia) ltac:(lia)) as (Wq & Dq & Pq).
  destruct (c_add d Hd _ _ _ Eh Wp0 Wq Dp0 Dq) as (Wh & Dh & Ph).
  split; [auto|]. split; [auto|]. intros e S Sg.
  destruct (Fa e S) as [Sa Va]. destruct (Fb e S) as [Sb Vb].
  destruct (Pp e (proj1 S) Sa Sg) as [Sp Vp]. destruct (Pp0 e Sp) as [Sp0 Vp0].
  destruct (Pq e (proj1 (proj2 S)) Sb Sg) as [Sq Vq].
  destruct (Ph e Sp0 Sq) as [Sh Vh]. split; [auto|]. intros H T HT.
  destruct (tangent_ex e H x (proj1 Gx) (proj1 S)) as [Ta Ha].
  destruct (tangent_ex e H y (proj1 Gy) (proj1 (proj2 S))) as [Tb Hb].
  rewrite Vh, Vp0, (Vp H Ta Ha), (Vq H Tb Hb), <- Dxy. unfold ip. cbn [dim].
  rewrite <- rsum_plus. replace (max (dim x) (dim y)) with (dim x) by lia.
  apply rsum_ext. intros k K.
  rewrite (bin_T e H b x y T Ta Tb (proj1 G) S HT Ha Hb k) by lia.
  rewrite Va, Vb, <- Dxy by auto.
  assert (pos (dim x) k = k) as ->.
  { unfold pos. destruct (Nat.eqb_spec (dim x) 1); lia. }
  ring.
Qed.

Lemma diff_atan2 : forall x y g a2 b2 r2 da ma db p p0 q h,
  Square x = Ok a2 -> Square y = Ok b2 -> Add a2 b2 = Ok r2 -> Divide y r2 = Ok da ->
  Minus x = Ok ma -> Divide ma r2 = Ok db ->
  vecterm D x da g = Ok p -> Add (IntCst 0) p = Ok p0 ->
  vecterm D y db g = Ok q -> Add p0 q = Ok h ->
  good (Bin BAtan2 x y) -> wf g -> dim g = max (dim x) (dim y) -> grad (Bin BAtan2 x y) g h.
Proof.
  intros x y g a2 b2 r2 da ma db p p0 q h E1 E2 E3 E4 E5 E6 E7 E8 E9 E10 G Wg Dg.
  assert (Dxy : dim x = dim y) by apply (proj2 (proj2 G)).
  destruct (good_bin _ _ _ G) as [Gx Gy]. assert (Wx := proj1 Gx). assert (Wy := proj1 Gy).
  destruct (i_square _ _ E1 Wx) as (A1 & B1 & C1).
  destruct (i_square _ _ E2 Wy) as (A2 & B2 & C2).
  destruct (i_add _ _ _ E3 A1 A2) as (A3 & B3 & C3).
  destruct (i_div _ _ _ E4 Wy A3) as (A4 & B4 & C4).
  destruct (i_minus _ _ E5 Wx) as (A5 & B5 & C5).
  destruct (i_div _ _ _ E6 A5 A3) as (A6 & B6 & C6).
  assert (F : forall e, smooth e (Bin BAtan2 x y) -> safe e r2 /\ forall k, k < dim x ->
    val r2 e k = (val x e k * val x e k + val y e k * val y e k)%R /\ val r2 e k <> 0%R).
  { intros e S. assert (S' := S). sm S'. destruct (C1 e Sx) as [S1 V1].
    destruct (C2 e Sy) as [S2 V2].
    destruct (C3 e (conj S1 S2)) as [S3 V3]. split; [auto|]. intros k K.
    assert (V : val r2 e k = (val x e k * val x e k + val y e k * val y e k)%R).
    { rewrite (val_own r2), V3 by lia. rewrite (val_own a2), (val_own b2), V1, V2 by lia.
      rewrite (val_own x), (val_own y) by lia. reflexivity. }
    split; [auto|]. rewrite V. assert (0 < val x e k * val x e k + val y e k * val y e k)%R; [|lra].
    apply sq_pos. assert (Q : bin_smooth BAtan2 (val x e k) (val y e k)) by (apply SS; lia).
    cbn in Q. destruct Q; [right; lra|left; lra]. }
  eapply (diff_vec2 BAtan2 x y g da db); eauto; try lia.
  - split; [auto|]. split; [lia|]. intros e S. destruct (F e S) as [Sr Vr]. sm S.
    destruct (C4 e) as [S4 V4].
    { split; [auto|]. split; [auto|]. intros k K. apply Vr. lia. }
    split; [auto|]. intros k K. rewrite V4 by lia. destruct (Vr k K) as [-> _]. reflexivity.
  - split; [auto|]. split; [lia|]. intros e S. destruct (F e S) as [Sr Vr]. sm S.
    destruct (C5 e Sx) as [S5 V5].
    destruct (C6 e) as [S6 V6].
    { split; [auto|]. split; [auto|]. intros k K. apply Vr. lia. }
    split; [auto|]. intros k K. rewrite V6 by lia. destruct (Vr k K) as [Q Q'].
    rewrite Q in Q'. rewrite Q. rewrite (val_own ma), V5 by lia. rewrite (val_own x) by auto.
    cbn [bin2]. rewrite (val_own x) in Q' by auto. field. auto.
Qed.

Lemma diff_powf : forall x y g b1 pw1 da pw db p p0 q h,
  Subtract y (IntCst 1) = Ok b1 -> mk (Bin BPowf x b1) = Ok pw1 -> Mult y pw1 = Ok da ->
  mk (Bin BPowf x y) = Ok pw -> Mult (Un ULog x) pw = Ok db ->
  vecterm D x da g = Ok p -> Add (IntCst 0) p = Ok p0 ->
  vecterm D y db g = Ok q -> Add p0 q = Ok h ->
  good (Bin BPowf x y) -> wf g -> dim g = max (dim x) (dim y) -> grad (Bin BPowf x y) g h.
Proof.
  intros x y g b1 pw1 da pw db p p0 q h E1 E2 E3 E4 E5 E7 E8 E9 E10 G Wg Dg.
  assert (Dxy : dim x = dim y) by apply (proj2 (proj2 G)).
  destruct (good_bin _ _ _ G) as [Gx Gy]. assert (Wx := proj1 Gx). assert (Wy := proj1 Gy).
  assert (Px := dim_pos _ Wx).
  change (IntCst 1) with (Int 1) in E1.
  destruct (i_sub _ _ _ E1 Wy (wf_int 1)) as (A1 & B1 & C1). cbn [dim] in *.
  assert (Db1 : dim b1 = dim x) by lia.
  apply mk_ok in E2 as [-> N2]. apply mk_ok in E4 as [-> N4].
  assert (W2 : wf (Bin BPowf x b1)) by (split; auto).
  assert (W4 : wf (Bin BPowf x y)) by (split; auto).
  assert (WL : wf (Un ULog x)) by (split; auto).
  destruct (i_mult _ _ _ E3 Wy W2) as (A3 & B3 & C3).
  destruct (i_mult _ _ _ E5 WL W4) as (A5 & B5 & C5). cbn [dim] in *.
  eapply (diff_vec2 BPowf x y g da db); eauto; try lia.
  - split; [auto|]. split; [lia|]. intros e S. sm S.
    destruct (C1 e (conj Sy I)) as [S1 V1].
    destruct (C3 e) as [S3 V3].
    { split; [auto|]. split; [auto|]. split; [auto|]. intros k K. rewrite Db1 in K |- *.
      apply (SS k). lia. }
    split; [auto|]. intros k K. rewrite V3 by lia. cbn [bin1]. f_equal.
    rewrite (val_own (Bin BPowf x b1)) by (cbn [dim]; lia). cbn [eval binR].
    change (bcv (dim x) (eval x e) k) with (val x e k).
    change (bcv (dim b1) (eval b1 e) k) with (val b1 e k).
    rewrite (val_own b1), V1 by lia. rewrite val_int. reflexivity.
  - split; [auto|]. split; [lia|]. intros e S. sm S.
    destruct (C5 e) as [S5 V5].
    { split; [split; [auto|]|split; auto].
      intros k K. rewrite <- (val_own x) by auto. apply (SS k). lia. }
    split; [auto|]. intros k K. rewrite V5 by lia. cbn [bin2].
    rewrite (val_own (Bin BPowf x y)) by (cbn [dim]; lia). reflexivity.
Qed.

(** ** Linear operations *)

(** Sending [s] to the operand of a linear node. *)
Lemma diff_lin_gen : forall l a g s h, good (Lin l a) -> wf s -> dim s = dim a ->
  D a s = Ok h ->
  (forall e, safe e g -> safe e s /\ forall T, ip (dim a) (eval s e) T =
     ip (dim (Lin l a)) (eval g e) (linR l (dim a) T)) ->
  grad (Lin l a) g h.
Proof.
  intros l a g s h G Ws Ds E F. assert (Ga := good_lin _ _ G).
  destruct (IH _ _ _ E Ga Ws Ds) as (A & B & C). split; [auto|]. split; [auto|].
  intros e S Sg. destruct (F e Sg) as [Ss Vs]. cbn in S. destruct (C e S Ss) as [Sh Vh].
  split; [auto|]. intros H T HT. destruct (tangent_ex e H a (proj1 Ga) S) as [Ta Ha].
  rewrite (Vh H Ta Ha), Vs. apply ip_ext; auto. intros k K.
  rewrite (lin_T e H l a T Ta (proj1 G) HT Ha k K). reflexivity.
Qed.

Ltac mkwf H := apply mk_ok in H as [-> H].

Lemma diff_lin : forall l a g s h,
  match l with
  | LSum => SumT g (dim a) | LSumT _ => Sum g
  | LElem m => mk (Lin (LElemT (dim a) m) g) | LElemT _ m => mk (Lin (LElem m) g)
  | LExtract st _ => mk (Lin (LExtractT st (dim a)) g)
  | LExtractT st _ => mk (Lin (LExtract st (dim a)) g)
  end = Ok s -> D a s = Ok h ->
  good (Lin l a) -> wf g -> dim g = dim (Lin l a) -> grad (Lin l a) g h.
Proof.
  intros l a g s h Es E G Wg Dg. assert (Ga := good_lin _ _ G).
  assert (N := wf_node _ (proj1 G)). assert (Pa := dim_pos _ (proj1 Ga)).
  assert (Pg := dim_pos _ Wg).
  destruct l as [|n|m|n m|st n|st n]; cbn [dim node_ok] in *.
  - destruct (i_sumT _ _ _ Es Wg) as (A & B & C).
    apply (diff_lin_gen LSum a g s h); auto. intros e Sg. destruct (C e Sg) as [S V].
    split; [auto|]. intros T. unfold ip. cbn [dim linR rsum].
    rewrite Rplus_0_l, <- rsum_scal. apply rsum_ext. intros k K. rewrite V; auto.
  - destruct (i_sum _ _ Es Wg) as (A & B & C).
    apply andb_true_iff in N as [N _]. apply Nat.eqb_eq in N.
    apply (diff_lin_gen (LSumT n) a g s h); auto; [lia|].
    intros e Sg. destruct (C e Sg) as [S V].
    split; [auto|]. intros T. unfold ip. rewrite N. cbn [dim linR rsum].
    rewrite V by lia. rewrite Rplus_0_l, Dg, <- rsum_scal_r. reflexivity.
  - mkwf Es. assert (Es' := Es). cbn [node_ok] in Es'. apply andb_true_iff in Es' as [N1 N2].
    apply Nat.ltb_lt in N2. apply Nat.ltb_lt in N.
    apply (diff_lin_gen (LElem m) a g (Lin (LElemT (dim a) m) g) h); auto; [split; auto|].
    intros e Sg. split; [exact Sg|]. intros T. unfold ip. cbn [dim linR eval]. rewrite rsum_1.
    rewrite <- (rsum_single (dim a) m (fun k => eval g e 0 * T k)%R N). apply rsum_ext.
    intros k K. destruct (k =? m); ring.
  - mkwf Es. assert (Es' := Es). cbn [node_ok] in Es'. apply Nat.ltb_lt in Es'.
    apply andb_true_iff in N as [N1 N2]. apply Nat.eqb_eq in N1. apply Nat.ltb_lt in N2.
    apply (diff_lin_gen (LElemT n m) a g (Lin (LElem m) g) h); auto; [split; auto|].
    intros e Sg. split; [exact Sg|]. intros T. unfold ip. cbn [dim linR eval].
    rewrite N1, rsum_1. cbn [eval linR].
    rewrite <- (rsum_single n m (fun k => eval g e k * T O)%R N2). apply rsum_ext.
    intros k K. destruct (k =? m); ring.
  - mkwf Es. apply andb_true_iff in N as [N1 N2]. apply Nat.leb_le in N1.
    apply (diff_lin_gen (LExtract st n) a g (Lin (LExtractT st (dim a)) g) h); auto;
      [split; auto|].
    intros e Sg. split; [exact Sg|]. intros T. unfold ip. cbn [dim linR eval].
    replace (dim a) with (st + (n + (dim a - st - n))) by lia.
    rewrite !rsum_split. rewrite (rsum_0 st), (rsum_0 (dim a - st - n)).
    + rewrite Rplus_0_l, Rplus_0_r. apply rsum_ext. intros k K. rewrite Dg.
      replace ((st <=? st + k) && (st + k <? st + n)) with true.
      * replace (st + k - st) with k by lia. reflexivity.
      * symmetry. apply andb_true_iff. split; [apply Nat.leb_le; lia|apply Nat.ltb_lt; lia].
    + intros k K. rewrite Dg. replace (st + (n + k) <? st + n) with false.
      * rewrite andb_false_r. ring.
      * symmetry. apply Nat.ltb_ge. lia.
    + intros k K. replace (st <=? k) with false; [cbn; ring|].
      symmetry. apply Nat.leb_gt. lia.
  - mkwf Es. apply Nat.leb_le in N.
    apply (diff_lin_gen (LExtractT st n) a g (Lin (LExtract st (dim a)) g) h); auto;
      [split; auto|].
    intros e Sg. split; [exact Sg|]. intros T. unfold ip. cbn [dim linR eval].
    replace n with (st + (dim a + (n - st - dim a))) by lia.
    rewrite !rsum_split. rewrite (rsum_0 st), (rsum_0 (n - st - dim a)).
    + rewrite Rplus_0_l, Rplus_0_r. apply rsum_ext. intros k K.
      replace ((st <=? st + k) && (st + k <? st + dim a)) with true.
      * replace (st + k - st) with k by lia. reflexivity.
      * symmetry. apply andb_true_iff. split; [apply Nat.leb_le; lia|apply Nat.ltb_lt; lia].
    + intros k K. replace (st + (dim a + k) <? st + dim a) with false.
      * rewrite andb_false_r. ring.
      * symmetry. apply Nat.ltb_ge. lia.
    + intros k K. replace (st <=? k) with false; [cbn; ring|].
      symmetry. apply Nat.leb_gt. lia.
Qed.

(** ** Nodes with two operands and an additive rule *)

Lemma diff_two : forall f x y g ga gb p q h, good x -> good y ->
  (forall e, smooth e f -> smooth e x /\ smooth e y) ->
  wf ga -> dim ga = dim x -> wf gb -> dim gb = dim y ->
  D x ga = Ok p -> D y gb = Ok q -> Add p q = Ok h ->
  (forall e, smooth e f -> safe e g -> safe e ga /\ safe e gb /\
    forall H T Ta Tb, tangent e H f T -> tangent e H x Ta -> tangent e H y Tb ->
    ip (dim f) (eval g e) T = (ip (dim x) (eval ga e) Ta + ip (dim y) (eval gb e) Tb)%R) ->
  grad f g h.
Proof.
  intros f x y g ga gb p q h Gx Gy Sf Wa Da Wb Db Ep Eq Eh F.
  destruct (IH _ _ _ Ep Gx Wa Da) as (Wp & Dp & Pp).
  destruct (IH _ _ _ Eq Gy Wb Db) as (Wq & Dq & Pq).
  destruct (c_add d Hd _ _ _ Eh Wp Wq Dp Dq) as (A & B & C). split; [auto|]. split; [auto|].
  intros e S Sg. destruct (F e S Sg) as (Sa & Sb & V). destruct (Sf e S) as [Sx Sy].
  destruct (Pp e Sx Sa) as [Sp Vp]. destruct (Pq e Sy Sb) as [Sq Vq].
  destruct (C e Sp Sq) as [Sh Vh]. split; [auto|]. intros H T HT.
  destruct (tangent_ex e H x (proj1 Gx) Sx) as [Ta Ha].
  destruct (tangent_ex e H y (proj1 Gy) Sy) as [Tb Hb].
  rewrite Vh, (Vp H Ta Ha), (Vq H Tb Hb). symmetry. exact (V H T Ta Tb HT Ha Hb).
Qed.

Lemma d0_prod : forall e H x y j k Ta Tb, tangent e H x Ta -> tangent e H y Tb ->
  j < dim x -> k < dim y ->
  d0 (fun t => along i H e x j t * along i H e y k t)%R (Ta j * eval y e k + eval x e j * Tb k)%R.
Proof.
  intros e H x y j k Ta Tb Hx Hy J K. rewrite <- (along_0 i H e y k), <- (along_0 i H e x j).
  apply d0_mult; [apply Hx; auto|apply Hy; auto].
Qed.

Lemma diff_scal : forall x y g p q s h, D x y = Ok p -> D y x = Ok q -> Add p q = Ok s ->
  Mult g s = Ok h -> good (Bil KScal x y) -> wf g -> dim g = 1 -> grad (Bil KScal x y) g h.
Proof.
  intros x y g p q s h Ep Eq Es Eh G Wg Dg. destruct (good_bil _ _ _ G) as [Gx Gy].
  assert (Dxy := wf_node _ (proj1 G)). cbn [node_ok] in Dxy. apply Nat.eqb_eq in Dxy.
  destruct (IH _ _ _ Ep Gx (proj1 Gy) (eq_sym Dxy)) as (Wp & Dp & Pp).
  destruct (IH _ _ _ Eq Gy (proj1 Gx) Dxy) as (Wq & Dq & Pq).
  destruct (c_add d Hd _ _ _ Es Wp Wq Dp Dq) as (Ws & Ds & Ps).
  destruct (c_mull d Hd _ _ _ Eh Wg Ws Dg Ds) as (Wh & Dh & Ph).
  split; [auto|]. split; [auto|]. intros e [Sx Sy] Sg.
  destruct (Pp e Sx (smooth_safe _ _ Sy)) as [Sp Vp].
  destruct (Pq e Sy (smooth_safe _ _ Sx)) as [Sq Vq].
  destruct (Ps e Sp Sq) as [Ss Vs]. destruct (Ph e Sg Ss) as [Sh Vh].
  split; [auto|]. intros H T HT.
  destruct (tangent_ex e H x (proj1 Gx) Sx) as [Ta Ha].
  destruct (tangent_ex e H y (proj1 Gy) Sy) as [Tb Hb].
  rewrite Vh, Vs, (Vp H Ta Ha), (Vq H Tb Hb). cbn [dim]. unfold ip at 3. rewrite rsum_1.
  f_equal. rewrite <- Dxy. unfold ip. rewrite <- rsum_plus.
  eapply d0_unique; [|apply HT; cbn [dim]; lia].
  apply (rsum_d0 (dim x) (fun k t => along i H e x k t * along i H e y k t)%R).
  intros k K. eapply d0_eq; [|apply (d0_prod e H x y k k Ta Tb); auto; lia]. ring.
Qed.

Lemma diff_matvec : forall x y g p1 p q1 q h,
  mk (Bil KTensorProd g y) = Ok p1 -> D x p1 = Ok p ->
  mk (Bil KVecMat g x) = Ok q1 -> D y q1 = Ok q -> Add p q = Ok h ->
  good (Bil KMatVec x y) -> wf g -> dim g = dim (Bil KMatVec x y) ->
  grad (Bil KMatVec x y) g h.
Proof.
  intros x y g p1 p q1 q h E1 Ep E2 Eq Eh G Wg Dg. destruct (good_bil _ _ _ G) as [Gx Gy].
  assert (N := wf_node _ (proj1 G)). cbn [node_ok] in N. apply Nat.eqb_eq in N.
  assert (Py := dim_pos _ (proj1 Gy)). assert (Pg := dim_pos _ Wg). cbn [dim] in Dg.
  assert (Dx := div_exact _ _ Py N).
  set (m := dim y) in *. set (n := dim x / m) in *.
  mkwf E1. mkwf E2.
  assert (Dnm : dim x = n * m) by lia.
  assert (Dq : dim x / dim g = m). { rewrite Dg, Dnm, Nat.mul_comm. apply Nat.div_mul. lia. }
  eapply (diff_two (Bil KMatVec x y) x y g (Bil KTensorProd g y) (Bil KVecMat g x)); [exact Gx|exact Gy| |split; [exact E1|]|
    cbn [dim]; fold m; lia|split; [exact E2|]|cbn [dim]; exact Dq|exact Ep|exact Eq|exact Eh|].
  - intros e [Sx Sy]. auto.
  - split; [auto|apply Gy].
  - split; [auto|apply Gx].
  - intros e [Sx Sy] Sg. apply smooth_safe in Sx; apply smooth_safe in Sy.
    split; [split; auto|]. split; [split; auto|]. intros H T Ta Tb HT Ha Hb.
    assert (TT : forall k, k < n -> T k =
      rsum m (fun j => Ta (k * m + j)%nat * eval y e j + eval x e (k * m + j)%nat * Tb j)%R).
    { intros k K. eapply d0_unique; [apply HT; cbn [dim]; auto|].
      apply (rsum_d0 m (fun j t => along i H e x (k * m + j) t * along i H e y j t)%R).
      intros j J. apply (d0_prod e H x y (k * m + j) j Ta Tb); auto. nia. }
    cbn [dim]. fold m. fold n. rewrite Dnm. unfold ip. rewrite rsum_prod.
    rewrite (rsum_ext n _ (fun k => rsum m (fun j => eval g e k * eval y e j * Ta (k*m+j)%nat)
      + rsum m (fun j => eval g e k * eval x e (k*m+j)%nat * Tb j))%R).
    2: { intros k K. rewrite TT by auto. rewrite <- rsum_plus, <- rsum_scal.
         apply rsum_ext. intros; ring. }
    rewrite rsum_plus. f_equal.
    + apply rsum_ext. intros k K. apply rsum_ext. intros j J. cbn [eval bilR]. fold m.
      destruct (divmod_ij k j m J) as [-> ->]. ring.
    + rewrite rsum_swap. apply rsum_ext. intros j J. cbn [eval bilR]. rewrite Dq, Dg.
      rewrite <- rsum_scal_r. apply rsum_ext. intros; ring.
Qed.

Lemma diff_vecmat : forall x y g p1 p q1 q h,
  mk (Bil KTensorProd x g) = Ok p1 -> D y p1 = Ok p ->
  mk (Bil KMatVec y g) = Ok q1 -> D x q1 = Ok q -> Add p q = Ok h ->
  good (Bil KVecMat x y) -> wf g -> dim g = dim (Bil KVecMat x y) ->
  grad (Bil KVecMat x y) g h.
Proof.
  intros x y g p1 p q1 q h E1 Ep E2 Eq Eh G Wg Dg. destruct (good_bil _ _ _ G) as [Gx Gy].
  assert (N := wf_node _ (proj1 G)). cbn [node_ok] in N. apply Nat.eqb_eq in N.
  assert (Px := dim_pos _ (proj1 Gx)). assert (Pg := dim_pos _ Wg). cbn [dim] in Dg.
  assert (Dy := div_exact _ _ Px N).
  set (n := dim x) in *. set (m := dim y / n) in *.
  mkwf E1. mkwf E2.
  assert (Dnm : dim y = n * m) by lia.
  assert (Dq : dim y / dim g = n). { rewrite Dg, Dnm. apply Nat.div_mul. lia. }
  eapply (diff_two (Bil KVecMat x y) y x g (Bil KTensorProd x g) (Bil KMatVec y g)); [exact Gy|exact Gx| |split; [exact E1|]|
    cbn [dim]; fold n; lia|split; [exact E2|]|cbn [dim]; exact Dq|exact Ep|exact Eq|exact Eh|].
  - intros e [Sx Sy]. auto.
  - split; [apply Gx|auto].
  - split; [apply Gy|auto].
  - intros e [Sx Sy] Sg. apply smooth_safe in Sx; apply smooth_safe in Sy.
    split; [split; auto|]. split; [split; auto|]. intros H T Tb Ta HT Hb Ha.
    assert (TT : forall k, k < m -> T k =
      rsum n (fun j => Tb (j * m + k)%nat * eval x e j + eval y e (j * m + k)%nat * Ta j)%R).
    { intros k K. eapply d0_unique; [apply HT; cbn [dim]; auto|].
      apply (rsum_d0 n (fun j t => along i H e y (j * m + k) t * along i H e x j t)%R).
      intros j J. apply (d0_prod e H y x (j * m + k) j Tb Ta); auto. nia. }
    cbn [dim]. fold n. fold m. rewrite Dnm. unfold ip. rewrite rsum_prod.
    rewrite (rsum_ext m _ (fun k => rsum n (fun j => eval g e k * eval x e j * Tb (j*m+k)%nat)
      + rsum n (fun j => eval g e k * eval y e (j*m+k)%nat * Ta j))%R).
    2: { intros k K. rewrite TT by auto. rewrite <- rsum_plus, <- rsum_scal.
         apply rsum_ext. intros; ring. }
    rewrite rsum_plus. f_equal.
    + rewrite rsum_swap. apply rsum_ext. intros j J. apply rsum_ext. intros k K.
      cbn [eval bilR]. rewrite Dg.
      destruct (divmod_ij j k m K) as [-> ->]. ring.
    + rewrite rsum_swap. apply rsum_ext. intros j J. cbn [eval bilR]. rewrite Dg.
      rewrite <- rsum_scal_r. apply rsum_ext. intros; ring.
Qed.

Lemma diff_tensor : forall x y g p1 p q1 q h,
  mk (Bil KMatVec g y) = Ok p1 -> D x p1 = Ok p ->
  mk (Bil KVecMat x g) = Ok q1 -> D y q1 = Ok q -> Add p q = Ok h ->
  good (Bil KTensorProd x y) -> wf g -> dim g = dim (Bil KTensorProd x y) ->
  grad (Bil KTensorProd x y) g h.
Proof.
  intros x y g p1 p q1 q h E1 Ep E2 Eq Eh G Wg Dg. destruct (good_bil _ _ _ G) as [Gx Gy].
  assert (Px := dim_pos _ (proj1 Gx)). assert (Py := dim_pos _ (proj1 Gy)). cbn [dim] in Dg.
  set (n := dim x) in *. set (m := dim y) in *.
  mkwf E1. mkwf E2.
  assert (D1 : dim g / m = n). { rewrite Dg. apply Nat.div_mul. lia. }
  assert (D2 : dim g / n = m). { rewrite Dg, Nat.mul_comm. apply Nat.div_mul. lia. }
  eapply (diff_two (Bil KTensorProd x y) x y g (Bil KMatVec g y) (Bil KVecMat x g)); [exact Gx|exact Gy| |split; [exact E1|]|
    cbn [dim]; exact D1|split; [exact E2|]|cbn [dim]; exact D2|exact Ep|exact Eq|exact Eh|].
  - intros e [Sx Sy]. auto.
  - split; [auto|apply Gy].
  - split; [apply Gx|auto].
  - intros e [Sx Sy] Sg. apply smooth_safe in Sx; apply smooth_safe in Sy.
    split; [split; auto|]. split; [split; auto|]. intros H T Ta Tb HT Ha Hb.
    assert (TT : forall j k, j < n -> k < m -> T (j * m + k) =
      (Ta j * eval y e k + eval x e j * Tb k)%R).
    { intros j k J K. eapply d0_unique; [apply HT; cbn [dim]; fold n; fold m; nia|].
      unfold along. cbn [eval bilR]. fold m. destruct (divmod_ij j k m K) as [-> ->].
      apply (d0_prod e H x y j k Ta Tb); auto. }
    cbn [dim]. fold n. fold m. unfold ip. rewrite rsum_prod.
    rewrite (rsum_ext n _ (fun j => rsum m (fun k => eval g e (j*m+k)%nat * eval y e k * Ta j)
      + rsum m (fun k => eval g e (j*m+k)%nat * eval x e j * Tb k))%R).
    2: { intros j J. rewrite <- rsum_plus. apply rsum_ext. intros k K. rewrite TT by auto. ring. }
    rewrite rsum_plus. f_equal.
    + apply rsum_ext. intros j J. cbn [eval bilR]. fold m. rewrite <- rsum_scal_r. reflexivity.
    + rewrite rsum_swap. apply rsum_ext. intros k K. cbn [eval bilR]. fold n.
      rewrite D2, <- rsum_scal_r. reflexivity.
Qed.

Lemma diff_cat : forall x y g p1 p q1 q h,
  mk (Lin (LExtract 0 (dim x)) g) = Ok p1 -> D x p1 = Ok p ->
  mk (Lin (LExtract (dim x) (dim y)) g) = Ok q1 -> D y q1 = Ok q -> Add p q = Ok h ->
  good (Cat x y) -> wf g -> dim g = dim x + dim y -> grad (Cat x y) g h.
Proof.
  intros x y g p1 p q1 q h E1 Ep E2 Eq Eh G Wg Dg. destruct (good_cat _ _ G) as [Gx Gy].
  mkwf E1. mkwf E2.
  eapply (diff_two (Cat x y) x y g (Lin (LExtract 0 (dim x)) g)
    (Lin (LExtract (dim x) (dim y)) g)); [exact Gx|exact Gy| |split; [exact E1|auto]|
    reflexivity|split; [exact E2|auto]|reflexivity|exact Ep|exact Eq|exact Eh|].
  - intros e [Sx Sy]. auto.
  - intros e [Sx Sy] Sg. split; [exact Sg|]. split; [exact Sg|].
    intros H T Ta Tb HT Ha Hb. cbn [dim]. unfold ip. rewrite rsum_split. f_equal.
    + apply rsum_ext. intros k K. cbn [eval linR Nat.add]. f_equal.
      eapply d0_unique; [apply HT; cbn [dim]; lia|]. unfold along. cbn [eval].
      replace (k <? dim x) with true by (symmetry; apply Nat.ltb_lt; auto). apply Ha; auto.
    + apply rsum_ext. intros k K. cbn [eval linR]. f_equal.
      eapply d0_unique; [apply HT; cbn [dim]; lia|]. unfold along. cbn [eval].
      replace (dim x + k <? dim x) with false by (symmetry; apply Nat.ltb_ge; lia).
      replace (dim x + k - dim x) with k by lia. apply Hb; auto.
Qed.

(** ** Selections *)

Lemma Rtrunc_half : forall m, Rtrunc (INR m + / 2) = Z.of_nat m.
Proof.
  intros m. unfold Rtrunc. assert (P := pos_INR m). destruct (Rlt_dec _ _); [lra|].
  apply Int_part_unique. rewrite <- INR_IZR_INZ. lra.
Qed.

Lemma diff_sel : forall s s' a g o p h,
  (s = SMax /\ s' = SArgMax \/ s = SMin /\ s' = SArgMin) ->
  mk (Sel (SOneHot (dim a)) (Sel s' a)) = Ok o -> Mult o g = Ok p -> D a p = Ok h ->
  good (Sel s a) -> wf g -> dim g = 1 -> grad (Sel s a) g h.
Proof.
  intros s s' a g o p h Ss Eo Ep Eh G Wg Dg. assert (Ga := good_sel _ _ G).
  assert (Pa := dim_pos _ (proj1 Ga)). mkwf Eo.
  assert (Wo : wf (Sel (SOneHot (dim a)) (Sel s' a))).
  { split; [auto|]. split; [|apply Ga].
    destruct Ss as [[-> ->]|[-> ->]]; cbn [node_ok]; apply Nat.leb_le; auto. }
  destruct (i_mult _ _ _ Ep Wo Wg) as (A & B & C). cbn [dim] in *.
  destruct (IH _ _ _ Eh Ga A ltac:(lia)) as (Wh & Dh & Ph). split; [auto|]. split; [auto|].
  intros e S Sg. assert (Sa : smooth e a) by apply S.
  assert (Diff : forall H, differentiable i H e a)
    by (intros; apply smooth_differentiable; auto; apply Ga).
  assert (M : exists m, m < dim a /\ selR s' (dim a) (eval a e) 0 = INR m /\
    forall H, ev (fun t => eval (Sel s a) (moved i H e t) 0 = eval a (moved i H e t) m)).
  { destruct S as [_ S]. destruct Ss as [[-> ->]|[-> ->]]; destruct S as (m & M1 & M2);
      exists m; (split; [auto|]); cbn [selR].
    - split; [rewrite (argmax_best _ _ m); auto|]. intros H.
      generalize (max_ev i H e a m (Diff H) M1 M2). apply ev_imp. intros t E.
      cbn [eval selR]. rewrite E. reflexivity.
    - split; [rewrite (argmin_best _ _ m); auto|]. intros H.
      generalize (min_ev i H e a m (Diff H) M1 M2). apply ev_imp. intros t E.
      cbn [eval selR]. rewrite E. reflexivity. }
  destruct M as (m & M1 & M2 & M3).
  assert (Tr : Rtrunc (eval (Sel s' a) e 0 + / 2) = Z.of_nat m).
  { cbn [eval]. rewrite M2. apply Rtrunc_half. }
  assert (So : safe e (Sel (SOneHot (dim a)) (Sel s' a))).
  { split; [split; [apply smooth_safe; auto|]|].
    - destruct Ss as [[_ ->]|[_ ->]]; exact I.
    - change (0 <= Rtrunc (eval (Sel s' a) e 0 + / 2) < Z.of_nat (dim a))%Z. rewrite Tr. lia. }
  destruct (C e (conj So Sg)) as [Sp Vp]. destruct (Ph e Sa Sp) as [Sh Vh].
  split; [auto|]. intros H T HT. destruct (tangent_ex e H a (proj1 Ga) Sa) as [Ta Ha].
  rewrite (Vh H Ta Ha).
  assert (T0 : T 0 = Ta m).
  { eapply d0_unique; [apply HT|].
    - destruct Ss as [[-> _]|[-> _]]; cbn [dim]; lia.
    - eapply d0_ext_ev; [|exact (Ha m M1)]. generalize (M3 H). apply ev_imp.
      intros t E. symmetry. exact E. }
  assert (Df : dim (Sel s a) = 1) by (destruct Ss as [[-> _]|[-> _]]; reflexivity).
  rewrite Df. unfold ip. rewrite rsum_1, T0.
  rewrite <- (rsum_single (dim a) m (fun k => eval g e 0 * Ta k)%R M1). apply rsum_ext.
  intros k K. rewrite Vp by lia. rewrite (val_1 g), val_own by auto.
  change (eval (Sel (SOneHot (dim a)) (Sel s' a)) e k) with
    (if (Z.of_nat k =? Rtrunc (eval (Sel s' a) e 0 + / 2))%Z then 1%R else 0%R).
  rewrite Tr. destruct (Nat.eqb_spec k m) as [->|NE].
  - rewrite Z.eqb_refl. ring.
  - destruct (Z.eqb_spec (Z.of_nat k) (Z.of_nat m)); [lia|]. ring.
Qed.

Lemma diff_sel0 : forall s a g h,
  match s with SMax | SMin => False | _ => True end ->
  mk (Zero d) = Ok h -> good (Sel s a) -> grad (Sel s a) g h.
Proof.
  intros s a g h Ss Eh G. assert (Ga := good_sel _ _ G).
  assert (Pa := dim_pos _ (proj1 Ga)).
  apply zero_T; auto. intros e H T S HT k K.
  assert (Diff : differentiable i H e a)
    by (apply smooth_differentiable; [apply Ga|apply S]).
  destruct S as [Sa S].
  eapply d0_unique; [apply HT; auto|]. unfold along. cbn [eval].
  destruct s; try contradiction; cbn [selR]; destruct S as [m S]; cbn [dim] in K.
  - destruct S as [M1 M2]. eapply d0_locconst. generalize (max_ev i H e a m Diff M1 M2).
    apply ev_imp. intros t E. rewrite E. reflexivity.
  - destruct S as [M1 M2]. eapply d0_locconst. generalize (min_ev i H e a m Diff M1 M2).
    apply ev_imp. intros t E. rewrite E. reflexivity.
  - eapply d0_locconst. generalize (onehot_ev i H e a Diff Pa S). apply ev_imp.
    intros t E. rewrite E. reflexivity.
Qed.

(** ** Three-argument operations *)

Lemma diff_ifelse : forall w x y g p q h, D x g = Ok p -> D y g = Ok q ->
  mk (Ter TIfElse w p q) = Ok h -> good (Ter TIfElse w x y) -> wf g ->
  dim g = dim (Ter TIfElse w x y) -> grad (Ter TIfElse w x y) g h.
Proof.
  intros w x y g p q h Ep Eq Eh ((N & Ww & Wx & Wy) & (Kw & Kx & Ky) & ((U1 & U2) & Uw & Ux & Uy))
    Wg Dg. cbn [dim] in Dg. assert (Px := dim_pos _ Wx).
  assert (Gx : good x) by (repeat split; auto). assert (Gy : good y) by (repeat split; auto).
  destruct (IH _ _ _ Ep Gx Wg ltac:(lia)) as (Wp & Dp & Pp).
  destruct (IH _ _ _ Eq Gy Wg ltac:(lia)) as (Wq & Dq & Pq).
  mkwf Eh. split; [split; auto|]. cbn [dim]. split; [lia|].
  intros e (Sw & Sx & Sy & SS) Sg. destruct (Pp e Sx Sg) as [Sp Vp].
  destruct (Pq e Sy Sg) as [Sq Vq]. split.
  - split; [apply smooth_safe; auto|]. split; [auto|]. split; [auto|]. intros; exact I.
  - intros H T HT. destruct (tangent_ex e H x Wx Sx) as [Ta Ha].
    destruct (tangent_ex e H y Wy Sy) as [Tb Hb]. destruct (tangent_ex e H w Ww Sw) as [Tw Hw].
    assert (W0 : eval w e 0 <> 0%R).
    { assert (Q := SS 0 ltac:(lia)). cbn in Q. unfold bcv in Q. rewrite U1 in Q. apply Q. }
    assert (TT : forall k, k < dim x -> T k = if Rlt_dec (eval w e 0) 0 then Tb k else Ta k).
    { intros k K. eapply d0_unique; [apply HT; cbn [dim]; lia|].
      unfold along. cbn [eval]. unfold bcv. rewrite U1. cbn [Nat.eqb].
      replace (if dim x =? 1 then 0 else k) with k by (destruct (Nat.eqb_spec (dim x) 1); lia).
      replace (if dim y =? 1 then 0 else k) with k by (destruct (Nat.eqb_spec (dim y) 1); lia).
      rewrite <- (along_0 i H e w 0).
      apply (ifelse_d0 (along i H e w 0) (along i H e x k) (along i H e y k) (Tw 0) (Ta k) (Tb k)).
      - apply Hw. lia.
      - apply Ha; auto.
      - apply Hb; lia.
      - rewrite along_0. auto. }
    replace (max (max (dim w) (dim x)) (dim y)) with (dim x) by lia.
    assert (EE : forall k, k < d -> eval (Ter TIfElse w p q) e k =
      if Rlt_dec (eval w e 0) 0 then eval q e k else eval p e k).
    { intros k K. cbn [eval terR]. unfold bcv. rewrite U1. cbn [Nat.eqb].
      rewrite Dp, Dq.
      replace (if d =? 1 then 0 else k) with k by (destruct (Nat.eqb_spec d 1); lia).
      reflexivity. }
    destruct (Rlt_dec (eval w e 0) 0) as [L|L].
    + rewrite (ip_ext d _ H (eval q e) H EE) by auto. rewrite (Vq H Tb Hb), <- U2.
      apply ip_ext; auto. intros k K. rewrite TT; auto.
    + rewrite (ip_ext d _ H (eval p e) H EE) by auto. rewrite (Vp H Ta Ha).
      apply ip_ext; auto. intros k K. rewrite TT; auto.
Qed.

(** A formula that agrees with f near every smooth point of f may replace it. *)
Lemma diff_alt : forall f alt g h, D alt g = Ok h -> good alt -> dim alt = dim f ->
  (forall e, smooth e f -> smooth e alt /\ forall H, ev (fun t => forall k, k < dim f ->
     eval alt (moved i H e t) k = eval f (moved i H e t) k)) ->
  wf g -> dim g = dim f -> grad f g h.
Proof.
  intros f alt g h E G Da F Wg Dg.
  destruct (IH _ _ _ E G Wg ltac:(lia)) as (Wh & Dh & Ph). split; [auto|]. split; [auto|].
  intros e S Sg. destruct (F e S) as [Sa Ea]. destruct (Ph e Sa Sg) as [Sh Vh].
  split; [auto|]. intros H T HT. rewrite (Vh H T).
  - rewrite Da. reflexivity.
  - intros k K. rewrite Da in K. eapply d0_ext_ev; [|apply (HT k K)].
    generalize (Ea H). apply ev_imp. intros t Q. unfold along. rewrite Q; auto.
Qed.

(** Consistency and shapes are properties of single nodes. *)
Definition consistent1 (f : fm) : Prop :=
  match f with Var j d' c' => j = i -> d' = d /\ c' = c | _ => True end.
Definition unmixed1 (f : fm) : Prop :=
  match f with
  | Bin BAtan2 f g | Bin BPowf f g => dim f = dim g
  | Ter TIfElse f g h => dim f = 1 /\ dim g = dim h
  | _ => True
  end.
Lemma consistent_all : forall f, consistent i d c f <-> everywhere consistent1 f.
Proof. induction f; cbn; tauto. Qed.
Lemma unmixed_all : forall f, unmixed f <-> everywhere unmixed1 f.
Proof.
  induction f; try destruct b; try destruct t; cbn; tauto.
Qed.
Lemma consistent1_arith : arith_nodes consistent1.
Proof. repeat split; cbn; auto. Qed.
Lemma unmixed1_arith : arith_nodes unmixed1.
Proof. repeat split; cbn; auto. Qed.

Lemma clamp_all : forall A, arith_nodes A -> (forall f, A (Un (UClampInt 0 1) f)) ->
  forall x a b n w q p alt, Subtract x a = Ok n -> Subtract b a = Ok w ->
  Divide n w = Ok q -> Mult (Un (UClampInt 0 1) q) w = Ok p -> Add p a = Ok alt ->
  everywhere A x -> everywhere A a -> everywhere A b -> everywhere A alt.
Proof.
  intros A HA HC x a b n w q p alt E1 E2 E3 E4 E5 Ax Aa Ab.
  eapply (ev_Add A HA); [exact E5| |auto].
  assert (Aw : everywhere A w) by (eapply (ev_Subtract A HA); eauto).
  eapply (ev_Mult A HA); [exact E4| |exact Aw]. split; [auto|].
  eapply (ev_Divide A HA); [exact E3| |exact Aw]. eapply (ev_Subtract A HA); eauto.
Qed.
Lemma mod_all : forall A, arith_nodes A -> (forall f, A (Un UFloor f)) ->
  forall x n b s q p alt, Subtract x b = Ok s -> Divide s n = Ok q ->
  Mult n (Un UFloor q) = Ok p -> Subtract x p = Ok alt ->
  everywhere A x -> everywhere A n -> everywhere A b -> everywhere A alt.
Proof.
  intros A HA HC x n b s q p alt E1 E2 E3 E4 Ax An Ab.
  eapply (ev_Subtract A HA); [exact E4|auto|].
  eapply (ev_Mult A HA); [exact E3|auto|]. split; [auto|].
  eapply (ev_Divide A HA); [exact E2| |auto]. eapply (ev_Subtract A HA); eauto.
Qed.

Lemma vc3 : forall a b e, vcompat3 a b e = true ->
  let n := max (max a b) e in (a = n \/ a = 1) /\ (b = n \/ b = 1) /\ (e = n \/ e = 1).
Proof.
  unfold vcompat3. intros a b e H. apply andb_true_iff in H as [H H3].
  apply andb_true_iff in H as [H1 H2]. apply orb_true_iff in H1, H2, H3.
  rewrite !Nat.eqb_eq in H1, H2, H3. auto.
Qed.

Lemma clamp_alt : forall dd, arith_ok dd -> forall x a b n w q p alt,
  Subtract x a = Ok n -> Subtract b a = Ok w ->
  Divide n w = Ok q -> Mult (Un (UClampInt 0 1) q) w = Ok p -> Add p a = Ok alt ->
  wf x -> wf a -> wf b -> vcompat3 (dim x) (dim a) (dim b) = true ->
  let N := max (max (dim x) (dim a)) (dim b) in
  wf alt /\ dim alt = N /\ forall e,
    inside dd e x -> inside dd e a -> inside dd e b ->
    (forall k, k < N -> (val b e k - val a e k)%R <> 0%R) ->
    (forall k, k < N -> dun dd (UClampInt 0 1)
       ((val x e k - val a e k) / (val b e k - val a e k))%R) ->
    inside dd e alt /\ forall k, k < N -> eval alt e k =
      (Rclamp ((val x e k - val a e k) / (val b e k - val a e k)) 0 1 *
         (val b e k - val a e k) + val a e k)%R.
Proof.
  intros dd HD x a b n w q p alt E1 E2 E3 E4 E5 Wx Wa Wb V N.
  assert (C := vc3 _ _ _ V). cbn zeta in C. fold N in C.
  assert (Px := dim_pos _ Wx). assert (Pa := dim_pos _ Wa). assert (Pb := dim_pos _ Wb).
  destruct (Subtract_ok dd HD _ _ _ E1 Wx Wa) as (A1 & B1 & C1 & D1).
  destruct (Subtract_ok dd HD _ _ _ E2 Wb Wa) as (A2 & B2 & C2 & D2).
  destruct (Divide_ok dd HD _ _ _ E3 A1 A2) as (A3 & B3 & C3 & D3).
  assert (W3 : wf (Un (UClampInt 0 1) q)) by (split; auto).
  destruct (Mult_ok dd HD _ _ _ E4 W3 A2) as (A4 & B4 & C4 & D4).
  destruct (Add_ok dd HD _ _ _ E5 A4 Wa) as (A5 & B5 & C5 & D5). cbn [dim] in *.
  assert (NN : dim alt = N) by lia. assert (Nq : dim q = N) by lia.
  assert (Np : dim p = N) by lia.
  split; [auto|]. split; [auto|]. intros e Sx Sa Sb NZ CL.
  destruct (D1 e Sx Sa) as [S1 V1]. destruct (D2 e Sb Sa) as [S2 V2].
  assert (VN : forall k, k < N -> val n e k = (val x e k - val a e k)%R).
  { intros k K. apply V1. unfold vok. lia. }
  assert (VW : forall k, k < N -> val w e k = (val b e k - val a e k)%R).
  { intros k K. apply V2. unfold vok. lia. }
  destruct (D3 e S1 S2) as [S3 V3].
  { intros k K. rewrite VW by lia. apply NZ. lia. }
  assert (VQ : forall k, k < N -> val q e k =
     ((val x e k - val a e k) / (val b e k - val a e k))%R).
  { intros k K. rewrite V3 by (unfold vok; lia). rewrite VN, VW by auto. reflexivity. }
  destruct (D4 e) as [S4 V4]; [|auto|].
  { split; [auto|]. intros k K. rewrite <- val_own by auto. rewrite VQ by lia. apply CL. lia. }
  destruct (D5 e S4 Sa) as [S5 V5]. split; [auto|]. intros k K.
  rewrite <- (val_own alt) by lia. rewrite V5 by (unfold vok; lia).
  rewrite V4 by (unfold vok; lia). rewrite val_un, VQ, VW by auto. reflexivity.
Qed.

Lemma mod_alt : forall dd, arith_ok dd -> forall x n b s q p alt,
  Subtract x b = Ok s -> Divide s n = Ok q -> Mult n (Un UFloor q) = Ok p ->
  Subtract x p = Ok alt ->
  wf x -> wf n -> wf b -> vcompat3 (dim x) (dim n) (dim b) = true ->
  let N := max (max (dim x) (dim n)) (dim b) in
  wf alt /\ dim alt = N /\ forall e,
    inside dd e x -> inside dd e n -> inside dd e b ->
    (forall k, k < N -> val n e k <> 0%R) ->
    (forall k, k < N -> dun dd UFloor ((val x e k - val b e k) / val n e k)%R) ->
    inside dd e alt /\ forall k, k < N -> eval alt e k =
      (val x e k - val n e k * Rfloor ((val x e k - val b e k) / val n e k))%R.
Proof.
  intros dd HD x n b s q p alt E1 E2 E3 E4 Wx Wn Wb V N.
  assert (C := vc3 _ _ _ V). cbn zeta in C. fold N in C.
  assert (Px := dim_pos _ Wx). assert (Pn := dim_pos _ Wn). assert (Pb := dim_pos _ Wb).
  destruct (Subtract_ok dd HD _ _ _ E1 Wx Wb) as (A1 & B1 & C1 & D1).
  destruct (Divide_ok dd HD _ _ _ E2 A1 Wn) as (A3 & B3 & C3 & D3).
  assert (W3 : wf (Un UFloor q)) by (split; auto).
  destruct (Mult_ok dd HD _ _ _ E3 Wn W3) as (A4 & B4 & C4 & D4).
  destruct (Subtract_ok dd HD _ _ _ E4 Wx A4) as (A5 & B5 & C5 & D5). cbn [dim] in *.
  assert (NN : dim alt = N) by lia. assert (Nq : dim q = N) by lia.
  assert (Np : dim p = N) by lia.
  split; [auto|]. split; [auto|]. intros e Sx Sn Sb NZ CL.
  destruct (D1 e Sx Sb) as [S1 V1].
  assert (VS : forall k, k < N -> val s e k = (val x e k - val b e k)%R).
  { intros k K. apply V1. unfold vok. lia. }
  destruct (D3 e S1 Sn) as [S3 V3].
  { intros k K. apply NZ. lia. }
  assert (VQ : forall k, k < N -> val q e k = ((val x e k - val b e k) / val n e k)%R).
  { intros k K. rewrite V3 by (unfold vok; lia). rewrite VS by auto. reflexivity. }
  destruct (D4 e Sn) as [S4 V4].
  { split; [auto|]. intros k K. rewrite <- val_own by auto. rewrite VQ by lia. apply CL. lia. }
  destruct (D5 e Sx S4) as [S5 V5]. split; [auto|]. intros k K.
  rewrite <- (val_own alt) by lia. rewrite V5 by (unfold vok; lia).
  rewrite V4 by (unfold vok; lia). rewrite val_un, VQ by auto. reflexivity.
Qed.

Lemma clamp_value : forall x a b, (a < b)%R ->
  (Rclamp ((x - a) / (b - a)) 0 1 * (b - a) + a)%R = Rclamp x a b.
Proof.
  intros x a b L. assert (P : (0 < / (b - a))%R) by (apply Rinv_0_lt_compat; lra).
  assert (E : ((x - a) / (b - a) * (b - a) = x - a)%R) by (field; lra).
  unfold Rclamp.
  destruct (Rlt_dec ((x - a) / (b - a)) 0) as [A|A], (Rlt_dec x a) as [B|B]; try nra.
  destruct (Rlt_dec 1 ((x - a) / (b - a))) as [C|C], (Rlt_dec b x) as [F|F]; nra.
Qed.

Lemma val_d0 : forall e H f T k n, wf f -> tangent e H f T -> dim f = n \/ dim f = 1 ->
  k < n -> d0 (fun t => val f (moved i H e t) k) (T (pos (dim f) k)).
Proof.
  intros e H f T k n W HT C K. apply (HT (pos (dim f) k)). eapply pos_lt; eauto using dim_pos.
Qed.

Lemma diff_clamp : forall x a b g n w q p alt h,
  Subtract x a = Ok n -> Subtract b a = Ok w ->
  Divide n w = Ok q -> Mult (Un (UClampInt 0 1) q) w = Ok p -> Add p a = Ok alt ->
  D alt g = Ok h -> good (Ter TClamp x a b) -> wf g -> dim g = dim (Ter TClamp x a b) ->
  grad (Ter TClamp x a b) g h.
Proof.
  intros x a b g n w q p alt h E1 E2 E3 E4 E5 Eh
    ((V & Wx & Wa & Wb) & (Kx & Ka & Kb) & (_ & Ux & Ua & Ub)) Wg Dg. cbn [node_ok] in V.
  assert (C := vc3 _ _ _ V). cbn zeta in C.
  destruct (clamp_alt smooth_doms smooth_arith_ok x a b n w q p alt) as (A & B & F); auto.
  destruct (clamp_alt safe_doms safe_arith_ok x a b n w q p alt) as (_ & _ & F'); auto.
  set (N := max (max (dim x) (dim a)) (dim b)) in *.
  apply (diff_alt (Ter TClamp x a b) alt g h); auto.
  - split; [auto|]. split.
    + apply consistent_all. apply consistent_all in Kx, Ka, Kb.
      eapply (clamp_all _ consistent1_arith) with (x := x); eauto. cbn; auto.
    + apply unmixed_all. apply unmixed_all in Ux, Ua, Ub.
      eapply (clamp_all _ unmixed1_arith) with (x := x); eauto. cbn; auto.
  - intros e (Sx & Sa & Sb & SS). cbn [dim] in *. fold N in SS |- *.
    assert (SV : forall k, k < N -> (val a e k < val b e k /\ val x e k <> val a e k /\
                                     val x e k <> val b e k)%R) by exact SS.
    split.
    + apply F; auto.
      * intros k K. specialize (SV k K). lra.
      * intros k K. destruct (SV k K) as (L & N1 & N2).
        assert (E : ((val x e k - val a e k) / (val b e k - val a e k) *
                    (val b e k - val a e k) = val x e k - val a e k)%R) by (field; lra).
        split; intro Q; rewrite Q in E; lra.
    + intros H. destruct (tangent_ex e H x Wx Sx) as [Tx Hx].
      destruct (tangent_ex e H a Wa Sa) as [Ta Ha]. destruct (tangent_ex e H b Wb Sb) as [Tb Hb].
      assert (L : ev (fun t => forall k, k < N ->
                 (val a (moved i H e t) k < val b (moved i H e t) k)%R)).
      { apply (ev_fin N (fun k t => (val a (moved i H e t) k < val b (moved i H e t) k)%R)).
        intros k K. eapply d0_lt; [apply (val_d0 e H a Ta k N); auto; lia|
          apply (val_d0 e H b Tb k N); auto; lia|]. rewrite moved_0. apply SV; auto. }
      assert (M := ev_and _ _ L (ev_and _ _ (smooth_safe_ev i H e x Wx Sx)
        (ev_and _ _ (smooth_safe_ev i H e a Wa Sa) (smooth_safe_ev i H e b Wb Sb)))).
      revert M. apply ev_imp. intros t (L' & S1 & S2 & S3) k K.
      destruct (F' (moved i H e t) S1 S2 S3) as [_ EV].
      * intros j J. specialize (L' j J). lra.
      * intros; exact I.
      * rewrite EV by auto. rewrite clamp_value by auto. reflexivity.
Qed.

Lemma diff_mod : forall x n b g s q p alt h,
  Subtract x b = Ok s -> Divide s n = Ok q -> Mult n (Un UFloor q) = Ok p ->
  Subtract x p = Ok alt ->
  D alt g = Ok h -> good (Ter TMod x n b) -> wf g -> dim g = dim (Ter TMod x n b) ->
  grad (Ter TMod x n b) g h.
Proof.
  intros x n b g s q p alt h E1 E2 E3 E4 Eh
    ((V & Wx & Wa & Wb) & (Kx & Ka & Kb) & (_ & Ux & Ua & Ub)) Wg Dg. cbn [node_ok] in V.
  assert (C := vc3 _ _ _ V). cbn zeta in C.
  destruct (mod_alt smooth_doms smooth_arith_ok x n b s q p alt) as (A & B & F); auto.
  destruct (mod_alt safe_doms safe_arith_ok x n b s q p alt) as (_ & _ & F'); auto.
  set (N := max (max (dim x) (dim n)) (dim b)) in *.
  apply (diff_alt (Ter TMod x n b) alt g h); auto.
  - split; [auto|]. split.
    + apply consistent_all. apply consistent_all in Kx, Ka, Kb.
      eapply (mod_all _ consistent1_arith) with (x := x) (n := n) (b := b); eauto; cbn; auto.
    + apply unmixed_all. apply unmixed_all in Ux, Ua, Ub.
      eapply (mod_all _ unmixed1_arith) with (x := x) (n := n) (b := b); eauto; cbn; auto.
  - intros e (Sx & Sa & Sb & SS). cbn [dim] in *. fold N in SS |- *.
    assert (SV : forall k, k < N -> (val n e k <> 0)%R /\
       ~ is_integer ((val x e k - val b e k) / val n e k)) by exact SS.
    split.
    + apply F; auto.
      * intros k K. exact (proj1 (SV k K)).
      * intros k K. exact (proj2 (SV k K)).
    + intros H. destruct (tangent_ex e H n Wa Sa) as [Ta Ha].
      assert (L : ev (fun t => forall k, k < N -> (val n (moved i H e t) k <> 0)%R)).
      { apply (ev_fin N (fun k t => (val n (moved i H e t) k <> 0)%R)).
        intros k K. eapply d0_ne_c; [apply (val_d0 e H n Ta k N); auto; lia|].
        rewrite moved_0. exact (proj1 (SV k K)). }
      assert (M := ev_and _ _ L (ev_and _ _ (smooth_safe_ev i H e x Wx Sx)
        (ev_and _ _ (smooth_safe_ev i H e n Wa Sa) (smooth_safe_ev i H e b Wb Sb)))).
      revert M. apply ev_imp. intros t (L' & S1 & S2 & S3) k K.
      destruct (F' (moved i H e t) S1 S2 S3) as [_ EV]; auto.
      * intros; exact I.
      * rewrite EV by auto. reflexivity.
Qed.

(** ** Variables *)

Lemma diff_var : forall j d' c' g h,
  (if feqb (Var i d c) (Var j d' c') then Ok g else mk (Zero d)) = Ok h ->
  good (Var j d' c') -> wf g -> dim g = d' -> grad (Var j d' c') g h.
Proof.
  intros j d' c' g h E (W & K & _) Wg Dg. unfold feqb in E.
  destruct (fm_eq_dec (Var i d c) (Var j d' c')) as [Q|Q].
  - inversion Q; subst. inversion E; subst. split; [auto|]. split; [auto|].
    intros e S Sg. split; [auto|]. intros H T HT. cbn [dim]. replace d with (dim h). apply ip_ext; auto.
    intros k KK. eapply d0_unique; [|apply HT; auto]. unfold along. cbn [eval]. unfold moved.
    rewrite Z.eqb_refl.
    eapply d0_eq; [|apply d0_plus; [apply d0_const|apply d0_mult; [apply derivable_pt_lim_id|
      apply d0_const]]]. cbn. ring.
  - apply zero_T; auto. intros e H T S HT k KK. eapply d0_unique; [apply HT; auto|].
    unfold along. cbn [eval]. unfold moved.
    destruct (Z.eqb_spec j i) as [->|NE]; [|apply d0_const].
    exfalso. apply Q. destruct (K eq_refl). congruence.
Qed.

Lemma diff_cst : forall f g h,
  match f with Zero _ | Int _ | Rat _ _ => True | _ => False end ->
  mk (Zero d) = Ok h -> grad f g h.
Proof.
  intros f g h Q E. apply zero_T; auto. intros e H T S HT k K.
  eapply d0_unique; [apply HT; auto|]. destruct f; try contradiction; apply d0_const.
Qed.

(** ** All nodes *)

Lemma diff_body_ok : forall f g h, diff_body D (Var i d c) f g = Ok h ->
  good f -> wf g -> dim g = dim f -> grad f g h.
Proof.
  intros f g h E G Wg Dg. destruct f; cbn [diff_body] in E.
  - apply diff_var; auto.
  - apply diff_cst; auto.
  - apply diff_cst; auto.
  - apply diff_cst; auto.
  - destruct (unDer u f) as [r|] eqn:U.
    + assert (E' : (do df <- r; do x <- vecterm D f df g; Add (IntCst 0) x) = Ok h).
      { destruct u; try discriminate U; exact E. }
      clear E. bind_inv. subst r. eapply diff_un; eauto.
    + destruct u; try discriminate U; try (apply diff_un0; auto; discriminate).
      apply diff_minus; auto.
  - destruct (good_bin _ _ _ G) as [G1 G2].
    assert (P1 := dim_pos _ (proj1 G1)). assert (P2 := dim_pos _ (proj1 G2)).
    assert (V := wf_node _ (proj1 G)). cbn [node_ok] in V. apply vc2 in V; auto.
    cbn [dim] in Dg.
    destruct b.
    + destruct (Nat.eqb_spec (dim f1) 1), (Nat.ltb_spec 1 (dim f2)), (Nat.eqb_spec (dim f2) 1),
        (Nat.ltb_spec 1 (dim f1)); cbn [andb] in E; bind_inv; try lia;
        eapply (diff_lin2 BAdd 1); try eassumption; auto; try (left; split; [reflexivity|lia]);
        try (right; split; [eassumption|lia]).
    + destruct (Nat.eqb_spec (dim f1) 1), (Nat.ltb_spec 1 (dim f2)), (Nat.eqb_spec (dim f2) 1),
        (Nat.ltb_spec 1 (dim f1)); cbn [andb] in E; bind_inv; try lia;
        eapply (diff_lin2 BSub (-1)); try eassumption; auto; try (left; split; [reflexivity|lia]);
        try (right; split; [eassumption|lia]).
    + destruct (as_exp f2) as [u|] eqn:X; [|apply diff_mult_plain; auto].
      destruct (Nat.eqb_spec (dim f2) 1) as [D2|D2].
      * apply as_exp_S in X. subst f2. bind_inv. cbn [dim] in *.
        eapply diff_mult_exp; eauto.
      * apply diff_mult_plain; auto. unfold mult_plain.
        replace (dim f2 =? 1) with false by (symmetry; apply Nat.eqb_neq; auto). exact E.
    + apply diff_div; auto.
    + bind_inv. eapply diff_atan2; eauto.
    + bind_inv. eapply diff_powf; eauto.
    + apply diff_cmp; auto.
    + apply diff_cmp; auto.
    + apply diff_cmp; auto.
    + apply diff_cmp; auto.
  - destruct t; bind_inv.
    + eapply diff_ifelse; eauto.
    + match goal with H : mk (Un _ _) = Ok _ |- _ => apply mk_ok in H as [-> _] end.
      eapply diff_clamp; eauto.
    + match goal with H : mk (Un _ _) = Ok _ |- _ => apply mk_ok in H as [-> _] end.
      eapply diff_mod; eauto.
  - destruct l; bind_inv.
    + eapply (diff_lin LSum); eauto.
    + eapply (diff_lin (LSumT _)); eauto.
    + eapply (diff_lin (LElem _)); eauto.
    + eapply (diff_lin (LElemT _ _)); eauto.
    + eapply (diff_lin (LExtract _ _)); eauto.
    + eapply (diff_lin (LExtractT _ _)); eauto.
  - destruct b; bind_inv.
    + eapply diff_scal; eauto.
    + eapply diff_matvec; eauto.
    + eapply diff_vecmat; eauto.
    + eapply diff_tensor; eauto.
  - bind_inv. eapply diff_cat; eauto.
  - destruct s; bind_inv.
    + eapply diff_sel; eauto.
    + eapply diff_sel; eauto.
    + apply diff_sel0; auto.
    + apply diff_sel0; auto.
    + apply diff_sel0; auto.
Qed.
End Diff.

Theorem DiffTn_ok : forall i d c, 1 <= d -> forall n f g h, DiffTn n (Var i d c) f g = Ok h ->
  good i d c f -> wf g -> dim g = dim f -> grad i d f g h.
Proof.
  intros i d c Hd. induction n as [|n IHn]; intros f g h E; [discriminate|].
  cbn [DiffTn] in E. eapply diff_body_ok; eauto.
Qed.

Theorem DiffT_adjoint : forall i d c f g h, DiffT f (Var i d c) g = Ok h -> 1 <= d ->
  wf f -> consistent i d c f -> unmixed f -> wf g -> dim g = dim f ->
  adjoint_derivative f i d g h.
Proof.
  intros i d c f g h E Hd Wf K U Wg Dg.
  destruct (DiffTn_ok i d c Hd _ f g h E) as (Wh & Dh & P); auto; [repeat split; auto|].
  split; [auto|]. intros e S Sg. destruct (P e S Sg) as [Sh V]. split; [auto|]. intros H.
  destruct (tangent_ex i e H f Wf S) as [T HT]. rewrite ip_inner, (V H T HT).
  eapply d0_ext; [intros t; symmetry; apply ip_inner|]. unfold ip.
  apply (rsum_d0 (dim f) (fun k t => eval g e k * along i H e f k t)%R).
  intros k K'. apply d0_scal. apply HT; auto.
Qed.
