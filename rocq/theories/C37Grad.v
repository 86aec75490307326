(** Proofs for C37: gradients of formulas on complex vectors. *)

From Coq Require Import ZArith Reals Lia Lra List Bool Arith FunctionalExtensionality.
From Verif Require Import Result Formula GradSpec Calculus ScalarDeriv Tangent SimplifyProofs Adjoint Complex ComplexSpec C37Proofs.
Import ListNotations.
Local Open Scope nat_scope.

Lemma smooth_dom : forall u x, un_smooth u x -> unDom u x.
Proof. intros u x. destruct u; cbn; auto; lra. Qed.
Lemma inside_imp : forall P Q : unop -> R -> Prop, (forall u x, P u x -> Q u x) ->
  forall e f, c_inside P e f -> c_inside Q e f.
Proof.
  intros P Q I e. induction f as [| | | |o f IH|o f IHf g IHg]; cbn; auto.
  - intros [A B]. split; auto. destruct o; auto.
  - intros [A B]. auto.
Qed.
Lemma c_smooth_safe : forall e f, c_smooth e f -> c_safe e f.
Proof. intros e f. apply inside_imp, smooth_dom. Qed.

Section Diff.
Variable i : Z.
Variable d : nat.

(** ** Derivatives along a line *)

Definition ctan (e : env) (H : nat -> R) (f : cf) (T : nat -> R) : Prop :=
  forall k, k < cdim f -> d0 (fun t => ceval f (moved i H e t) k) (T k).

Lemma ev_0 : forall H e f k, ceval f (moved i H e 0) k = ceval f e k.
Proof. intros. rewrite moved_0. reflexivity. Qed.

Definition unT (o : cun) (n : nat) (x T : nat -> R) (k : nat) : R :=
  let q := k / 2 in
  let re := Nat.even k in
  match o with
  | KConj => if re then T k else (- T k)%R
  | KExp => let X := exp (x (2 * q)) in let y := x (2 * q + 1) in
      if re then (X * T (2 * q)%nat * cos y + X * (- sin y * T (2 * q + 1)%nat))%R
      else (X * T (2 * q)%nat * sin y + X * (cos y * T (2 * q + 1)%nat))%R
  | KExp1j => if re then (- sin (x q) * T q)%R else (cos (x q) * T q)%R
  | KReal => T (2 * k)
  | KImag => T (2 * k + 1)
  | KR2C => if re then T q else 0%R
  | KI2C => if re then 0%R else T q
  | KSqAbs => (T (2 * k)%nat * x (2 * k)%nat + x (2 * k)%nat * T (2 * k)%nat +
               (T (2 * k + 1)%nat * x (2 * k + 1)%nat + x (2 * k + 1)%nat * T (2 * k + 1)%nat))%R
  | KSum => rsum (n / 2) (fun j => T (2 * j + k))
  | KSumT _ => T (k mod 2)
  | RUn u => (un' u (x k) * T k)%R
  end.

Definition binT (o : cbin) (da db : nat) (x y T U : nat -> R) (k : nat) : R :=
  let n := Nat.max da db in
  let q := 2 * (k / 2) in
  let a j := x (cpos da n j) in let b j := y (cpos db n j) in
  let a' j := T (cpos da n j) in let b' j := U (cpos db n j) in
  match o with
  | KAdd => (a' k + b' k)%R
  | KSub => (a' k - b' k)%R
  | KMult =>
      if Nat.even k then ((a' q * b q + a q * b' q) - (a' (q + 1)%nat * b (q + 1)%nat + a (q + 1)%nat * b' (q + 1)%nat))%R
      else ((a' q * b (q + 1)%nat + a q * b' (q + 1)%nat) + (a' (q + 1)%nat * b q + a (q + 1)%nat * b' q))%R
  | KRealScal => (T 0%nat * y k + x 0%nat * U k)%R
  | RAdd => (T (rpos da n k) + U (rpos db n k))%R
  | RMult => (T (rpos da n k) * y (rpos db n k) + x (rpos da n k) * U (rpos db n k))%R
  end.

Lemma even2 : forall k n, k < 2 * n -> k / 2 < n.
Proof. intros k n K. apply Nat.div_lt_upper_bound; lia. Qed.

Lemma un_tan : forall e H o a T, cwf (CUn o a) -> c_smooth e (CUn o a) -> ctan e H a T ->
  ctan e H (CUn o a) (unT o (cdim a) (ceval a e) T).
Proof.
  intros e H o a T (O & W & Kt) (Sa & Su) HT k K.
  assert (E0 := fun j => ev_0 H e a j).
  assert (K2 := pairs k).
  destruct o; cbn [cdim un_ok ceval cunV unT] in *; try apply mod2_even in O as [m O].
  - destruct (Nat.even k); [apply HT; auto|apply d0_opp, HT; auto].
  - rewrite O in *. assert (Q := even2 k m K).
    assert (A : d0 (fun t => ceval a (moved i H e t) (2 * (k / 2))) (T (2 * (k / 2)))) by (apply HT; lia).
    assert (B : d0 (fun t => ceval a (moved i H e t) (2 * (k / 2) + 1)) (T (2 * (k / 2) + 1))) by (apply HT; lia).
    assert (X : d0 (fun t => exp (ceval a (moved i H e t) (2 * (k / 2)))) (exp (ceval a e (2 * (k / 2))) * T (2 * (k / 2))%nat)%R).
    { rewrite <- (E0 (2 * (k / 2))). apply (un_d0 UExp _ _ A). exact I. }
    destruct (Nat.even k).
    + eapply d0_eq; [|apply d0_mult; [exact X|apply (un_d0 UCos _ _ B); exact I]]. cbn [unR un']. rewrite !E0. reflexivity.
    + eapply d0_eq; [|apply d0_mult; [exact X|apply (un_d0 USin _ _ B); exact I]]. cbn [unR un']. rewrite !E0. reflexivity.
  - assert (Q := even2 k _ K). rewrite <- (E0 (k / 2)).
    destruct (Nat.even k); [apply (un_d0 UCos)|apply (un_d0 USin)]; try exact I; apply HT; auto.
  - rewrite O, dv2 in K. apply HT. lia.
  - rewrite O, dv2 in K. apply HT. lia.
  - assert (Q := even2 k _ K). destruct (Nat.even k); [apply HT; auto|apply d0_const].
  - assert (Q := even2 k _ K). destruct (Nat.even k); [apply d0_const|apply HT; auto].
  - rewrite O, dv2 in K.
    assert (A : d0 (fun t => ceval a (moved i H e t) (2 * k)) (T (2 * k))) by (apply HT; lia).
    assert (B : d0 (fun t => ceval a (moved i H e t) (2 * k + 1)) (T (2 * k + 1))) by (apply HT; lia).
    eapply d0_eq; [|apply d0_plus; [apply (d0_mult _ _ _ _ A A)|apply (d0_mult _ _ _ _ B B)]].
    rewrite !E0. ring.
  - rewrite O, dv2 in *.
    apply (rsum_d0 m (fun j t => ceval a (moved i H e t) (2 * j + k)) (fun j => T (2 * j + k))).
    intros j J. apply HT. lia.
  - apply Nat.eqb_eq in O. apply HT. rewrite O. apply Nat.mod_upper_bound. lia.
  - rewrite <- (E0 k). apply un_d0; [apply HT; auto|]. rewrite E0. apply Su; auto.
Qed.

Lemma cpos_lt : forall da db k, complex_dims da db = true -> k < Nat.max da db ->
  cpos da (Nat.max da db) k < da /\ cpos db (Nat.max da db) k < db.
Proof.
  intros da db k C K. destruct (cdims _ _ C) as [m M]. assert (k mod 2 < 2) by (apply Nat.mod_upper_bound; lia).
  unfold cpos. destruct (Nat.eqb_spec da (Nat.max da db)), (Nat.eqb_spec db (Nat.max da db)); lia.
Qed.
Lemma rpos_lt : forall da db k, real_dims da db = true -> k < Nat.max da db ->
  rpos da (Nat.max da db) k < da /\ rpos db (Nat.max da db) k < db.
Proof.
  intros da db k C K. apply orb_true_iff in C. rewrite !Nat.eqb_eq in C.
  unfold rpos. destruct (Nat.eqb_spec da (Nat.max da db)), (Nat.eqb_spec db (Nat.max da db)); lia.
Qed.

Lemma bin_tan : forall e H o a b T U, cwf (CBin o a b) -> ctan e H a T -> ctan e H b U ->
  ctan e H (CBin o a b) (binT o (cdim a) (cdim b) (ceval a e) (ceval b e) T U).
Proof.
  intros e H o a b T U (O & Wa & Wb) HT HU k K.
  assert (Ea := fun j => ev_0 H e a j). assert (Eb := fun j => ev_0 H e b j).
  assert (C : (o = KAdd \/ o = KSub \/ o = KMult) -> complex_dims (cdim a) (cdim b) = true)
    by (intros [->|[->| ->]]; exact O).
  set (n := Nat.max (cdim a) (cdim b)) in *.
  assert (A : (o = KAdd \/ o = KSub \/ o = KMult) -> forall j, j < n ->
     d0 (fun t => ceval a (moved i H e t) (cpos (cdim a) n j)) (T (cpos (cdim a) n j)) /\
     d0 (fun t => ceval b (moved i H e t) (cpos (cdim b) n j)) (U (cpos (cdim b) n j))).
  { intros Oo j J. destruct (cpos_lt _ _ _ (C Oo) J) as [P Q]. split; [apply HT|apply HU]; auto. }
  assert (B : (o = RAdd \/ o = RMult) -> forall j, j < n ->
     d0 (fun t => ceval a (moved i H e t) (rpos (cdim a) n j)) (T (rpos (cdim a) n j)) /\
     d0 (fun t => ceval b (moved i H e t) (rpos (cdim b) n j)) (U (rpos (cdim b) n j))).
  { intros Oo j J. assert (R : real_dims (cdim a) (cdim b) = true) by (destruct Oo as [->| ->]; exact O).
    destruct (rpos_lt _ _ _ R J) as [P Q]. split; [apply HT|apply HU]; auto. }
  destruct o; cbn [cdim bin_ok ceval cbinV binT] in *; fold n; fold n in K.
  - destruct (A ltac:(auto) k K). apply d0_plus; auto.
  - destruct (A ltac:(auto) k K). apply d0_minus; auto.
  - assert (N : exists m, n = 2 * m) by (apply andb_true_iff in O as [O _]; apply mod2_even; exact O).
    destruct N as [m N]. assert (Q := even2 k m ltac:(lia)).
    destruct (A ltac:(auto) (2 * (k / 2)) ltac:(lia)) as [A0 B0].
    destruct (A ltac:(auto) (2 * (k / 2) + 1) ltac:(lia)) as [A1 B1].
    destruct (Nat.even k).
    + eapply d0_eq; [|apply d0_minus; [apply (d0_mult _ _ _ _ A0 B0)|apply (d0_mult _ _ _ _ A1 B1)]].
      rewrite !Ea, !Eb. reflexivity.
    + eapply d0_eq; [|apply d0_plus; [apply (d0_mult _ _ _ _ A0 B1)|apply (d0_mult _ _ _ _ A1 B0)]].
      rewrite !Ea, !Eb. reflexivity.
  - apply andb_true_iff in O as [O _]. apply Nat.eqb_eq in O.
    assert (A0 := HT 0 ltac:(lia)). assert (B0 := HU k K).
    eapply d0_eq; [|apply (d0_mult _ _ _ _ A0 B0)]. rewrite Ea, Eb. reflexivity.
  - destruct (B ltac:(auto) k K). apply d0_plus; auto.
  - destruct (B ltac:(auto) k K) as [A0 B0].
    eapply d0_eq; [|apply (d0_mult _ _ _ _ A0 B0)]. rewrite Ea, Eb. reflexivity.
Qed.

Lemma ctan_ex : forall e H f, cwf f -> c_smooth e f -> exists T, ctan e H f T.
Proof.
  intros e H. induction f as [j n|n|c|l|o f IH|o f IHf g IHg]; intros W S.
  - exists (fun k => if (j =? i)%Z then H k else 0%R). intros k K. cbn [ceval]. unfold moved.
    destruct (j =? i)%Z.
    + apply d0_ext with (fun t => (e j k + H k * t)%R); [intros; ring|].
      eapply d0_eq; [|apply d0_plus; [apply d0_const|apply d0_scal; apply derivable_pt_lim_id]]. ring.
    + apply d0_const.
  - exists (fun _ => 0%R). intros k K. cbn [ceval]. apply d0_const.
  - exists (fun _ => 0%R). intros k K. cbn [ceval]. apply d0_const.
  - exists (fun _ => 0%R). intros k K. cbn [ceval]. apply d0_const.
  - destruct IH as [T HT]; [apply W|apply S|]. eexists. apply un_tan; eauto.
  - destruct IHf as [T HT]; [apply W|apply S|]. destruct IHg as [U HU]; [apply W|apply S|].
    eexists. apply bin_tan; eauto.
Qed.

Lemma ctan_unique : forall e H f T U, ctan e H f T -> ctan e H f U -> forall k, k < cdim f -> T k = U k.
Proof. intros e H f T U A B k K. eapply d0_unique; eauto. Qed.

(** ** The property of gradients *)

Definition cgrad (f g h : cf) : Prop :=
  cwf h /\ cdim h = d /\ forall e, c_smooth e f -> c_safe e g -> c_safe e h /\
  forall H T, ctan e H f T -> ip d (ceval h e) H = ip (cdim f) (ceval g e) T.

Variable D : cf -> cf -> res cf.
Hypothesis IH : forall f g h, D f g = Ok h -> cwf f -> c_consistent i d f -> cwf g -> cdim g = cdim f -> cgrad f g h.

(** A node with one operand, whose derivative is sent to the operand as the formula [g']. *)
Lemma pass : forall o a g g' h, D a g' = Ok h -> cwf (CUn o a) -> c_consistent i d a -> cwf g' -> cdim g' = cdim a ->
  (forall e, c_safe e g -> c_safe e g') ->
  (forall e T, ip (cdim a) (ceval g' e) T = ip (cdim (CUn o a)) (ceval g e) (unT o (cdim a) (ceval a e) T)) ->
  cgrad (CUn o a) g h.
Proof.
  intros o a g g' h E W C Wg Dg S A. destruct (IH _ _ _ E) as (Wh & Dh & V); auto; [apply W|].
  split; [auto|]. split; [auto|]. intros e Sf Sg. destruct (V e) as [Sh Vh]; auto; [apply Sf|].
  split; [auto|]. intros H T HT. destruct (ctan_ex e H a) as [Ta HTa]; [apply W|apply Sf|].
  rewrite (Vh H Ta HTa), A. apply ip_ext; auto. intros k K.
  symmetry. eapply ctan_unique; eauto. apply un_tan; auto.
Qed.

(** A formula differentiated in place of another one with the same values. *)
Lemma alt : forall f f' g h, D f' g = Ok h -> cwf f' -> c_consistent i d f' -> cwf g ->
  cdim f' = cdim f -> cdim g = cdim f ->
  (forall e, c_smooth e f -> c_smooth e f') -> (forall e k, k < cdim f -> ceval f' e k = ceval f e k) ->
  cgrad f g h.
Proof.
  intros f f' g h E W C Wg Df Dg S V. destruct (IH _ _ _ E) as (Wh & Dh & G); auto; [congruence|].
  split; [auto|]. split; [auto|]. intros e Sf Sg. destruct (G e) as [Sh Gh]; auto. split; [auto|].
  intros H T HT. rewrite <- Df. apply Gh. intros k K. rewrite Df in K.
  eapply d0_ext; [|apply HT; auto]. intros t. cbn. symmetry. auto.
Qed.

(** Sum or difference of two gradients. *)
Lemma sum2 : forall s x y h, mkB s x y = Ok h -> (s = KAdd \/ s = KSub \/ s = RAdd) -> cwf x -> cwf y -> cdim x = d -> cdim y = d ->
  cwf h /\ cdim h = d /\ forall e, c_safe e x -> c_safe e y -> c_safe e h /\
  forall H, ip d (ceval h e) H = (match s with KSub => ip d (ceval x e) H - ip d (ceval y e) H
                                  | _ => ip d (ceval x e) H + ip d (ceval y e) H end)%R.
Proof.
  intros s x y h E S Wx Wy Dx Dy. apply mkB_ok in E as [-> B].
  assert (Dh : cdim (CBin s x y) = d) by (destruct S as [->|[->| ->]]; cbn [cdim]; lia).
  split; [cbn [cwf]; auto|]. split; [exact Dh|]. intros e Sx Sy. split; [split; auto|].
  intros H. destruct S as [->|[->| ->]]; cbn [ceval cbinV]; unfold cpos, rpos; rewrite Dx, Dy, Nat.max_id, Nat.eqb_refl; unfold ip.
  - rewrite <- rsum_plus. apply rsum_ext. intros; ring.
  - unfold Rminus. rewrite <- rsum_opp, <- rsum_plus. apply rsum_ext. intros; ring.
  - rewrite <- rsum_plus. apply rsum_ext. intros; ring.
Qed.

(** A node with two operands, to which the formulas [p] and [q] are sent. *)
Lemma pass2 : forall s o a b g p q x y h, (s = KAdd \/ s = KSub \/ s = RAdd) ->
  D a p = Ok x -> D b q = Ok y -> mkB s x y = Ok h ->
  cwf (CBin o a b) -> c_consistent i d (CBin o a b) -> cwf p -> cwf q -> cdim p = cdim a -> cdim q = cdim b ->
  (forall e, c_safe e a -> c_safe e b -> c_safe e g -> c_safe e p /\ c_safe e q) ->
  (forall e T U, (match s with KSub => ip (cdim a) (ceval p e) T - ip (cdim b) (ceval q e) U
                 | _ => ip (cdim a) (ceval p e) T + ip (cdim b) (ceval q e) U end)%R
     = ip (cdim (CBin o a b)) (ceval g e) (binT o (cdim a) (cdim b) (ceval a e) (ceval b e) T U)) ->
  cgrad (CBin o a b) g h.
Proof.
  intros s o a b g p q x y h S Ex Ey Eh (O & Wa & Wb) [Ca Cb] Wp Wq Dp Dq Sf A.
  destruct (IH _ _ _ Ex) as (Wx & Dx & Vx); auto. destruct (IH _ _ _ Ey) as (Wy & Dy & Vy); auto.
  destruct (sum2 _ _ _ _ Eh S Wx Wy Dx Dy) as (Wh & Dh & Vh). split; [auto|]. split; [auto|].
  intros e [Sa Sb] Sg.
  destruct (Sf e (c_smooth_safe _ _ Sa) (c_smooth_safe _ _ Sb) Sg) as [Sp Sq].
  destruct (Vx e Sa Sp) as [Sx Vx']. destruct (Vy e Sb Sq) as [Sy Vy'].
  destruct (Vh e Sx Sy) as [Sh Vh']. split; [auto|]. intros H T HT.
  destruct (ctan_ex e H a Wa Sa) as [Ta HTa]. destruct (ctan_ex e H b Wb Sb) as [Tb HTb].
  rewrite Vh'. rewrite (Vx' H Ta HTa), (Vy' H Tb HTb), A. apply ip_ext; auto. intros k K.
  symmetry. eapply ctan_unique; eauto. apply bin_tan; auto. cbn [cwf]. auto.
Qed.

(** ** Real operations with one argument *)

Lemma rmul_const : forall c f h, mkB RMult (CCst c) f = Ok h -> cwf f ->
  cwf h /\ cdim h = cdim f /\ (forall e, c_safe e f -> c_safe e h) /\
  forall e k, k < cdim f -> ceval h e k = (c * ceval f e k)%R.
Proof.
  intros c f h H W. apply mkB_ok in H as [-> B]. cbn [bin_ok cdim] in B.
  assert (P : 1 <= cdim f).
  { unfold real_dims in B. apply orb_true_iff in B. rewrite !Nat.eqb_eq in B. lia. }
  assert (M : Nat.max 1 (cdim f) = cdim f) by lia.
  split; [cbn [cwf bin_ok cdim]; auto|]. split; [exact M|]. split; [intros e S; split; [exact I|auto]|].
  intros e k K. cbn [ceval cbinV cdim]. rewrite M. unfold rpos. rewrite Nat.eqb_refl. reflexivity.
Qed.

Lemma cder_ok : forall u a df, cder u a = Ok df -> cwf a ->
  cwf df /\ cdim df = cdim a /\ forall e, c_smooth e (CUn (RUn u) a) -> c_safe e df /\
  forall k, k < cdim a -> ceval df e k = un' u (ceval a e k).
Proof.
  intros u a df H W.
  destruct u; cbn [cder] in H; try discriminate.
  - destruct (rmul_const _ _ _ H W) as (A & B & C & V). split; [auto|]. split; [auto|].
    intros e [Sa Su]. split; [apply C, c_smooth_safe; auto|]. intros k K. rewrite V by exact K. reflexivity.
  - apply mkU_ok in H as [-> _]. split; [cbn; auto|]. split; [reflexivity|]. intros e [Sa Su].
    split; [split; [apply c_smooth_safe; auto|cbn; auto]|]. reflexivity.
  - bi H. apply mkU_ok in E as [-> _]. bi H. apply mkU_ok in E as [-> _].
    destruct (rmul_const _ _ _ H) as (A & B & C & V); [cbn; auto|]. split; [auto|]. split; [exact B|].
    intros e [Sa Su]. split.
    + apply C. split; [split; [apply c_smooth_safe; auto|cbn; auto]|]. intros k K. cbn [unDom ceval cunV unR un_smooth] in *.
      specialize (Su k K). nra.
    + intros k K. rewrite V by exact K. cbn [ceval cunV unR un' un_smooth] in *. specialize (Su k K). field. auto.
  - apply mkU_ok in H as [-> _]. split; [cbn; auto|]. split; [reflexivity|]. intros e [Sa Su].
    split; [split; [apply c_smooth_safe; auto|cbn; auto]|]. reflexivity.
  - bi H. apply mkU_ok in E as [-> _]. apply mkU_ok in H as [-> _].
    split; [cbn; auto|]. split; [reflexivity|]. intros e [Sa Su].
    split; [split; [split; [apply c_smooth_safe; auto|cbn; auto]|cbn; auto]|]. reflexivity.
  - bi H. apply mkU_ok in E as [-> _].
    destruct (rmul_const _ _ _ H) as (A & B & C & V); [cbn; auto|]. split; [auto|]. split; [exact B|].
    intros e [Sa Su]. split.
    + apply C. split; [apply c_smooth_safe; auto|]. intros k K. cbn [unDom un_smooth] in *. specialize (Su k K). lra.
    + intros k K. rewrite V by exact K. reflexivity.
  - bi H. apply mkU_ok in E as [-> _]. bi H. apply mkU_ok in E as [-> _].
    destruct (rmul_const _ _ _ H) as (A & B & C & V); [cbn; auto|]. split; [auto|]. split; [exact B|].
    intros e [Sa Su]. split.
    + apply C. split; [split; [apply c_smooth_safe; auto|]|].
      * intros k K. cbn [unDom un_smooth] in *. specialize (Su k K). lra.
      * intros k K. cbn [unDom]. left. lia.
    + intros k K. rewrite V by exact K. cbn [ceval cunV unR un']. cbn [powerRZ]. simpl. ring.
Qed.

Lemma run_ok : forall u a g h df, cder u a = Ok df -> cterm D a df g = Ok h ->
  cwf a -> c_consistent i d a -> cwf g -> cdim g = cdim a -> cgrad (CUn (RUn u) a) g h.
Proof.
  intros u a g h df E T Wa Ca Wg Dg. destruct (cder_ok _ _ _ E Wa) as (Wd & Dd & Vd).
  assert (WU : cwf (CUn (RUn u) a)) by (cbn; auto).
  unfold cterm in T. destruct (Nat.eqb_spec (cdim df) 1) as [E1|E1]; bi T.
  - destruct (IH _ _ _ E0) as (Wx & Dx & Vx); auto. apply mkB_ok in T as [-> B]. cbn [bin_ok] in B.
    assert (P : 1 <= cdim x).
    { unfold real_dims in B. apply orb_true_iff in B. rewrite !Nat.eqb_eq in B. lia. }
    split; [cbn [cwf]; auto|]. split; [cbn [cdim]; lia|]. intros e S Sg.
    destruct (Vd e S) as [Sd Vd']. assert (Sa : c_smooth e a) by apply S.
    destruct (Vx e Sa Sg) as [Sx Vx']. split; [split; auto|].
    intros H T HT. destruct (ctan_ex e H a Wa Sa) as [Ta HTa].
    assert (Q := un_tan e H _ _ _ WU S HTa).
    assert (X : ip d (ceval (CBin RMult x df) e) H = (ip d (ceval x e) H * ceval df e 0)%R).
    { unfold ip. rewrite <- rsum_scal_r. apply rsum_ext. intros k K. cbn [ceval cbinV].
      replace (Nat.max (cdim x) (cdim df)) with (cdim x) by lia.
      unfold rpos at 1. rewrite Nat.eqb_refl. rewrite E1. unfold rpos.
      destruct (Nat.eqb_spec 1 (cdim x)); [replace k with 0 by lia|]; ring. }
    rewrite X, (Vx' H Ta HTa), Vd' by lia. cbn [cdim]. unfold ip. rewrite <- Dd, E1, !rsum_1.
    rewrite (ctan_unique e H _ _ _ HT Q 0) by (cbn [cdim]; lia). cbn [unT]. ring.
  - apply mkB_ok in E0 as [-> B]. cbn [bin_ok] in B.
    assert (M : Nat.max (cdim g) (cdim df) = cdim a) by lia.
    destruct (IH _ _ _ T) as (Wh & Dh & Vh); auto; [cbn [cwf]; auto|].
    split; [auto|]. split; [auto|]. intros e S Sg. destruct (Vd e S) as [Sd Vd']. assert (Sa : c_smooth e a) by apply S.
    destruct (Vh e Sa) as [Sh Vh']; [split; auto|]. split; [auto|]. intros H T0 HT.
    destruct (ctan_ex e H a Wa Sa) as [Ta HTa]. assert (Q := un_tan e H _ _ _ WU S HTa).
    rewrite (Vh' H Ta HTa). apply rsum_ext. intros k K.
    rewrite (ctan_unique e H _ _ _ HT Q k) by exact K. cbn [ceval cbinV unT]. rewrite M, Dg, Dd. unfold rpos.
    rewrite Nat.eqb_refl, Vd' by auto. ring.
Qed.

(** ** The three ways of the complex operations with two operands *)

(** Tangent of a complex product against g, for the first and the second operand. *)
Ltac pair_sums := rewrite ?rsum_pairs, <- ?rsum_plus; apply rsum_ext; intros q Q; par.

Lemma eqb_no : forall m, 1 < m -> 2 =? 2 * m = false.
Proof. intros m M. apply Nat.eqb_neq. lia. Qed.

Lemma sum_at : forall m (v w : nat -> R),
  ip 2 (cunV KSum (2 * m) v) w = rsum m (fun q => (v (2 * q)%nat * w 0%nat + v (2 * q + 1)%nat * w 1%nat)%R).
Proof.
  intros m v w. unfold ip. cbn [rsum cunV]. rewrite dv2, rsum_plus, <- !rsum_scal_r.
  rewrite Rplus_0_l. f_equal; apply rsum_ext; intros q Q; rewrite ?Nat.add_0_r; reflexivity.
Qed.

(** KAdd and KSub *)
Lemma addsub_grad : forall o a b g h, (o = KAdd \/ o = KSub) -> cwf (CBin o a b) -> c_consistent i d (CBin o a b) -> cwf g ->
  cdim g = cdim (CBin o a b) -> cdiff_body D i d (CBin o a b) g = Ok h -> cgrad (CBin o a b) g h.
Proof.
  intros o a b g h O W C Wg Dg H.
  assert (CD : complex_dims (cdim a) (cdim b) = true) by (destruct O as [->| ->]; apply W).
  assert (Dn : cdim (CBin o a b) = Nat.max (cdim a) (cdim b)) by (destruct O as [->| ->]; reflexivity).
  rewrite Dn in Dg.
  assert (H' : (if (cdim a =? 2) && (2 <? cdim b) then
        do s <- mkU KSum g ; do x <- D a s ; do y <- D b g ; mkB o x y
      else if (cdim b =? 2) && (2 <? cdim a) then
        do x <- D a g ; do s <- mkU KSum g ; do y <- D b s ; mkB o x y
      else do x <- D a g ; do y <- D b g ; mkB o x y) = Ok h) by (destruct O as [->| ->]; exact H).
  clear H. rename H' into H.
  assert (S : o = KAdd \/ o = KSub \/ o = RAdd) by tauto.
  destruct (cdims _ _ CD) as [m [[A B]|[[A [B M]]|[B [A M]]]]].
  - assert (N : Nat.max (cdim a) (cdim b) = 2 * m) by lia.
    replace ((cdim a =? 2) && (2 <? cdim b)) with false in H
      by (symmetry; apply andb_false_iff; destruct (Nat.eqb_spec (cdim a) 2), (Nat.ltb_spec 2 (cdim b)); auto; lia).
    replace ((cdim b =? 2) && (2 <? cdim a)) with false in H
      by (symmetry; apply andb_false_iff; destruct (Nat.eqb_spec (cdim b) 2), (Nat.ltb_spec 2 (cdim a)); auto; lia).
    bi H. bi H. eapply (pass2 o o a b g g g x x0 h S E E0 H); auto; try lia.
    intros e T U. rewrite Dn, N. unfold ip. destruct O as [->| ->]; cbn [binT]; rewrite A, B, Nat.max_id; unfold cpos; rewrite Nat.eqb_refl; unfold ip.
    + rewrite <- rsum_plus. apply rsum_ext. intros; ring.
    + unfold Rminus. rewrite <- rsum_opp, <- rsum_plus. apply rsum_ext. intros; ring.
  - assert (N : Nat.max (cdim a) (cdim b) = 2 * m) by lia. rewrite N in Dg.
    replace ((cdim a =? 2) && (2 <? cdim b)) with true in H
      by (symmetry; apply andb_true_iff; rewrite Nat.eqb_eq, Nat.ltb_lt; lia).
    bi H. bi H. bi H. apply mkU_ok in E as [-> E].
    eapply (pass2 o o a b g (CUn KSum g) g x0 x1 h S E0 E1 H); auto; try (cbn [cdim]; lia).
    + cbn [cwf]. auto.
    + intros e Sa Sb Sg. split; [split; auto|auto].
    + intros e T U. rewrite Dn, N. cbn [ceval]. rewrite Dg, A, B, sum_at.
      unfold ip; destruct O as [->| ->]; cbn [binT]; rewrite Nat.max_r by lia; unfold cpos; rewrite Nat.eqb_refl, (eqb_no m M); unfold ip.
      * pair_sums. ring.
      * unfold Rminus. rewrite <- rsum_opp, !rsum_pairs, <- !rsum_plus. apply rsum_ext; intros q Q; par. ring.
  - assert (N : Nat.max (cdim a) (cdim b) = 2 * m) by lia. rewrite N in Dg.
    replace ((cdim a =? 2) && (2 <? cdim b)) with false in H
      by (symmetry; apply andb_false_iff; right; apply Nat.ltb_ge; lia).
    replace ((cdim b =? 2) && (2 <? cdim a)) with true in H
      by (symmetry; apply andb_true_iff; rewrite Nat.eqb_eq, Nat.ltb_lt; lia).
    bi H. bi H. bi H. apply mkU_ok in E0 as [-> E0].
    eapply (pass2 o o a b g g (CUn KSum g) x x1 h S E E1 H); auto; try (cbn [cdim]; lia).
    + cbn [cwf]. auto.
    + intros e Sa Sb Sg. split; [auto|split; auto].
    + intros e T U. rewrite Dn, N. cbn [ceval]. rewrite Dg, A, B, sum_at.
      unfold ip; destruct O as [->| ->]; cbn [binT]; rewrite Nat.max_l by lia; unfold cpos; rewrite Nat.eqb_refl, (eqb_no m M); unfold ip.
      * pair_sums. ring.
      * unfold Rminus. rewrite <- rsum_opp, !rsum_pairs, <- !rsum_plus. apply rsum_ext; intros q Q; par. ring.
Qed.

(** KMult *)
Lemma mult_grad : forall a b g h, cwf (CBin KMult a b) -> c_consistent i d (CBin KMult a b) -> cwf g ->
  cdim g = cdim (CBin KMult a b) -> cdiff_body D i d (CBin KMult a b) g = Ok h -> cgrad (CBin KMult a b) g h.
Proof.
  intros a b g h W C Wg Dg H. assert (CD : complex_dims (cdim a) (cdim b) = true) by apply W.
  cbn [cdiff_body] in H. bi H. apply mkU_ok in E as [-> Eb]. bi H. apply mkU_ok in E as [-> Ea].
  bi H. apply mkB_ok in E as [-> Ep]. bi H. apply mkB_ok in E as [-> Eq].
  cbn [cdim] in Dg. cbn [bin_ok cdim] in Ep, Eq.
  assert (Wa : cwf a) by apply W. assert (Wb : cwf b) by apply W.
  assert (Wp : cwf (CBin KMult (CUn KConj b) g)) by (cbn [cwf bin_ok cdim]; auto 10).
  assert (Wq : cwf (CBin KMult (CUn KConj a) g)) by (cbn [cwf bin_ok cdim]; auto 10).
  assert (SS : KAdd = KAdd \/ KAdd = KSub \/ KAdd = RAdd) by auto.
  destruct (cdims _ _ CD) as [m [[A B]|[[A [B M]]|[B [A M]]]]].
  - assert (N : Nat.max (cdim a) (cdim b) = 2 * m) by lia. rewrite N in Dg.
    replace ((cdim a =? 2) && (2 <? cdim b)) with false in H
      by (symmetry; apply andb_false_iff; destruct (Nat.eqb_spec (cdim a) 2), (Nat.ltb_spec 2 (cdim b)); auto; lia).
    replace ((cdim b =? 2) && (2 <? cdim a)) with false in H
      by (symmetry; apply andb_false_iff; destruct (Nat.eqb_spec (cdim b) 2), (Nat.ltb_spec 2 (cdim a)); auto; lia).
    bi H. bi H. eapply (pass2 KAdd KMult a b g _ _ _ _ h SS E E0 H); auto; try (cbn [cdim]; lia).
    + intros e Sa Sb Sg. cbn. auto 10.
    + intros e T U. cbn [cdim ceval]. rewrite N, A, B, Dg. unfold ip. rewrite !rsum_pairs, <- rsum_plus.
      apply rsum_ext. intros q Q. cbn [cbinV binT cunV]. par. rewrite Nat.max_id. unfold cpos. rewrite Nat.eqb_refl.
      par. ring.
  - assert (N : Nat.max (cdim a) (cdim b) = 2 * m) by lia. rewrite N in Dg.
    replace ((cdim a =? 2) && (2 <? cdim b)) with true in H
      by (symmetry; apply andb_true_iff; rewrite Nat.eqb_eq, Nat.ltb_lt; lia).
    bi H. apply mkU_ok in E as [-> E]. bi H. bi H.
    eapply (pass2 KAdd KMult a b g _ _ _ _ h SS E0 E1 H); auto; try (cbn [cdim]; lia).
    + cbn [cwf] in *. tauto.
    + intros e Sa Sb Sg. cbn. auto 10.
    + intros e T U. cbn [cdim ceval]. rewrite N, A, B, Dg, Nat.max_id, sum_at. unfold ip. rewrite !rsum_pairs, <- rsum_plus.
      apply rsum_ext. intros q Q. cbn [cbinV binT cunV]. par. rewrite Nat.max_id, (Nat.max_r 2 (2 * m)) by lia.
      unfold cpos. rewrite Nat.eqb_refl, (eqb_no m M). par. change (Nat.even 0) with true. change (Nat.even 1) with false.
      cbn iota. ring.
  - assert (N : Nat.max (cdim a) (cdim b) = 2 * m) by lia. rewrite N in Dg.
    replace ((cdim a =? 2) && (2 <? cdim b)) with false in H
      by (symmetry; apply andb_false_iff; right; apply Nat.ltb_ge; lia).
    replace ((cdim b =? 2) && (2 <? cdim a)) with true in H
      by (symmetry; apply andb_true_iff; rewrite Nat.eqb_eq, Nat.ltb_lt; lia).
    bi H. bi H. apply mkU_ok in E0 as [-> E0]. bi H.
    eapply (pass2 KAdd KMult a b g _ _ _ _ h SS E E1 H); auto; try (cbn [cdim]; lia).
    + cbn [cwf] in *. tauto.
    + intros e Sa Sb Sg. cbn. auto 10.
    + intros e T U. cbn [cdim ceval]. rewrite N, A, B, Dg, Nat.max_id, sum_at. unfold ip. rewrite !rsum_pairs, <- rsum_plus.
      apply rsum_ext. intros q Q. cbn [cbinV binT cunV]. par.
      rewrite Nat.max_id, (Nat.max_r 2 (2 * m)), (Nat.max_l (2 * m) 2) by lia.
      unfold cpos. rewrite Nat.eqb_refl, (eqb_no m M). par. change (Nat.even 0) with true. change (Nat.even 1) with false.
      cbn iota. ring.
Qed.

(** ** All nodes *)

Lemma even_half : forall n, (n mod 2 =? 0) = true -> n = 2 * (n / 2).
Proof. intros n H. apply mod2_even in H as [m ->]. rewrite dv2. auto. Qed.

Lemma alt_exp_ok : forall a f', alt_exp a = Ok f' -> cwf (CUn KExp a) ->
  cwf f' /\ cdim f' = cdim a /\ (c_consistent i d a -> c_consistent i d f') /\
  (forall e, c_smooth e a -> c_smooth e f') /\ forall e k, k < cdim a -> ceval f' e k = ceval (CUn KExp a) e k.
Proof.
  intros a f' H (O & W & _). unfold alt_exp in H. cbn [un_ok] in O. assert (N := even_half _ O).
  bi H. apply mkU_ok in E as [-> _]. bi H. apply mkU_ok in E as [-> _]. bi H. apply mkU_ok in E as [-> _].
  bi H. apply mkU_ok in E as [-> _]. bi H. apply mkB_ok in E as [-> B1].
  bi H. apply mkU_ok in E as [-> _]. bi H. apply mkB_ok in E as [-> B2].
  bi H. apply mkU_ok in E as [-> _]. bi H. apply mkU_ok in E as [-> _]. apply mkB_ok in H as [-> B3].
  split; [cbn [cwf un_ok]; auto 20|].
  split; [cbn [cdim]; rewrite !Nat.max_id; auto|].
  split; [cbn; auto 10|]. split; [intros e S; cbn; auto 20|].
  intros e k K. cbn [ceval cbinV cunV cdim unR]. rewrite !Nat.max_id. unfold rpos. rewrite !Nat.eqb_refl.
  destruct (Nat.even k); ring.
Qed.

Lemma alt_exp1j_ok : forall a f', alt_exp1j a = Ok f' -> cwf a ->
  cwf f' /\ cdim f' = 2 * cdim a /\ (c_consistent i d a -> c_consistent i d f') /\
  (forall e, c_smooth e a -> c_smooth e f') /\ forall e k, k < 2 * cdim a -> ceval f' e k = ceval (CUn KExp1j a) e k.
Proof.
  intros a f' H W. unfold alt_exp1j in H.
  bi H. apply mkU_ok in E as [-> _]. bi H. apply mkU_ok in E as [-> _]. bi H. apply mkU_ok in E as [-> _].
  bi H. apply mkU_ok in E as [-> _]. apply mkB_ok in H as [-> B].
  split; [cbn [cwf un_ok]; auto 20|]. split; [cbn [cdim]; rewrite Nat.max_id; auto|].
  split; [cbn; auto|]. split; [intros e S; cbn; auto 20|].
  intros e k K. cbn [ceval cbinV cunV cdim unR]. rewrite !Nat.max_id. unfold rpos. rewrite !Nat.eqb_refl.
  destruct (Nat.even k); ring.
Qed.

Lemma alt_sqabs_ok : forall a f', alt_sqabs a = Ok f' -> cwf (CUn KSqAbs a) ->
  cwf f' /\ cdim f' = cdim a / 2 /\ (c_consistent i d a -> c_consistent i d f') /\
  (forall e, c_smooth e a -> c_smooth e f') /\ forall e k, k < cdim a / 2 -> ceval f' e k = ceval (CUn KSqAbs a) e k.
Proof.
  intros a f' H (O & W & _). unfold alt_sqabs in H. cbn [un_ok] in O.
  bi H. apply mkU_ok in E as [-> E1]. bi H. apply mkB_ok in E as [-> E2]. apply mkU_ok in H as [-> E3].
  split; [cbn [cwf]; auto 10|]. split; [cbn [cdim]; rewrite Nat.max_id; auto|].
  split; [cbn; auto|]. split; [intros e S; cbn; auto 20|].
  intros e k K. cbn [ceval cbinV cunV cdim]. rewrite !Nat.max_id. unfold cpos. rewrite !Nat.eqb_refl. par.
  change (2 * k + 1) with (2 * k + 1). ring.
Qed.

Lemma alt_realscal_ok : forall a b f', alt_realscal a b = Ok f' -> cwf (CBin KRealScal a b) ->
  cwf f' /\ cdim f' = cdim b /\ (c_consistent i d (CBin KRealScal a b) -> c_consistent i d f') /\
  (forall e, c_smooth e (CBin KRealScal a b) -> c_smooth e f') /\
  forall e k, k < cdim b -> ceval f' e k = ceval (CBin KRealScal a b) e k.
Proof.
  intros a b f' H (O & Wa & Wb). unfold alt_realscal in H. cbn [bin_ok] in O. apply andb_true_iff in O as [A O].
  apply Nat.eqb_eq in A. apply mod2_even in O as [m O].
  bi H. apply mkU_ok in E as [-> E1]. apply mkB_ok in H as [-> E2].
  assert (M : 1 <= m).
  { cbn [bin_ok cdim] in E2. rewrite A, O in E2. destruct m; [discriminate E2|lia]. }
  split; [cbn [cwf]; auto 10|]. split; [cbn [cdim]; rewrite A; lia|].
  split; [cbn; auto|]. split; [intros e [S T]; cbn; auto 20|].
  intros e k K. cbn [ceval cbinV cdim]. rewrite A, O, (Nat.max_r (2 * 1) (2 * m)) by lia.
  unfold cpos. rewrite !Nat.eqb_refl. cbn [cunV].
  assert (P : forall j r, r < 2 -> (if 2 * 1 =? 2 * m then 2 * j + r else (2 * j + r) mod 2) / 2 = (if m =? 1 then j else 0)).
  { intros j r R. destruct (Nat.eqb_spec (2 * 1) (2 * m)), (Nat.eqb_spec m 1); try lia.
    - destruct r as [|[|r]]; [| |lia]; rewrite ?Nat.add_0_r; par; auto.
    - destruct r as [|[|r]]; [| |lia]; rewrite ?Nat.add_0_r; par; auto. }
  assert (P0 : forall j, Nat.even (if 2 * 1 =? 2 * m then 2 * j else (2 * j) mod 2) = true).
  { intros j. destruct (2 * 1 =? 2 * m); par; auto. }
  assert (P1 : forall j, Nat.even (if 2 * 1 =? 2 * m then 2 * j + 1 else (2 * j + 1) mod 2) = false).
  { intros j. destruct (2 * 1 =? 2 * m); par; auto. }
  rewrite P0, P1. assert (Q := P (k / 2) 0 ltac:(lia)). rewrite Nat.add_0_r in Q. rewrite Q.
  replace (if m =? 1 then k / 2 else 0) with 0
    by (destruct (Nat.eqb_spec m 1); [assert (k / 2 < 1) by (apply even2; lia); lia|auto]).
  destruct (Nat.even k) eqn:EV.
  - apply even_ex in EV as [j ->]. rewrite dv2. ring.
  - destruct (pairs k) as [X|X]; [rewrite X, ev2 in EV; discriminate|]. rewrite X at 3. ring.
Qed.

Lemma zero_grad : forall f g, (forall e H T, ctan e H f T -> forall k, k < cdim f -> T k = 0%R) -> cgrad f g (CZero d).
Proof.
  intros f g Z. split; [exact I|]. split; [reflexivity|]. intros e S Sg. split; [exact I|]. intros H T HT.
  unfold ip. rewrite !rsum_0; auto.
  - intros k K. rewrite (Z e H T) by auto. ring.
  - intros k K. cbn. ring.
Qed.

Lemma body_ok : forall f g h, cdiff_body D i d f g = Ok h -> cwf f -> c_consistent i d f -> cwf g -> cdim g = cdim f -> cgrad f g h.
Proof.
  intros f g h H W C Wg Dg. destruct f as [j n|n|c|l|o a|o a b].
  - cbn [cdiff_body] in H. destruct (Z.eqb_spec j i) as [->|N].
    + cbn [c_consistent] in C. rewrite C, Nat.eqb_refl in H by auto. cbn [andb] in H. inversion H; subst h.
      cbn [cdim] in Dg. rewrite C in * by auto. split; [auto|]. split; [auto|]. intros e S Sg. split; [auto|].
      intros H0 T HT. apply ip_ext; auto. intros k K.
      eapply d0_unique; [|apply HT; auto]. cbn [ceval]. unfold moved. rewrite Z.eqb_refl.
      apply d0_ext with (fun t => (e i k + H0 k * t)%R); [intros; ring|].
      eapply d0_eq; [|apply d0_plus; [apply d0_const|apply d0_scal; apply derivable_pt_lim_id]]. ring.
    + cbn [andb] in H. inversion H; subst h. apply zero_grad. intros e H0 T HT k K.
      eapply d0_unique; [apply HT; auto|]. cbn [ceval]. unfold moved.
      destruct (Z.eqb_spec j i); [contradiction|]. apply d0_const.
  - inversion H; subst h. apply zero_grad. intros e H0 T HT k K. eapply d0_unique; [apply HT; auto|]. cbn [ceval]. apply d0_const.
  - inversion H; subst h. apply zero_grad. intros e H0 T HT k K. eapply d0_unique; [apply HT; auto|]. cbn [ceval]. apply d0_const.
  - inversion H; subst h. apply zero_grad. intros e H0 T HT k K. eapply d0_unique; [apply HT; auto|]. cbn [ceval]. apply d0_const.
  - cbn [c_consistent] in C. assert (Wa : cwf a) by apply W. assert (O := proj1 W).
    destruct o; cbn [cdiff_body] in H; cbn [cdim un_ok] in Dg, O.
    + bi H. apply mkU_ok in E as [-> E]. apply (pass KConj a g _ h H); auto; [cbn; auto| |].
      * intros e S. split; auto.
      * intros e T. apply rsum_ext. intros k K. cbn [ceval cunV unT]. destruct (Nat.even k); ring.
    + bi H. destruct (alt_exp_ok _ _ E W) as (A & B & Cc & S & V). eapply alt; eauto. intros e [S1 _]. auto.
    + bi H. destruct (alt_exp1j_ok _ _ E Wa) as (A & B & Cc & S & V). eapply alt; eauto. intros e [S1 _]. auto.
    + bi H. apply mkU_ok in E as [-> E]. assert (N := even_half _ O).
      apply (pass KReal a g _ h H); auto; [cbn; auto|cbn [cdim]; lia|intros e S; split; auto|].
      intros e T. cbn [cdim]. rewrite N at 1. unfold ip. rewrite rsum_pairs. apply rsum_ext. intros k K.
      cbn [ceval cunV unT]. par. ring.
    + bi H. apply mkU_ok in E as [-> E]. assert (N := even_half _ O).
      apply (pass KImag a g _ h H); auto; [cbn; auto|cbn [cdim]; lia|intros e S; split; auto|].
      intros e T. cbn [cdim]. rewrite N at 1. unfold ip. rewrite rsum_pairs. apply rsum_ext. intros k K.
      cbn [ceval cunV unT]. par. ring.
    + bi H. apply mkU_ok in E as [-> E].
      apply (pass KR2C a g _ h H); auto; [cbn; auto|cbn [cdim]; rewrite Dg; apply dv2|intros e S; split; auto|].
      intros e T. cbn [cdim]. unfold ip. rewrite rsum_pairs. apply rsum_ext. intros k K.
      cbn [ceval cunV unT]. par. ring.
    + bi H. apply mkU_ok in E as [-> E].
      apply (pass KI2C a g _ h H); auto; [cbn; auto|cbn [cdim]; rewrite Dg; apply dv2|intros e S; split; auto|].
      intros e T. cbn [cdim]. unfold ip. rewrite rsum_pairs. apply rsum_ext. intros k K.
      cbn [ceval cunV unT]. par. ring.
    + bi H. destruct (alt_sqabs_ok _ _ E W) as (A & B & Cc & S & V). eapply alt; eauto. intros e [S1 _]. auto.
    + bi H. apply mkU_ok in E as [-> E]. assert (N := even_half _ O).
      apply (pass KSum a g _ h H); auto.
      * cbn [cwf]. repeat split; auto. rewrite N. apply ev2.
      * intros e S; split; auto.
      * intros e T. cbn [cdim]. rewrite N at 1. unfold ip. rewrite rsum_pairs. cbn [rsum unT].
        rewrite <- !rsum_scal, Rplus_0_l, <- rsum_plus. apply rsum_ext. intros k K. cbn [ceval cunV]. par.
        rewrite Nat.add_0_r. reflexivity.
    + bi H. apply mkU_ok in E as [-> E]. apply Nat.eqb_eq in O. cbn [un_ok] in E. rewrite Dg in E. destruct (mod2_even _ E) as [m N].
      apply (pass (KSumT d0) a g _ h H); auto; [cbn [cwf un_ok]; rewrite Dg; auto|intros e S; split; auto|].
      intros e T. cbn [ceval]. rewrite O, Dg, N, sum_at. cbn [cdim]. unfold ip. rewrite rsum_pairs.
      apply rsum_ext. intros k K. cbn [unT]. par. reflexivity.
    + destruct u; try (bi H; eapply run_ok; eassumption).
      bi H. apply mkU_ok in H as [-> _]. destruct (IH _ _ _ E) as (Wx & Dx & Vx); auto.
      split; [cbn; auto|]. split; [auto|]. intros e S Sg. destruct (Vx e) as [Sx Vx']; auto; [apply S|].
      split; [split; cbn; auto|]. intros H0 T HT. destruct (ctan_ex e H0 a Wa) as [Ta HTa]; [apply S|].
      assert (Q := un_tan e H0 _ _ _ W S HTa).
      transitivity (- ip d (ceval x e) H0)%R.
      { unfold ip. rewrite <- rsum_opp. apply rsum_ext. intros k K. cbn [ceval cunV unR]. ring. }
      rewrite (Vx' H0 Ta HTa). unfold ip. rewrite <- rsum_opp. apply rsum_ext. intros k K.
      rewrite (ctan_unique e H0 _ _ _ HT Q k) by auto. cbn [unT un']. ring.
  - destruct o.
    + apply addsub_grad; auto.
    + apply addsub_grad; auto.
    + apply mult_grad; auto.
    + cbn [cdiff_body] in H. bi H. destruct (alt_realscal_ok _ _ _ E W) as (A & B & Cc & S & V). eapply alt; eauto.
    + cbn [cdiff_body] in H. destruct (Nat.eqb_spec (cdim a) (cdim b)) as [N|N]; [|discriminate].
      bi H. bi H. cbn [cdim] in Dg. eapply (pass2 RAdd RAdd a b g g g _ _ h); eauto; try lia.
      intros e T U. unfold ip. cbn [cdim binT]. rewrite N, Nat.max_id. unfold rpos. rewrite Nat.eqb_refl.
      rewrite <- rsum_plus. apply rsum_ext. intros; ring.
    + cbn [cdiff_body] in H. destruct (Nat.eqb_spec (cdim a) (cdim b)) as [N|N]; [|discriminate].
      bi H. apply mkB_ok in E as [-> E]. bi H. bi H. apply mkB_ok in E1 as [-> E1]. bi H. cbn [cdim] in Dg.
      assert (Wb : cwf a /\ cwf b) by (split; apply W). destruct Wb as [Wa Wb].
      eapply (pass2 RAdd RMult a b g _ _ _ _ h (or_intror (or_intror eq_refl)) E0 E2 H); auto; try (cbn [cdim]; lia).
      * cbn [cwf]. auto.
      * cbn [cwf]. auto.
      * intros e Sa Sb Sg. split; split; auto.
      * intros e T U. unfold ip. cbn [cdim binT ceval cbinV]. rewrite Dg, N, !Nat.max_id. unfold rpos. rewrite Nat.eqb_refl.
        rewrite <- rsum_plus. apply rsum_ext. intros; ring.
Qed.

End Diff.

Theorem cDiffTn_ok : forall n i d f g h, cDiffTn n i d f g = Ok h -> cwf f -> c_consistent i d f -> cwf g -> cdim g = cdim f ->
  cgrad i d f g h.
Proof.
  induction n as [|n IHn]; intros i d f g h H; [discriminate|].
  cbn [cDiffTn] in H. apply (body_ok i d (cDiffTn n i d)); auto.
Qed.

Theorem gradient_adjoint : forall f i d g h, cDiffT f i d g = Ok h -> cwf f -> c_consistent i d f -> cwf g ->
  cdim g = cdim f -> c_adjoint f i d g h.
Proof.
  intros f i d g h H W C Wg Dg. destruct (cDiffTn_ok _ _ _ _ _ _ H W C Wg Dg) as (Wh & Dh & V).
  split; [auto|]. intros e S Sg. destruct (V e S Sg) as [Sh Vh]. split; [auto|]. intros H0.
  destruct (ctan_ex i e H0 f W S) as [T HT]. rewrite ip_inner, (Vh H0 T HT).
  apply (d0_ext (fun t => rsum (cdim f) (fun k => (ceval g e k * ceval f (moved i H0 e t) k)%R))).
  - intros t. rewrite ip_inner. reflexivity.
  - apply (rsum_d0 (cdim f) (fun k t => (ceval g e k * ceval f (moved i H0 e t) k)%R)).
    intros k K. apply d0_scal. apply HT; auto.
Qed.

(** ** The gradient exists for variables of even dimension *)

Lemma covered_pos : forall f, cwf f -> covered f -> 1 <= cdim f.
Proof.
  induction f as [j n|n|c|l|o a IHa|o a IHa b IHb]; cbn [cwf covered cdim]; auto; intros W C.
  - destruct W as (O & Wa & _). destruct C as [Ca Co]. assert (P := IHa Wa Ca).
    destruct o; cbn [un_ok] in O; auto; try lia; apply even_half in O; lia.
  - destruct W as (O & Wa & Wb). destruct C as (Ca & Cb & Co). assert (P := IHa Wa Ca). assert (Q := IHb Wb Cb).
    destruct o; lia.
Qed.

Section Exists.
Variable i : Z.
Variable m : nat.
Hypothesis Hm : 1 <= m.
Let d := 2 * m.

Definition succeeds (D : cf -> cf -> res cf) (f : cf) : Prop :=
  cwf f -> covered f -> forall g, cdim g = cdim f -> exists h, D f g = Ok h /\ cdim h = d.

Lemma add_dd : forall s x y, (s = KAdd \/ s = KSub \/ s = RAdd) -> cdim x = d -> cdim y = d ->
  mkB s x y = Ok (CBin s x y) /\ cdim (CBin s x y) = d.
Proof.
  intros s x y S X Y. split.
  - apply mkB_yes. rewrite X, Y. unfold d. destruct S as [->|[->| ->]]; cbn [bin_ok]; try apply cdims_eq.
    unfold real_dims. rewrite Nat.eqb_refl. reflexivity.
  - destruct S as [->|[->| ->]]; cbn [cdim]; lia.
Qed.

Lemma two : forall (D : cf -> cf -> res cf) a b p q s, (s = KAdd \/ s = KSub \/ s = RAdd) ->
  (exists x, D a p = Ok x /\ cdim x = d) -> (exists y, D b q = Ok y /\ cdim y = d) ->
  exists h, (do x <- D a p ; do y <- D b q ; mkB s x y) = Ok h /\ cdim h = d.
Proof.
  intros D a b p q s S (x & -> & X) (y & -> & Y). cbn [rbind]. destruct (add_dd s x y S X Y) as [-> E]. eauto.
Qed.

Lemma refl_dims : forall n, real_dims n n = true.
Proof. intros n. unfold real_dims. rewrite Nat.eqb_refl. reflexivity. Qed.
Lemma one_dims : forall n, 1 <= n -> real_dims 1 n = true.
Proof. intros n N. unfold real_dims. rewrite Nat.min_l by lia. apply orb_true_r. Qed.

Lemma cder_yes : forall u a, covered (CUn (RUn u) a) -> u <> UMinus -> 1 <= cdim a ->
  exists df, cder u a = Ok df /\ cdim df = cdim a.
Proof.
  intros u a [_ C] N P. destruct u; try contradiction; cbn [cder].
  - rewrite mkB_yes by (apply one_dims; auto). eexists. split; [reflexivity|]. cbn [cdim]. lia.
  - rewrite mkU_yes by reflexivity. eauto.
  - rewrite mkU_yes by reflexivity. cbn [rbind]. rewrite mkU_yes by reflexivity. cbn [rbind].
    rewrite mkB_yes by (apply one_dims; auto). eexists. split; [reflexivity|]. cbn [cdim]. lia.
  - rewrite mkU_yes by reflexivity. eauto.
  - rewrite mkU_yes by reflexivity. cbn [rbind]. rewrite mkU_yes by reflexivity. eauto.
  - rewrite mkU_yes by reflexivity. cbn [rbind].
    rewrite mkB_yes by (apply one_dims; auto). eexists. split; [reflexivity|]. cbn [cdim]. lia.
  - rewrite mkU_yes by reflexivity. cbn [rbind]. rewrite mkU_yes by reflexivity. cbn [rbind].
    rewrite mkB_yes by (apply one_dims; auto). eexists. split; [reflexivity|]. cbn [cdim]. lia.
Qed.

(** The formulas differentiated instead of others are built, smaller in the sense of [cweight], and covered. *)
Lemma alt_exp_yes : forall a, cwf (CUn KExp a) -> covered a ->
  exists f, alt_exp a = Ok f /\ cwf f /\ covered f /\ cdim f = cdim a /\ cweight f < cweight (CUn KExp a).
Proof.
  intros a (O & W & _) C. cbn [un_ok] in O. assert (N := even_half _ O). unfold alt_exp.
  rewrite !(mkU_yes KReal) by exact O. cbn [rbind]. rewrite mkU_yes by reflexivity. cbn [rbind].
  rewrite (mkU_yes KImag) by exact O. cbn [rbind]. rewrite mkU_yes by reflexivity. cbn [rbind].
  rewrite mkB_yes by apply refl_dims. cbn [rbind]. rewrite mkU_yes by reflexivity. cbn [rbind].
  rewrite mkB_yes by apply refl_dims. cbn [rbind]. rewrite mkU_yes by reflexivity. cbn [rbind].
  rewrite mkU_yes by reflexivity. cbn [rbind]. rewrite mkB_yes by apply refl_dims.
  eexists. split; [reflexivity|]. split; [cbn [cwf un_ok bin_ok cdim]; rewrite !refl_dims; auto 20|].
  split; [cbn [covered cdim]; auto 20|]. split; [cbn [cdim]; rewrite !Nat.max_id; auto|]. cbn [cweight]. lia.
Qed.
Lemma alt_exp1j_yes : forall a, cwf a -> covered a ->
  exists f, alt_exp1j a = Ok f /\ cwf f /\ covered f /\ cdim f = 2 * cdim a /\ cweight f < cweight (CUn KExp1j a).
Proof.
  intros a W C. unfold alt_exp1j.
  rewrite mkU_yes by reflexivity. cbn [rbind]. rewrite mkU_yes by reflexivity. cbn [rbind].
  rewrite mkU_yes by reflexivity. cbn [rbind]. rewrite mkU_yes by reflexivity. cbn [rbind].
  rewrite mkB_yes by apply refl_dims.
  eexists. split; [reflexivity|]. split; [cbn [cwf un_ok bin_ok cdim]; rewrite !refl_dims; auto 20|].
  split; [cbn [covered cdim]; auto 20|]. split; [cbn [cdim]; rewrite !Nat.max_id; auto|]. cbn [cweight]. lia.
Qed.
Lemma alt_sqabs_yes : forall a, cwf (CUn KSqAbs a) -> covered a ->
  exists f, alt_sqabs a = Ok f /\ cwf f /\ covered f /\ cdim f = cdim a / 2 /\ cweight f < cweight (CUn KSqAbs a).
Proof.
  intros a (O & W & _) C. cbn [un_ok] in O. destruct (mod2_even _ O) as [n N]. unfold alt_sqabs.
  rewrite mkU_yes by exact O. cbn [rbind].
  assert (B : bin_ok KMult (cdim a) (cdim (CUn KConj a)) = true) by (cbn [bin_ok cdim]; rewrite N; apply cdims_eq).
  rewrite mkB_yes by exact B. cbn [rbind].
  assert (U : un_ok KReal (cdim (CBin KMult a (CUn KConj a))) = true) by (cbn [un_ok cdim]; rewrite Nat.max_id; exact O).
  rewrite mkU_yes by exact U. eexists. split; [reflexivity|]. split; [cbn [cwf]; auto 20|].
  split; [cbn [covered cdim]; auto 20|]. split; [cbn [cdim]; rewrite !Nat.max_id; auto|]. cbn [cweight]. lia.
Qed.
Lemma alt_realscal_yes : forall a b, cwf (CBin KRealScal a b) -> covered a -> covered b ->
  exists f, alt_realscal a b = Ok f /\ cwf f /\ covered f /\ cdim f = cdim b /\ cweight f < cweight (CBin KRealScal a b).
Proof.
  intros a b (O & Wa & Wb) Ca Cb. cbn [bin_ok] in O. apply andb_true_iff in O as [A O].
  apply Nat.eqb_eq in A. assert (P := covered_pos b Wb Cb). destruct (mod2_even _ O) as [n N]. unfold alt_realscal.
  rewrite mkU_yes by reflexivity. cbn [rbind].
  assert (B : bin_ok KMult (cdim (CUn KR2C a)) (cdim b) = true)
    by (cbn [bin_ok cdim]; rewrite A, N; apply (cdims_l n); lia).
  rewrite mkB_yes by exact B. eexists. split; [reflexivity|]. split; [cbn [cwf un_ok]; auto 20|].
  split; [cbn [covered cdim]; auto 20|]. split; [cbn [cdim]; lia|]. cbn [cweight]. lia.
Qed.

Lemma body_yes : forall D f, (forall f', cweight f' < cweight f -> succeeds D f') ->
  succeeds (cdiff_body D i d) f.
Proof.
  intros D f IHD W C g Dg. destruct f as [j n|n|c|l|o a|o a b].
  - cbn [cdiff_body]. destruct (j =? i)%Z; cbn [andb]; [|eauto]. destruct (Nat.eqb_spec n d); [|eauto].
    exists g. split; auto. rewrite Dg. auto.
  - eexists. split; reflexivity.
  - eexists. split; reflexivity.
  - eexists. split; reflexivity.
  - assert (Wa : cwf a) by apply W. assert (Ca : covered a) by apply C. assert (O := proj1 W).
    assert (P := covered_pos a Wa Ca).
    assert (G : forall g', cweight a < cweight (CUn o a) -> cdim g' = cdim a -> exists h, D a g' = Ok h /\ cdim h = d)
      by (intros g' L; apply IHD; auto).
    destruct o; cbn [cdiff_body]; cbn [cdim un_ok] in Dg, O.
    + rewrite mkU_yes by (cbn [un_ok]; rewrite Dg; exact O). cbn [rbind]. apply G; [cbn [cweight]; lia|auto].
    + destruct (alt_exp_yes a W Ca) as (f & -> & Wf & Cf & Df & L). cbn [rbind]. apply IHD; auto. congruence.
    + destruct (alt_exp1j_yes a Wa Ca) as (f & -> & Wf & Cf & Df & L). cbn [rbind]. apply IHD; auto. congruence.
    + rewrite mkU_yes by reflexivity. cbn [rbind]. apply G; [cbn [cweight]; lia|]. cbn [cdim]. apply even_half in O. lia.
    + rewrite mkU_yes by reflexivity. cbn [rbind]. apply G; [cbn [cweight]; lia|]. cbn [cdim]. apply even_half in O. lia.
    + rewrite mkU_yes by (cbn [un_ok]; rewrite Dg; apply even_mod2). cbn [rbind]. apply G; [cbn [cweight]; lia|].
      cbn [cdim]. rewrite Dg. apply dv2.
    + rewrite mkU_yes by (cbn [un_ok]; rewrite Dg; apply even_mod2). cbn [rbind]. apply G; [cbn [cweight]; lia|].
      cbn [cdim]. rewrite Dg. apply dv2.
    + destruct (alt_sqabs_yes a W Ca) as (f & -> & Wf & Cf & Df & L). cbn [rbind]. apply IHD; auto. congruence.
    + rewrite mkU_yes by (cbn [un_ok]; rewrite Dg; auto). cbn [rbind]. apply G; [cbn [cweight]; lia|]. auto.
    + assert (EV : Nat.even d0 = true) by apply W. apply even_ex in EV as [n ->].
      rewrite mkU_yes by (cbn [un_ok]; rewrite Dg; apply even_mod2). cbn [rbind]. apply G; [cbn [cweight]; lia|].
      cbn [cdim]. apply Nat.eqb_eq in O. auto.
    + assert (L : cweight a < cweight (CUn (RUn u) a)) by (cbn [cweight]; lia).
      assert (U : u = UMinus \/ u <> UMinus) by (destruct u; (left; reflexivity) || (right; discriminate)).
      destruct U as [->|U].
      * destruct (G g L Dg) as (x & -> & X). cbn [rbind]. rewrite mkU_yes by reflexivity. eauto.
      * destruct (cder_yes u a C U P) as (df & E & Df).
        assert (K : exists h, (do df <- cder u a ; cterm D a df g) = Ok h /\ cdim h = d).
        { rewrite E. cbn [rbind]. unfold cterm. destruct (Nat.eqb_spec (cdim df) 1) as [E1|E1].
          - destruct (G g L Dg) as (x & -> & X). cbn [rbind].
            rewrite mkB_yes by (cbn [bin_ok]; unfold real_dims; rewrite E1, X, Nat.min_r by (unfold d; lia); apply orb_true_r).
            eexists. split; [reflexivity|]. cbn [cdim]. unfold d in *. lia.
          - rewrite mkB_yes by (cbn [bin_ok]; rewrite Dg, Df; apply refl_dims). cbn [rbind].
            apply G; auto. cbn [cdim]. lia. }
        destruct u; try contradiction; exact K.
  - assert (Wa : cwf a) by apply W. assert (Wb : cwf b) by apply W. assert (O := proj1 W).
    assert (Ca : covered a) by apply C. assert (Cb : covered b) by apply C.
    assert (La : cweight a < cweight (CBin o a b)) by (destruct o; cbn [cweight]; lia).
    assert (Lb : cweight b < cweight (CBin o a b)) by (destruct o; cbn [cweight]; lia).
    assert (Ga : forall g', cdim g' = cdim a -> exists h, D a g' = Ok h /\ cdim h = d) by (intros g'; apply IHD; auto).
    assert (Gb : forall g', cdim g' = cdim b -> exists h, D b g' = Ok h /\ cdim h = d) by (intros g'; apply IHD; auto).
    assert (B3 : forall n, complex_dims (cdim a) (cdim b) = true -> Nat.max (cdim a) (cdim b) = n ->
      ((cdim a =? 2) && (2 <? cdim b) = true /\ cdim b = n /\ cdim a = 2 /\ 2 < n) \/
      ((cdim a =? 2) && (2 <? cdim b) = false /\ (cdim b =? 2) && (2 <? cdim a) = true /\ cdim a = n /\ cdim b = 2 /\ 2 < n) \/
      ((cdim a =? 2) && (2 <? cdim b) = false /\ (cdim b =? 2) && (2 <? cdim a) = false /\ cdim a = n /\ cdim b = n)).
    { intros n CD N. destruct (cdims _ _ CD) as [k K].
      destruct (Nat.eqb_spec (cdim a) 2), (Nat.ltb_spec 2 (cdim b)), (Nat.eqb_spec (cdim b) 2), (Nat.ltb_spec 2 (cdim a));
        cbn [andb]; lia. }
    destruct o; cbn [cdiff_body]; cbn [cdim bin_ok] in Dg, O.
    + assert (EV : un_ok KSum (cdim g) = true) by (rewrite Dg; apply andb_true_iff in O as [O _]; exact O).
      destruct (B3 _ O eq_refl) as [(-> & X & Y & _)|[(-> & -> & X & Y & _)|(-> & -> & X & Y)]];
        rewrite ?mkU_yes by exact EV; cbn [rbind].
      * apply two; [auto|apply Ga|apply Gb]; cbn [cdim]; congruence.
      * destruct (Ga g ltac:(congruence)) as (x & -> & Dx). cbn [rbind].
        destruct (Gb (CUn KSum g) ltac:(cbn [cdim]; congruence)) as (y & -> & Dy). cbn [rbind].
        destruct (add_dd KAdd x y ltac:(auto) Dx Dy) as [-> Z]. eauto.
      * apply two; [auto|apply Ga|apply Gb]; congruence.
    + assert (EV : un_ok KSum (cdim g) = true) by (rewrite Dg; apply andb_true_iff in O as [O _]; exact O).
      destruct (B3 _ O eq_refl) as [(-> & X & Y & _)|[(-> & -> & X & Y & _)|(-> & -> & X & Y)]];
        rewrite ?mkU_yes by exact EV; cbn [rbind].
      * apply two; [auto|apply Ga|apply Gb]; cbn [cdim]; congruence.
      * destruct (Ga g ltac:(congruence)) as (x & -> & Dx). cbn [rbind].
        destruct (Gb (CUn KSum g) ltac:(cbn [cdim]; congruence)) as (y & -> & Dy). cbn [rbind].
        destruct (add_dd KSub x y ltac:(auto) Dx Dy) as [-> Z]. eauto.
      * apply two; [auto|apply Ga|apply Gb]; congruence.
    + assert (Pa := covered_pos a Wa Ca). assert (Pb := covered_pos b Wb Cb).
      assert (AB : exists na nb, cdim a = 2 * na /\ cdim b = 2 * nb /\ 1 <= na /\ 1 <= nb).
      { destruct (cdims _ _ O) as [k [[X Y]|[[X [Y M]]|[X [Y M]]]]]; [exists k, k|exists 1, k|exists k, 1]; lia. }
      destruct AB as (na & nb & A & B & Ka & Kb).
      rewrite mkU_yes by (cbn [un_ok]; rewrite B; apply even_mod2). cbn [rbind].
      rewrite mkU_yes by (cbn [un_ok]; rewrite A; apply even_mod2). cbn [rbind].
      assert (KK : compatible na nb) by (apply compat_dims; auto; rewrite <- A, <- B; auto).
      assert (Ng : cdim g = 2 * Nat.max na nb) by (rewrite Dg, A, B; apply Nat.mul_max_distr_l).
      rewrite mkB_yes by (cbn [bin_ok cdim]; rewrite B, Ng; apply compat_dims; unfold compatible in *; lia). cbn [rbind].
      rewrite mkB_yes by (cbn [bin_ok cdim]; rewrite A, Ng; apply compat_dims; unfold compatible in *; lia). cbn [rbind].
      destruct (B3 _ O eq_refl) as [(-> & X & Y & _)|[(-> & -> & X & Y & _)|(-> & -> & X & Y)]].
      * rewrite mkU_yes by (cbn [un_ok cdim]; rewrite B, Ng, Nat.mul_max_distr_l; apply even_mod2). cbn [rbind].
        apply two; [auto|apply Ga|apply Gb]; cbn [cdim]; lia.
      * destruct (Ga (CBin KMult (CUn KConj b) g) ltac:(cbn [cdim]; lia)) as (x & -> & Dx). cbn [rbind].
        rewrite mkU_yes by (cbn [un_ok cdim]; rewrite A, Ng, Nat.mul_max_distr_l; apply even_mod2). cbn [rbind].
        destruct (Gb (CUn KSum (CBin KMult (CUn KConj a) g)) ltac:(cbn [cdim]; lia)) as (y & -> & Dy). cbn [rbind].
        destruct (add_dd KAdd x y ltac:(auto) Dx Dy) as [-> Z]. eauto.
      * apply two; [auto|apply Ga|apply Gb]; cbn [cdim]; lia.
    + destruct (alt_realscal_yes a b W Ca Cb) as (f & -> & Wf & Cf & Df & L). cbn [rbind]. apply IHD; auto. congruence.
    + assert (N : cdim a = cdim b) by apply C. rewrite N, Nat.eqb_refl. apply two; [auto|apply Ga|apply Gb]; lia.
    + assert (N : cdim a = cdim b) by apply C. rewrite N, Nat.eqb_refl.
      rewrite mkB_yes by (cbn [bin_ok]; rewrite Dg, N, Nat.max_id; apply refl_dims). cbn [rbind].
      destruct (Ga (CBin RMult b g) ltac:(cbn [cdim]; lia)) as (x & -> & Dx). cbn [rbind].
      rewrite mkB_yes by (cbn [bin_ok]; rewrite Dg, N, Nat.max_id; apply refl_dims). cbn [rbind].
      destruct (Gb (CBin RMult a g) ltac:(cbn [cdim]; lia)) as (y & -> & Dy). cbn [rbind].
      destruct (add_dd RAdd x y ltac:(auto) Dx Dy) as [-> Z]. eauto.
Qed.

Lemma diff_yes : forall n f, cweight f <= n -> succeeds (cDiffTn n i d) f.
Proof.
  induction n as [|n IHn]; intros f L.
  - exfalso. assert (0 < cweight f) by (destruct f as [| | | |[] |[]]; cbn; lia). lia.
  - change (succeeds (cdiff_body (cDiffTn n i d) i d) f). apply body_yes. intros f' L'. apply IHn. lia.
Qed.
End Exists.

Theorem gradient_exists : forall f i m g, cwf f -> covered f -> 1 <= m -> cdim g = cdim f ->
  exists h, cDiffT f i (2 * m) g = Ok h.
Proof.
  intros f i m g W C M Dg. destruct (diff_yes i m M (cweight f) f (le_n _) W C g Dg) as (h & H & _). eauto.
Qed.

(** A variable of odd dimension: the gradients cannot be added. *)
Lemma odd_add : forall d x y, Nat.odd d = true -> cdim x = d -> cdim y = d -> mkB KAdd x y = KErr /\ mkB KSub x y = KErr.
Proof.
  intros d x y O X Y. unfold mkB. cbn [bin_ok]. rewrite X, Y. unfold complex_dims. rewrite Nat.max_id.
  rewrite <- Nat.negb_even in O. destruct (d mod 2 =? 0) eqn:E; [|auto].
  apply mod2_even in E as [m ->]. rewrite ev2 in O. discriminate.
Qed.

Theorem odd_refused : forall n i d o a b g h, Nat.odd d = true -> (o = KAdd \/ o = KSub \/ o = KMult \/ o = KRealScal) ->
  cwf (CBin o a b) -> c_consistent i d (CBin o a b) -> cwf g -> cdim g = cdim (CBin o a b) ->
  cDiffTn n i d (CBin o a b) g <> Ok h.
Proof.
  induction n as [|n IHn]; intros i d o a b g h Od O W C Wg Dg H; [discriminate|].
  cbn [cDiffTn] in H.
  assert (K : forall s p q x y, (s = KAdd \/ s = KSub) -> cwf p -> cwf q -> cdim p = cdim a -> cdim q = cdim b ->
     cDiffTn n i d a p = Ok x -> cDiffTn n i d b q = Ok y -> mkB s x y = Ok h -> False).
  { intros s p q x y S Wp Wq Dp Dq Ex Ey Eh.
    destruct (cDiffTn_ok n i d a p x Ex) as (_ & Dx & _); auto; [apply W|apply C|].
    destruct (cDiffTn_ok n i d b q y Ey) as (_ & Dy & _); auto; [apply W|apply C|].
    destruct (odd_add d x y Od Dx Dy) as [A B]. destruct S as [->| ->]; congruence. }
  assert (Wa : cwf a) by apply W. assert (Wb : cwf b) by apply W.
  Ltac fin s := match goal with
    | K : forall _ _ _ _ _, _, Ea : cDiffTn ?n ?i ?d ?a ?p = Ok ?x, Eb : cDiffTn ?n ?i ?d ?b ?q = Ok ?y, H : mkB s ?x ?y = Ok ?h |- _ =>
        apply (K s p q x y); [auto|cbn [cwf]; auto 10|cbn [cwf]; auto 10|cbn [cdim]; lia|cbn [cdim]; lia|exact Ea|exact Eb|exact H]
    end.
  assert (CD : o <> KRealScal -> complex_dims (cdim a) (cdim b) = true)
    by (intros N; destruct O as [->|[->|[->| ->]]]; try apply W; contradiction).
  destruct O as [->|[->|[->| ->]]]; cbn [cdiff_body] in H; cbn [cdim] in Dg.
  - destruct (cdims _ _ (CD ltac:(discriminate))) as [m M].
    destruct (Nat.eqb_spec (cdim a) 2), (Nat.ltb_spec 2 (cdim b)), (Nat.eqb_spec (cdim b) 2), (Nat.ltb_spec 2 (cdim a));
      cbn [andb] in H; try lia; repeat (bi H);
      repeat match goal with E : mkU _ _ = Ok _ |- _ => apply mkU_ok in E as [-> ?] end;
      fin KAdd.
  - destruct (cdims _ _ (CD ltac:(discriminate))) as [m M].
    destruct (Nat.eqb_spec (cdim a) 2), (Nat.ltb_spec 2 (cdim b)), (Nat.eqb_spec (cdim b) 2), (Nat.ltb_spec 2 (cdim a));
      cbn [andb] in H; try lia; repeat (bi H);
      repeat match goal with E : mkU _ _ = Ok _ |- _ => apply mkU_ok in E as [-> ?] end;
      fin KSub.
  - destruct (cdims _ _ (CD ltac:(discriminate))) as [m M].
    destruct (Nat.eqb_spec (cdim a) 2), (Nat.ltb_spec 2 (cdim b)), (Nat.eqb_spec (cdim b) 2), (Nat.ltb_spec 2 (cdim a));
      cbn [andb] in H; try lia; repeat (bi H);
      repeat match goal with E : mkU _ _ = Ok _ |- _ => apply mkU_ok in E as [-> ?] end;
      repeat match goal with E : mkB KMult _ _ = Ok _ |- _ => apply mkB_ok in E as [-> ?] end;
      fin KAdd.
  - bi H. destruct (alt_realscal_ok i d _ _ _ E W) as (Wf & Df & Cf & _ & _).
    unfold alt_realscal in E. bi E. apply mkB_ok in E as [-> E]. 
    eapply (IHn i d KMult _ _ g h Od); eauto. congruence.
Qed.

(** ** The recursion ends *)

Lemma nf_bind : forall A B (r : res A) (k : A -> res B), r <> OutOfFuel -> (forall a, r = Ok a -> k a <> OutOfFuel) ->
  rbind r k <> OutOfFuel.
Proof. intros A B [a| | |] k N K; cbn; auto; discriminate. Qed.
Lemma nf_mkU : forall o f, mkU o f <> OutOfFuel.
Proof. unfold mkU. intros. destruct (un_ok _ _); discriminate. Qed.
Lemma nf_mkB : forall o f g, mkB o f g <> OutOfFuel.
Proof. unfold mkB. intros. destruct (bin_ok _ _ _); discriminate. Qed.

Ltac nf := repeat first [apply nf_bind; [|intros ? ?] | apply nf_mkU | apply nf_mkB | discriminate].

Lemma nf_cder : forall u a, cder u a <> OutOfFuel.
Proof. intros u a. destruct u; cbn [cder]; nf. Qed.

Ltac inv_mk := repeat match goal with
  | E : rbind _ _ = Ok _ |- _ => bi E
  | E : mkU _ _ = Ok _ |- _ => apply mkU_ok in E as [-> _]
  | E : mkB _ _ _ = Ok _ |- _ => apply mkB_ok in E as [-> _]
  end.

Theorem no_fuel : forall n i d f g, cweight f <= n -> cDiffTn n i d f g <> OutOfFuel.
Proof.
  induction n as [|n IHn]; intros i d f g L.
  - exfalso. assert (0 < cweight f) by (destruct f as [| | | |[] |[]]; cbn; lia). lia.
  - cbn [cDiffTn]. destruct f as [j n'|n'|c|l|o a|o a b]; cbn [cdiff_body]; try discriminate.
    + destruct (_ && _); discriminate.
    + assert (Da : forall g, cweight a < cweight (CUn o a) -> cDiffTn n i d a g <> OutOfFuel) by (intros; apply IHn; lia).
      destruct o; cbn [cweight] in L, Da; try (nf; apply Da; lia).
      * apply nf_bind; [unfold alt_exp; nf|]. intros f E. apply IHn. unfold alt_exp in E. inv_mk. cbn [cweight]. lia.
      * apply nf_bind; [unfold alt_exp1j; nf|]. intros f E. apply IHn. unfold alt_exp1j in E. inv_mk. cbn [cweight]. lia.
      * apply nf_bind; [unfold alt_sqabs; nf|]. intros f E. apply IHn. unfold alt_sqabs in E. inv_mk. cbn [cweight]. lia.
      * assert (K : forall u, (do df <- cder u a ; cterm (cDiffTn n i d) a df g) <> OutOfFuel).
        { intros u'. apply nf_bind; [apply nf_cder|]. intros df _. unfold cterm. destruct (_ =? 1); nf; apply Da; lia. }
        destruct u; try apply K. nf. apply Da; lia.
    + assert (Da : forall g, cweight a < cweight (CBin o a b) -> cDiffTn n i d a g <> OutOfFuel) by (intros; apply IHn; lia).
      assert (Db : forall g, cweight b < cweight (CBin o a b) -> cDiffTn n i d b g <> OutOfFuel) by (intros; apply IHn; lia).
      destruct o; cbn [cweight] in L, Da, Db.
      * destruct (_ && _); [|destruct (_ && _)]; nf; (apply Da || apply Db); lia.
      * destruct (_ && _); [|destruct (_ && _)]; nf; (apply Da || apply Db); lia.
      * nf. destruct (_ && _); [|destruct (_ && _)]; nf; (apply Da || apply Db); lia.
      * apply nf_bind; [unfold alt_realscal; nf|]. intros f E. apply IHn. unfold alt_realscal in E. inv_mk. cbn [cweight]. lia.
      * destruct (_ =? _); nf; (apply Da || apply Db); lia.
      * destruct (_ =? _); nf; (apply Da || apply Db); lia.
Qed.
