(** Proofs for C37. *)

From Coq Require Import ZArith Reals Lia Lra List Bool Arith FunctionalExtensionality.
From Verif Require Import Result Formula GradSpec Calculus ScalarDeriv Tangent SimplifyProofs Adjoint Complex ComplexSpec.
Import ListNotations.
Local Open Scope nat_scope.

(** ** Parity *)

Lemma ev2 : forall q, Nat.even (2 * q) = true.
Proof. intros q. rewrite Nat.even_mul. reflexivity. Qed.
Lemma ev21 : forall q, Nat.even (2 * q + 1) = false.
Proof. intros q. rewrite Nat.even_add, ev2. reflexivity. Qed.
Lemma dv2 : forall q, (2 * q) / 2 = q.
Proof. intros q. rewrite Nat.mul_comm. apply Nat.div_mul. lia. Qed.
Lemma dv21 : forall q, (2 * q + 1) / 2 = q.
Proof. intros q. rewrite (Nat.mul_comm 2 q), Nat.div_add_l by lia. cbn. lia. Qed.
Lemma md2 : forall q, (2 * q) mod 2 = 0.
Proof. intros q. rewrite Nat.mul_comm. apply Nat.mod_mul. lia. Qed.
Lemma md21 : forall q, (2 * q + 1) mod 2 = 1.
Proof. intros q. rewrite Nat.add_comm, Nat.mul_comm, Nat.mod_add by lia. reflexivity. Qed.

Ltac par := rewrite ?ev2, ?ev21, ?dv2, ?dv21, ?md2, ?md21.

Lemma mod2_even : forall n, (n mod 2 =? 0) = true -> exists m, n = 2 * m.
Proof.
  intros n H. apply Nat.eqb_eq in H. exists (n / 2). rewrite (Nat.div_mod_eq n 2) at 1. lia.
Qed.
Lemma even_mod2 : forall m, (2 * m) mod 2 =? 0 = true.
Proof. intros m. rewrite md2. reflexivity. Qed.
Lemma even_ex : forall n, Nat.even n = true -> exists m, n = 2 * m.
Proof. intros n H. apply Nat.even_spec in H as [m H]. eauto. Qed.

Lemma pairs : forall n, n = 2 * (n / 2) \/ n = 2 * (n / 2) + 1.
Proof. intros n. assert (H := Nat.div_mod_eq n 2). assert (n mod 2 < 2) by (apply Nat.mod_upper_bound; lia). lia. Qed.

Lemma rsum_pairs : forall m u, rsum (2 * m) u = rsum m (fun q => (u (2 * q)%nat + u (2 * q + 1)%nat)%R).
Proof.
  intros m u. rewrite Nat.mul_comm, rsum_prod. apply rsum_ext. intros q _. cbn [rsum].
  replace (q * 2 + 0) with (2 * q) by lia. replace (q * 2 + 1) with (2 * q + 1) by lia. ring.
Qed.

Lemma cdims : forall a b, complex_dims a b = true ->
  exists m, (a = 2 * m /\ b = 2 * m) \/ (a = 2 /\ b = 2 * m /\ 1 < m) \/ (b = 2 /\ a = 2 * m /\ 1 < m).
Proof.
  intros a b H. apply andb_true_iff in H as [E H]. apply mod2_even in E as [m E].
  exists m. apply orb_true_iff in H as [H|H]; apply Nat.eqb_eq in H; lia.
Qed.
Lemma cdims_eq : forall m, complex_dims (2 * m) (2 * m) = true.
Proof.
  intros m. unfold complex_dims. rewrite Nat.max_id, md2, (Nat.eqb_refl (2 * m)). reflexivity.
Qed.
Lemma cdims_l : forall m, 1 <= m -> complex_dims 2 (2 * m) = true.
Proof.
  intros m M. unfold complex_dims. rewrite Nat.max_r, Nat.min_l, md2 by lia. rewrite Nat.eqb_refl. apply orb_true_r.
Qed.
Lemma cdims_r : forall m, 1 <= m -> complex_dims (2 * m) 2 = true.
Proof.
  intros m M. unfold complex_dims. rewrite Nat.max_l, Nat.min_r, md2 by lia. rewrite !Nat.eqb_refl. apply orb_true_r.
Qed.

(** ** Values of the complex operations, entry by entry *)

Definition at2 (v : nat -> R) (q : nat) : cx := (v (2 * q), v (2 * q + 1)).
Definition rd (n d q : nat) : nat := if d =? n then q else 0.

Lemma cpos_rd : forall d n q r, (d = n \/ d = 2) -> r < 2 -> n = 2 * (n / 2) ->
  cpos d n (2 * q + r) = 2 * rd (n / 2) (d / 2) q + r.
Proof.
  intros d n q r C R N. unfold cpos, rd. destruct (Nat.eqb_spec d n) as [->|X].
  - rewrite Nat.eqb_refl. auto.
  - destruct C as [C|C]; [contradiction|]. subst d. destruct (Nat.eqb_spec (2 / 2) (n / 2)) as [Y|Y].
    + exfalso. apply X. rewrite N, <- Y. reflexivity.
    + destruct r as [|[|r]]; [| |lia]; rewrite ?Nat.add_0_r; par; reflexivity.
Qed.

Definition cop (o : cbin) : cx -> cx -> cx :=
  match o with KAdd => c_add | KSub => c_sub | _ => c_mul end.

Lemma bin_at : forall o da db x y q, complex_dims da db = true -> (o = KAdd \/ o = KSub \/ o = KMult) ->
  let n := Nat.max da db in
  at2 (cbinV o da db x y) q = cop o (at2 x (rd (n / 2) (da / 2) q)) (at2 y (rd (n / 2) (db / 2) q)).
Proof.
  intros o da db x y q C O n.
  assert (N : n = 2 * (n / 2)).
  { apply andb_true_iff in C as [C _]. apply mod2_even in C as [m C]. fold n in C. rewrite C, dv2. auto. }
  assert (CD : (da = n \/ da = 2) /\ (db = n \/ db = 2)).
  { subst n. destruct (cdims _ _ C) as [m M]. lia. }
  destruct CD as [CA CB].
  assert (A0 := cpos_rd da n q 0 CA ltac:(lia) N). assert (A1 := cpos_rd da n q 1 CA ltac:(lia) N).
  assert (B0 := cpos_rd db n q 0 CB ltac:(lia) N). assert (B1 := cpos_rd db n q 1 CB ltac:(lia) N).
  rewrite !Nat.add_0_r in A0, B0.
  unfold at2. destruct O as [->|[->| ->]]; cbn [cbinV cop]; fold n; par; rewrite A0, A1, B0, B1; reflexivity.
Qed.

Ltac bi H := let x := fresh "x" in let E := fresh "E" in apply rbind_ok in H as (x & E & H).
Lemma mkU_ok : forall o f h, mkU o f = Ok h -> h = CUn o f /\ un_ok o (cdim f) = true.
Proof. unfold mkU. intros o f h H. destruct (un_ok _ _); inversion H; auto. Qed.
Lemma mkB_ok : forall o f g h, mkB o f g = Ok h -> h = CBin o f g /\ bin_ok o (cdim f) (cdim g) = true.
Proof. unfold mkB. intros o f g h H. destruct (bin_ok _ _ _); inversion H; auto. Qed.
Lemma mkU_yes : forall o f, un_ok o (cdim f) = true -> mkU o f = Ok (CUn o f).
Proof. unfold mkU. intros o f ->. reflexivity. Qed.
Lemma mkB_yes : forall o f g, bin_ok o (cdim f) (cdim g) = true -> mkB o f g = Ok (CBin o f g).
Proof. unfold mkB. intros o f g ->. reflexivity. Qed.

(** Division: the quotient times the divisor. *)
Lemma divide_at : forall f g h e q, ComplexDivide f g = Ok h ->
  let n := Nat.max (cdim f) (cdim g) in
  complex_dims (cdim f) (cdim g) = true /\ cdim h = n /\
  let y := at2 (ceval g e) (rd (n / 2) (cdim g / 2) q) in
  (y <> (0, 0)%R -> q < n / 2 -> c_mul (at2 (ceval h e) q) y = at2 (ceval f e) (rd (n / 2) (cdim f / 2) q)).
Proof.
  intros f g h e q H n. unfold ComplexDivide in H.
  bi H. apply mkU_ok in E as [-> Ga]. bi H. apply mkU_ok in E as [-> _]. bi H. apply mkU_ok in E as [-> _].
  bi H. apply mkU_ok in E as [-> _]. bi H. apply mkB_ok in E as [-> M]. apply mkB_ok in H as [-> M'].
  cbn [bin_ok un_ok cdim] in M, M', Ga. split; [exact M|].
  apply mod2_even in Ga as [mg Ga].
  assert (G2 : 2 * (cdim g / 2) = cdim g) by (rewrite Ga, dv2; auto).
  rewrite G2 in M'. fold n in M'. split; [cbn [cdim]; fold n; lia|].
  intros y Y Q.
  assert (N2 : Nat.max (cdim g) n = n) by lia.
  change (ceval (CBin KMult (CUn KR2C (CUn (RUn UInv) (CUn KSqAbs g))) (CBin KMult f (CUn KConj g))) e)
    with (cbinV KMult (2 * (cdim g / 2)) n (ceval (CUn KR2C (CUn (RUn UInv) (CUn KSqAbs g))) e)
            (cbinV KMult (cdim f) (cdim g) (ceval f e) (ceval (CUn KConj g) e))).
  rewrite G2. rewrite (bin_at KMult) by auto. rewrite N2.
  replace (rd (n / 2) (n / 2) q) with q by (unfold rd; rewrite Nat.eqb_refl; auto).
  rewrite (bin_at KMult) by auto. fold n.
  set (qg := rd (n / 2) (cdim g / 2) q) in *. set (qf := rd (n / 2) (cdim f / 2) q) in *.
  assert (R0 : at2 (ceval (CUn KR2C (CUn (RUn UInv) (CUn KSqAbs g))) e) qg
       = (1 / (fst y * fst y + snd y * snd y), 0)%R).
  { unfold at2. cbn [ceval cunV unR cdim]. par. reflexivity. }
  assert (R1 : at2 (ceval (CUn KConj g) e) qg = (fst y, - snd y)%R).
  { unfold at2. cbn [ceval cunV]. par. reflexivity. }
  rewrite R0, R1. destruct y as [y0 y1]. destruct (at2 (ceval f e) qf) as [x0 x1]. cbn [cop c_mul fst snd].
  assert (P : (y0 * y0 + y1 * y1 <> 0)%R).
  { intros Z. apply Y. assert (y0 = 0)%R by nra. assert (y1 = 0)%R by nra. congruence. }
  unfold c_mul. cbn [fst snd]. f_equal; field; exact P.
Qed.

(** ** Operators between LazyTensors, one of them complex *)

(** The formula of a LazyTensor seen as a complex one. *)
Definition cz (t : lt) : cf := if lcx t then lf t else CUn KR2C (lf t).

Lemma cz_dim : forall t, lwf t -> cdim (cz t) = 2 * count t.
Proof.
  intros t (_ & _ & E). unfold cz, count. destruct (lcx t); [|reflexivity].
  destruct (even_ex _ (E eq_refl)) as [m M]. rewrite M, dv2. reflexivity.
Qed.
Lemma cz_at : forall t e q, at2 (ceval (cz t) e) q = entry t e q.
Proof.
  intros t e q. unfold cz, entry, at2, c_real. destruct (lcx t); [reflexivity|].
  cbn [ceval cunV]. par. reflexivity.
Qed.
Lemma cz_wf : forall t, lwf t -> cwf (cz t).
Proof. intros t (W & _). unfold cz. destruct (lcx t); cbn; auto. Qed.

Definition op_of (o : cbin) : lt -> operand -> res operand := match o with KAdd => add | KSub => sub | _ => mul end.
Definition wrap (r : res cf) : res operand := do f <- r ; Ok (OT {| lf := f; lcx := true |}).

Lemma addsub_eq : forall o t u, (o = KAdd \/ o = KSub) -> lcx t || lcx u = true ->
  op_of o t (OT u) = wrap (mkB o (cz t) (cz u)).
Proof.
  intros o [f ct] [g cu] [->| ->] C; cbn [lcx] in C; destruct ct, cu; try discriminate; reflexivity.
Qed.
Lemma div_eq : forall t u, lcx t || lcx u = true -> div t (OT u) = wrap (ComplexDivide (cz t) (cz u)).
Proof. intros [f ct] [g cu] C; cbn [lcx] in C; destruct ct, cu; try discriminate; reflexivity. Qed.

(** Product of a complex LazyTensor with another one. *)
Lemma mulop_eq : forall t u, lcx t = true -> lwf t -> lwf u ->
  mulop false t (OT u) = wrap (if cdim (lf u) =? 1 then mkB KRealScal (lf u) (lf t) else mkB KMult (cz t) (cz u)).
Proof.
  intros [f ct] [g cu] C Wt Wu; cbn [lcx lf] in *; subst ct. unfold mulop, cz. cbn [lcx lf].
  destruct (Nat.eqb_spec (cdim g) 1) as [E|E].
  - unfold binary, ComplexRealScal. cbn [to_lt lf lcx]. rewrite E, Nat.eqb_refl. cbn [negb andb].
    rewrite andb_false_r. cbn [andb]. reflexivity.
  - destruct cu; [reflexivity|]. unfold real2complex. cbn [lcx lf]. rewrite mkU_yes by reflexivity.
    cbn [rbind lf cdim]. destruct (Nat.eqb_spec (2 * cdim g) 1); [lia|]. reflexivity.
Qed.

Lemma spread_rd : forall n t e q, lwf t -> spread n t e q = at2 (ceval (cz t) e) (rd n (cdim (cz t) / 2) q).
Proof. intros n t e q W. rewrite cz_at, cz_dim, dv2 by auto. reflexivity. Qed.

Lemma complex_result : forall o f g v, mkB o f g = Ok v -> (o = KAdd \/ o = KSub \/ o = KMult) ->
  cdim v = Nat.max (cdim f) (cdim g) /\ complex_dims (cdim f) (cdim g) = true /\
  forall e q, at2 (ceval v e) q = cop o (at2 (ceval f e) (rd (cdim v / 2) (cdim f / 2) q))
                                        (at2 (ceval g e) (rd (cdim v / 2) (cdim g / 2) q)).
Proof.
  intros o f g v H O. apply mkB_ok in H as [-> B].
  assert (D : cdim (CBin o f g) = Nat.max (cdim f) (cdim g)) by (destruct O as [->|[->| ->]]; reflexivity).
  assert (C : complex_dims (cdim f) (cdim g) = true) by (destruct O as [->|[->| ->]]; exact B).
  rewrite D. repeat split; auto. intros e q. cbn [ceval]. apply bin_at; auto.
Qed.

Lemma max2 : forall a b, Nat.max (2 * a) (2 * b) / 2 = Nat.max a b.
Proof. intros a b. rewrite Nat.mul_max_distr_l. apply dv2. Qed.

(** What the statements say of a result. *)
Definition result_ok (op : cx -> cx -> cx) (t u : lt) (r : operand) : Prop :=
  exists v, r = OT v /\ lcx v = true /\ lwf v /\ count v = Nat.max (count t) (count u)
  /\ forall e q, q < count v -> entry v e q = op (spread (count v) t e q) (spread (count v) u e q).

Lemma bin_result : forall o t u v, (o = KAdd \/ o = KSub \/ o = KMult) -> lwf t -> lwf u ->
  mkB o (cz t) (cz u) = Ok v -> result_ok (cop o) t u (OT {| lf := v; lcx := true |}).
Proof.
  intros o t u v O Wt Wu H. assert (H' := H). apply mkB_ok in H' as [E B].
  destruct (complex_result _ _ _ _ H O) as (D & C & V). rewrite !cz_dim, ?max2 in D by auto.
  assert (Ct : count {| lf := v; lcx := true |} = Nat.max (count t) (count u)).
  { unfold count at 1. cbn [lcx lf]. rewrite D. apply max2. }
  eexists. split; [reflexivity|]. split; [reflexivity|]. split; [|split; [exact Ct|]].
  - split; [|split].
    + cbn [lf]. rewrite E. cbn [cwf]. auto using cz_wf.
    + rewrite Ct. destruct Wt as (_ & L & _). lia.
    + intros _. cbn [lf]. rewrite D, Nat.mul_max_distr_l. apply ev2.
  - intros e q Q. rewrite !spread_rd by auto. unfold entry at 1. cbn [lcx lf].
    fold (at2 (ceval v e) q). rewrite V. rewrite Ct.
    replace (cdim v / 2) with (Nat.max (count t) (count u)) by (rewrite D, max2; auto). reflexivity.
Qed.

Theorem addsub_ok : forall o t u r, (o = KAdd \/ o = KSub) -> lwf t -> lwf u -> lcx t || lcx u = true ->
  op_of o t (OT u) = Ok r -> result_ok (cop o) t u r.
Proof.
  intros o t u r O Wt Wu C H. rewrite addsub_eq in H by auto. unfold wrap in H. bi H. inversion H; subst r.
  apply bin_result; auto. tauto.
Qed.

Lemma c_mul_comm : forall x y, c_mul x y = c_mul y x.
Proof. intros [a b] [c d]. unfold c_mul. cbn. f_equal; ring. Qed.

Lemma result_sym : forall t u r, result_ok c_mul t u r -> result_ok c_mul u t r.
Proof.
  intros t u r (v & A & B & W & C & V). exists v. repeat split; auto; try apply W.
  - rewrite C. apply Nat.max_comm.
  - intros e q Q. rewrite V, c_mul_comm by auto. reflexivity.
Qed.

Lemma mulop_ok : forall t u r, lcx t = true -> lwf t -> lwf u -> mulop false t (OT u) = Ok r ->
  result_ok c_mul t u r.
Proof.
  intros t u r C Wt Wu H. rewrite mulop_eq in H by auto. unfold wrap in H. bi H. inversion H; subst r. clear H.
  destruct (Nat.eqb_spec (cdim (lf u)) 1) as [U|U]; [|apply (bin_result KMult); auto; tauto].
  apply mkB_ok in E as [-> B]. cbn [bin_ok] in B. apply andb_true_iff in B as [_ B].
  apply mod2_even in B as [m B].
  assert (Cu : lcx u = false).
  { destruct (lcx u) eqn:X; auto. destruct Wu as (_ & L & _). unfold count in L. rewrite X, U in L. cbn in L. lia. }
  assert (Nt : count t = m) by (unfold count; rewrite C, B; apply dv2).
  assert (Nu : count u = 1) by (unfold count; rewrite Cu; auto).
  destruct Wt as (Wt & Lt & Et). destruct Wu as (Wu & Lu & Eu).
  assert (Ct : count {| lf := CBin KRealScal (lf u) (lf t); lcx := true |} = m).
  { unfold count. cbn [lcx lf cdim]. rewrite B. apply dv2. }
  eexists. split; [reflexivity|]. split; [reflexivity|]. rewrite Ct. split; [|split].
  - split; [|split].
    + cbn [lf cwf bin_ok]. rewrite U, B, even_mod2. auto.
    + rewrite Ct. lia.
    + intros _. cbn [lf cdim]. auto.
  - lia.
  - intros e q Q. unfold spread. rewrite Nt, Nat.eqb_refl, Nu.
    replace (if 1 =? m then q else 0) with 0 by (destruct (Nat.eqb_spec 1 m); lia).
    unfold entry, c_real, c_mul. rewrite C, Cu. cbn [lcx lf ceval cbinV fst snd]. f_equal; ring.
Qed.

Theorem mul_ok : forall t u r, lwf t -> lwf u -> lcx t || lcx u = true -> mul t (OT u) = Ok r ->
  result_ok c_mul t u r.
Proof.
  intros t u r Wt Wu C H. unfold mul in H. cbn [scalar_is complex_lt complex_number] in H.
  destruct (lcx t) eqn:Ct.
  - rewrite andb_false_r in H. apply mulop_ok; auto.
  - cbn [orb] in C. rewrite C in H. cbn [orb negb andb to_lt] in H. apply result_sym, mulop_ok; auto.
Qed.

Theorem div_ok : forall t u r, lwf t -> lwf u -> lcx t || lcx u = true -> div t (OT u) = Ok r ->
  exists v, r = OT v /\ lcx v = true /\ lwf v /\ count v = Nat.max (count t) (count u)
  /\ forall e q, q < count v -> spread (count v) u e q <> (0, 0)%R ->
     c_mul (entry v e q) (spread (count v) u e q) = spread (count v) t e q.
Proof.
  intros t u r Wt Wu C H. rewrite div_eq in H by auto. unfold wrap in H. bi H. inversion H; subst r. clear H.
  rename x into v.
  assert (D := fun e q => divide_at _ _ _ e q E). cbn zeta in D.
  destruct (D (fun _ _ => 0%R) 0) as (_ & Dv & _). rewrite !cz_dim in Dv by auto.
  assert (Ct : count {| lf := v; lcx := true |} = Nat.max (count t) (count u)).
  { unfold count at 1. cbn [lcx lf]. rewrite Dv. apply max2. }
  eexists. split; [reflexivity|]. split; [reflexivity|]. split; [|split; [exact Ct|]].
  - split; [|split].
    + cbn [lf]. clear D Dv Ct. unfold ComplexDivide in E.
      bi E. apply mkU_ok in E0 as [-> ?]. bi E. apply mkU_ok in E0 as [-> ?]. bi E. apply mkU_ok in E0 as [-> ?].
      bi E. apply mkU_ok in E0 as [-> ?]. bi E. apply mkB_ok in E0 as [-> ?]. apply mkB_ok in E as [-> ?].
      cbn [cwf]. repeat split; auto using cz_wf.
    + rewrite Ct. destruct Wt as (_ & L & _). lia.
    + intros _. cbn [lf]. rewrite Dv, Nat.mul_max_distr_l. apply ev2.
  - intros e q Q. rewrite !spread_rd by auto. unfold entry at 1. cbn [lcx lf].
    fold (at2 (ceval v e) q). destruct (D e q) as (_ & _ & V). rewrite Ct in *.
    replace (Nat.max (cdim (cz t)) (cdim (cz u)) / 2) with (Nat.max (count t) (count u)) in V
      by (rewrite !cz_dim, max2; auto).
    intros Y. apply V; auto.
Qed.

(** ** Which operands are accepted *)

Definition compatible (a b : nat) : Prop := a = b \/ a = 1 \/ b = 1.

Lemma compat_dims : forall a b, 1 <= a -> 1 <= b -> complex_dims (2 * a) (2 * b) = true <-> compatible a b.
Proof.
  intros a b A B. split.
  - intros H. destruct (cdims _ _ H) as [m M]. unfold compatible. lia.
  - intros [->|[->| ->]]; [apply cdims_eq|apply (cdims_l b)|apply (cdims_r a)]; auto.
Qed.

Lemma wrap_ok : forall r, (exists o, wrap r = Ok o) <-> (exists f, r = Ok f).
Proof.
  intros r. unfold wrap. split; intros [o H].
  - bi H. eauto.
  - rewrite H. cbn. eauto.
Qed.
Lemma mkB_iff : forall o f g, (exists h, mkB o f g = Ok h) <-> bin_ok o (cdim f) (cdim g) = true.
Proof.
  intros. split; [intros [h H]; apply mkB_ok in H; tauto|]. intros H. rewrite mkB_yes; eauto.
Qed.

Lemma mulop_accepts : forall t u, lcx t = true -> lwf t -> lwf u ->
  ((exists r, mulop false t (OT u) = Ok r) <-> compatible (count t) (count u)).
Proof.
  intros t u C Wt Wu. rewrite mulop_eq by auto. rewrite wrap_ok.
  destruct (Nat.eqb_spec (cdim (lf u)) 1) as [U|U].
  - assert (Nu : count u = 1).
    { unfold count. destruct Wu as (_ & L & _). unfold count in L. destruct (lcx u); auto. rewrite U in L. cbn in L. lia. }
    rewrite mkB_iff. cbn [bin_ok]. rewrite U.
    assert (D := cz_dim t Wt). unfold cz in D. rewrite C in D. rewrite D, even_mod2. unfold compatible. rewrite Nu. tauto.
  - rewrite mkB_iff. cbn [bin_ok]. rewrite !cz_dim by auto. apply compat_dims; [apply Wt|apply Wu].
Qed.

Theorem accepts : forall t u, lwf t -> lwf u -> lcx t || lcx u = true ->
  ((exists r, add t (OT u) = Ok r) <-> compatible (count t) (count u))
  /\ ((exists r, sub t (OT u) = Ok r) <-> compatible (count t) (count u))
  /\ ((exists r, mul t (OT u) = Ok r) <-> compatible (count t) (count u))
  /\ ((exists r, div t (OT u) = Ok r) <-> compatible (count t) (count u)).
Proof.
  intros t u Wt Wu C. assert (Pt : 1 <= count t) by apply Wt. assert (Pu : 1 <= count u) by apply Wu.
  assert (K : forall o, (o = KAdd \/ o = KSub) ->
     ((exists r, op_of o t (OT u) = Ok r) <-> compatible (count t) (count u))).
  { intros o O. rewrite addsub_eq by auto. rewrite wrap_ok, mkB_iff.
    destruct O as [->| ->]; cbn [bin_ok]; rewrite !cz_dim by auto; apply compat_dims; auto. }
  split; [apply (K KAdd); auto|]. split; [apply (K KSub); auto|]. split.
  - unfold mul. cbn [scalar_is complex_lt complex_number]. destruct (lcx t) eqn:Ct.
    + rewrite andb_false_r. apply mulop_accepts; auto.
    + cbn [orb] in C. rewrite C. cbn [orb negb andb to_lt]. rewrite mulop_accepts by auto.
      unfold compatible. intuition auto.
  - rewrite div_eq by auto. rewrite wrap_ok. split.
    + intros [f H]. destruct (divide_at _ _ _ (fun _ _ => 0%R) 0 H) as (M & _).
      rewrite !cz_dim in M by auto. apply compat_dims in M; auto.
    + intros H. assert (M : complex_dims (cdim (cz t)) (cdim (cz u)) = true)
        by (rewrite !cz_dim by auto; apply compat_dims; auto).
      unfold ComplexDivide. assert (Du := cz_dim u Wu).
      rewrite mkU_yes by (cbn [un_ok]; rewrite Du; apply even_mod2). cbn [rbind].
      rewrite mkU_yes by reflexivity. cbn [rbind]. rewrite mkU_yes by reflexivity. cbn [rbind].
      rewrite mkU_yes by (cbn [un_ok]; rewrite Du; apply even_mod2). cbn [rbind].
      rewrite mkB_yes by exact M. cbn [rbind]. rewrite mkB_yes; [eauto|].
      cbn [bin_ok cdim]. rewrite Du, dv2, cz_dim, Nat.mul_max_distr_l by auto.
      apply compat_dims; try lia. unfold compatible in *. lia.
Qed.

(** ** Methods of complex LazyTensors *)

Lemma lwf_even : forall t, lwf t -> lcx t = true -> cdim (lf t) = 2 * count t.
Proof. intros t W C. assert (D := cz_dim t W). unfold cz in D. rewrite C in D. exact D. Qed.

Theorem methods : forall t, lwf t -> lcx t = true ->
  gives (l_conj t) true (count t) (fun e q => c_conj (entry t e q))
  /\ gives (l_exp t) true (count t) (fun e q => c_exp (entry t e q))
  /\ gives (minus t) true (count t) (fun e q => c_sub (0, 0)%R (entry t e q))
  /\ gives (l_abs t) false (count t) (fun e q => c_real (c_abs (entry t e q)))
  /\ gives (l_real t) false (count t) (fun e q => c_real (fst (entry t e q)))
  /\ gives (l_imag t) false (count t) (fun e q => c_real (snd (entry t e q)))
  /\ gives (l_sum t) true 1 (fun e q => c_sum (map (entry t e) (seq 0 (count t)))).
Proof.
  intros t W C. assert (D := lwf_even t W C). destruct W as (W & L & E).
  assert (U : (cdim (lf t) mod 2 =? 0) = true) by (rewrite D; apply even_mod2).
  assert (DD : cdim (lf t) / 2 = count t) by (rewrite D; apply dv2).
  assert (EV := E C).
  assert (PE : forall e q, entry t e q = (ceval (lf t) e (2 * q), ceval (lf t) e (2 * q + 1)))
    by (intros; unfold entry; rewrite C; reflexivity).
  assert (G : forall (o : cun) (c : bool) (n : nat) (val : env -> nat -> cx), un_ok o (cdim (lf t)) = true -> (match o with KSumT d => Nat.even d = true | _ => True end) ->
    cdim (CUn o (lf t)) = (if c then 2 * n else n) -> 1 <= n ->
    (forall e q, q < n -> entry {| lf := CUn o (lf t); lcx := c |} e q = val e q) ->
    gives (unary (mkU o) t c) c n val).
  { intros o c n val O KT Dn Ln V. unfold unary. rewrite mkU_yes by auto. cbn [rbind].
    assert (Ct : count {| lf := CUn o (lf t); lcx := c |} = n).
    { unfold count. cbn [lcx lf]. rewrite Dn. destruct c; auto. apply dv2. }
    eexists. split; [reflexivity|]. split; [reflexivity|]. split; [|split; [exact Ct|exact V]].
    split; [cbn [lf cwf]; auto|]. split; [rewrite Ct; auto|]. cbn [lcx lf]. intros ->. rewrite Dn. apply ev2. }
  split; [|split; [|split; [|split; [|split; [|split]]]]].
  - apply G; auto. intros e q Q. rewrite PE. unfold entry, c_conj. cbn [lcx lf ceval cunV fst snd]. par. reflexivity.
  - apply G; auto. intros e q Q. rewrite PE. unfold entry, c_exp. cbn [lcx lf ceval cunV fst snd]. par. reflexivity.
  - unfold minus. rewrite C. apply G; auto. intros e q Q. rewrite PE. unfold entry, c_sub.
    cbn [lcx lf ceval cunV unR fst snd]. f_equal; ring.
  - unfold l_abs, unary, ComplexAbs. rewrite mkU_yes by exact U. cbn [rbind]. rewrite mkU_yes by reflexivity.
    cbn [rbind].
    assert (Ct : count {| lf := CUn (RUn USqrt) (CUn KSqAbs (lf t)); lcx := false |} = count t)
      by (unfold count at 1; cbn [lcx lf cdim]; exact DD).
    eexists. split; [reflexivity|]. split; [reflexivity|]. split; [|split; [exact Ct|]].
    + split; [cbn [lf cwf un_ok]; auto|]. split; [rewrite Ct; auto|]. cbn. discriminate.
    + intros e q Q. rewrite PE. unfold entry, c_real, c_abs. cbn [lcx lf ceval cunV unR fst snd]. f_equal. f_equal. ring.
  - apply G; auto. intros e q Q. rewrite PE. reflexivity.
  - apply G; auto. intros e q Q. rewrite PE. reflexivity.
  - apply G; auto. intros e q Q. replace q with 0 by lia. unfold entry at 1. cbn [lcx lf ceval cunV]. rewrite DD.
    clear - PE. generalize (count t) as n. intros n.
    assert (A : forall m s, c_sum (map (entry t e) (seq s m)) =
      (rsum m (fun i => ceval (lf t) e (2 * (s + i))%nat), rsum m (fun i => ceval (lf t) e (2 * (s + i) + 1)%nat))).
    { induction m as [|m IH]; intros s; [reflexivity|].
      cbn [seq map]. change (c_sum (entry t e s :: map (entry t e) (seq (S s) m)))
        with (c_add (entry t e s) (c_sum (map (entry t e) (seq (S s) m)))).
      rewrite IH, PE. unfold c_add. cbn [fst snd].
      change (S m) with (1 + m). rewrite !rsum_split, !rsum_1, !Nat.add_0_r.
      f_equal; f_equal; apply rsum_ext; intros k _; f_equal; lia. }
    rewrite A. f_equal; apply rsum_ext; intros k _; f_equal; lia.
Qed.

Theorem exp1j_ok : forall t, lwf t -> lcx t = false ->
  gives (l_exp1j t) true (count t) (fun e q => c_exp (c_mul c_i (entry t e q))).
Proof.
  intros t (W & L & E) C. unfold l_exp1j, unary. rewrite C, mkU_yes by reflexivity. cbn [rbind].
  assert (Ct : count {| lf := CUn KExp1j (lf t); lcx := true |} = count t).
  { unfold count. rewrite C. cbn [lcx lf cdim]. apply dv2. }
  eexists. split; [reflexivity|]. split; [reflexivity|]. split; [|split; [exact Ct|]].
  - split; [cbn [lf cwf un_ok]; auto|]. split; [rewrite Ct; auto|]. intros _. cbn [lf cdim]. apply ev2.
  - intros e q Q. unfold entry, c_exp, c_mul, c_i, c_real. rewrite C. cbn [lcx lf ceval cunV fst snd]. par.
    rewrite !Rmult_0_l, Rmult_0_r, Rmult_1_l, Rplus_0_l, Rminus_0_r, exp_0. f_equal; ring.
Qed.

(** ** Real LazyTensors times complex numbers *)

Lemma const_lwf : forall a b, lwf (to_lt (OC a b)).
Proof. intros a b. split; [exact I|]. split; [cbn; lia|]. reflexivity. Qed.

Lemma scalar_true : forall a b v, scalar_is (OC a b) v = true -> a = v /\ b = 0%R.
Proof.
  intros a b v H. cbn in H. destruct (Req_EM_T a v); [|discriminate]. destruct (Req_EM_T b 0); [auto|discriminate].
Qed.

Lemma times_const : forall t u r, count u = 1 -> lwf u -> lwf t -> result_ok c_mul t u r ->
  forall e q, q < count t -> shown r e q = c_mul (entry t e q) (entry u e 0).
Proof.
  intros t u r U Wu Wt (v & -> & _ & _ & Ct & V) e q Q. cbn [shown].
  assert (1 <= count t) by apply Wt.
  rewrite V by lia. unfold spread. rewrite Ct, U, Nat.max_l, Nat.eqb_refl by lia.
  destruct (Nat.eqb_spec 1 (count t)); auto. replace q with 0 by lia. auto.
Qed.

Theorem complex_number_ok : forall t a b, lwf t -> lcx t = false ->
  (exists r, mul t (OC a b) = Ok r /\ forall e q, q < count t -> shown r e q = c_mul (entry t e q) (a, b))
  /\ (exists r, rmul t (OC a b) = Ok r /\ forall e q, q < count t -> shown r e q = c_mul (entry t e q) (a, b)).
Proof.
  intros t a b W C.
  assert (K : forall m, (m = mul \/ m = rmul) ->
    (scalar_is (OC a b) 0 = true -> m t (OC a b) = Ok (ON 0)) /\
    (scalar_is (OC a b) 0 = false -> scalar_is (OC a b) 1 = true -> m t (OC a b) = Ok (OT t)) /\
    (scalar_is (OC a b) 0 = false -> scalar_is (OC a b) 1 = false -> scalar_is (OC a b) (-1) = true ->
       m t (OC a b) = minus t)).
  { intros m [->| ->]; unfold mul, rmul; repeat split.
    - intros ->. auto.
    - intros -> ->. auto.
    - intros -> -> ->. auto.
    - intros ->. auto.
    - intros -> ->. auto.
    - intros -> -> ->. auto. }
  assert (S : forall m, (m = mul \/ m = rmul) ->
     (scalar_is (OC a b) 0 = false -> scalar_is (OC a b) 1 = false -> scalar_is (OC a b) (-1) = false ->
      exists r, m t (OC a b) = Ok r /\ forall e q, q < count t -> shown r e q = c_mul (entry t e q) (a, b)) ->
     exists r, m t (OC a b) = Ok r /\ forall e q, q < count t -> shown r e q = c_mul (entry t e q) (a, b)).
  { intros m M H. destruct (K m M) as (K0 & K1 & K2).
    destruct (scalar_is (OC a b) 0) eqn:S0.
    { exists (ON 0). split; auto. apply scalar_true in S0 as [-> ->]. intros e q Q. cbn [shown].
      unfold c_real, c_mul. cbn [fst snd]. f_equal; ring. }
    destruct (scalar_is (OC a b) 1) eqn:S1.
    { exists (OT t). split; auto. apply scalar_true in S1 as [-> ->]. intros e q Q. cbn [shown].
      destruct (entry t e q). unfold c_mul. cbn [fst snd]. f_equal; ring. }
    destruct (scalar_is (OC a b) (-1)) eqn:S2; [|auto].
    rewrite K2 by auto. unfold minus, unary. rewrite mkU_yes by reflexivity. eexists. split; [reflexivity|].
    apply scalar_true in S2 as [-> ->]. intros e q Q. cbn [shown]. unfold entry, c_mul, c_real. rewrite C.
    cbn [lcx lf ceval cunV unR fst snd]. f_equal; ring. }
  split; apply S; auto; intros S0 S1 S2.
  - unfold mul. rewrite S0, S1, S2, C. cbn [complex_lt complex_number orb negb andb].
    assert (CC : compatible (count (to_lt (OC a b))) (count t)) by (right; left; reflexivity).
    apply mulop_accepts in CC; auto using const_lwf. destruct CC as [r R]. exists r. split; auto.
    assert (X := mulop_ok (to_lt (OC a b)) _ _ eq_refl (const_lwf a b) W R). apply result_sym in X.
    apply (times_const t (to_lt (OC a b))); auto using const_lwf.
  - unfold rmul. rewrite S0, S1, S2, C. cbn [complex_number negb andb]. unfold real2complex. rewrite C.
    rewrite mkU_yes by reflexivity. cbn [rbind]. set (t' := {| lf := CUn KR2C (lf t); lcx := true |}).
    destruct W as (W & L & E).
    assert (Ct : count t' = count t) by (unfold count, t'; rewrite C; cbn [lcx lf cdim]; apply dv2).
    assert (W' : lwf t').
    { split; [cbn; auto|]. split; [rewrite Ct; auto|]. intros _. cbn [t' lf cdim]. apply ev2. }
    assert (CC : compatible (count t') (count (to_lt (OC a b)))) by (right; right; reflexivity).
    apply mulop_accepts in CC; auto using const_lwf. destruct CC as [r R]. exists r. split; auto.
    assert (X := mulop_ok t' _ _ eq_refl W' (const_lwf a b) R). intros e q Q.
    rewrite (times_const t' (to_lt (OC a b)) r) by (auto using const_lwf; lia).
    f_equal. unfold entry, t', c_real. rewrite C. cbn [lcx lf ceval cunV]. par. reflexivity.
Qed.

(** ** What goes wrong *)

(** A complex LazyTensor and a number. *)
Theorem numbers_raise : forall t o, lcx t = true -> match o with OT _ => False | _ => True end ->
  scalar_is o 0 = false -> scalar_is o 1 = false -> scalar_is o (-1) = false ->
  add t o = PyErr /\ radd t o = PyErr /\ sub t o = PyErr /\ rsub t o = PyErr /\
  mul t o = PyErr /\ rmul t o = PyErr /\ div t o = PyErr /\ rdiv t o = PyErr.
Proof.
  intros t o C O S0 S1 S2. unfold add, radd, sub, rsub, mul, rmul, div, rdiv. rewrite S0, S1, S2, C.
  rewrite !andb_false_r. unfold addop, subop, mulop, divop, complex_op. rewrite C.
  destruct o; [contradiction| |]; repeat split.
Qed.

(** Reciprocal and square act on the two parts separately. *)
Theorem parts : forall t, lcx t = true ->
  (exists v, rdiv t (ON 1) = Ok (OT v) /\ lcx v = true /\
     forall e q, entry v e q = (1 / fst (entry t e q), 1 / snd (entry t e q))%R)
  /\ (exists v, square t = Ok (OT v) /\ lcx v = true /\
     forall e q, entry v e q = (fst (entry t e q) * fst (entry t e q), snd (entry t e q) * snd (entry t e q))%R).
Proof.
  intros t C. split.
  - unfold rdiv. cbn [scalar_is]. destruct (Req_EM_T 1 0); [lra|]. destruct (Req_EM_T 1 1); [|lra].
    unfold unary. rewrite mkU_yes by reflexivity. eexists. split; [reflexivity|]. split; [exact C|].
    intros e' q. unfold entry. cbn [lcx lf]. rewrite C. reflexivity.
  - unfold square, unary. rewrite mkU_yes by reflexivity. eexists. split; [reflexivity|]. split; [exact C|].
    intros e' q. unfold entry. cbn [lcx lf]. rewrite C. reflexivity.
Qed.

(** A real LazyTensor plus a complex number that is not zero. *)
Theorem plus_number : forall t a b, lwf t -> lcx t = false -> (a, b) <> (0, 0)%R ->
  (2 < cdim (lf t) -> add t (OC a b) = KErr)
  /\ (cdim (lf t) = 1 -> exists v, add t (OC a b) = Ok (OT v) /\ lcx v = true /\ count v = 1 /\
        forall e, entry v e 0 = (ceval (lf t) e 0 + a, ceval (lf t) e 0 + b)%R)
  /\ (cdim (lf t) = 2 -> exists v, add t (OC a b) = Ok (OT v) /\ lcx v = true /\ count v = 1 /\
        forall e, entry v e 0 = (ceval (lf t) e 0 + a, ceval (lf t) e 1 + b)%R).
Proof.
  intros t a b W C N.
  assert (S : scalar_is (OC a b) 0 = false).
  { destruct (scalar_is (OC a b) 0) eqn:X; auto. apply scalar_true in X as [-> ->]. congruence. }
  assert (A : add t (OC a b) = binary (mkB RAdd) true false None t (OC a b)).
  { unfold add. rewrite S, C. cbn [complex_lt andb]. unfold addop. rewrite C. reflexivity. }
  rewrite A. unfold binary. cbn [to_lt lf lcx cdim List.length]. split; [|split]; intros D.
  - destruct (Nat.eqb_spec (cdim (lf t)) 2); [lia|]. destruct (Nat.eqb_spec (cdim (lf t)) 1); [lia|]. reflexivity.
  - rewrite D. cbn [Nat.eqb negb andb]. rewrite mkB_yes by (cbn [bin_ok cdim List.length]; rewrite D; reflexivity).
    cbn [rbind]. eexists. split; [reflexivity|]. cbn [lcx]. rewrite orb_true_r. split; [reflexivity|].
    unfold count, entry. cbn [lcx lf]. rewrite ?orb_true_r. cbn [cdim List.length ceval cbinV]. rewrite D.
    split; reflexivity.
  - rewrite D. cbn [Nat.eqb negb andb]. rewrite mkB_yes by (cbn [bin_ok cdim List.length]; rewrite D; reflexivity).
    cbn [rbind]. eexists. split; [reflexivity|]. cbn [lcx]. rewrite orb_true_r. split; [reflexivity|].
    unfold count, entry. cbn [lcx lf]. rewrite ?orb_true_r. cbn [cdim List.length ceval cbinV]. rewrite D.
    split; reflexivity.
Qed.
