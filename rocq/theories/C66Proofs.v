(** Proofs for C66: the functions of the R interface. *)

From Coq Require Import ZArith Reals Lra List Bool Ascii String Lia.
From Verif Require C22Proofs.
From Verif Require Import Result BackText Keys KeySpec Aliases AliasSpec Formula Simplify SimplifyProofs Calculus Build Methods MethodsSpec PyRead PyReadSpec C55Proofs
  GenericOps GenericOpsSpec RKeops RKeopsSpec C64Grad RLazy RLazySpec C65Args C65Proofs RMethods RMethodsSpec.
Import ListNotations.
Local Open Scope nat_scope.
Open Scope string_scope.

Lemma vec_name : forall k, "VecMatMult" <> "V" ++ str_int k.
Proof. intros k E. cbn in E. injection E as E. assert (Q := C22Proofs.str_int_has "e" k eq_refl ltac:(discriminate)). rewrite <- E in Q. discriminate Q. Qed.
Ltac op_name := split; [ident|split; [reflexivity|split; [reflexivity|intros ?; split; first [apply vec_name|discriminate]]]].

Definition pos (p : program) : Prop := forall a x v, In (a, x, v) (leaves p) -> 1 <= coordinates v.
Definition fits (env : Formula.env) (place : string -> rindex -> nat) (p : program) (i j : nat) : Prop :=
  forall a x v k, In (a, x, v) (leaves p) -> k < coordinates v -> env (Z.of_nat (place a x)) k = coordinate x v i j k.

(** ** Numbers *)

Lemma total_rsum : forall n v, total n v = rsum n v.
Proof. induction n as [|n IH]; intros v; cbn [total rsum]; [reflexivity|]. now rewrite IH. Qed.
Lemma total_ext : forall n u v, (forall k, k < n -> u k = v k) -> total n u = total n v.
Proof. intros n u v H. etransitivity; [apply total_rsum|]. etransitivity; [|symmetry; apply total_rsum]. now apply rsum_ext. Qed.
Lemma spread_bcv : forall n u v k, (forall l, l < n -> u l = v l) -> (n = 1 \/ k < n) -> bcv n u k = spread n v k.
Proof.
  intros n u v k H L. unfold bcv, spread. destruct (Nat.eqb_spec n 1) as [->|N]; apply H; lia.
Qed.
Lemma trunc_half : forall n, Rtrunc (INR n + / 2) = Z.of_nat n.
Proof.
  intros n. unfold Rtrunc. assert (P := pos_INR n). destruct (Rlt_dec (INR n + / 2) 0); [lra|].
  rewrite INR_IZR_INZ in *. apply Int_part_unique. lra.
Qed.
Lemma half_power : forall x, (0 < x)%R -> Rpower x (1 / 2) = sqrt x.
Proof. intros x H. replace (1 / 2)%R with (/ 2)%R by lra. now apply Rpower_sqrt. Qed.
Lemma minus_half_power : forall x, (0 < x)%R -> Rpower x (- (1 / 2)) = (1 / sqrt x)%R.
Proof. intros x H. rewrite Rpower_Ropp, half_power by exact H. unfold Rdiv. lra. Qed.
Lemma rsqrt_pos : forall x, (0 < x)%R -> Rrsqrt x = (1 / sqrt x)%R.
Proof. intros x H. unfold Rrsqrt. destruct (Req_EM_T x 0); [lra|reflexivity]. Qed.

(** ** Runs *)

Lemma run1 : forall op opts d p z, run (X1 op opts d p) = Ok z ->
  exists x, run p = Ok x /\ z_dim z = match d with Some d => d | None => z_dim x end.
Proof. intros op opts d p z H. cbn [run] in H. apply rbind_inv in H. destruct H as (x & X & H). injection H as <-. exists x. split; [exact X|reflexivity]. Qed.
Lemma run2 : forall op c d p q z, run (X2 op c d p q) = Ok z ->
  exists x y, run p = Ok x /\ run q = Ok y /\ match c with Some c => check2 c (z_dim x) (z_dim y) | None => true end = true /\
    z_dim z = match d with Some d => d | None => Z.max (z_dim x) (z_dim y) end.
Proof.
  intros op c d p q z H. cbn [run] in H. apply rbind_inv in H. destruct H as (x & X & H). apply rbind_inv in H. destruct H as (y & Y & H).
  exists x, y. unfold binaryop in H. destruct (match c with Some _ => _ | None => _ end) eqn:CK; [|discriminate]. injection H as <-. auto.
Qed.
Lemma run_scal : forall p q z, run (XScal p q) = Ok z -> exists x y, run p = Ok x /\ run q = Ok y /\ z_dim x = z_dim y /\ z_dim z = 1%Z.
Proof.
  intros p q z H. cbn [run] in H. apply rbind_inv in H. destruct H as (x & X & H). apply rbind_inv in H. destruct H as (y & Y & H).
  exists x, y. unfold scalar_product in H. apply rbind_inv in H. destruct H as (r & B & H). injection H as <-.
  unfold binaryop in B. destruct (check2 _ _ _) eqn:CK; [|discriminate]. injection B as <-. cbn [check2] in CK. apply Z.eqb_eq in CK. auto.
Qed.
Lemma run3 : forall op p q r z, run (X3 op SameOr1 None p q r) = Ok z ->
  exists x y w, run p = Ok x /\ run q = Ok y /\ run r = Ok w /\ check3 SameOr1 (z_dim x) (z_dim y) (z_dim w) = true /\
    z_dim z = Z.max (z_dim x) (Z.max (z_dim y) (z_dim w)).
Proof.
  intros op p q r z H. cbn [run] in H. apply rbind_inv in H. destruct H as (x & X & H). apply rbind_inv in H. destruct H as (y & Y & H).
  apply rbind_inv in H. destruct H as (w & W & H). exists x, y, w. unfold ternaryop in H. destruct (check3 _ _ _ _) eqn:CK; [|discriminate].
  injection H as <-. auto.
Qed.

(** Broadcasting: each argument has one coordinate or as many as the result. *)
Lemma same_or_one : forall a b, 1 <= a -> 1 <= b -> check2 SameOr1 (Z.of_nat a) (Z.of_nat b) = true ->
  forall k, k < Nat.max a b -> (a = 1 \/ k < a) /\ (b = 1 \/ k < b).
Proof.
  intros a b P1 P2 CK k L. cbn [check2] in CK.
  repeat (apply orb_true_iff in CK; destruct CK as [CK|CK]); apply Z.eqb_eq in CK; lia.
Qed.
Lemma same_or_one3 : forall a b c, 1 <= a -> 1 <= b -> 1 <= c -> check3 SameOr1 (Z.of_nat a) (Z.of_nat b) (Z.of_nat c) = true ->
  forall k, k < Nat.max a (Nat.max b c) -> (a = 1 \/ k < a) /\ (b = 1 \/ k < b) /\ (c = 1 \/ k < c).
Proof.
  intros a b c P1 P2 P3 CK k L. unfold check3 in CK. cbn [unique_dims existsb] in CK. rewrite !orb_false_r in CK.
  repeat match type of CK with context [Z.eqb ?x ?y] => destruct (Z.eqb_spec x y) end; cbn in CK; try discriminate; lia.
Qed.

(** ** The claim *)

Definition meant (c : call) (p : program) (z : lazy_tensor) : Prop :=
  usual p /\ operations p /\ z_dim z = Z.of_nat (size c) /\ 1 <= size c /\
  forall place F env i j, as_formula (term_of place p) = Some F -> fits env place p i j ->
    dim F = size c /\ (defined c i j -> forall k, k < size c -> eval F env k = value c i j k).

Lemma meant1 : forall f c p x z, meant c p x -> run p = Ok x -> run (X1 (fst (fun1_op f)) [] (snd (fun1_op f)) p) = Ok z ->
  meant (C1 f c) (X1 (fst (fun1_op f)) [] (snd (fun1_op f)) p) z.
Proof.
  intros f c p x z (U & O & DX & P & V) X H. destruct (run1 _ _ _ _ _ H) as (x' & X' & DZ). rewrite X in X'. injection X' as <-.
  split. { cbn [usual]. split; [|exact U]. destruct f; cbn [fun1_op fst snd]; try (left; split; [reflexivity|split; [(left; discriminate) || (right; reflexivity)|reflexivity]]);
    right; left; (split; [reflexivity|split; [cbn; auto|reflexivity]]). }
  split. { cbn [operations]. split; [|exact O]. destruct f; cbn [fun1_op fst]; op_name. }
  split. { rewrite DZ. destruct f; cbn [fun1_op snd size]; auto. }
  split. { destruct f; cbn [size]; lia. }
  intros place F env i j AF FI. cbn [term_of as_formula] in AF. destruct (as_formula (term_of place p)) as [G|] eqn:AG; [|discriminate].
  destruct (V place G env i j AG FI) as [DG VG].
  assert (SQ : forall n, defined c i j -> n <= size c -> rsum n (fun k => (eval G env k * eval G env k)%R) = total n (fun k => (value c i j k ^ 2)%R)).
  { intros n DF L. etransitivity; [|symmetry; apply total_rsum]. apply rsum_ext. intros k Hk. rewrite VG by (auto; lia). cbn. lra. }
  split.
  { destruct f; cbn in AF; injection AF as <-; cbn [dim sqnorm size]; try exact DG; try reflexivity. rewrite DG. lia. }
  intros [DF DO] k L.
  destruct f; cbn in AF; injection AF as <-; cbn [size] in L; cbn [value math1 eval unR sqnorm linR bilR dim]; try specialize (DO k L); cbn [domain1] in DO;
    rewrite ?DG.
  all: try (rewrite (VG DF k L); cbn; try reflexivity; try lra; fail).
  - rewrite (VG DF k L). now rewrite rsqrt_pos.
  - rewrite (VG DF k L). unfold Rsign. destruct (Rlt_dec 0 (value c i j k)), (Rlt_dec (value c i j k) 0); lra.
  - rewrite (VG DF k L). unfold Rrelu. destruct (Rlt_dec (value c i j k) 0); [rewrite Rmax_left by lra|rewrite Rmax_right by lra]; reflexivity.
  - cbn [binR]. unfold bcv at 1. cbn [dim Nat.eqb]. rewrite SQ by auto. rewrite rsqrt_pos by exact DO.
    replace (bcv (size c) (eval G env) k) with (value c i j k); [unfold Rdiv; lra|].
    unfold bcv. destruct (Nat.eqb_spec (size c) 1); rewrite VG; auto; f_equal; lia.
  - now apply SQ.
  - f_equal. now apply SQ.
  - etransitivity; [|symmetry; apply total_rsum]. apply rsum_ext. intros l Hl. now apply VG.
Qed.

Lemma meant_dim : forall c p z, meant c p z -> z_dim z = Z.of_nat (size c).
Proof. intros c p z H. apply H. Qed.

Section Two.
  Variables (c d : call) (p q : program) (x y : lazy_tensor).
  Hypothesis HC : meant c p x.
  Hypothesis HD : meant d q y.
  Hypothesis X : run p = Ok x.
  Hypothesis Y : run q = Ok y.

  (** Element by element. *)
  Lemma meant_bin : forall f op b z, In (f, op, b) [(Fadd, "Add", BAdd); (Fsub, "Subtract", BSub); (Fmul, "Mult", BMult); (Fdiv, "Divide", BDiv)] ->
    run (X2 op (Some SameOr1) None p q) = Ok z -> meant (C2 f c d) (X2 op (Some SameOr1) None p q) z.
  Proof.
    intros f op b z I H. destruct HC as (U & O & DX & P & V). destruct HD as (U' & O' & DY & P' & V').
    destruct (run2 _ _ _ _ _ _ H) as (x' & y' & X' & Y' & CK & DZ). rewrite X in X'. injection X' as <-. rewrite Y in Y'. injection Y' as <-.
    rewrite DX, DY in CK.
    assert (S : size (C2 f c d) = Nat.max (size c) (size d)) by (destruct I as [E|[E|[E|[E|[]]]]]; injection E as <- <- <-; reflexivity).
    unfold meant. rewrite S.
    split. { cbn [usual]. split; [left|auto]. split; [reflexivity|]. split; [left|reflexivity].
      destruct I as [E|[E|[E|[E|[]]]]]; injection E as <- <- <-; discriminate. }
    split. { cbn [operations]. split; [|auto]. destruct I as [E|[E|[E|[E|[]]]]]; injection E as <- <- <-; op_name. }
    split; [rewrite DZ; lia|]. split; [lia|].
    intros place F env i j AF FI.
    assert (FP : fits env place p i j) by (intros a t v k J; apply FI; cbn [leaves]; apply in_or_app; now left).
    assert (FQ : fits env place q i j) by (intros a t v k J; apply FI; cbn [leaves]; apply in_or_app; now right).
    assert (E : exists G K, as_formula (term_of place p) = Some G /\ as_formula (term_of place q) = Some K /\ F = Bin b G K).
    { destruct I as [E|[E|[E|[E|[]]]]]; injection E as <- <- <-; cbn in AF;
        (destruct (as_formula (term_of place p)) as [G|]; [|discriminate]); (destruct (as_formula (term_of place q)) as [K|]; [|discriminate]);
        injection AF as <-; exists G, K; auto. }
    destruct E as (G & K & AG & AK & ->). destruct (V place G env i j AG FP) as [DG VG]. destruct (V' place K env i j AK FQ) as [DK VK].
    split; [cbn [dim]; now rewrite DG, DK|]. intros (D1 & D2 & _) k L. cbn [eval]. rewrite DG, DK.
    destruct (same_or_one _ _ P P' CK k L) as [L1 L2].
    rewrite (spread_bcv _ _ _ _ (VG D1) L1), (spread_bcv _ _ _ _ (VK D2) L2).
    destruct I as [E|[E|[E|[E|[]]]]]; injection E as <- <- <-; reflexivity.
  Qed.

  Lemma meant_powf : forall z, (forall n, d <> CInt n) -> run (X2 "Powf" (Some SameOr1) None p q) = Ok z ->
    meant (C2 Fpow c d) (X2 "Powf" (Some SameOr1) None p q) z.
  Proof.
    intros z N H. destruct HC as (U & O & DX & P & V). destruct HD as (U' & O' & DY & P' & V').
    destruct (run2 _ _ _ _ _ _ H) as (x' & y' & X' & Y' & CK & DZ). rewrite X in X'. injection X' as <-. rewrite Y in Y'. injection Y' as <-.
    rewrite DX, DY in CK.
    assert (S : size (C2 Fpow c d) = Nat.max (size c) (size d)) by (destruct d; try reflexivity; now destruct (N n)).
    unfold meant. rewrite S.
    split. { cbn [usual]. split; [left|auto]. auto. }
    split. { cbn [operations]. split; [op_name|auto]. }
    split; [rewrite DZ; lia|]. split; [lia|].
    intros place F env i j AF FI.
    assert (FP : fits env place p i j) by (intros a t v k J; apply FI; cbn [leaves]; apply in_or_app; now left).
    assert (FQ : fits env place q i j) by (intros a t v k J; apply FI; cbn [leaves]; apply in_or_app; now right).
    cbn in AF. destruct (as_formula (term_of place p)) as [G|] eqn:AG; [|discriminate]. destruct (as_formula (term_of place q)) as [K|] eqn:AK; [|discriminate].
    injection AF as <-. destruct (V place G env i j AG FP) as [DG VG]. destruct (V' place K env i j AK FQ) as [DK VK].
    split; [cbn [dim]; now rewrite DG, DK|]. intros (D1 & D2 & _) k L. cbn [eval]. rewrite DG, DK.
    destruct (same_or_one _ _ P P' CK k L) as [L1 L2].
    rewrite (spread_bcv _ _ _ _ (VG D1) L1), (spread_bcv _ _ _ _ (VK D2) L2).
    destruct d; try reflexivity. now destruct (N n).
  Qed.

  Lemma meant_atan2 : forall z, run (X2 "Atan2" (Some Same) None p q) = Ok z -> meant (C2 Fatan2 c d) (X2 "Atan2" (Some Same) None p q) z.
  Proof.
    intros z H. destruct HC as (U & O & DX & P & V). destruct HD as (U' & O' & DY & P' & V').
    destruct (run2 _ _ _ _ _ _ H) as (x' & y' & X' & Y' & CK & DZ). rewrite X in X'. injection X' as <-. rewrite Y in Y'. injection Y' as <-.
    cbn [check2] in CK. apply Z.eqb_eq in CK. assert (E : size c = size d) by lia.
    split. { cbn [usual]. split; [right; left; auto|auto]. }
    split. { cbn [operations]. split; [op_name|auto]. }
    cbn [size]. split; [rewrite DZ; lia|]. split; [lia|].
    intros place F env i j AF FI.
    assert (FP : fits env place p i j) by (intros a t v k J; apply FI; cbn [leaves]; apply in_or_app; now left).
    assert (FQ : fits env place q i j) by (intros a t v k J; apply FI; cbn [leaves]; apply in_or_app; now right).
    cbn in AF. destruct (as_formula (term_of place p)) as [G|] eqn:AG; [|discriminate]. destruct (as_formula (term_of place q)) as [K|] eqn:AK; [|discriminate].
    injection AF as <-. destruct (V place G env i j AG FP) as [DG VG]. destruct (V' place K env i j AK FQ) as [DK VK].
    split; [cbn [dim]; now rewrite DG, DK|]. intros (D1 & D2 & _) k L. cbn [eval value]. rewrite DG, DK.
    rewrite (spread_bcv _ _ _ k (VG D1)), (spread_bcv _ _ _ k (VK D2)) by lia.
    replace (spread (size c) (value c i j) k) with (value c i j k) by (unfold spread; destruct (Nat.eqb_spec (size c) 1); [f_equal; lia|reflexivity]).
    replace (spread (size d) (value d i j) k) with (value d i j k) by (unfold spread; destruct (Nat.eqb_spec (size d) 1); [f_equal; lia|reflexivity]).
    destruct d; reflexivity.
  Qed.

  Lemma meant_dot : forall z, run (XScal p q) = Ok z -> meant (C2 Fdot c d) (XScal p q) z.
  Proof.
    intros z H. destruct HC as (U & O & DX & P & V). destruct HD as (U' & O' & DY & P' & V').
    destruct (run_scal _ _ _ H) as (x' & y' & X' & Y' & CK & DZ). rewrite X in X'. injection X' as <-. rewrite Y in Y'. injection Y' as <-.
    assert (E : size c = size d) by lia.
    split; [split; auto|]. split; [split; auto|]. split; [exact DZ|]. split; [cbn [size]; lia|].
    intros place F env i j AF FI.
    assert (FP : fits env place p i j) by (intros a t v k J; apply FI; cbn [leaves]; apply in_or_app; now left).
    assert (FQ : fits env place q i j) by (intros a t v k J; apply FI; cbn [leaves]; apply in_or_app; now right).
    cbn in AF. destruct (as_formula (term_of place p)) as [G|] eqn:AG; [|discriminate]. destruct (as_formula (term_of place q)) as [K|] eqn:AK; [|discriminate].
    injection AF as <-. destruct (V place G env i j AG FP) as [DG VG]. destruct (V' place K env i j AK FQ) as [DK VK].
    split; [reflexivity|]. intros (D1 & D2 & _) k L. cbn [eval bilR]. rewrite DG.
    replace (value (C2 Fdot c d) i j k) with (total (size c) (fun l => (value c i j l * value d i j l)%R)) by (destruct d; reflexivity).
    etransitivity; [|symmetry; apply total_rsum]. apply rsum_ext. intros l Hl. rewrite VG, VK; auto. lia.
  Qed.

  Lemma meant_sqdist : forall z, run (X2 "SqDist" (Some SameOr1) (Some 1%Z) p q) = Ok z ->
    meant (C2 Fsqdist c d) (X2 "SqDist" (Some SameOr1) (Some 1%Z) p q) z.
  Proof.
    intros z H. destruct HC as (U & O & DX & P & V). destruct HD as (U' & O' & DY & P' & V').
    destruct (run2 _ _ _ _ _ _ H) as (x' & y' & X' & Y' & CK & DZ). rewrite X in X'. injection X' as <-. rewrite Y in Y'. injection Y' as <-.
    rewrite DX, DY in CK.
    split. { cbn [usual]. split; [right; right; left; auto|auto]. }
    split. { cbn [operations]. split; [op_name|auto]. }
    split; [exact DZ|]. split; [cbn [size]; lia|].
    intros place F env i j AF FI.
    assert (FP : fits env place p i j) by (intros a t v k J; apply FI; cbn [leaves]; apply in_or_app; now left).
    assert (FQ : fits env place q i j) by (intros a t v k J; apply FI; cbn [leaves]; apply in_or_app; now right).
    cbn in AF. destruct (as_formula (term_of place p)) as [G|] eqn:AG; [|discriminate]. destruct (as_formula (term_of place q)) as [K|] eqn:AK; [|discriminate].
    injection AF as <-. destruct (V place G env i j AG FP) as [DG VG]. destruct (V' place K env i j AK FQ) as [DK VK].
    split; [reflexivity|]. intros (D1 & D2 & _) k L. cbn [eval sqnorm linR dim]. rewrite DG, DK.
    replace (value (C2 Fsqdist c d) i j k) with
      (total (Nat.max (size c) (size d)) (fun l => ((spread (size c) (value c i j) l - spread (size d) (value d i j) l) ^ 2)%R)) by (destruct d; reflexivity).
    etransitivity; [|symmetry; apply total_rsum]. apply rsum_ext. intros l Hl. destruct (same_or_one _ _ P P' CK l Hl) as [L1 L2]. cbn [unR binR].
    rewrite (spread_bcv _ _ _ _ (VG D1) L1), (spread_bcv _ _ _ _ (VK D2) L2). cbn. lra.
  Qed.

  Lemma meant_tensorprod : forall z, run (X2 "TensorProd" None (Some (z_dim x * z_dim y)%Z) p q) = Ok z ->
    meant (C2 Ftensorprod c d) (X2 "TensorProd" None (Some (z_dim x * z_dim y)%Z) p q) z.
  Proof.
    intros z H. destruct HC as (U & O & DX & P & V). destruct HD as (U' & O' & DY & P' & V').
    destruct (run2 _ _ _ _ _ _ H) as (x' & y' & X' & Y' & _ & DZ). rewrite X in X'. injection X' as <-. rewrite Y in Y'. injection Y' as <-.
    split. { cbn [usual]. split; [|auto]. right; right; right; right; left. exists (z_dim x), (z_dim y).
      split; [reflexivity|]. split; [reflexivity|]. split; [exists x; auto|]. split; [exists y; auto|reflexivity]. }
    split. { cbn [operations]. split; [op_name|auto]. }
    cbn [size]. split; [rewrite DZ; lia|]. split; [nia|].
    intros place F env i j AF FI.
    assert (FP : fits env place p i j) by (intros a t v k J; apply FI; cbn [leaves]; apply in_or_app; now left).
    assert (FQ : fits env place q i j) by (intros a t v k J; apply FI; cbn [leaves]; apply in_or_app; now right).
    cbn in AF. destruct (as_formula (term_of place p)) as [G|] eqn:AG; [|discriminate]. destruct (as_formula (term_of place q)) as [K|] eqn:AK; [|discriminate].
    injection AF as <-. destruct (V place G env i j AG FP) as [DG VG]. destruct (V' place K env i j AK FQ) as [DK VK].
    split; [cbn [dim]; now rewrite DG, DK|]. intros (D1 & D2 & _) k L. cbn [eval bilR]. rewrite DK.
    replace (value (C2 Ftensorprod c d) i j k) with (value c i j (k / size d) * value d i j (k mod size d))%R by (destruct d; reflexivity).
    rewrite VG, VK; auto; [apply Nat.mod_upper_bound; lia|apply Nat.div_lt_upper_bound; nia].
  Qed.

  Lemma meant_wsqnorm : forall z, weights (size c) (size d) -> run (X2 "WeightedSqNorm" None (Some 1%Z) q p) = Ok z ->
    meant (C2 Fwsqnorm c d) (X2 "WeightedSqNorm" None (Some 1%Z) q p) z.
  Proof.
    intros z WT H. destruct HC as (U & O & DX & P & V). destruct HD as (U' & O' & DY & P' & V').
    destruct (run2 _ _ _ _ _ _ H) as (y' & x' & Y' & X' & _ & DZ). rewrite X in X'. injection X' as <-. rewrite Y in Y'. injection Y' as <-.
    split. { cbn [usual]. split; [|auto]. right; right; right; left. exists (z_dim y), (z_dim x).
      split; [reflexivity|]. split; [reflexivity|]. split; [exists y; auto|]. split; [exists x; auto|]. split; [|reflexivity].
      unfold weights in WT. rewrite DX, DY. nia. }
    split. { cbn [operations]. split; [op_name|auto]. }
    split; [exact DZ|]. split; [cbn [size]; lia|].
    intros place F env i j AF FI.
    assert (FP : fits env place p i j) by (intros a t v k J; apply FI; cbn [leaves]; apply in_or_app; now right).
    assert (FQ : fits env place q i j) by (intros a t v k J; apply FI; cbn [leaves]; apply in_or_app; now left).
    cbn in AF. destruct (as_formula (term_of place q)) as [K|] eqn:AK; [|discriminate]. destruct (as_formula (term_of place p)) as [G|] eqn:AG; [|discriminate].
    destruct (V place G env i j AG FP) as [DG VG]. destruct (V' place K env i j AK FQ) as [DK VK]. rewrite DK, DG in AF.
    replace (value (C2 Fwsqnorm c d) i j) with (math2 Fwsqnorm (size c) (size d) (value c i j) (value d i j)) by (destruct d; reflexivity).
    cbn [math2 size].
    destruct (Nat.eqb_spec (size d) 1) as [E|E]; [|destruct (Nat.eqb_spec (size d) (size c)) as [E'|E']]; injection AF as <-.
    - cbn [dim sqnorm]. rewrite DK, E. split; [reflexivity|]. intros (D1 & D2 & _) k L. cbn [eval binR linR dim sqnorm]. rewrite DK, E. unfold bcv. cbn [Nat.eqb eval linR dim]. rewrite DG.
      rewrite VK by (auto; lia). f_equal. etransitivity; [|symmetry; apply total_rsum]. apply rsum_ext. intros l Hl. cbn [unR]. rewrite VG by auto. cbn. lra.
    - split; [reflexivity|]. intros (D1 & D2 & _) k L. cbn [eval linR dim]. rewrite ?DK, ?DG, E', Nat.max_id.
      etransitivity; [|symmetry; apply total_rsum]. apply rsum_ext. intros l Hl. cbn [binR unR eval]. unfold bcv.
      destruct (Nat.eqb_spec (size c) 1); [lia|]. rewrite VG, VK by (auto; lia). cbn. lra.
    - split; [reflexivity|]. intros (D1 & D2 & _) k L. assert (S : size d = size c * size c) by (destruct WT as [W|[W|W]]; lia).
      cbn [eval linR dim]. rewrite DK, DG, S, Nat.max_id.
      etransitivity; [|symmetry; apply total_rsum]. apply rsum_ext. intros l Hl. cbn [binR]. unfold bcv.
      destruct (Nat.eqb_spec (size c * size c) 1); [lia|]. cbn [eval bilR]. rewrite ?DG. rewrite VK by (auto; lia). rewrite !VG; auto;
        [apply Nat.mod_upper_bound; lia|apply Nat.div_lt_upper_bound; lia].
  Qed.

  Lemma meant_matvec : forall z, (z_dim x =? z_dim y)%Z || (z_dim y =? 1)%Z = true ->
    let dr := if (z_dim y =? 1)%Z then z_dim x else 1%Z in
    run (X2 "MatVecMult" (Some SameOr1) (Some dr) p q) = Ok z -> meant (C2 Fmatvec c d) (X2 "MatVecMult" (Some SameOr1) (Some dr) p q) z.
  Proof.
    intros z CH dr H. destruct HC as (U & O & DX & P & V). destruct HD as (U' & O' & DY & P' & V').
    destruct (run2 _ _ _ _ _ _ H) as (x' & y' & X' & Y' & _ & DZ). rewrite X in X'. injection X' as <-. rewrite Y in Y'. injection Y' as <-.
    assert (Q : size d = 1 /\ dr = z_dim x \/ size d <> 1 /\ size c = size d /\ dr = 1%Z).
    { unfold dr. apply orb_true_iff in CH. rewrite !Z.eqb_eq in CH. destruct (Z.eqb_spec (z_dim y) 1); [left|right]; lia. }
    clearbody dr.
    split. { cbn [usual]. split; [|auto]. right; right; right; right; right; left. exists (z_dim x).
      split; [reflexivity|]. split; [reflexivity|]. split; [exists x; auto|].
      destruct Q as [[Q ->]|(Q & E & ->)]; [right|left]; (split; [exists y; split; [exact Y|lia]|reflexivity]). }
    split. { cbn [operations]. split; [op_name|auto]. }
    cbn [size].
    assert (S : (if Nat.eqb (size d) 1 then size c else 1) = Z.to_nat dr /\ (1 <= dr)%Z).
    { destruct Q as [[Q ->]|(Q & E & ->)]; [rewrite (proj2 (Nat.eqb_eq _ _) Q)|rewrite (proj2 (Nat.eqb_neq _ _) Q)]; lia. }
    destruct S as [S S1]. rewrite S. split; [rewrite DZ; lia|]. split; [lia|].
    intros place F env i j AF FI.
    assert (FP : fits env place p i j) by (intros a t v k J; apply FI; cbn [leaves]; apply in_or_app; now left).
    assert (FQ : fits env place q i j) by (intros a t v k J; apply FI; cbn [leaves]; apply in_or_app; now right).
    cbn in AF. destruct (as_formula (term_of place p)) as [G|] eqn:AG; [|discriminate]. destruct (as_formula (term_of place q)) as [K|] eqn:AK; [|discriminate].
    injection AF as <-. destruct (V place G env i j AG FP) as [DG VG]. destruct (V' place K env i j AK FQ) as [DK VK].
    replace (value (C2 Fmatvec c d) i j) with
      (fun k => if Nat.eqb (size d) 1 then (value c i j k * value d i j 0)%R else total (size c) (fun l => (value c i j l * value d i j l)%R)) by (destruct d; reflexivity).
    cbn [dim eval bilR]. rewrite DG, DK.
    destruct Q as [[Q ->]|(Q & E & ->)].
    - rewrite Q, Nat.div_1_r in *. cbn [Nat.eqb]. split; [lia|]. intros (D1 & D2 & _) k L. cbn [rsum]. rewrite VG, VK by (auto; lia).
      rewrite Nat.mul_1_r, Nat.add_0_r. lra.
    - rewrite (proj2 (Nat.eqb_neq _ _) Q), E, Nat.div_same by lia. split; [reflexivity|]. intros (D1 & D2 & _) k L.
      assert (K0 : k = 0) by lia. subst k. etransitivity; [|symmetry; apply total_rsum]. apply rsum_ext. intros l Hl. rewrite VG, VK by (auto; lia). reflexivity.
  Qed.
  Lemma meant_vecmat : forall z, (z_dim y =? z_dim x)%Z || (z_dim x =? 1)%Z = true ->
    let dr := if (z_dim x =? 1)%Z then z_dim y else 1%Z in
    run (X2 "VecMatMult" (Some SameOr1) (Some dr) p q) = Ok z -> meant (C2 Fvecmat c d) (X2 "VecMatMult" (Some SameOr1) (Some dr) p q) z.
  Proof.
    intros z CH dr H. destruct HC as (U & O & DX & P & V). destruct HD as (U' & O' & DY & P' & V').
    destruct (run2 _ _ _ _ _ _ H) as (x' & y' & X' & Y' & _ & DZ). rewrite X in X'. injection X' as <-. rewrite Y in Y'. injection Y' as <-.
    assert (Q : size c = 1 /\ dr = z_dim y \/ size c <> 1 /\ size c = size d /\ dr = 1%Z).
    { unfold dr. apply orb_true_iff in CH. rewrite !Z.eqb_eq in CH. destruct (Z.eqb_spec (z_dim x) 1); [left|right]; lia. }
    clearbody dr.
    split. { cbn [usual]. split; [|auto]. right; right; right; right; right; right. exists (z_dim y).
      split; [reflexivity|]. split; [reflexivity|]. split; [exists y; auto|].
      destruct Q as [[Q ->]|(Q & E & ->)]; [right|left]; (split; [exists x; split; [exact X|lia]|reflexivity]). }
    split. { cbn [operations]. split; [op_name|auto]. }
    cbn [size].
    assert (S : (if Nat.eqb (size c) 1 then size d else 1) = Z.to_nat dr /\ (1 <= dr)%Z).
    { destruct Q as [[Q ->]|(Q & E & ->)]; [rewrite (proj2 (Nat.eqb_eq _ _) Q)|rewrite (proj2 (Nat.eqb_neq _ _) Q)]; lia. }
    destruct S as [S S1]. rewrite S. split; [rewrite DZ; lia|]. split; [lia|].
    intros place F env i j AF FI.
    assert (FP : fits env place p i j) by (intros a t v k J; apply FI; cbn [leaves]; apply in_or_app; now left).
    assert (FQ : fits env place q i j) by (intros a t v k J; apply FI; cbn [leaves]; apply in_or_app; now right).
    cbn in AF. destruct (as_formula (term_of place p)) as [G|] eqn:AG; [|discriminate]. destruct (as_formula (term_of place q)) as [K|] eqn:AK; [|discriminate].
    injection AF as <-. destruct (V place G env i j AG FP) as [DG VG]. destruct (V' place K env i j AK FQ) as [DK VK].
    replace (value (C2 Fvecmat c d) i j) with
      (fun k => if Nat.eqb (size c) 1 then (value c i j 0 * value d i j k)%R else total (size d) (fun l => (value c i j l * value d i j l)%R)) by (destruct d; reflexivity).
    cbn [dim eval bilR]. rewrite DG, DK.
    destruct Q as [[Q ->]|(Q & E & ->)].
    - rewrite Q, Nat.div_1_r in *. cbn [Nat.eqb]. split; [lia|]. intros (D1 & D2 & _) k L. cbn [rsum]. rewrite VG, VK by (auto; lia).
      cbn [Nat.mul Nat.add]. lra.
    - rewrite (proj2 (Nat.eqb_neq _ _) Q), E, Nat.div_same by lia. split; [reflexivity|]. intros (D1 & D2 & _) k L.
      assert (K0 : k = 0) by lia. subst k. etransitivity; [|symmetry; apply total_rsum]. apply rsum_ext. intros l Hl. rewrite Nat.mul_1_r, Nat.add_0_r.
      rewrite VG, VK by (auto; lia). lra.
  Qed.
End Two.

Lemma meant3 : forall f op t c d e p q r x y w z, meant c p x -> meant d q y -> meant e r w -> run p = Ok x -> run q = Ok y -> run r = Ok w ->
  In (f, op, t) [(Fclamp, "Clamp", TClamp); (Fifelse, "IfElse", TIfElse); (Fmod, "Mod", TMod)] ->
  run (X3 op SameOr1 None p q r) = Ok z -> meant (C3 f c d e) (X3 op SameOr1 None p q r) z.
Proof.
  intros f op t c d e p q r x y w z (U & O & DX & P & V) (U' & O' & DY & P' & V') (U'' & O'' & DW & P'' & V'') X Y W I H.
  destruct (run3 _ _ _ _ _ H) as (x' & y' & w' & X' & Y' & W' & CK & DZ). rewrite X in X'. injection X' as <-. rewrite Y in Y'. injection Y' as <-.
  rewrite W in W'. injection W' as <-. rewrite DX, DY, DW in CK.
  split. { cbn [usual]. repeat (split; [|]); auto. destruct I as [E|[E|[E|[]]]]; injection E as <- <- <-; cbn; auto. }
  split. { cbn [operations]. split; [|auto]. destruct I as [E|[E|[E|[]]]]; injection E as <- <- <-; op_name. }
  cbn [size]. split; [rewrite DZ; lia|]. split; [lia|].
  intros place F env i j AF FI.
  assert (FP : fits env place p i j) by (intros a u v k J; apply FI; cbn [leaves]; rewrite !in_app_iff; auto).
  assert (FQ : fits env place q i j) by (intros a u v k J; apply FI; cbn [leaves]; rewrite !in_app_iff; auto).
  assert (FR : fits env place r i j) by (intros a u v k J; apply FI; cbn [leaves]; rewrite !in_app_iff; auto).
  assert (E : exists G K M, as_formula (term_of place p) = Some G /\ as_formula (term_of place q) = Some K /\ as_formula (term_of place r) = Some M /\ F = Ter t G K M).
  { destruct I as [E|[E|[E|[]]]]; injection E as <- <- <-; cbn in AF;
      (destruct (as_formula (term_of place p)) as [G|]; [|discriminate]); (destruct (as_formula (term_of place q)) as [K|]; [|discriminate]);
      (destruct (as_formula (term_of place r)) as [M|]; [|discriminate]); injection AF as <-; exists G, K, M; auto. }
  destruct E as (G & K & M & AG & AK & AM & ->). destruct (V place G env i j AG FP) as [DG VG]. destruct (V' place K env i j AK FQ) as [DK VK].
  destruct (V'' place M env i j AM FR) as [DM VM].
  split; [cbn [dim]; rewrite DG, DK, DM; lia|]. intros (D1 & D2 & D3 & _) k L. cbn [eval value]. rewrite DG, DK, DM.
  destruct (same_or_one3 _ _ _ P P' P'' CK k L) as (L1 & L2 & L3).
  rewrite (spread_bcv _ _ _ _ (VG D1) L1), (spread_bcv _ _ _ _ (VK D2) L2), (spread_bcv _ _ _ _ (VM D3) L3).
  destruct I as [E|[E|[E|[]]]]; injection E as <- <- <-; reflexivity.
Qed.

Section One.
  Variables (c : call) (p : program) (x : lazy_tensor).
  Hypothesis HC : meant c p x.
  Hypothesis X : run p = Ok x.

  Lemma spread_self : forall n v k, k < n -> spread n v k = v k.
  Proof. intros n v k L. unfold spread. destruct (Nat.eqb_spec n 1); [f_equal; lia|reflexivity]. Qed.

  Lemma meant_elem : forall m z, (m <? 0)%Z || (z_dim x <=? m)%Z = false -> run (X1 "Elem" [m] (Some 1%Z) p) = Ok z ->
    meant (CElem c m) (X1 "Elem" [m] (Some 1%Z) p) z.
  Proof.
    intros m z CK H. destruct HC as (U & O & DX & P & V). destruct (run1 _ _ _ _ _ H) as (x' & X' & DZ). rewrite X in X'. injection X' as <-.
    apply orb_false_iff in CK. destruct CK as [C1 C2]. apply Z.ltb_ge in C1. apply Z.leb_gt in C2.
    split. { cbn [usual]. split; [|exact U]. do 4 right. left. exists m, (z_dim x). repeat split; auto. now exists x. }
    split. { cbn [operations]. split; [op_name|exact O]. }
    split; [exact DZ|]. split; [cbn [size]; lia|].
    intros place F env i j AF FI. cbn in AF. destruct (as_formula (term_of place p)) as [G|] eqn:AG; [|discriminate].
    injection AF as <-. destruct (V place G env i j AG FI) as [DG VG]. split; [reflexivity|]. intros DF k L. cbn [eval linR value]. apply VG; [exact DF|lia].
  Qed.
  Lemma meant_extract : forall m d z, (m <? 0)%Z || (z_dim x <=? m)%Z = false -> (d <? 0)%Z || (z_dim x <? m + d)%Z = false -> (0 < d)%Z ->
    run (X1 "Extract" [m; d] (Some d) p) = Ok z -> meant (CExtract c m d) (X1 "Extract" [m; d] (Some d) p) z.
  Proof.
    intros m d z CK CL N H. destruct HC as (U & O & DX & P & V). destruct (run1 _ _ _ _ _ H) as (x' & X' & DZ). rewrite X in X'. injection X' as <-.
    apply orb_false_iff in CK. destruct CK as [C1 C2]. apply Z.ltb_ge in C1. apply Z.leb_gt in C2.
    apply orb_false_iff in CL. destruct CL as [_ C3]. apply Z.ltb_ge in C3.
    split. { cbn [usual]. split; [|exact U]. do 5 right. left. exists m, d, (z_dim x). repeat split; auto; try lia. now exists x. }
    split. { cbn [operations]. split; [op_name|exact O]. }
    cbn [size]. split; [rewrite DZ; lia|]. split; [lia|].
    intros place F env i j AF FI. cbn in AF. destruct (as_formula (term_of place p)) as [G|] eqn:AG; [|discriminate].
    injection AF as <-. destruct (V place G env i j AG FI) as [DG VG]. split; [reflexivity|]. intros DF k L. cbn [eval linR value]. apply VG; [exact DF|lia].
  Qed.
  Lemma meant_onehot : forall d z, z_dim x = 1%Z -> (0 < d)%Z -> run (X1 "OneHot" [d] (Some d) p) = Ok z ->
    meant (COneHot c d) (X1 "OneHot" [d] (Some d) p) z.
  Proof.
    intros d z D1 N H. destruct HC as (U & O & DX & P & V). destruct (run1 _ _ _ _ _ H) as (x' & X' & DZ). rewrite X in X'. injection X' as <-.
    split. { cbn [usual]. split; [|exact U]. do 6 right. exists d. repeat split; auto; try lia. now exists x. }
    split. { cbn [operations]. split; [op_name|exact O]. }
    cbn [size]. split; [rewrite DZ; lia|]. split; [lia|].
    intros place F env i j AF FI. cbn in AF. destruct (as_formula (term_of place p)) as [G|] eqn:AG; [|discriminate].
    injection AF as <-. destruct (V place G env i j AG FI) as [DG VG]. split; [reflexivity|]. intros (DF & n & E) k L. cbn [eval selR value].
    rewrite VG by (auto; lia). rewrite E, trunc_half.
    destruct (Z.eqb_spec (Z.of_nat k) (Z.of_nat n)) as [Q|Q], (Req_EM_T (INR n) (INR k)) as [Q'|Q']; try reflexivity; exfalso.
    - apply Q'. f_equal. lia.
    - apply INR_eq in Q'. lia.
  Qed.
  Lemma meant_clampint : forall a b z, run (X1 "ClampInt" [a; b] None p) = Ok z ->
    meant (C3 Fclamp c (CInt a) (CInt b)) (X1 "ClampInt" [a; b] None p) z.
  Proof.
    intros a b z H. destruct HC as (U & O & DX & P & V). destruct (run1 _ _ _ _ _ H) as (x' & X' & DZ). rewrite X in X'. injection X' as <-.
    split. { cbn [usual]. split; [|exact U]. do 3 right. left. exists a, b. auto. }
    split. { cbn [operations]. split; [op_name|exact O]. }
    cbn [size]. replace (Nat.max (size c) (Nat.max 1 1)) with (size c) by lia. split; [rewrite DZ; lia|]. split; [lia|].
    intros place F env i j AF FI. cbn in AF. destruct (as_formula (term_of place p)) as [G|] eqn:AG; [|discriminate].
    injection AF as <-. destruct (V place G env i j AG FI) as [DG VG]. split; [exact DG|]. intros (DF & _) k L.
    cbn [eval unR value size]. rewrite spread_self, VG by auto. reflexivity.
  Qed.
  Lemma meant_pow : forall n z, run (X1 "Pow" [n] None p) = Ok z -> meant (C2 Fpow c (CInt n)) (X1 "Pow" [n] None p) z.
  Proof.
    intros n z H. destruct HC as (U & O & DX & P & V). destruct (run1 _ _ _ _ _ H) as (x' & X' & DZ). rewrite X in X'. injection X' as <-.
    split. { cbn [usual]. split; [|exact U]. do 2 right. left. exists n. auto. }
    split. { cbn [operations]. split; [op_name|exact O]. }
    cbn [size]. split; [rewrite DZ; lia|]. split; [lia|].
    intros place F env i j AF FI. cbn in AF. destruct (as_formula (term_of place p)) as [G|] eqn:AG; [|discriminate].
    injection AF as <-. destruct (V place G env i j AG FI) as [DG VG]. split; [exact DG|]. intros (DF & _) k L.
    cbn [eval unR value]. now rewrite VG.
  Qed.
  Lemma meant_square : forall z, run (X1 "Square" [] None p) = Ok z -> meant (C2 Fpow c (CInt 2)) (X1 "Square" [] None p) z.
  Proof.
    intros z H. destruct (meant1 Fsquare c p x z HC X H) as (U & O & D & P & V). split; [exact U|]. split; [exact O|]. split; [exact D|]. split; [exact P|].
    intros place F env i j AF FI. destruct (V place F env i j AF FI) as [DF VF']. split; [exact DF|]. intros (D1 & _) k L.
    rewrite VF'; [reflexivity|now split|exact L].
  Qed.
  Lemma meant_sqrt : forall a y z, y 0 = (1 / 2)%R -> run (X1 "Sqrt" [] None p) = Ok z -> meant (C2 Fpow c (CVec a 1 y)) (X1 "Sqrt" [] None p) z.
  Proof.
    intros a y z E H. destruct (meant1 Fsqrt c p x z HC X H) as (U & O & D & P & V). cbn [size] in *.
    assert (P0 := P). replace (size c) with (Nat.max (size c) 1) in D, P by lia.
    split; [exact U|]. split; [exact O|]. split; [exact D|]. split; [exact P|].
    intros place F env i j AF FI. destruct (V place F env i j AF FI) as [DF VF']. cbn [size] in *. split; [lia|]. intros (D1 & _ & D2) k L.
    assert (L' : k < size c) by lia. rewrite VF'; [|split; [exact D1|intros l Hl; apply Rlt_le; now apply D2]|exact L'].
    cbn [value math2 math1 size]. rewrite spread_self by exact L'. unfold spread. cbn [Nat.eqb]. rewrite E. symmetry. apply half_power. now apply D2.
  Qed.
  Lemma meant_rsqrt : forall a y z, y 0 = (- (1 / 2))%R -> run (X1 "Rsqrt" [] None p) = Ok z -> meant (C2 Fpow c (CVec a 1 y)) (X1 "Rsqrt" [] None p) z.
  Proof.
    intros a y z E H. destruct (meant1 Frsqrt c p x z HC X H) as (U & O & D & P & V). cbn [size] in *.
    assert (P0 := P). replace (size c) with (Nat.max (size c) 1) in D, P by lia.
    split; [exact U|]. split; [exact O|]. split; [exact D|]. split; [exact P|].
    intros place F env i j AF FI. destruct (V place F env i j AF FI) as [DF VF']. cbn [size] in *. split; [lia|]. intros (D1 & _ & D2) k L.
    assert (L' : k < size c) by lia. rewrite VF'; [|split; [exact D1|intros l Hl; now apply D2]|exact L'].
    cbn [value math2 math1 size]. rewrite spread_self by exact L'. unfold spread. cbn [Nat.eqb]. rewrite E. symmetry. apply minus_half_power. now apply D2.
  Qed.
End One.

(** ** All calls *)

Lemma pos_in : forall p q, pos p -> (forall t, In t (leaves q) -> In t (leaves p)) -> pos q.
Proof. intros p q H S a x v I. apply (H a x v). now apply S. Qed.

Lemma calls : forall c p z, program_of c = Ok p -> run p = Ok z -> pos p -> not_empty c -> meant c p z.
Proof.
  induction c as [a x v|n|a n y|f c IH|f c IHc d IHd|f c IHc d IHd e IHe|c IH m|c IH m d|c IH d]; intros p z H R P N; cbn [program_of] in H.
  - injection H as <-. assert (D : z_dim z = Z.of_nat (cols v)).
    { cbn in R. unfold new_tensor in R. destruct v as [n f|n m f], x; try discriminate R; injection R as <-; reflexivity. }
    assert (P1 : 1 <= coordinates v) by (apply (P a x v); now left).
    split; [exact I|]. split; [exact I|]. split; [exact D|]. split; [destruct v; exact P1|].
    intros place F env i j AF FI. cbn in AF. injection AF as <-. split; [cbn; rewrite Nat2Z.id; destruct v; reflexivity|].
    intros _ k L. cbn [eval value]. apply FI; [now left|destruct v; exact L].
  - injection H as <-. injection R as <-. split; [exact I|]. split; [exact I|]. split; [reflexivity|]. split; [cbn; lia|].
    intros place F env i j AF FI. injection AF as <-. split; reflexivity.
  - injection H as <-. assert (D : z_dim z = Z.of_nat n) by (cbn in R; injection R as <-; reflexivity).
    assert (P1 : 1 <= n) by (apply (P a RNA (Vector n y)); now left).
    split; [exact I|]. split; [exact I|]. split; [exact D|]. split; [exact P1|].
    intros place F env i j AF FI. cbn in AF. injection AF as <-. split; [cbn; now rewrite Nat2Z.id|].
    intros _ k L. cbn [eval value]. apply (FI a RNA (Vector n y)); [now left|exact L].
  - apply rbind_inv in H. destruct H as (q & HQ & H). destruct (is_number c && _); [discriminate|]. injection H as <-.
    destruct (run1 _ _ _ _ _ R) as (x & X & _). apply (meant1 f c q x z); auto.
  - apply rbind_inv in H. destruct H as (q & HQ & H). apply rbind_inv in H. destruct H as (r & HR & H).
    destruct N as (N1 & N2 & N3).
    assert (GO : forall x y, run q = Ok x -> run r = Ok y -> leaves p = (leaves q ++ leaves r)%list \/ leaves p = (leaves r ++ leaves q)%list -> meant c q x /\ meant d r y).
    { intros x y X Y E. split; [apply IHc|apply IHd]; auto; apply (pos_in p); auto; intros t J; destruct E as [E|E]; rewrite E; apply in_or_app; auto. }
    destruct f; cbn [method2] in H.
    1-4: destruct (is_number c && is_number d); [discriminate|]; injection H as <-; destruct (run2 _ _ _ _ _ _ R) as (x & y & X & Y & _);
      destruct (GO x y X Y (or_introl eq_refl)) as [M1 M2]; eapply (meant_bin c d q r x y M1 M2 X Y); [|exact R]; cbn; auto.
    + destruct (is_number c && is_number d); [discriminate|]. injection H as <-.
      assert (ONE : forall x, run q = Ok x -> (forall t, In t (leaves q) -> In t (leaves (power q d r))) -> meant c q x)
        by (intros x X S; apply IHc; auto; now apply (pos_in (power q d r))).
      assert (TWO : power q d r = X2 "Powf" (Some SameOr1) None q r -> (forall n, d <> CInt n) -> meant (C2 Fpow c d) (power q d r) z).
      { intros E NI. rewrite E in *. destruct (run2 _ _ _ _ _ _ R) as (x & y & X & Y & _). destruct (GO x y X Y (or_introl eq_refl)) as [M1 M2].
        now apply (meant_powf c d q r x y M1 M2 X Y). }
      destruct d as [a0 x0 v0|n|a0 n0 y0|f0 c0|f0 c0 d0|f0 c0 d0 e0|c0 m0|c0 m0 d0|c0 d0]; try (apply TWO; [reflexivity|discriminate]).
      * cbn [power] in *. destruct (Z.eqb_spec n 2) as [->|NE]; destruct (run1 _ _ _ _ _ R) as (x & X & _).
        -- apply (meant_square c q x); auto.
        -- apply (meant_pow c q x); auto.
      * cbn [power] in *. destruct (Nat.eqb_spec n0 1) as [->|NE]; [|apply TWO; [reflexivity|discriminate]].
        destruct (Req_EM_T (y0 0) (1 / 2)) as [E|E].
        { destruct (run1 _ _ _ _ _ R) as (x & X & _). apply (meant_sqrt c q x); auto. }
        destruct (Req_EM_T (y0 0) (- (1 / 2))) as [E'|E'].
        { destruct (run1 _ _ _ _ _ R) as (x & X & _). apply (meant_rsqrt c q x); auto. }
        apply TWO; [reflexivity|discriminate].
    + destruct (is_number c && is_number d); [discriminate|]. injection H as <-. destruct (run_scal _ _ _ R) as (x & y & X & Y & _).
      destruct (GO x y X Y (or_introl eq_refl)) as [M1 M2]. now apply (meant_dot c d q r x y M1 M2 X Y).
    + destruct (is_number c && is_number d); [discriminate|]. injection H as <-. destruct (run2 _ _ _ _ _ _ R) as (x & y & X & Y & _).
      destruct (GO x y X Y (or_introl eq_refl)) as [M1 M2]. now apply (meant_atan2 c d q r x y M1 M2 X Y).
    + injection H as <-. destruct (run2 _ _ _ _ _ _ R) as (x & y & X & Y & _).
      destruct (GO x y X Y (or_introl eq_refl)) as [M1 M2]. now apply (meant_sqdist c d q r x y M1 M2 X Y).
    + destruct (is_number c || is_number d); [discriminate|]. apply rbind_inv in H. destruct H as (x & X & H). apply rbind_inv in H. destruct H as (y & Y & H).
      injection H as <-. destruct (GO x y X Y (or_introl eq_refl)) as [M1 M2]. now apply (meant_tensorprod c d q r x y M1 M2 X Y).
    + destruct (is_number c || is_number d); [discriminate|]. apply rbind_inv in H. destruct H as (x & X & H). apply rbind_inv in H. destruct H as (y & Y & H).
      destruct (lazy_matrix x && lazy_vector y && _) eqn:CK; [|discriminate]. apply andb_true_iff in CK. destruct CK as [_ CK].
      injection H as <-. destruct (GO x y X Y (or_introl eq_refl)) as [M1 M2]. now apply (meant_matvec c d q r x y M1 M2 X Y).
    + destruct (is_number c || is_number d); [discriminate|]. apply rbind_inv in H. destruct H as (x & X & H). apply rbind_inv in H. destruct H as (y & Y & H).
      destruct (lazy_vector x && lazy_matrix y && _) eqn:CK; [|discriminate]. apply andb_true_iff in CK. destruct CK as [_ CK].
      injection H as <-. destruct (GO x y X Y (or_introl eq_refl)) as [M1 M2]. now apply (meant_vecmat c d q r x y M1 M2 X Y).
    + injection H as <-. destruct (run2 _ _ _ _ _ _ R) as (y & x & Y & X & _).
      destruct (GO x y X Y (or_intror eq_refl)) as [M1 M2]. now apply (meant_wsqnorm c d q r x y M1 M2 X Y).
  - apply rbind_inv in H. destruct H as (q & HQ & H). apply rbind_inv in H. destruct H as (r & HR & H). apply rbind_inv in H. destruct H as (s & HS & H).
    destruct N as (N1 & N2 & N3).
    assert (GO : forall op, p = X3 op SameOr1 None q r s ->
      exists x y w, run q = Ok x /\ run r = Ok y /\ run s = Ok w /\ meant c q x /\ meant d r y /\ meant e s w).
    { intros op ->. destruct (run3 _ _ _ _ _ R) as (x & y & w & X & Y & W & _). exists x, y, w. split; [exact X|]. split; [exact Y|]. split; [exact W|].
      split; [apply IHc|split; [apply IHd|apply IHe]]; auto; (eapply pos_in; [exact P|]); intros t J; cbn [leaves]; rewrite !in_app_iff; auto. }
    assert (THREE : forall op t, In (f, op, t) [(Fclamp, "Clamp", TClamp); (Fifelse, "IfElse", TIfElse); (Fmod, "Mod", TMod)] ->
      p = X3 op SameOr1 None q r s -> meant (C3 f c d e) p z).
    { intros op t J E. destruct (GO op E) as (x & y & w & X & Y & W & M1 & M2 & M3). rewrite E in *.
      eapply (meant3 f op t c d e q r s x y w z); eauto. }
    destruct f; cbn [method3] in H.
    + assert (CA : (exists a b, d = CInt a /\ e = CInt b /\ p = X1 "ClampInt" [a; b] None q) \/ p = X3 "Clamp" SameOr1 None q r s).
      { destruct d; try (right; now injection H as <-). destruct e; try (right; now injection H as <-). left. exists n, n0. injection H as <-. auto. }
      destruct CA as [(a & b & -> & -> & ->)|E]; [|eapply THREE; [|exact E]; cbn; auto].
      destruct (run1 _ _ _ _ _ R) as (x & X & _). apply (meant_clampint c q x); auto.
    + destruct (is_number c); [discriminate|]. injection H as <-. eapply THREE; [|reflexivity]. cbn; auto.
    + destruct (is_number c); [discriminate|]. injection H as <-. eapply THREE; [|reflexivity]. cbn; auto.
  - destruct (is_number c); [discriminate|]. apply rbind_inv in H. destruct H as (q & HQ & H). apply rbind_inv in H. destruct H as (x & X & H).
    destruct ((m <? 0)%Z || _) eqn:CK; [discriminate|]. injection H as <-. apply (meant_elem c q x); auto.
  - destruct (is_number c); [discriminate|]. apply rbind_inv in H. destruct H as (q & HQ & H). apply rbind_inv in H. destruct H as (x & X & H).
    destruct ((m <? 0)%Z || _) eqn:CK; [discriminate|]. destruct ((d <? 0)%Z || _) eqn:CL; [discriminate|]. injection H as <-. destruct N as [N1 N2].
    apply (meant_extract c q x); auto.
  - destruct (is_number c); [discriminate|]. apply rbind_inv in H. destruct H as (q & HQ & H). apply rbind_inv in H. destruct H as (x & X & H).
    destruct (negb (z_dim x =? 1)%Z || _) eqn:CK; [discriminate|]. injection H as <-. destruct N as [N1 N2].
    apply orb_false_iff in CK. destruct CK as [CK _]. apply negb_false_iff, Z.eqb_eq in CK. apply (meant_onehot c q x); auto.
Qed.

Lemma values : forall c p z, program_of c = Ok p -> run p = Ok z -> objects p -> not_empty c ->
  z_dim z = Z.of_nat (size c) /\
  forall place, exists F, as_formula (term_of place p) = Some F /\ wf F /\ dim F = size c /\
    forall i j e, rows place p i j e -> defined c i j -> forall k, k < size c -> eval F e k = value c i j k.
Proof.
  intros c p z H R OB N. assert (P : pos p) by (intros a x v J; now apply (proj2 OB a x v)).
  destruct (calls c p z H R P N) as (U & O & D & S & V). split; [exact D|]. intros place.
  destruct (usual_formula p z place OB U R) as (F & AF & W & DF & _). exists F. split; [exact AF|]. split; [exact W|]. split; [lia|].
  intros i j e RW DE. apply (V place F e i j AF); [|exact DE]. intros a x v k J L. apply RW; [exact J|]. destruct v; exact L.
Qed.

Lemma reduced_values : forall c p z op index opt o l, program_of c = Ok p -> run p = Ok z -> objects p -> not_empty c ->
  reduction z op index opt = Ok (o, l) ->
  exists place F, wf F /\ dim F = size c /\
    (forall i j e, rows place p i j e -> defined c i j -> forall k, k < size c -> eval F e k = value c i j k) /\
    forall k one cls phi d, r_reduction F op opt k one cls phi d ->
    (forall a x v, In (a, x, v) (leaves p) -> exists m, nth_error l (place a x) = Some m /\ points "col" v m) /\
    exists p al, operator_text o = Ok p /\ engine_aliases 0 None None (p_aliases p) = Ok al /\
      engine_makes al (p_formula p) k one (1 - axis_of index) F cls phi d.
Proof.
  intros c p z op index opt o l H R OB N S. assert (P : pos p) by (intros a x v J; now apply (proj2 OB a x v)).
  destruct (calls c p z H R P N) as (U & O & _). destruct (usual_claim p z op index opt o l OB O U R S) as (place & F & AF & W & DF & X).
  destruct (values c p z H R OB N) as [_ V]. destruct (V place) as (F' & AF' & _ & D & E). rewrite AF in AF'. injection AF' as <-.
  exists place, F. auto.
Qed.

(** ** Accepted calls *)

Lemma spreads2 : forall a b, spreads [a; b] -> check2 SameOr1 (Z.of_nat a) (Z.of_nat b) = true.
Proof.
  intros a b (m & H). cbn [check2]. rewrite !orb_true_iff, !Z.eqb_eq.
  destruct (H a), (H b); cbn; auto; subst; lia.
Qed.
Lemma spreads3 : forall a b c, spreads [a; b; c] -> check3 SameOr1 (Z.of_nat a) (Z.of_nat b) (Z.of_nat c) = true.
Proof.
  intros a b c (m & H). unfold check3. cbn [unique_dims existsb]. rewrite !orb_false_r.
  assert (H1 := H a (or_introl eq_refl)). assert (H2 := H b (or_intror (or_introl eq_refl))). assert (H3 := H c (or_intror (or_intror (or_introl eq_refl)))).
  repeat match goal with |- context [Z.eqb ?x ?y] => destruct (Z.eqb_spec x y) end; cbn; try reflexivity; lia.
Qed.
Lemma given_number : forall c, is_number c = true -> given c.
Proof. intros []; try discriminate; intros _; exact I. Qed.
Lemma not_given : forall c, ~ given c -> is_number c = false.
Proof. intros c H. destruct (is_number c) eqn:E; [|reflexivity]. destruct H. now apply given_number. Qed.
Lemma not_both : forall c d, ~ (given c /\ given d) -> is_number c && is_number d = false.
Proof.
  intros c d H. destruct (is_number c) eqn:E; [|reflexivity]. destruct (is_number d) eqn:E'; [|reflexivity]. destruct H. split; now apply given_number.
Qed.
Lemma fitting_not_empty : forall c, fitting c -> not_empty c.
Proof.
  induction c; cbn [fitting not_empty]; intros H; auto; try tauto.
  - destruct H as (H & H' & G). split; [auto|]. split; [auto|]. destruct f; auto.
  - destruct H as (D & a & f & ->). split; [exact I|exact D].
Qed.
Lemma pos_app2 : forall op c d p q, pos p -> pos q -> pos (X2 op c d p q).
Proof. intros op c d p q H H' a x v J. cbn [leaves] in J. apply in_app_or in J. destruct J; eauto. Qed.

Lemma contains_app : forall sub pre post, contains sub (pre ++ sub ++ post) = true.
Proof.
  intros sub pre post. induction pre as [|b pre IH].
  - assert (P : String.prefix sub (sub ++ post) = true).
    { induction sub as [|b sub IH]; [now destruct post|]. cbn. destruct (ascii_dec b b) as [_|N]; [exact IH|now destruct N]. }
    cbn [append]. destruct (sub ++ post)%string; cbn [contains]; now rewrite P.
  - cbn [append contains]. rewrite IH. apply orb_true_r.
Qed.
(** The matrices and vectors that are used are in the program. *)
Lemma uses_leaf : forall P c p, program_of c = Ok p -> uses P c -> exists a x v, In (a, x, v) (leaves p) /\ P v.
Proof.
  assert (LE : forall P l l', (exists a x v, In (a, x, v) l /\ P v) -> (forall t, In t l -> In t l') -> exists (a : string) (x : rindex) (v : rvalue), In (a, x, v) l' /\ P v).
  { intros P l l' (a & x & v & J & Q) S. exists a, x, v. auto. }
  intros P. induction c as [a x v|n|a n y|f c IH|f c IHc d IHd|f c IHc d IHd e IHe|c IH m|c IH m d|c IH d]; intros p H U; cbn [program_of uses] in H, U.
  - injection H as <-. exists a, x, v. split; [now left|exact U].
  - contradiction.
  - contradiction.
  - apply rbind_inv in H. destruct H as (q & HQ & H). destruct (_ && _); [discriminate|]. injection H as <-. exact (IH q HQ U).
  - apply rbind_inv in H. destruct H as (q & HQ & H). apply rbind_inv in H. destruct H as (r & HR & H).
    assert (B : leaves p = (leaves q ++ leaves r)%list \/ leaves p = (leaves r ++ leaves q)%list -> exists a x v, In (a, x, v) (leaves p) /\ P v).
    { intros E. destruct U as [U|U].
      - apply (LE P (leaves q)); [now apply IHc|]. intros u J. destruct E as [E|E]; rewrite E; apply in_or_app; auto.
      - apply (LE P (leaves r)); [now apply IHd|]. intros u J. destruct E as [E|E]; rewrite E; apply in_or_app; auto. }
    destruct f; cbn [method2] in H;
      repeat match type of H with
      | (if ?b then _ else _) = Ok _ => destruct b; try discriminate H
      | rbind _ _ = Ok _ => apply rbind_inv in H; destruct H as (? & _ & H)
      end;
      try (injection H as <-; apply B; cbn [leaves]; auto; fail).
    injection H as <-. destruct d as [a0 x0 v0|n|a0 n0 y0|f0 c0|f0 c0 d0|f0 c0 d0 e0|c0 m0|c0 m0 d0|c0 d0]; try (apply B; cbn [power leaves]; auto; fail).
    + destruct U as [U|[]]. cbn [power]. destruct (n =? 2)%Z; cbn [leaves]; exact (IHc q HQ U).
    + destruct U as [U|[]]. cbn [power]. destruct (Nat.eqb n0 1); [destruct (Req_EM_T (y0 0) (1 / 2)); [|destruct (Req_EM_T (y0 0) (- (1 / 2)))]|]; cbn [leaves];
        try exact (IHc q HQ U); (apply (LE P (leaves q)); [exact (IHc q HQ U)|intros u J; apply in_or_app; auto]).
  - apply rbind_inv in H. destruct H as (q & HQ & H). apply rbind_inv in H. destruct H as (r & HR & H). apply rbind_inv in H. destruct H as (s & HS & H).
    assert (B : leaves p = (leaves q ++ leaves r ++ leaves s)%list -> exists a x v, In (a, x, v) (leaves p) /\ P v).
    { intros E. rewrite E. destruct U as [U|[U|U]]; [apply (LE P (leaves q))|apply (LE P (leaves r))|apply (LE P (leaves s))]; auto; intros u J; rewrite !in_app_iff; auto. }
    destruct f; cbn [method3] in H; [|destruct (is_number c); [discriminate|]; injection H as <-; now apply B|destruct (is_number c); [discriminate|]; injection H as <-; now apply B].
    destruct d; try (injection H as <-; now apply B). destruct e; try (injection H as <-; now apply B).
    injection H as <-. destruct U as [U|[[]|[]]]. exact (IHc q HQ U).
  - destruct (is_number c); [discriminate|]. apply rbind_inv in H. destruct H as (q & HQ & H). apply rbind_inv in H. destruct H as (x & X & H).
    destruct (_ || _); [discriminate|]. injection H as <-. exact (IH q HQ U).
  - destruct (is_number c); [discriminate|]. apply rbind_inv in H. destruct H as (q & HQ & H). apply rbind_inv in H. destruct H as (x & X & H).
    destruct (_ || _); [discriminate|]. destruct (_ || _); [discriminate|]. injection H as <-. exact (IH q HQ U).
  - destruct (is_number c); [discriminate|]. apply rbind_inv in H. destruct H as (q & HQ & H). apply rbind_inv in H. destruct H as (x & X & H).
    destruct (_ || _); [discriminate|]. injection H as <-. exact (IH q HQ U).
Qed.
Lemma leaf_index : forall p z a x v, run p = Ok z -> In (a, x, v) (leaves p) -> match v with Matrix _ _ _ => x = Ri \/ x = Rj | Vector _ _ => x = RNA end.
Proof.
  induction p as [a0 x0 v0|n|op opts d e IH|op c d e IHe f IHf|e IHe f IHf|op c d e IHe f IHf g IHg]; intros z a x v H J; cbn [leaves] in J.
  - destruct J as [E|[]]. injection E as -> -> ->. cbn [run] in H. unfold new_tensor in H. destruct v as [n f|n m f], x; cbn [rbind] in H; try discriminate H; try reflexivity; auto.
  - contradiction.
  - destruct (run1 _ _ _ _ _ H) as (y & Y & _). exact (IH _ _ _ _ Y J).
  - destruct (run2 _ _ _ _ _ _ H) as (y & w & Y & W & _). apply in_app_or in J. destruct J as [J|J]; [exact (IHe _ _ _ _ Y J)|exact (IHf _ _ _ _ W J)].
  - destruct (run_scal _ _ _ H) as (y & w & Y & W & _). apply in_app_or in J. destruct J as [J|J]; [exact (IHe _ _ _ _ Y J)|exact (IHf _ _ _ _ W J)].
  - cbn [run] in H. apply rbind_inv in H. destruct H as (y & Y & H). apply rbind_inv in H. destruct H as (w & W & H). apply rbind_inv in H. destruct H as (u & U & H).
    rewrite !in_app_iff in J. destruct J as [J|[J|J]]; [exact (IHe _ _ _ _ Y J)|exact (IHf _ _ _ _ W J)|exact (IHg _ _ _ _ U J)].
Qed.
Lemma has_vector : forall c p z, program_of c = Ok p -> run p = Ok z -> uses vector c -> lazy_vector z = true.
Proof.
  intros c p z A R U. destruct (uses_leaf vector c p A U) as (a & x & v & J & Q). assert (LI := leaf_index p z a x v R J).
  destruct (run_holds p z R) as (ls & [_ HA _ _ _ AL]). destruct (AL _ J) as (t & T & E). unfold lazy_vector. rewrite HA. apply existsb_exists.
  exists (arg_of t). split; [now apply in_map|]. rewrite E. destruct v as [n f|]; [|contradiction]. subst x.
  exact (contains_app "=Pm(" _ _).
Qed.
Lemma has_matrix : forall c p z, program_of c = Ok p -> run p = Ok z -> uses matrix c -> lazy_matrix z = true.
Proof.
  intros c p z A R U. destruct (uses_leaf matrix c p A U) as (a & x & v & J & Q). assert (LI := leaf_index p z a x v R J).
  destruct (run_holds p z R) as (ls & [_ HA _ _ _ AL]). destruct (AL _ J) as (t & T & E). unfold lazy_matrix. rewrite HA. apply existsb_exists.
  exists (arg_of t). split; [now apply in_map|]. rewrite E. destruct v as [|n m f]; [contradiction|]. apply orb_true_iff.
  destruct LI as [->| ->]; [left; exact (contains_app "=Vi(" _ _)|right; exact (contains_app "=Vj(" _ _)].
Qed.
Lemma uses_not_number : forall P c, uses P c -> is_number c = false.
Proof. intros P []; try reflexivity; contradiction. Qed.

Lemma accepted : forall c, fitting c -> exists p z, program_of c = Ok p /\ run p = Ok z /\ pos p.
Proof.
  assert (DIM : forall c p z, fitting c -> program_of c = Ok p -> run p = Ok z -> pos p -> z_dim z = Z.of_nat (size c)).
  { intros c p z H A R P. apply (calls c p z A R P). now apply fitting_not_empty. }
  induction c as [a x v|n|a n y|f c IH|f c IHc d IHd|f c IHc d IHd e IHe|c IH m|c IH m d|c IH d]; intros H; cbn [fitting] in H.
  - exists (XTensor a x v). destruct H as [P H]. cbn [program_of run]. unfold new_tensor.
    assert (PP : pos (XTensor a x v)) by (intros a' x' v' [E|[]]; injection E as <- <- <-; destruct v; exact P).
    destruct x, v; try contradiction; eexists; (split; [reflexivity|]); (split; [reflexivity|exact PP]).
  - eexists. eexists. split; [reflexivity|]. split; [reflexivity|]. intros ? ? ? [].
  - eexists. eexists. split; [reflexivity|]. split; [reflexivity|]. intros a' x' v' [E|[]]. injection E as <- <- <-. exact H.
  - destruct H as [H G]. destruct (IH H) as (p & z & A & R & P). cbn [program_of]. rewrite A. cbn [rbind].
    destruct (is_number c && negb (accepts_numbers f)) eqn:E.
    { apply andb_true_iff in E. destruct E as [E1 E2]. destruct (G (given_number c E1)) as [E3|[E3|E3]]; rewrite E3 in E2; discriminate E2. }
    eexists. eexists. split; [reflexivity|]. cbn [run]. rewrite R. split; [reflexivity|exact P].
  - destruct H as (H & H' & G). destruct (IHc H) as (p & x & A & R & P). destruct (IHd H') as (q & y & A' & R' & P').
    assert (D := DIM c p x H A R P). assert (D' := DIM d q y H' A' R' P'). cbn [program_of]. rewrite A, A'. cbn [rbind].
    assert (TWO : forall op ck dr, match ck with Some ck => check2 ck (z_dim x) (z_dim y) | None => true end = true ->
      exists z, run (X2 op ck dr p q) = Ok z /\ pos (X2 op ck dr p q)).
    { intros op ck dr CK. cbn [run]. rewrite R, R'. cbn [rbind]. unfold binaryop. rewrite CK. eexists. split; [reflexivity|now apply pos_app2]. }
    assert (SP : spreads [size c; size d] -> check2 SameOr1 (z_dim x) (z_dim y) = true) by (rewrite D, D'; apply spreads2).
    assert (ONE : forall op opts dr, exists z, run (X1 op opts dr p) = Ok z /\ pos (X1 op opts dr p))
      by (intros; cbn [run]; rewrite R; eexists; split; [reflexivity|exact P]).
    destruct f; cbn [method2].
    1-4: destruct G as [G1 G2]; rewrite (not_both _ _ G2); match goal with |- context [Ok (X2 ?op ?ck ?dr ?pp ?qq)] =>
      destruct (TWO op ck dr (SP G1)) as (z & RZ & PZ); exists (X2 op ck dr pp qq), z; auto end.
    + destruct G as [G1 G2]. rewrite (not_both _ _ G2). exists (power p d q). unfold power.
      repeat match goal with |- context [match ?t with _ => _ end] =>
        match type of t with call => destruct t | bool => destruct t | sumbool _ _ => destruct t end end;
      match goal with
      | |- context [run (X2 ?op ?ck ?dr _ _)] => destruct (TWO op ck dr (SP G1)) as (zz & RZ & PZ)
      | |- context [run (X1 ?op ?os ?dr _)] => destruct (ONE op os dr) as (zz & RZ & PZ)
      end; exists zz; auto.
    + destruct G as [G1 G2]. rewrite (not_both _ _ G2). exists (XScal p q). cbn [run]. rewrite R, R'. cbn [rbind]. unfold scalar_product, binaryop.
      replace (check2 Same (z_dim x) (z_dim y)) with true by (symmetry; apply Z.eqb_eq; lia). eexists. split; [reflexivity|]. split; [reflexivity|].
      intros a' x' v' J. cbn [leaves] in J. apply in_app_or in J. destruct J; eauto.
    + destruct G as [G1 G2]. rewrite (not_both _ _ G2). assert (Q : check2 Same (z_dim x) (z_dim y) = true) by (apply Z.eqb_eq; lia).
      destruct (TWO "Atan2" (Some Same) None Q) as (z & RZ & PZ). eexists _, z. auto.
    + destruct (TWO "SqDist" (Some SameOr1) (Some 1%Z) (SP G)) as (z & RZ & PZ). eexists _, z. auto.
    + destruct G as [G1 G2]. rewrite (not_given _ G1), (not_given _ G2), R, R'. cbn [orb rbind].
      destruct (TWO "TensorProd" None (Some (z_dim x * z_dim y)%Z) eq_refl) as (z & RZ & PZ). eexists _, z. auto.
    + destruct G as (G1 & G2 & G3). rewrite (uses_not_number _ _ G1), (uses_not_number _ _ G2), R, R'. cbn [orb rbind].
      rewrite (has_matrix c p x A R G1), (has_vector d q y A' R' G2). cbn [andb].
      replace ((z_dim x =? z_dim y)%Z || (z_dim y =? 1)%Z) with true by (symmetry; apply orb_true_iff; rewrite !Z.eqb_eq; lia).
      assert (Q : check2 SameOr1 (z_dim x) (z_dim y) = true) by (cbn [check2]; rewrite !orb_true_iff, !Z.eqb_eq; lia).
      edestruct (TWO "MatVecMult" (Some SameOr1) (Some (if (z_dim y =? 1)%Z then z_dim x else 1%Z)) Q) as (z & RZ & PZ). eexists _, z. auto.
    + destruct G as (G1 & G2 & G3). rewrite (uses_not_number _ _ G1), (uses_not_number _ _ G2), R, R'. cbn [orb rbind].
      rewrite (has_vector c p x A R G1), (has_matrix d q y A' R' G2). cbn [andb].
      replace ((z_dim y =? z_dim x)%Z || (z_dim x =? 1)%Z) with true by (symmetry; apply orb_true_iff; rewrite !Z.eqb_eq; lia).
      assert (Q : check2 SameOr1 (z_dim x) (z_dim y) = true) by (cbn [check2]; rewrite !orb_true_iff, !Z.eqb_eq; lia).
      edestruct (TWO "VecMatMult" (Some SameOr1) (Some (if (z_dim x =? 1)%Z then z_dim y else 1%Z)) Q) as (z & RZ & PZ). eexists _, z. auto.
    + exists (X2 "WeightedSqNorm" None (Some 1%Z) q p). cbn [run]. rewrite R, R'. cbn [rbind binaryop]. eexists. split; [reflexivity|]. split; [reflexivity|now apply pos_app2].
  - destruct H as (H & H' & H'' & S & G). destruct (IHc H) as (p & x & A & R & P). destruct (IHd H') as (q & y & A' & R' & P').
    destruct (IHe H'') as (r & w & A'' & R'' & P''). assert (D := DIM c p x H A R P). assert (D' := DIM d q y H' A' R' P'). assert (D'' := DIM e r w H'' A'' R'' P'').
    cbn [program_of]. rewrite A, A', A''. cbn [rbind]. apply spreads3 in S. rewrite <- D, <- D', <- D'' in S.
    assert (THREE : forall op, exists z, run (X3 op SameOr1 None p q r) = Ok z /\ pos (X3 op SameOr1 None p q r)).
    { intros op. cbn [run]. rewrite R, R', R''. cbn [rbind]. unfold ternaryop. rewrite S. eexists. split; [reflexivity|].
      intros a' x' v' J. cbn [leaves] in J. rewrite !in_app_iff in J. destruct J as [J|[J|J]]; eauto. }
    destruct f; cbn [method3].
    + assert (E : (exists a b, d = CInt a /\ e = CInt b) \/ match d, e with CInt a, CInt b => Ok (X1 "ClampInt" [a; b] None p) | _, _ => Ok (X3 "Clamp" SameOr1 None p q r) end
        = Ok (X3 "Clamp" SameOr1 None p q r)) by (destruct d; auto; destruct e; auto; left; eexists _, _; split; reflexivity).
      destruct E as [(a & b & -> & ->)|E].
      * eexists. eexists. split; [reflexivity|]. cbn [run]. rewrite R. split; [reflexivity|exact P].
      * rewrite E. destruct (THREE "Clamp") as (z & RZ & PZ). eexists _, z. auto.
    + rewrite (not_given _ G). destruct (THREE "IfElse") as (z & RZ & PZ). eexists _, z. auto.
    + rewrite (not_given _ G). destruct (THREE "Mod") as (z & RZ & PZ). eexists _, z. auto.
  - destruct H as (H & G & B). destruct (IH H) as (p & z & A & R & P). assert (D := DIM c p z H A R P). cbn [program_of]. rewrite (not_given _ G), A. cbn [rbind].
    rewrite R. cbn [rbind]. rewrite (proj2 (Z.ltb_ge m 0)), (proj2 (Z.leb_gt (z_dim z) m)) by lia. cbn [orb].
    eexists. eexists. split; [reflexivity|]. cbn [run]. rewrite R. split; [reflexivity|exact P].
  - destruct H as (H & G & B1 & B2 & B3). destruct (IH H) as (p & z & A & R & P). assert (D := DIM c p z H A R P). cbn [program_of]. rewrite (not_given _ G), A. cbn [rbind].
    rewrite R. cbn [rbind]. rewrite (proj2 (Z.ltb_ge m 0)), (proj2 (Z.leb_gt (z_dim z) m)), (proj2 (Z.ltb_ge d 0)), (proj2 (Z.ltb_ge (z_dim z) (m + d))) by lia. cbn [orb].
    eexists. eexists. split; [reflexivity|]. cbn [run]. rewrite R. split; [reflexivity|exact P].
  - destruct H as (D & a & f & ->). cbn [program_of is_number run new_tensor rbind z_dim]. change (Z.of_nat 1) with 1%Z. cbn [Z.eqb Pos.eqb negb orb].
    replace (lazy_parameter _) with true; [|symmetry; unfold lazy_parameter; apply orb_true_iff; right; cbn [z_args]; exact (contains_app "=Pm(1)" ("A" ++ a ++ "NA") "")].
    cbn [negb]. eexists. eexists. split; [reflexivity|]. split; [reflexivity|]. intros a' x' v' [E|[]]. injection E as <- <- <-. cbn. lia.
Qed.
Lemma accepted_claim : forall c, fitting c -> exists p z, program_of c = Ok p /\ run p = Ok z /\ z_dim z = Z.of_nat (size c).
Proof.
  intros c H. destruct (accepted c H) as (p & z & A & R & P). exists p, z. split; [exact A|]. split; [exact R|].
  apply (calls c p z A R P). now apply fitting_not_empty.
Qed.
Lemma weighted_values : forall c p z w q y op index o l,
  program_of c = Ok p -> run p = Ok z -> objects p -> not_empty c -> program_of w = Ok q -> run q = Ok y -> objects q -> not_empty w ->
  reduction z op index (TensorArg y) = Ok (o, l) ->
  exists place place' F G,
    (forall a x v, In (a, x, v) (leaves p) -> exists m, nth_error l (place a x) = Some m /\ points "col" v m) /\
    (forall a x v, In (a, x, v) (leaves q) -> exists m, nth_error l (place' a x) = Some m /\ points "col" v m) /\
    wf F /\ dim F = size c /\ wf G /\ dim G = size w /\
    (forall i j e, rows place p i j e -> defined c i j -> forall k, k < size c -> eval F e k = value c i j k) /\
    (forall i j e, rows place' q i j e -> defined w i j -> forall k, k < size w -> eval G e k = value w i j k) /\
    forall K, weighted_by op G K ->
    exists p al, operator_text o = Ok p /\ engine_aliases 0 None None (p_aliases p) = Ok al /\
      engine_makes al (p_formula p) None true (1 - axis_of index) F "Max_SumShiftExpWeight_Reduction" (Cat F K) (Z.of_nat (dim F + dim K)).
Proof.
  intros c p z w q y op index o l H R OB N H' R' OB' N' S.
  assert (P : pos p) by (intros a x v J; now apply (proj2 OB a x v)). assert (P' : pos q) by (intros a x v J; now apply (proj2 OB' a x v)).
  destruct (calls c p z H R P N) as (U & O & _). destruct (calls w q y H' R' P' N') as (U' & O' & _).
  destruct (usual_weighted p z q y op index o l OB O U R OB' O' U' R' S) as (place & place' & F & G & A1 & A2 & AF & WF & _ & AG & WG & _ & X).
  destruct (values c p z H R OB N) as [_ V]. destruct (V place) as (F' & AF' & _ & D & E). rewrite AF in AF'. injection AF' as <-.
  destruct (values w q y H' R' OB' N') as [_ V']. destruct (V' (fun a x => List.length (z_data z) + place' a x)) as (G' & AG' & _ & D' & E').
  rewrite AG in AG'. injection AG' as <-.
  exists place, (fun a x => List.length (z_data z) + place' a x), F, G. repeat (split; [assumption|]). exact X.
Qed.
