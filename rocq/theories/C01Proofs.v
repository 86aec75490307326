From Coq Require Import ZArith Reals Lia Lra.
From Verif Require Import Result Formula Simplify SimplifyProofs Build BuildProofs FormulaSpec.

Lemma entry_bcv : forall d v k, entry d v k = bcv d v k.
Proof. intros d v k. destruct d as [|[|d]]; reflexivity. Qed.

Lemma total_rsum : forall n v, total n v = rsum n v.
Proof.
  intros n v. destruct n as [|n]; auto. cbn [total].
  induction n as [|n IH]; cbn [sum_f_R0 rsum] in *; [lra|]. rewrite IH. reflexivity.
Qed.

Lemma computes2_of : forall op f g h, sound2 safe_doms op f g h -> wf f -> wf g ->
  computes2 op (fun _ _ => True) f g h.
Proof.
  intros op f g h S Wf Wg. destruct (S Wf Wg) as (A & B & C & D).
  split; auto. split; auto. split; auto. intros e Sf Sg _.
  destruct (D e Sf Sg) as [D1 D2]. split; auto. intros k K.
  rewrite !entry_bcv. rewrite <- (val_lt h) by auto. apply D2. left; auto.
Qed.

Lemma computes1_of : forall op f h, sound1 safe_doms op f h -> wf f ->
  computes1 op (fun _ => True) f h.
Proof.
  intros op f h S Wf. destruct (S Wf) as (A & C & D).
  split; auto. split; auto. intros e Sf _.
  destruct (D e Sf) as [D1 D2]. split; auto. intros k K.
  rewrite <- (val_lt h), <- (val_lt f) by lia. apply D2. left; lia.
Qed.

Lemma add_value : forall f g h, wf f -> wf g -> Add f g = Ok h ->
  computes2 Rplus (fun _ _ => True) f g h.
Proof. intros. apply computes2_of; auto. eapply Add_ok; eauto using safe_arith_ok. Qed.

Lemma sub_value : forall f g h, wf f -> wf g -> Subtract f g = Ok h ->
  computes2 Rminus (fun _ _ => True) f g h.
Proof. intros. apply computes2_of; auto. eapply Subtract_ok; eauto using safe_arith_ok. Qed.

Lemma mult_value : forall f g h, wf f -> wf g -> Mult f g = Ok h ->
  computes2 Rmult (fun _ _ => True) f g h.
Proof. intros. apply computes2_of; auto. eapply Mult_ok; eauto using safe_arith_ok. Qed.

Lemma minus_value : forall f h, wf f -> Minus f = Ok h -> computes1 Ropp (fun _ => True) f h.
Proof. intros. apply computes1_of; auto. eapply Minus_ok; eauto using safe_arith_ok. Qed.

Lemma square_value : forall f h, wf f -> Square f = Ok h ->
  computes1 (fun x => x * x)%R (fun _ => True) f h.
Proof. intros. apply computes1_of; auto. eapply Square_ok; eauto using safe_arith_ok. Qed.

Lemma divide_value : forall f g h, wf f -> wf g -> Divide f g = Ok h ->
  computes2 Rdiv (fun _ y => y <> 0%R) f g h.
Proof.
  intros f g h Wf Wg H.
  destruct (Divide_ok safe_doms safe_arith_ok _ _ _ H Wf Wg) as (A & B & C & D).
  split; auto. split; auto. split; auto. intros e Sf Sg NZ.
  destruct (D e Sf Sg) as [D1 D2].
  { intros k K. specialize (NZ k K). rewrite !entry_bcv in NZ. exact NZ. }
  split; auto. intros k K. rewrite !entry_bcv, <- (val_lt h) by auto. apply D2. left; auto.
Qed.

Lemma pow_value : forall f m h, wf f -> Pow f m = Ok h ->
  computes1 (fun x => powerRZ x m) (fun x => (0 <= m)%Z \/ x <> 0%R) f h.
Proof.
  intros f m h Wf H. destruct (Pow_ok safe_doms safe_arith_ok _ _ _ H Wf) as (A & C & D).
  split; auto. split; auto. intros e Sf NZ. destruct (D e Sf NZ) as [D1 D2].
  split; auto. intros k K. rewrite <- (val_lt h), <- (val_lt f) by lia. apply D2.
Qed.

Lemma sum_value : forall f h, wf f -> Sum f = Ok h ->
  wf h /\ dim h = 1%nat /\ forall e, safe e f -> safe e h /\
    eval h e 0%nat = total (dim f) (eval f e).
Proof.
  intros f h Wf H. destruct (Sum_ok safe_doms safe_arith_ok _ _ H Wf) as (A & B & C).
  split; auto. split; auto. intros e Sf. rewrite total_rsum. auto.
Qed.

Lemma scalprod_value : forall f g h, wf f -> wf g -> Scalprod f g = Ok h ->
  wf h /\ compatible (dim f) (dim g) /\ dim h = 1%nat /\
  forall e, safe e f -> safe e g -> safe e h /\
    eval h e 0%nat = total (Nat.max (dim f) (dim g))
      (fun k => entry (dim f) (eval f e) k * entry (dim g) (eval g e) k)%R.
Proof.
  intros f g h Wf Wg H.
  destruct (Scalprod_ok safe_doms safe_arith_ok _ _ _ H Wf Wg) as (A & B & C & D).
  split; auto. split; auto. split; auto. intros e Sf Sg.
  destruct (D e Sf Sg) as [D1 D2]. split; auto. rewrite total_rsum, D2.
  apply rsum_ext. intros k K. rewrite !entry_bcv. reflexivity.
Qed.

Lemma sumT_value : forall f d h, wf f -> SumT f d = Ok h ->
  dim f = 1%nat /\ wf h /\ dim h = d /\ forall e, safe e f -> safe e h /\
    forall k, (k < d)%nat -> eval h e k = eval f e 0%nat.
Proof.
  intros f d h Wf H. destruct (SumT_ok safe_doms _ _ _ H Wf) as (A & B & C & D & E).
  split; auto. split; auto. split; auto. intros e Sf. destruct (E e Sf) as [E1 E2].
  split; auto. intros k K. rewrite <- (val_lt h), E2 by lia. apply val_1; auto.
Qed.

Lemma rat_value : forall a b h, RatCst a b = Ok h ->
  b <> 0%Z /\ wf h /\ dim h = 1%nat /\
  forall e, safe e h /\ eval h e 0%nat = (IZR a / IZR b)%R.
Proof.
  intros a b h H. destruct (RatCst_ok safe_doms _ _ _ H) as (A & B & C & D).
  split; auto. split; auto. split; auto. intros e. destruct (D e) as [D1 D2].
  split; auto. rewrite <- (D2 0%nat). rewrite val_1; auto.
Qed.

Lemma build_value : forall f h, wf f -> build f = Ok h -> equivalent f h.
Proof.
  intros f h W H. destruct (build_sound _ _ H W) as (A & B & C).
  split; auto. split; auto. intros e S. destruct (C e S) as [C1 [_ C2]]. split; auto.
Qed.
