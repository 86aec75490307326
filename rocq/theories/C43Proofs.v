(** Proofs for C43: B-splines. *)

From Coq Require Import ZArith Reals List Bool Arith Lia Lra String.
From Verif Require Import Result Tensordot C36Proofs BSpline BSplineSpec.
Local Open Scope R_scope.

Lemma sorted_le : forall n t i j, sorted_knots n t -> (i <= j)%nat -> (j < n)%nat -> t i <= t j.
Proof.
  intros n t i j S H. induction H as [|j H IH]; intros L; [lra|].
  specialize (IH ltac:(lia)). specialize (S j ltac:(lia)). replace (j + 1)%nat with (Datatypes.S j) in S by lia. lra.
Qed.

Lemma basis_outside : forall n t x, sorted_knots n t -> forall k i, (i + k + 1 < n)%nat ->
  (x < t i \/ t (i + k + 1)%nat <= x) -> basis t k i x = 0.
Proof.
  intros n t x S. induction k as [|p IH]; intros i L H; cbn [basis].
  - rewrite Nat.add_0_r in H. destruct (Rle_dec (t i) x), (Rlt_dec x (t (i + 1)%nat)); auto. lra.
  - rewrite (IH i), (IH (i + 1)%nat); [lra|lia| |lia|].
    + pose proof (sorted_le n t i (i + 1) S ltac:(lia) ltac:(lia)).
      replace (i + 1 + p + 1)%nat with (i + Datatypes.S p + 1)%nat by lia. lra.
    + pose proof (sorted_le n t (i + p + 1) (i + Datatypes.S p + 1) S ltac:(lia) ltac:(lia)). lra.
Qed.

Definition rat (t : nat -> R) (x : R) (a b : nat) : R := if Rlt_dec (t a) (t b) then (x - t a) / (t b - t a) else 0.

Lemma basis_step : forall n t x k i, sorted_knots n t -> (i + 1 + (k + 1) < n)%nat ->
  basis t (k + 1) i x = rat t x i (i + (k + 1)) * basis t k i x + (1 - rat t x (i + 1) (i + 1 + (k + 1))) * basis t k (i + 1) x.
Proof.
  intros n t x k i S L. replace (k + 1)%nat with (Datatypes.S k) in * by lia. cbn [basis]. unfold rat.
  replace (i + 1 + Datatypes.S k)%nat with (i + Datatypes.S k + 1)%nat by lia.
  pose proof (sorted_le n t i (i + Datatypes.S k) S ltac:(lia) ltac:(lia)) as H1.
  pose proof (sorted_le n t (i + 1) (i + Datatypes.S k + 1) S ltac:(lia) ltac:(lia)) as H2. unfold over.
  f_equal.
  - f_equal. destruct (Rlt_dec _ _), (Req_EM_T _ _); try lra; auto.
  - destruct (Rlt_dec _ _), (Req_EM_T _ _); try lra.
    + f_equal. field. lra.
    + rewrite (basis_outside n t x S k (i + 1)); [lra|lia|]. replace (i + 1 + k + 1)%nat with (i + Datatypes.S k + 1)%nat by lia. lra.
Qed.

Lemma ratio_ok : forall n t x a b, (a < n)%nat -> (b < n)%nat -> ratio n t x a b = Ok (rat t x a b).
Proof. intros. unfold ratio. rewrite !read_ok by auto. reflexivity. Qed.

Theorem code_basis : forall n order t x out, sorted_knots n t -> (order + 1 < n)%nat ->
  exists out', bspline_code n order t x out = Ok out'
  /\ forall i, (i < n - order - 1)%nat -> out' i = basis t order i x.
Proof.
  intros n order t x out S L. unfold bspline_code, for_loop.
  destruct (for_inv _ (fun j o => forall i, (i < j)%nat -> o i = basis t 0 i x)
    (fun (j : nat) out => do a <- read n t j; do b <- read n t (j + 1);
      write (n - 1) out j (if Rle_dec a x then if Rlt_dec x b then 1 else 0 else 0)) (n - 1) 0 out) as (o1 & E1 & I1).
  { intros; lia. }
  { intros j o B I. rewrite !read_ok by lia. cbn [rbind]. rewrite write_ok by lia. eexists. split; [reflexivity|].
    intros i Li. cbn beta. destruct (Nat.eqb_spec i j) as [->|N]; [reflexivity|]. apply I. lia. }
  rewrite E1. cbn [rbind]. clear E1.
  match goal with |- context [for_from order 1 ?body o1] =>
    destruct (for_inv _ (fun k o => (1 <= k)%nat /\ forall i, (i < n - k)%nat -> o i = basis t (k - 1) i x) body order 1 o1)
      as (o2 & E2 & _ & I2) end.
  { split; [lia|]. intros i Li. apply I1. lia. }
  { intros k o B [_ I]. rewrite ratio_ok by lia. cbn [rbind]. unfold for_loop.
    match goal with |- context [for_from (n - 1 - k) 0 ?body ?s0] =>
      destruct (for_inv _ (fun i (s : R * (nat -> R)) => fst s = rat t x i (i + k)
        /\ (forall j, (j < i)%nat -> snd s j = basis t k j x)
        /\ (forall j, (i <= j < n - k)%nat -> snd s j = basis t (k - 1) j x)) body (n - 1 - k) 0 s0) as (s & Es & _ & Is & _) end.
    { cbn. split; [reflexivity|]. split; intros j Lj; [lia|]. apply I. lia. }
    { intros i [r q] Bi (Hr & Ha & Hb). cbn [fst snd] in *. rewrite ratio_ok by lia. cbn [rbind].
      rewrite !read_ok by lia. cbn [rbind]. rewrite write_ok by lia. cbn [rbind]. eexists. split; [reflexivity|]. cbn [fst snd].
      split; [reflexivity|]. split; intros j Lj; destruct (Nat.eqb_spec j i) as [->|N]; try lia.
      - replace k with (k - 1 + 1)%nat at 2 by lia. rewrite (basis_step n) by (auto; lia).
        rewrite Hr, !Hb by lia. replace (k - 1 + 1)%nat with k by lia. reflexivity.
      - apply Ha. lia.
      - apply Hb. lia. }
    rewrite Es. cbn [rbind]. eexists. split; [reflexivity|]. split; [lia|]. intros i Li.
    replace (k + 1 - 1)%nat with k by lia. apply Is. lia. }
  exists o2. split; [exact E2|]. intros i Li. rewrite I2 by lia. f_equal. lia.
Qed.

Lemma float_types : op_types "float" = Ok tt. Proof. reflexivity. Qed.

Theorem bspline_basis : forall nk order t x out, (0 <= order)%Z -> (order + 2 <= Z.of_nat nk)%Z -> sorted_knots nk t ->
  exists out', bspline "float" nk 1 order t x out = Ok ((nk - Z.to_nat order - 1)%nat, out')
  /\ forall i, (i < nk - Z.to_nat order - 1)%nat -> out' i = basis t (Z.to_nat order) i (x 0%nat).
Proof.
  intros nk order t x out P L S. unfold bspline.
  destruct (Z.ltb_spec order 0); [lia|]. cbn [Nat.eqb negb]. destruct (Z.ltb_spec (Z.of_nat nk) (order + 2)); [lia|].
  destruct (Nat.ltb_spec (nk - 1) (nk - Z.to_nat order - 1)); [lia|].
  rewrite float_types. cbn [rbind]. rewrite read_ok by lia. cbn [rbind].
  destruct (code_basis nk (Z.to_nat order) t (x 0%nat) out S ltac:(lia)) as (o & E & H2). rewrite E. cbn [rbind].
  exists o. auto.
Qed.

Theorem bspline_rejects : forall dtype nk nx order t x out, dtype = "float"%string -> sorted_knots nk t ->
  (bspline dtype nk nx order t x out = KErr <-> (order < 0)%Z \/ nx <> 1%nat \/ (Z.of_nat nk < order + 2)%Z).
Proof.
  intros dtype nk nx order t x out -> S. split.
  - intros H. destruct (Z.ltb_spec order 0); [auto|]. destruct (Nat.eq_dec nx 1) as [->|]; [|auto].
    destruct (Z.ltb_spec (Z.of_nat nk) (order + 2)); [auto|].
    destruct (bspline_basis nk order t x out) as (o & E & _); auto. congruence.
  - intros H. unfold bspline. destruct (Z.ltb_spec order 0); [reflexivity|].
    destruct (Nat.eqb_spec nx 1); cbn [negb]; [|reflexivity]. destruct (Z.ltb_spec (Z.of_nat nk) (order + 2)); [reflexivity|]. lia.
Qed.

Theorem bspline_dtype : forall dtype nk nx order t x out, dtype <> "float"%string ->
  bspline dtype nk nx order t x out = KErr.
Proof.
  intros dtype nk nx order t x out N. unfold bspline.
  destruct (order <? 0)%Z; [reflexivity|]. destruct (negb (nx =? 1)); [reflexivity|].
  destruct (Z.of_nat nk <? order + 2)%Z; [reflexivity|]. destruct (nk - 1 <? nk - Z.to_nat order - 1)%nat; [reflexivity|].
  replace (op_types dtype) with (@KErr unit); [reflexivity|].
  unfold op_types, binary_type. rewrite String.eqb_refl. cbn [negb rbind].
  replace (String.eqb "float" dtype) with false; [reflexivity|]. symmetry. apply String.eqb_neq. congruence.
Qed.

Theorem basis_support : forall n t k i x, sorted_knots n t -> (i + k + 1 < n)%nat ->
  0 <= basis t k i x /\ (basis t k i x <> 0 -> t i <= x < t (i + k + 1)%nat).
Proof.
  intros n t k i x S L. split.
  2:{ intros H. destruct (Rle_dec (t i) x), (Rlt_dec x (t (i + k + 1)%nat)); try lra; exfalso; apply H;
      apply (basis_outside n); auto; lra. }
  revert i L. induction k as [|p IH]; intros i L; cbn [basis].
  - destruct (Rle_dec _ _); [destruct (Rlt_dec _ _)|]; lra.
  - assert (forall a b, 0 <= a -> 0 <= b -> 0 <= over a b) as Ho.
    { intros a b Ha Hb. unfold over. destruct (Req_EM_T b 0); [lra|]. apply Rmult_le_pos; [lra|].
      left. apply Rinv_0_lt_compat. lra. }
    pose proof (sorted_le n t i (i + Datatypes.S p) S ltac:(lia) ltac:(lia)).
    pose proof (sorted_le n t (i + 1) (i + Datatypes.S p + 1) S ltac:(lia) ltac:(lia)).
    apply Rplus_le_le_0_compat.
    + destruct (Rle_dec (t i) x); [apply Rmult_le_pos; [apply Ho; lra|apply IH; lia]|].
      rewrite (basis_outside n t x S p i) by (lia || lra). lra.
    + destruct (Rle_dec x (t (i + Datatypes.S p + 1)%nat)); [apply Rmult_le_pos; [apply Ho; lra|apply IH; lia]|].
      rewrite (basis_outside n t x S p (i + 1)); [lra|lia|]. replace (i + 1 + p + 1)%nat with (i + Datatypes.S p + 1)%nat by lia. lra.
Qed.

Lemma sum_ext : forall n f g, (forall i, (i < n)%nat -> f i = g i) -> sum_to n f = sum_to n g.
Proof. induction n; cbn; intros f g H; [reflexivity|]. rewrite (IHn f g), H; auto. Qed.

Lemma sum_shift : forall m g, sum_to (Datatypes.S m) g = g 0%nat + sum_to m (fun i => g (i + 1)%nat).
Proof.
  induction m; intros g; [cbn; lra|]. change (sum_to (Datatypes.S (Datatypes.S m)) g) with (sum_to (Datatypes.S m) g + g (Datatypes.S m)).
  rewrite IHm. cbn [sum_to]. replace (m + 1)%nat with (Datatypes.S m) by lia. lra.
Qed.

Lemma telescope : forall m f g, sum_to m (fun i => f i + (g (i + 1)%nat - f (i + 1)%nat))
  = f 0%nat - f m + sum_to m (fun i => g (i + 1)%nat).
Proof. induction m; intros f g; cbn; [lra|]. rewrite IHm. replace (m + 1)%nat with (Datatypes.S m) by lia. lra. Qed.

Lemma unity0 : forall n t x, sorted_knots n t -> t 0%nat <= x -> forall m, (m < n)%nat ->
  sum_to m (fun i => basis t 0 i x) = if Rlt_dec x (t m) then 1 else 0.
Proof.
  intros n t x S H0. induction m as [|m IH]; intros L; cbn [sum_to].
  - destruct (Rlt_dec _ _); lra.
  - rewrite IH by lia. cbn [basis]. replace (m + 1)%nat with (Datatypes.S m) by lia.
    pose proof (sorted_le n t m (Datatypes.S m) S ltac:(lia) L).
    destruct (Rlt_dec x (t m)), (Rle_dec (t m) x), (Rlt_dec x (t (Datatypes.S m))); lra.
Qed.

Theorem basis_unity : forall n t x, sorted_knots n t -> forall k, (k + 1 < n)%nat -> t k <= x < t (n - k - 1)%nat ->
  sum_to (n - k - 1) (fun i => basis t k i x) = 1.
Proof.
  intros n t x S. induction k as [|p IH]; intros L H.
  - rewrite (unity0 n); auto; [|tauto|lia]. destruct (Rlt_dec _ _); lra.
  - set (m := (n - Datatypes.S p - 1)%nat) in *.
    pose proof (sorted_le n t p (Datatypes.S p) S ltac:(lia) ltac:(lia)).
    assert (0 < m)%nat as Pm by (unfold m; lia).
    pose proof (sorted_le n t m (n - p - 1) S ltac:(unfold m; lia) ltac:(lia)).
    specialize (IH ltac:(lia) ltac:(lra)). replace (n - p - 1)%nat with (Datatypes.S m) in IH by (unfold m; lia).
    rewrite sum_shift in IH.
    set (f := fun i => rat t x i (i + (p + 1)) * basis t p i x). set (g := fun i => basis t p i x).
    rewrite (sum_ext m _ (fun i => f i + (g (i + 1)%nat - f (i + 1)%nat))).
    2:{ intros i Li. replace (Datatypes.S p) with (p + 1)%nat by lia. rewrite (basis_step n) by (auto; unfold m in Li; lia). unfold f, g. lra. }
    rewrite telescope. unfold f, g.
    rewrite (basis_outside n t x S p 0) in * by (try (replace (0 + p + 1)%nat with (Datatypes.S p) by lia); lia || lra).
    destruct (Nat.lt_ge_cases (m + p + 1) n) as [Lm|Lm]; [|unfold m in Lm; lia].
    rewrite (basis_outside n t x S p m) by (auto; lra). lra.
Qed.

Theorem right_end : exists nk order t, sorted_knots nk t /\ (order + 1 < nk)%nat
  /\ forall x out, x 0%nat = t (nk - order - 1)%nat ->
     exists out', bspline "float" nk 1 (Z.of_nat order) t x out = Ok ((nk - order - 1)%nat, out')
     /\ forall i, (i < nk - order - 1)%nat -> out' i = 0.
Proof.
  exists 6%nat, 2%nat, (fun i => INR (Nat.min i 3)).
  assert (sorted_knots 6 (fun i => INR (Nat.min i 3))) as S by (intros i H; apply le_INR; lia).
  split; [exact S|]. split; [lia|]. intros x out Hx.
  destruct (bspline_basis 6 2 _ x out ltac:(lia) ltac:(lia) S) as (o & E & H). exists o. split; [exact E|].
  intros i Li. rewrite H by exact Li. apply (basis_outside 6); [exact S|cbn in *; lia|]. right. rewrite Hx.
  apply le_INR. cbn in *. lia.
Qed.

Lemma bspline_inv : forall nk order t x out d out', sorted_knots nk t -> bspline "float" nk 1 order t x out = Ok (d, out') ->
  exists k, order = Z.of_nat k /\ (k + 1 < nk)%nat /\ d = (nk - k - 1)%nat /\ forall i, (i < d)%nat -> out' i = basis t k i (x 0%nat).
Proof.
  intros nk order t x out d out' S H.
  destruct (Z.ltb_spec order 0) as [N|N]; [unfold bspline in H; destruct (Z.ltb_spec order 0); [discriminate|lia]|].
  destruct (Z.ltb_spec (Z.of_nat nk) (order + 2)) as [M|M].
  { unfold bspline in H. destruct (Z.ltb_spec order 0); [discriminate|]. cbn [Nat.eqb negb] in H.
    destruct (Z.ltb_spec (Z.of_nat nk) (order + 2)); [discriminate|lia]. }
  destruct (bspline_basis nk order t x out N M S) as (o & E & V). rewrite E in H. injection H as <- <-.
  exists (Z.to_nat order). repeat split; auto; lia.
Qed.

Theorem bspline_support : forall nk order t x out d out' i, sorted_knots nk t ->
  bspline "float" nk 1 order t x out = Ok (d, out') -> (i < d)%nat ->
  0 <= out' i /\ (out' i <> 0 -> t i <= x 0%nat < t (i + Z.to_nat order + 1)%nat).
Proof.
  intros nk order t x out d out' i S H L. destruct (bspline_inv _ _ _ _ _ _ _ S H) as (k & -> & Lk & -> & V).
  rewrite V, Nat2Z.id by auto. apply (basis_support nk); auto. lia.
Qed.

Theorem bspline_unity : forall nk order t x out d out', sorted_knots nk t ->
  bspline "float" nk 1 order t x out = Ok (d, out') -> t (Z.to_nat order) <= x 0%nat < t d -> sum_to d out' = 1.
Proof.
  intros nk order t x out d out' S H B. destruct (bspline_inv _ _ _ _ _ _ _ S H) as (k & -> & Lk & -> & V).
  rewrite Nat2Z.id in B. rewrite (sum_ext _ _ _ V). apply (basis_unity nk); auto.
Qed.
