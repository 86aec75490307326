(** * Proofs about indices stored as floating-point numbers. *)

From Coq Require Import ZArith Reals List Bool String Lia Lra.
From Flocq Require Import Core.
From Verif Require Import Keys KeySpec Aliases ArgIndices.
Import ListNotations.
Local Open Scope Z_scope.

Lemma stored_exact : forall t i, Z.abs i <= 2 ^ precision t -> stored t (IZR i) = IZR i.
Proof.
  intros t i H. unfold stored. apply round_generic; [apply valid_rnd_N|].
  assert (P : 0 < precision t) by (destruct t; reflexivity).
  destruct (Z.eq_dec (Z.abs i) (2 ^ precision t)) as [E|E].
  - (* a power of two *)
    assert (G : generic_format radix2 (FLT_exp (min_exp t) (precision t)) (IZR (2 ^ precision t))).
    { rewrite (IZR_Zpower radix2) by lia. apply generic_format_bpow.
      unfold FLT_exp. destruct t; reflexivity || (simpl; lia). }
    destruct (Z.abs_eq_cases i (2 ^ precision t)) as [K|K].
    + rewrite E. symmetry. apply Z.abs_eq. lia.
    + rewrite K. exact G.
    + rewrite K, opp_IZR. now apply generic_format_opp.
  - apply generic_format_FLT. exists (Float radix2 i 0).
    + unfold F2R. simpl. ring.
    + simpl. change (radix2 : Z) with 2. lia.
    + destruct t; simpl; lia.
Qed.

Lemma copied_exact : forall t path i, Z.abs i <= 2 ^ precision t ->
  (forall u, In (ToFloat u) path -> precision t <= precision u) ->
  fold_left (fun x c => copied c x) path (IZR i) = IZR i.
Proof.
  intros t path i H. induction path as [|c path IH]; intros P; simpl; auto.
  assert (E : copied c (IZR i) = IZR i).
  { destruct c as [u|]; simpl.
    - apply stored_exact. assert (precision t <= precision u) by (apply P; now left).
      etransitivity; [exact H|]. apply Z.pow_le_mono_r; lia.
    - now rewrite Ztrunc_IZR. }
  rewrite E. apply IH. intros u I. apply P. now right.
Qed.

Lemma returned_exact : forall t path i, Z.abs i <= 2 ^ precision t ->
  (forall u, In (ToFloat u) path -> precision t <= precision u) -> returned t path i = i.
Proof.
  intros t path i H P. unfold returned. rewrite (copied_exact t) by auto.
  rewrite stored_exact by auto. apply Ztrunc_IZR.
Qed.

Lemma accepted_exact : forall op t nred path ind,
  contains "Arg" op = true -> accepted op (type_name t) nred = true ->
  (t = Float64 -> nred <= 2 ^ 53) ->
  (forall u, In (ToFloat u) path -> precision t <= precision u) ->
  0 <= ind < nred -> returned t path ind = ind.
Proof.
  intros op t nred path ind C A D P I. apply returned_exact; auto.
  unfold accepted in A. rewrite C in A. destruct t; simpl in A |- *.
  - rewrite andb_false_r in A. destruct (Z.ltb_spec 2048 nred); [discriminate|]. lia.
  - destruct (Z.ltb_spec 16000000 nred); [discriminate|]. lia.
  - specialize (D eq_refl). lia.
Qed.

(** The first index that is not exact. *)
Lemma ulp_half : forall t, stored t (IZR (2 ^ precision t + 1)) = IZR (2 ^ precision t).
Proof.
  intros t. unfold stored.
  assert (P : 0 < precision t) by (destruct t; reflexivity).
  assert (M : mag radix2 (IZR (2 ^ precision t + 1)) = precision t + 1 :> Z).
  { apply mag_unique. rewrite Rabs_pos_eq.
    - replace (precision t + 1 - 1) with (precision t) by lia.
      rewrite <- (IZR_Zpower radix2) by lia. rewrite <- (IZR_Zpower radix2) by lia.
      change (radix2 : Z) with 2. split; [apply IZR_le; lia|apply IZR_lt].
      rewrite Z.pow_add_r by lia. assert (1 < 2 ^ precision t) by (apply Z.pow_gt_1; lia). lia.
    - apply IZR_le. assert (0 < 2 ^ precision t) by (apply Z.pow_pos_nonneg; lia). lia. }
  unfold round, scaled_mantissa, cexp. rewrite M.
  assert (E : FLT_exp (min_exp t) (precision t) (precision t + 1) = 1)
    by (destruct t; reflexivity).
  rewrite E. unfold F2R. cbn [Fnum Fexp].
  replace (IZR (2 ^ precision t + 1) * bpow radix2 (- (1)))%R
    with (IZR (2 ^ (precision t - 1)) + / 2)%R.
  2:{ rewrite plus_IZR. replace (2 ^ precision t) with (2 * 2 ^ (precision t - 1)).
      - rewrite mult_IZR. simpl. unfold Z.pow_pos. simpl. field.
      - rewrite <- Z.pow_succ_r by lia. f_equal. lia. }
  assert (FL : Zfloor (IZR (2 ^ (precision t - 1)) + / 2) = 2 ^ (precision t - 1)).
  { apply Zfloor_imp. rewrite plus_IZR. lra. }
  unfold Znearest. rewrite FL.
  replace (IZR (2 ^ (precision t - 1)) + / 2 - IZR (2 ^ (precision t - 1)))%R with (/ 2)%R by ring.
  rewrite Rcompare_Eq by reflexivity.
  assert (EV : Z.even (2 ^ (precision t - 1)) = true) by (destruct t; reflexivity).
  rewrite EV. cbn [negb].
  replace (2 ^ precision t) with (2 ^ (precision t - 1) * 2).
  - rewrite mult_IZR. reflexivity.
  - rewrite Z.mul_comm, <- Z.pow_succ_r by lia. f_equal. lia.
Qed.

Lemma returned_odd : forall t, returned t [] (2 ^ precision t + 1) = 2 ^ precision t.
Proof. intros t. unfold returned. cbn [fold_left]. rewrite ulp_half. apply Ztrunc_IZR. Qed.

Lemma big_double : forall op,
  accepted op (type_name Float64) (2 ^ 53 + 2) = true
  /\ returned Float64 [] (2 ^ 53 + 1) <> 2 ^ 53 + 1.
Proof.
  intros op. split.
  - unfold accepted. destruct (contains "Arg" op); reflexivity.
  - intros H. pose proof (returned_odd Float64) as K. cbn [precision] in K. rewrite H in K. discriminate.
Qed.

Lemma needed_half : accepted "ArgMin" (type_name Float16) 2050 = false
  /\ returned Float16 [] 2049 = 2048.
Proof. split; [reflexivity|]. exact (returned_odd Float16). Qed.

Lemma needed_single : accepted "ArgMin" (type_name Float32) 16777218 = false
  /\ returned Float32 [] 16777217 = 16777216.
Proof. split; [reflexivity|]. exact (returned_odd Float32). Qed.
