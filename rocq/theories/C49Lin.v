(** Linear systems: dimension, perturbation, approximate solutions. *)

From Coq Require Import Reals List Lra Lia Arith FunctionalExtensionality Classical.
From Verif Require Import Result Calculus Solver SolverSpec C30Proofs.
Import ListNotations.
Local Open Scope R_scope.

(** ** More vectors than coordinates *)

Fixpoint comb (cs : list R) (vs : list vec) (k : nat) : R :=
  match cs, vs with c :: cs, v :: vs => c * v k + comb cs vs k | _, _ => 0 end.

Lemma comb_app : forall cs vs cs' vs' k, length cs = length vs ->
  comb (cs ++ cs') (vs ++ vs') k = comb cs vs k + comb cs' vs' k.
Proof.
  induction cs as [|c cs IH]; intros [|v vs] cs' vs' k L; simpl in *; try discriminate; [lra|].
  injection L as L. rewrite IH by exact L. lra.
Qed.

Lemma comb_shift : forall (g : vec -> R) w cs vs k, length cs = length vs ->
  comb cs (map (fun v i => v i + g v * w i) vs) k
  = comb cs vs k + listsum (map (fun p => fst p * g (snd p)) (combine cs vs)) * w k.
Proof.
  intros g w. induction cs as [|c cs IH]; intros [|v vs] k L; simpl in *; try discriminate; [lra|].
  injection L as L. rewrite IH by exact L. ring.
Qed.

Lemma comb_zero_at : forall cs vs k, (forall v, In v vs -> v k = 0) -> comb cs vs k = 0.
Proof.
  induction cs as [|c cs IH]; intros [|v vs] k H; simpl; try reflexivity.
  rewrite (H v) by now left. rewrite IH; [lra|]. intros; apply H; now right.
Qed.

Lemma split_list : forall (A : Type) (cs : list R) (l1 l2 : list A), length cs = (length l1 + length l2)%nat ->
  exists c1 c2, cs = c1 ++ c2 /\ length c1 = length l1 /\ length c2 = length l2.
Proof.
  intros A cs l1 l2 H. exists (firstn (length l1) cs), (skipn (length l1) cs).
  rewrite firstn_skipn, firstn_length, skipn_length. repeat split; lia.
Qed.

Lemma dependent : forall n (vs : list vec), (n < length vs)%nat ->
  exists cs, length cs = length vs /\ (exists c, In c cs /\ c <> 0) /\
  forall k, (k < n)%nat -> comb cs vs k = 0.
Proof.
  induction n as [|n IH]; intros vs Hn.
  - destruct vs as [|v vs]; [simpl in Hn; lia|].
    exists (1 :: map (fun _ => 0) vs). repeat split.
    + simpl. now rewrite map_length.
    + exists 1. split; [now left|lra].
    + intros; lia.
  - destruct (classic (exists v, In v vs /\ v n <> 0)) as [(w & Iw & Nw)|Z].
    + destruct (in_split _ _ Iw) as (l1 & l2 & ->).
      set (g := fun v : vec => - (v n / w n)).
      rewrite app_length in Hn. cbn [length] in Hn.
      destruct (IH (map (fun v i => v i + g v * w i) (l1 ++ l2))) as (cs & Lc & (c & Ic & Nc) & Z).
      { rewrite map_length, app_length. lia. }
      rewrite map_length, app_length in Lc.
      set (s := listsum (map (fun p => fst p * g (snd p)) (combine cs (l1 ++ l2)))).
      assert (Z' : forall k, (k <= n)%nat -> comb cs (l1 ++ l2) k + s * w k = 0).
      { intros k Hk. unfold s. rewrite <- comb_shift by (rewrite app_length; exact Lc).
        destruct (Nat.eq_dec k n) as [->|Ne]; [|apply Z; lia].
        apply comb_zero_at. intros v Hv. apply in_map_iff in Hv. destruct Hv as (v' & <- & _).
        unfold g. field. exact Nw. }
      destruct (split_list vec cs l1 l2 Lc) as (c1 & c2 & -> & L1 & L2).
      exists (c1 ++ s :: c2). repeat split.
      * rewrite !app_length. cbn [length]. lia.
      * exists c. split; [|exact Nc]. apply in_app_or in Ic. apply in_or_app. cbn [In]. tauto.
      * intros k Hk. rewrite comb_app by exact L1. cbn [comb].
        specialize (Z' k ltac:(lia)). rewrite comb_app in Z' by exact L1. lra.
    + destruct (IH vs ltac:(lia)) as (cs & Lc & Nc & Zc). exists cs. repeat split; auto.
      intros k Hk. destruct (Nat.eq_dec k n) as [->|Ne]; [|apply Zc; lia].
      apply comb_zero_at. intros v Hv. destruct (Req_dec (v n) 0); auto. exfalso. apply Z. eauto.
Qed.

(** ** Operators as matrices *)

Lemma linear_sum : forall n L, linear n L -> forall m (u : vec) i, (i < n)%nat ->
  L (fun k => total m (fun j => u j * unit j k)) i = total m (fun j => u j * L (unit j) i).
Proof.
  intros n L HL m u i I. induction m; cbn [total].
  - apply linear_zero with (n := n); auto.
  - rewrite <- IHm. destruct HL as [_ A].
    specialize (A (fun k => total m (fun j => u j * unit j k)) (u m) (unit m) i I).
    unfold axpy in A. exact A.
Qed.

Lemma unit_sum : forall n (u : vec) k, (k < n)%nat -> total n (fun j => u j * unit j k) = u k.
Proof.
  intros n u k K. rewrite <- (dot_unit n k u K). unfold dot. apply total_ext. intros j J.
  unfold unit. rewrite Nat.eqb_sym. ring.
Qed.

Lemma linear_matrix : forall n L, linear n L -> forall u i, (i < n)%nat ->
  L u i = total n (fun j => u j * L (unit j) i).
Proof.
  intros n L HL u i I. rewrite <- (linear_sum n L HL n u i I). destruct HL as [X _].
  apply X; auto. intros k K. symmetry. apply unit_sum, K.
Qed.

Lemma comb_units : forall n m (cs : list R) L, linear n L -> forall i, (i < n)%nat ->
  length cs = m ->
  comb cs (map (fun j => L (unit j)) (seq 0 m)) i = total m (fun j => nth j cs 0 * L (unit j) i).
Proof.
  intros n m cs L HL i I. revert m.
  induction cs as [|c cs IH] using rev_ind; intros m Lc.
  - simpl in Lc. subst m. reflexivity.
  - rewrite app_length in Lc. cbn [length] in Lc. destruct m as [|m]; [lia|].
    rewrite seq_S, map_app, comb_app by (rewrite map_length, seq_length; lia).
    rewrite IH by lia. cbn [total map comb plus].
    rewrite app_nth2 by lia. replace (m - length cs)%nat with 0%nat by lia. cbn [nth].
    rewrite Rplus_0_r. f_equal. apply total_ext. intros j J. rewrite app_nth1 by lia. reflexivity.
Qed.

Definition injective_op n (L : vec -> vec) : Prop := forall u,
  (forall i, (i < n)%nat -> L u i = 0) -> forall i, (i < n)%nat -> u i = 0.
Definition solves n (L : vec -> vec) (b a : vec) : Prop := forall i, (i < n)%nat -> L a i = b i.

Lemma surjective : forall n L b, linear n L -> injective_op n L -> exists a, solves n L b a.
Proof.
  intros n L b HL HI.
  destruct (dependent n (b :: map (fun j => L (unit j)) (seq 0 n))) as (cs & Lc & (c & Ic & Nc) & Z).
  { cbn [length]. rewrite map_length, seq_length. lia. }
  cbn [length] in Lc. rewrite map_length, seq_length in Lc.
  destruct cs as [|c0 cs]; [discriminate|]. injection Lc as Lc. cbn [comb] in Z.
  assert (Z' : forall i, (i < n)%nat -> c0 * b i + L (fun j => nth j cs 0) i = 0).
  { intros i I. rewrite (linear_matrix n L HL _ i I), <- (comb_units n n cs L HL i I Lc). apply Z, I. }
  destruct (Req_dec c0 0) as [E|E].
  - exfalso. apply Nc. subst c0. destruct Ic as [<-|Ic]; [reflexivity|].
    destruct (In_nth _ _ 0 Ic) as (m & Hm & <-).
    apply (HI (fun j => nth j cs 0)); [|lia]. intros i I. specialize (Z' i I). lra.
  - exists (axpy (fun _ => 0) (- / c0) (fun j => nth j cs 0)). intros i I.
    destruct HL as [X A]. rewrite A by exact I. rewrite (linear_zero n L (conj X A) i I).
    specialize (Z' i I). apply (Rmult_eq_reg_l c0); [|exact E].
    replace (c0 * (0 + - / c0 * L (fun j => nth j cs 0) i)) with (- L (fun j => nth j cs 0) i) by (field; exact E).
    lra.
Qed.

Lemma positive_injective : forall n L, positive n L -> injective_op n L.
Proof.
  intros n L HP u H i I. destruct (classic (forall i, (i < n)%nat -> u i = 0)) as [Z|Z]; [now apply Z|].
  specialize (HP u Z). exfalso. rewrite dot_comm, (dot_zero_l n (L u) u) in HP by exact H. lra.
Qed.

(** ** Bounds *)

Lemma total_le : forall n f g, (forall i, (i < n)%nat -> f i <= g i) -> total n f <= total n g.
Proof.
  induction n; intros f g H; cbn [total]; [lra|].
  specialize (IHn f g ltac:(auto)). specialize (H n ltac:(lia)). lra.
Qed.
Lemma total_abs : forall n f, Rabs (total n f) <= total n (fun i => Rabs (f i)).
Proof.
  induction n; intros f; cbn [total]; [rewrite Rabs_R0; lra|].
  eapply Rle_trans; [apply Rabs_triang|]. specialize (IHn f). lra.
Qed.
Lemma total_term : forall n f i, (forall i, (i < n)%nat -> 0 <= f i) -> (i < n)%nat -> f i <= total n f.
Proof.
  induction n; intros f i H I; [lia|]. cbn [total].
  assert (0 <= total n f) by (apply total_nonneg; auto).
  destruct (Nat.eq_dec i n) as [->|Ne]; [lra|].
  specialize (IHn f i ltac:(auto) ltac:(lia)). specialize (H n ltac:(lia)). lra.
Qed.
Lemma total_const : forall n c, total n (fun _ => c) = INR n * c.
Proof. induction n; intros c; [simpl; lra|]. cbn [total]. rewrite IHn, S_INR. lra. Qed.

Definition norm1 (n : nat) (u : vec) : R := total n (fun i => Rabs (u i)).

Lemma norm1_nonneg : forall n u, 0 <= norm1 n u.
Proof. intros. apply total_nonneg. intros. apply Rabs_pos. Qed.
Lemma norm1_term : forall n u i, (i < n)%nat -> Rabs (u i) <= norm1 n u.
Proof. intros. apply (total_term n (fun i => Rabs (u i))); auto. intros; apply Rabs_pos. Qed.
Lemma norm1_zero : forall n u, norm1 n u <= 0 -> forall i, (i < n)%nat -> u i = 0.
Proof.
  intros n u H i I. pose proof (norm1_term n u i I). pose proof (Rabs_pos (u i)).
  destruct (Req_dec (u i) 0); auto. pose proof (Rabs_pos_lt (u i) ltac:(auto)). lra.
Qed.
Lemma dot_bound : forall n u v c, (forall i, (i < n)%nat -> Rabs (v i) <= c) -> Rabs (dot n u v) <= norm1 n u * c.
Proof.
  intros n u v c H. unfold dot. eapply Rle_trans; [apply total_abs|].
  unfold norm1. rewrite Rmult_comm, <- total_scal. apply total_le. intros i I.
  rewrite Rabs_mult, Rmult_comm. apply Rmult_le_compat_r; [apply Rabs_pos|auto].
Qed.

(** ** Inverse of a symmetric positive operator *)

Lemma finite_choice : forall (P : nat -> vec -> Prop) n, (forall i, (i < n)%nat -> exists v, P i v) ->
  exists W : nat -> vec, forall i, (i < n)%nat -> P i (W i).
Proof.
  intros P. induction n; intros H.
  - exists (fun _ _ => 0). intros; lia.
  - destruct IHn as (W & HW); [auto|]. destruct (H n ltac:(lia)) as (v & Hv).
    exists (fun i => if Nat.eqb i n then v else W i). intros i I.
    destruct (Nat.eqb_spec i n); [now subst|]. apply HW. lia.
Qed.

Lemma inverse : forall n L, linear n L -> symmetric n L -> positive n L ->
  exists W : nat -> vec, forall i, (i < n)%nat -> forall u, u i = dot n (W i) (L u).
Proof.
  intros n L HL HS HP.
  destruct (finite_choice (fun i v => solves n L (unit i) v) n) as (W & HW).
  { intros i I. apply surjective; auto. now apply positive_injective. }
  exists W. intros i I u. rewrite HS, <- (dot_unit n i u I). apply dot_ext. intros k K.
  symmetry. apply HW; auto.
Qed.

(** All coordinates of u are bounded by those of [L u]. *)
Lemma inverse_bound : forall n L, linear n L -> symmetric n L -> positive n L ->
  exists C, 0 <= C /\ forall u c, (forall i, (i < n)%nat -> Rabs (L u i) <= c) ->
    (forall i, (i < n)%nat -> Rabs (u i) <= C * c) /\ norm1 n u <= C * c.
Proof.
  intros n L HL HS HP. destruct (inverse n L HL HS HP) as (W & HW).
  set (s := total n (fun i => norm1 n (W i))).
  assert (S0 : 0 <= s) by (apply total_nonneg; intros; apply norm1_nonneg).
  exists s. split; [exact S0|]. intros u c H.
  assert (B : forall i, (i < n)%nat -> Rabs (u i) <= norm1 n (W i) * c).
  { intros i I. rewrite (HW i I u). now apply dot_bound. }
  assert (T : norm1 n u <= s * c).
  { unfold norm1. eapply Rle_trans; [apply total_le, B|]. unfold s. rewrite Rmult_comm, <- total_scal.
    apply Req_le, total_ext. intros; ring. }
  split; [|exact T]. intros i I. eapply Rle_trans; [apply norm1_term, I|exact T].
Qed.

(** ** Operators that depend on a parameter *)
Section Perturbation.
Variables (n : nat) (L : R -> vec -> vec) (K' : nat -> nat -> R) (b h E z : vec).
Hypotheses (Lin : forall t, linear n (L t)) (Sym : symmetric n (L 0)) (Pos : positive n (L 0)).
Hypothesis (Der : forall i j, (i < n)%nat -> (j < n)%nat -> d0 (fun t => L t (unit j) i) (K' i j)).

Let rhs (t : R) : vec := fun i => b i + t * h i.

Lemma entries_close : forall eps, 0 < eps -> exists r, 0 < r /\ forall t, Rabs t < r ->
  forall i j, (i < n)%nat -> (j < n)%nat -> Rabs (L t (unit j) i - L 0 (unit j) i) <= eps.
Proof.
  intros eps He.
  assert (C : forall i j, (i < n)%nat -> (j < n)%nat -> exists r, 0 < r /\ forall t, Rabs t < r ->
    Rabs (L t (unit j) i - L 0 (unit j) i) <= eps).
  { intros i j I J. specialize (Der i j I J).
    assert (DP : derivable_pt (fun t => L t (unit j) i) 0) by (exists (K' i j); exact Der).
    apply derivable_continuous_pt in DP. destruct (DP eps He) as (r & Hr & X).
    exists r. split; [exact Hr|]. intros t Ht. destruct (Req_dec t 0) as [->|Nt].
    - rewrite Rminus_diag_eq by reflexivity. rewrite Rabs_R0. lra.
    - left. apply (X t). split; [split; [exact Logic.I|auto]|].
      cbn. unfold R_dist. now rewrite Rminus_0_r. }
  assert (Cj : forall m i, (i < n)%nat -> (m <= n)%nat -> exists r, 0 < r /\ forall t, Rabs t < r ->
     forall j, (j < m)%nat -> Rabs (L t (unit j) i - L 0 (unit j) i) <= eps).
  { induction m; intros i I Hm; [exists 1; split; [lra|intros; lia]|].
    destruct (IHm i I ltac:(lia)) as (r1 & R1 & X1). destruct (C i m I ltac:(lia)) as (r2 & R2 & X2).
    exists (Rmin r1 r2). split; [now apply Rmin_glb_lt|]. intros t Ht j J.
    destruct (Nat.eq_dec j m) as [->|Ne].
    - apply X2. eapply Rlt_le_trans; [exact Ht|apply Rmin_r].
    - apply X1; [|lia]. eapply Rlt_le_trans; [exact Ht|apply Rmin_l]. }
  assert (Ci : forall m, (m <= n)%nat -> exists r, 0 < r /\ forall t, Rabs t < r ->
     forall i j, (i < m)%nat -> (j < n)%nat -> Rabs (L t (unit j) i - L 0 (unit j) i) <= eps).
  { induction m; intros Hm; [exists 1; split; [lra|intros; lia]|].
    destruct (IHm ltac:(lia)) as (r1 & R1 & X1). destruct (Cj n m ltac:(lia) ltac:(lia)) as (r2 & R2 & X2).
    exists (Rmin r1 r2). split; [now apply Rmin_glb_lt|]. intros t Ht i j I J.
    destruct (Nat.eq_dec i m) as [->|Ne].
    - apply X2; auto. eapply Rlt_le_trans; [exact Ht|apply Rmin_r].
    - apply X1; auto; [|lia]. eapply Rlt_le_trans; [exact Ht|apply Rmin_l]. }
  exact (Ci n ltac:(lia)).
Qed.

Lemma operators_close : forall eps, 0 < eps -> exists r, 0 < r /\ forall t, Rabs t < r ->
  forall u i, (i < n)%nat -> Rabs (L t u i - L 0 u i) <= eps * norm1 n u.
Proof.
  intros eps He. destruct (entries_close eps He) as (r & Hr & X). exists r. split; [exact Hr|].
  intros t Ht u i I. rewrite !(linear_matrix n _ (Lin _) u i I).
  replace (total n (fun j => u j * L t (unit j) i) - total n (fun j => u j * L 0 (unit j) i))
    with (total n (fun j => u j * (L t (unit j) i - L 0 (unit j) i))).
  - change (Rabs (dot n u (fun j => L t (unit j) i - L 0 (unit j) i)) <= eps * norm1 n u).
    rewrite Rmult_comm. apply dot_bound. intros j J. apply X; auto.
  - rewrite (total_ext n _ (fun j => u j * L t (unit j) i + -1 * (u j * L 0 (unit j) i)))
      by (intros; ring).
    rewrite total_plus, total_scal. ring.
Qed.

(** Near 0, all systems have exactly one solution, and solutions stay bounded and close. *)
Lemma near_injective : exists r, 0 < r /\ forall t, Rabs t < r -> injective_op n (L t).
Proof.
  destruct (inverse_bound n (L 0) (Lin 0) Sym Pos) as (C & C0 & X).
  destruct (operators_close (/ (2 * (C + 1)))) as (r & Hr & Y).
  { apply Rinv_0_lt_compat. lra. }
  exists r. split; [exact Hr|]. intros t Ht u Hu.
  assert (B : norm1 n u <= C * (/ (2 * (C + 1)) * norm1 n u)).
  { apply (X u). intros i I. specialize (Y t Ht u i I). rewrite Hu in Y by exact I.
    rewrite Rminus_0_l, Rabs_Ropp in Y. exact Y. }
  apply norm1_zero. pose proof (norm1_nonneg n u).
  assert (C * / (2 * (C + 1)) <= / 2).
  { apply (Rmult_le_reg_r (2 * (C + 1))); [lra|]. rewrite Rmult_assoc, Rinv_l by lra. lra. }
  assert (C * / (2 * (C + 1)) * norm1 n u <= / 2 * norm1 n u) by (apply Rmult_le_compat_r; auto).
  lra.
Qed.

Lemma near_solution : exists r, 0 < r /\ forall t, Rabs t < r ->
  exists a, solves n (L t) (rhs t) a /\ forall a', solves n (L t) (rhs t) a' ->
    forall i, (i < n)%nat -> a' i = a i.
Proof.
  destruct near_injective as (r & Hr & X). exists r. split; [exact Hr|]. intros t Ht.
  destruct (surjective n (L t) (rhs t) (Lin t) (X t Ht)) as (a & Ha). exists a. split; [exact Ha|].
  intros a' Ha' i I.
  assert (Z : axpy a' (-1) a i = 0).
  { apply (X t Ht); auto. intros k K. destruct (Lin t) as [_ A]. rewrite A by exact K.
    rewrite Ha, Ha' by exact K. ring. }
  unfold axpy in Z. lra.
Qed.

Lemma solution_close : forall (a : R -> vec) rho, 0 < rho ->
  (forall t, Rabs t < rho -> solves n (L t) (rhs t) (a t)) ->
  forall eps, 0 < eps -> exists r, 0 < r /\ forall t, Rabs t < r ->
    forall i, (i < n)%nat -> Rabs (a t i - a 0 i) <= eps.
Proof.
  intros a rho Hrho Ha eps He.
  destruct (inverse_bound n (L 0) (Lin 0) Sym Pos) as (C & C0 & X).
  set (m := norm1 n (a 0)). pose proof (norm1_nonneg n (a 0)) as M0. fold m in M0.
  set (e1 := Rmin (/ (2 * (C + 1))) (eps / (4 * (C + 1) * (m + 1)))).
  assert (E1 : 0 < e1).
  { apply Rmin_glb_lt; [apply Rinv_0_lt_compat; lra|].
    apply Rdiv_lt_0_compat; [exact He|]. apply Rmult_lt_0_compat; lra. }
  set (hm := norm1 n h). pose proof (norm1_nonneg n h) as H0. fold hm in H0.
  set (e2 := Rmin (/ (2 * (C + 1))) (eps / (4 * (C + 1)))).
  assert (E2 : 0 < e2).
  { apply Rmin_glb_lt; [apply Rinv_0_lt_compat; lra|]. apply Rdiv_lt_0_compat; lra. }
  destruct (operators_close e1 E1) as (r & Hr & Y).
  exists (Rmin (Rmin r rho) (e2 / (hm + 1))). split.
  { apply Rmin_glb_lt; [now apply Rmin_glb_lt|]. apply Rdiv_lt_0_compat; lra. }
  intros t Ht.
  assert (T1 : Rabs t < r).
  { eapply Rlt_le_trans; [exact Ht|]. eapply Rle_trans; [apply Rmin_l|apply Rmin_l]. }
  assert (T2 : Rabs t < rho).
  { eapply Rlt_le_trans; [exact Ht|]. eapply Rle_trans; [apply Rmin_l|apply Rmin_r]. }
  assert (T3 : Rabs t * hm <= e2).
  { assert (Q : Rabs t < e2 / (hm + 1)) by (eapply Rlt_le_trans; [exact Ht|apply Rmin_r]).
    apply Rle_trans with (e2 / (hm + 1) * (hm + 1)).
    - apply Rmult_le_compat; [apply Rabs_pos|exact H0| |]; lra.
    - right. field. lra. }
  pose proof (Ha t T2) as St. pose proof (Ha 0 ltac:(rewrite Rabs_R0; exact Hrho)) as S0.
  set (u := axpy (a t) (-1) (a 0)).
  assert (R : forall i, (i < n)%nat -> Rabs (L 0 u i) <= e1 * norm1 n (a t) + e2).
  { intros i I. unfold u. destruct (Lin 0) as [_ A]. rewrite A by exact I. rewrite S0 by exact I.
    replace (L 0 (a t) i + -1 * rhs 0 i) with (- (L t (a t) i - L 0 (a t) i) + t * h i)
      by (rewrite St by exact I; unfold rhs; ring).
    eapply Rle_trans; [apply Rabs_triang|]. apply Rplus_le_compat.
    - rewrite Rabs_Ropp. apply Y; auto.
    - rewrite Rabs_mult. eapply Rle_trans; [|exact T3]. apply Rmult_le_compat_l; [apply Rabs_pos|].
      apply norm1_term, I. }
  destruct (X u _ R) as (B & Bn).
  assert (Tr : norm1 n (a t) <= m + norm1 n u).
  { unfold m, norm1. rewrite <- total_plus. apply total_le. intros i I. unfold u, axpy.
    replace (a t i) with (a 0 i + (a t i + -1 * a 0 i)) at 1 by ring. apply Rabs_triang. }
  assert (Q1 : C * e1 <= / 2).
  { apply Rle_trans with (C * / (2 * (C + 1))); [apply Rmult_le_compat_l; [exact C0|apply Rmin_l]|].
    apply (Rmult_le_reg_r (2 * (C + 1))); [lra|]. rewrite Rmult_assoc, Rinv_l by lra. lra. }
  assert (Q2 : C * e2 <= / 2).
  { apply Rle_trans with (C * / (2 * (C + 1))); [apply Rmult_le_compat_l; [exact C0|apply Rmin_l]|].
    apply (Rmult_le_reg_r (2 * (C + 1))); [lra|]. rewrite Rmult_assoc, Rinv_l by lra. lra. }
  assert (Nt : norm1 n (a t) <= 2 * m + 1).
  { pose proof (norm1_nonneg n (a t)) as P0.
    assert (C * e1 * norm1 n (a t) <= / 2 * norm1 n (a t)) by (apply Rmult_le_compat_r; auto).
    replace (C * (e1 * norm1 n (a t) + e2)) with (C * e1 * norm1 n (a t) + C * e2) in Bn by ring. lra. }
  assert (Q3 : C * (e1 * norm1 n (a t)) <= eps / 2).
  { apply Rle_trans with (C * (eps / (4 * (C + 1) * (m + 1)) * (2 * m + 1))).
    - apply Rmult_le_compat_l; [exact C0|]. apply Rmult_le_compat; [lra|apply norm1_nonneg|apply Rmin_r|exact Nt].
    - apply (Rmult_le_reg_r (4 * (C + 1) * (m + 1))); [apply Rmult_lt_0_compat; lra|].
      replace (C * (eps / (4 * (C + 1) * (m + 1)) * (2 * m + 1)) * (4 * (C + 1) * (m + 1)))
        with (C * (eps * (2 * m + 1))) by (field; lra).
      replace (eps / 2 * (4 * (C + 1) * (m + 1))) with (eps * ((C + 1) * (2 * m + 2))) by field.
      replace (C * (eps * (2 * m + 1))) with (eps * (C * (2 * m + 1))) by ring.
      apply Rmult_le_compat_l; [lra|]. apply Rmult_le_compat; lra. }
  assert (Q4 : C * e2 <= eps / 2).
  { apply Rle_trans with (C * (eps / (4 * (C + 1)))); [apply Rmult_le_compat_l; [exact C0|apply Rmin_r]|].
    apply (Rmult_le_reg_r (4 * (C + 1))); [lra|].
    replace (C * (eps / (4 * (C + 1))) * (4 * (C + 1))) with (eps * C) by (field; lra).
    replace (eps / 2 * (4 * (C + 1))) with (eps * (2 * C + 2)) by field.
    apply Rmult_le_compat_l; lra. }
  intros i I. specialize (B i I). unfold u, axpy in B.
  replace (a t i - a 0 i) with (a t i + -1 * a 0 i) by ring.
  rewrite Rmult_plus_distr_l in B. lra.
Qed.

Lemma small_mult : forall p q l, d0 p l -> p 0 = 0 ->
  (forall eps, 0 < eps -> exists r, 0 < r /\ forall t, Rabs t < r -> Rabs (q t - q 0) <= eps) ->
  d0 (fun t => p t * q t) (l * q 0).
Proof.
  intros p q l Dp P0 Q eps He.
  set (e1 := eps / (2 * (Rabs (q 0) + 1))). pose proof (Rabs_pos (q 0)) as A0. pose proof (Rabs_pos l) as B0.
  assert (E1 : 0 < e1) by (apply Rdiv_lt_0_compat; lra).
  destruct (Dp e1 E1) as (r1 & X1).
  set (e2 := Rmin 1 (eps / (4 * (Rabs l + 1)))).
  assert (E2 : 0 < e2) by (apply Rmin_glb_lt; [lra|apply Rdiv_lt_0_compat; lra]).
  destruct (Q e2 E2) as (r2 & R2 & X2).
  exists (mkposreal (Rmin r1 r2) (Rmin_glb_lt _ _ _ (cond_pos r1) R2)). intros t Nt Ht. cbn [pos] in Ht.
  specialize (X1 t Nt ltac:(eapply Rlt_le_trans; [exact Ht|apply Rmin_l])).
  specialize (X2 t ltac:(eapply Rlt_le_trans; [exact Ht|apply Rmin_r])).
  rewrite Rplus_0_l, P0, Rminus_0_r in *.
  replace ((p t * q t - 0 * q 0) / t - l * q 0) with ((p t / t - l) * q t + l * (q t - q 0)) by (field; exact Nt).
  eapply Rle_lt_trans; [apply Rabs_triang|]. rewrite !Rabs_mult.
  assert (Qt : Rabs (q t) <= Rabs (q 0) + 1).
  { replace (q t) with (q 0 + (q t - q 0)) by ring. eapply Rle_trans; [apply Rabs_triang|].
    pose proof (Rmin_l 1 (eps / (4 * (Rabs l + 1)))). fold e2 in H. lra. }
  assert (S1 : Rabs (p t / t - l) * Rabs (q t) <= eps / 2).
  { apply Rle_trans with (e1 * (Rabs (q 0) + 1)).
    - apply Rmult_le_compat; [apply Rabs_pos|apply Rabs_pos|lra|exact Qt].
    - right. unfold e1. field. lra. }
  assert (S2 : Rabs l * Rabs (q t - q 0) <= eps / 4).
  { apply Rle_trans with ((Rabs l + 1) * (eps / (4 * (Rabs l + 1)))).
    - apply Rmult_le_compat; [exact B0|apply Rabs_pos|lra|].
      eapply Rle_trans; [exact X2|apply Rmin_r].
    - right. field. lra. }
  lra.
Qed.

Lemma d0_tot : forall m (p : nat -> R -> R) l, (forall k, (k < m)%nat -> d0 (p k) (l k)) ->
  d0 (fun t => total m (fun k => p k t)) (total m l).
Proof.
  induction m; cbn [total]; intros p l H; [apply d0_const|].
  apply d0_plus; [apply IHm; intros; apply H; lia|apply H; lia].
Qed.

(** z solves the system with right-hand side E: the derivative of <E, a(t)>. *)
Lemma solution_derivative : solves n (L 0) E z -> forall (a : R -> vec) rho, 0 < rho ->
  (forall t, Rabs t < rho -> solves n (L t) (rhs t) (a t)) ->
  d0 (fun t => dot n E (a t))
     (dot n z h - total n (fun i => z i * total n (fun j => K' i j * a 0 j))).
Proof.
  intros Hz a rho Hrho Ha.
  assert (D : d0 (fun t => dot n E (a 0) + (t * dot n z h
      - total n (fun i => z i * total n (fun j => (L t (unit j) i - L 0 (unit j) i) * a t j))))
     (0 + (dot n z h - total n (fun i => z i * total n (fun j => K' i j * a 0 j))))).
  { apply d0_plus; [apply d0_const|]. apply d0_minus.
    - eapply d0_eq; [|apply (d0_mult (fun t => t) (fun _ => dot n z h) 1 0)].
      + cbv beta. ring.
      + unfold d0. apply derivable_pt_lim_id.
      + apply d0_const.
    - apply (d0_tot n (fun i t => z i * total n (fun j => (L t (unit j) i - L 0 (unit j) i) * a t j))).
      intros i I. apply d0_scal.
      apply (d0_tot n (fun j t => (L t (unit j) i - L 0 (unit j) i) * a t j)). intros j J.
      apply (small_mult (fun t => L t (unit j) i - L 0 (unit j) i) (fun t => a t j)).
      + eapply d0_eq; [|apply d0_minus; [apply Der; auto|apply d0_const]]. ring.
      + ring.
      + intros eps He. destruct (solution_close a rho Hrho Ha eps He) as (r & Hr & X).
        exists r. split; auto. }
  rewrite Rplus_0_l in D. eapply d0_ext_ev; [|exact D].
  exists rho. split; [exact Hrho|]. intros t Ht.
  assert (St := Ha t Ht). assert (S0 := Ha 0 ltac:(rewrite Rabs_R0; exact Hrho)).
  assert (Q : dot n E (axpy (a t) (-1) (a 0)) = t * dot n z h
      - total n (fun i => z i * total n (fun j => (L t (unit j) i - L 0 (unit j) i) * a t j))).
  { rewrite (dot_ext n E (L 0 z)) by (intros; symmetry; now apply Hz).
    rewrite <- Sym. unfold dot.
    replace (t * total n (fun i => z i * h i)
       - total n (fun i => z i * total n (fun j => (L t (unit j) i - L 0 (unit j) i) * a t j)))
      with (total n (fun i => t * (z i * h i)
         + -1 * (z i * total n (fun j => (L t (unit j) i - L 0 (unit j) i) * a t j))))
      by (rewrite total_plus, !total_scal; ring).
    apply total_ext. intros i I.
    assert (M : total n (fun j => (L t (unit j) i - L 0 (unit j) i) * a t j) = L t (a t) i - L 0 (a t) i).
    { rewrite !(linear_matrix n _ (Lin _) (a t) i I).
      rewrite (total_ext n _ (fun j => a t j * L t (unit j) i + -1 * (a t j * L 0 (unit j) i)))
        by (intros; ring).
      rewrite total_plus, total_scal. ring. }
    rewrite M. destruct (Lin 0) as [_ A]. rewrite A by exact I. rewrite St, S0 by exact I.
    unfold rhs. ring. }
  rewrite dot_axpy_r in Q. lra.
Qed.

End Perturbation.

(** ** Approximate solutions *)

Lemma approximate : forall n L b a, linear n L -> symmetric n L -> positive n L -> solves n L b a ->
  exists C, 0 <= C /\ forall eps x, 0 < eps -> squared_residual n L x b < INR n * eps ^ 2 ->
    forall i, (i < n)%nat -> Rabs (x i - a i) <= C * eps.
Proof.
  intros n L b a HL HS HP Ha. destruct (inverse_bound n L HL HS HP) as (C & C0 & X).
  exists (C * INR n). split; [apply Rmult_le_pos; [exact C0|apply pos_INR]|].
  intros eps x He R i I.
  destruct (X (axpy x (-1) a) (INR n * eps)) as (B & _).
  - intros k K. destruct HL as [_ A]. rewrite A by exact K. rewrite Ha by exact K.
    replace (L x k + -1 * b k) with (L x k - b k) by ring.
    assert (T : (L x k - b k) ^ 2 <= squared_residual n L x b).
    { apply (total_term n (fun i => (L x i - b i) ^ 2)); auto. intros. apply pow2_ge_0. }
    assert (N1 : 1 <= INR n) by (apply (le_INR 1); lia).
    apply Rsqr_incr_0_var; [|apply Rmult_le_pos; [apply pos_INR|lra]].
    rewrite <- Rsqr_abs. unfold Rsqr.
    apply Rle_trans with (INR n * eps ^ 2); [lra|].
    assert (0 <= eps ^ 2) by apply pow2_ge_0.
    replace (INR n * eps * (INR n * eps)) with (INR n * (INR n * eps ^ 2)) by ring.
    rewrite <- (Rmult_1_l (INR n * eps ^ 2)) at 1. apply Rmult_le_compat_r; [|exact N1].
    apply Rmult_le_pos; lra.
  - specialize (B i I). unfold axpy in B. replace (x i - a i) with (x i + -1 * a i) by ring.
    rewrite Rmult_assoc. exact B.
Qed.

Lemma bilinear_close : forall n (K : nat -> nat -> R) z a Cz Ca, 0 <= Cz -> 0 <= Ca ->
  exists C, 0 <= C /\ forall eps z' a', 0 < eps <= 1 ->
    (forall i, (i < n)%nat -> Rabs (z' i - z i) <= Cz * eps) ->
    (forall i, (i < n)%nat -> Rabs (a' i - a i) <= Ca * eps) ->
    Rabs (total n (fun i => z' i * total n (fun j => K i j * a' j))
          - total n (fun i => z i * total n (fun j => K i j * a j))) <= C * eps.
Proof.
  intros n K z a Cz Ca HCz HCa.
  exists (total n (fun i => total n (fun j => Rabs (K i j) * (Cz * (Rabs (a j) + Ca) + Rabs (z i) * Ca)))).
  split.
  { apply total_nonneg. intros i I. apply total_nonneg. intros j J.
    pose proof (Rabs_pos (a j)). pose proof (Rabs_pos (z i)).
    apply Rmult_le_pos; [apply Rabs_pos|]. apply Rplus_le_le_0_compat; apply Rmult_le_pos; lra. }
  intros eps z' a' [He1 He2] Hz Ha.
  replace (total n (fun i => z' i * total n (fun j => K i j * a' j))
          - total n (fun i => z i * total n (fun j => K i j * a j)))
    with (total n (fun i => total n (fun j => K i j * ((z' i - z i) * a' j + z i * (a' j - a j))))).
  2:{ rewrite (total_ext n _ (fun i => z' i * total n (fun j => K i j * a' j)
         + -1 * (z i * total n (fun j => K i j * a j)))).
      - rewrite total_plus, total_scal. ring.
      - intros i I. rewrite <- !total_scal, <- total_plus. apply total_ext. intros; ring. }
  eapply Rle_trans; [apply total_abs|]. rewrite Rmult_comm, <- total_scal. apply total_le. intros i I.
  eapply Rle_trans; [apply total_abs|]. rewrite <- total_scal. apply total_le. intros j J.
  rewrite Rabs_mult. rewrite (Rmult_comm eps), Rmult_assoc. apply Rmult_le_compat_l; [apply Rabs_pos|].
  eapply Rle_trans; [apply Rabs_triang|]. rewrite !Rabs_mult.
  assert (A' : Rabs (a' j) <= Rabs (a j) + Ca).
  { replace (a' j) with (a j + (a' j - a j)) by ring. eapply Rle_trans; [apply Rabs_triang|].
    specialize (Ha j J). assert (Ca * eps <= Ca * 1) by (apply Rmult_le_compat_l; auto). lra. }
  rewrite Rmult_plus_distr_r. apply Rplus_le_compat.
  - replace (Cz * (Rabs (a j) + Ca) * eps) with (Cz * eps * (Rabs (a j) + Ca)) by ring.
    apply Rmult_le_compat; auto using Rabs_pos.
  - rewrite Rmult_assoc. apply Rmult_le_compat_l; auto using Rabs_pos.
Qed.

(** More steps do not change an answer. *)
Lemma cg_loop_more : forall n L delta fuel fuel' a r p nr2 x, (fuel <= fuel')%nat ->
  cg_loop fuel n L delta a r p nr2 = Ok x -> cg_loop fuel' n L delta a r p nr2 = Ok x.
Proof.
  intros n L delta. induction fuel as [|fuel IH]; intros fuel' a r p nr2 x H X; [discriminate|].
  destruct fuel' as [|fuel']; [lia|]. cbn [cg_loop] in *.
  destruct (Req_EM_T _ _); [discriminate|]. destruct (Rlt_dec _ _); [exact X|].
  destruct (Req_EM_T _ _); [discriminate|]. apply IH; [lia|exact X].
Qed.
Lemma cg_more : forall n L b eps fuel fuel' x, (fuel <= fuel')%nat ->
  cg fuel n L b eps = Ok x -> cg fuel' n L b eps = Ok x.
Proof.
  intros n L b eps fuel fuel' x H X. unfold cg in *. destruct (Rlt_dec _ _); [exact X|].
  eapply cg_loop_more; eassumption.
Qed.
