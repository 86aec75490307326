(** Proofs for C44: derivatives and bounds. *)

From Coq Require Import Reals List Bool Arith Lia Lra Permutation.
From Verif Require Import Result Tensordot C36Proofs SoftDTW SoftDTWSpec BSplineSpec C43Proofs C44Proofs C44Back C44Code.
Import ListNotations.
Local Open Scope R_scope.

(** ** Derivatives *)

Lemma total_deriv : forall (F : R -> list (nat * nat) -> R) F' u0 L, (forall p, derivable_pt_lim (fun u => F u p) u0 (F' p)) ->
  derivable_pt_lim (fun u => total (F u) L) u0 (total F' L).
Proof.
  intros F F' u0 L H. induction L as [|p L IH]; cbn [total]; [apply (derivable_pt_lim_const 0)|].
  exact (derivable_pt_lim_plus _ _ _ _ _ (H p) IH).
Qed.

Section Deriv.
Variables (X Y : R -> nat -> R) (u0 gamma : R) (dc : nat -> nat -> R).
Hypothesis gamma_nz : gamma <> 0.
Hypothesis D : forall i j, derivable_pt_lim (fun u => (X u i - Y u j) * (X u i - Y u j)) u0 (dc i j).

Lemma cost_deriv : forall p, derivable_pt_lim (fun u => cost (X u) (Y u) p) u0 (dcost dc p).
Proof.
  induction p as [|[i j] p IH]; cbn [cost dcost]; [apply (derivable_pt_lim_const 0)|].
  exact (derivable_pt_lim_plus _ _ _ _ _ (D i j) IH).
Qed.

Lemma wgt_deriv : forall p, derivable_pt_lim (fun u => exp (- cost (X u) (Y u) p / gamma)) u0
  (- / gamma * (exp (- cost (X u0) (Y u0) p / gamma) * dcost dc p)).
Proof.
  intros p. pose proof (derivable_pt_lim_scal _ (- / gamma) _ _ (cost_deriv p)) as H.
  pose proof (derivable_pt_lim_comp _ exp _ _ _ H (derivable_pt_lim_exp _)) as H'.
  unfold mult_real_fct, comp in H'.
  replace (- / gamma * (exp (- cost (X u0) (Y u0) p / gamma) * dcost dc p))
    with (exp (- / gamma * cost (X u0) (Y u0) p) * (- / gamma * dcost dc p)).
  2:{ replace (- cost (X u0) (Y u0) p / gamma) with (- / gamma * cost (X u0) (Y u0) p) by (field; auto). ring. }
  intros eps Heps. destruct (H' eps Heps) as (delta & Hd). exists delta. intros h Hh Hb. specialize (Hd h Hh Hb).
  replace (- cost (X (u0 + h)) (Y (u0 + h)) p / gamma) with (- / gamma * cost (X (u0 + h)) (Y (u0 + h)) p) by (field; auto).
  replace (- cost (X u0) (Y u0) p / gamma) with (- / gamma * cost (X u0) (Y u0) p) by (field; auto). exact Hd.
Qed.

Lemma soft_deriv : forall n m L, all_alignments n m L ->
  derivable_pt_lim (fun u => soft_min gamma (X u) (Y u) L) u0 (dr (X u0) (Y u0) gamma dc (n - 1) (m - 1)).
Proof.
  intros n m L A. pose proof (all_perm _ _ _ A) as P.
  pose proof (total_deriv (fun u p => exp (- cost (X u) (Y u) p / gamma)) _ u0 L wgt_deriv) as H.
  assert (0 < total (fun p => exp (- cost (X u0) (Y u0) p / gamma)) L) as Z.
  { rewrite (total_perm _ _ _ P). apply zz_pos. auto. }
  pose proof (derivable_pt_lim_comp _ ln _ _ _ H (derivable_pt_lim_ln _ Z)) as H'.
  pose proof (derivable_pt_lim_scal _ (- gamma) _ _ H') as H''.
  unfold mult_real_fct, comp in H''.
  replace (dr (X u0) (Y u0) gamma dc (n - 1) (m - 1)) with
    (- gamma * (/ total (fun p => exp (- cost (X u0) (Y u0) p / gamma)) L
       * total (fun p => - / gamma * (exp (- cost (X u0) (Y u0) p / gamma) * dcost dc p)) L)); [exact H''|].
  rewrite total_scale. unfold dr, tt'. rewrite <- !(total_perm _ _ _ P). unfold zz. rewrite <- (total_perm _ _ _ P).
  unfold wgt. field. split; first [assumption | lra].
Qed.
End Deriv.

Lemma sum_pick : forall n f a0, (a0 < n)%nat -> (forall a, (a < n)%nat -> a <> a0 -> f a = 0) -> sum_to n f = f a0.
Proof.
  induction n as [|n IH]; intros f a0 L H; [lia|]. cbn [sum_to]. destruct (Nat.eq_dec a0 n) as [->|N].
  - rewrite (sum_ext n f (fun _ => 0)); [rewrite sum_zero; lra|]. intros i Li. apply H; lia.
  - rewrite (IH f a0), (H n); try lia; [lra|]. intros a La Na. apply H; lia.
Qed.

Lemma cost_put_id : forall x y i p, cost (put x i (x i)) y p = cost x y p.
Proof.
  intros x y i p. induction p as [|[k l] p IH]; cbn [cost]; [reflexivity|]. rewrite IH. unfold put.
  destruct (Nat.eqb_spec k i); subst; reflexivity.
Qed.
Lemma cost_put_id2 : forall x y j p, cost x (put y j (y j)) p = cost x y p.
Proof.
  intros x y j p. induction p as [|[k l] p IH]; cbn [cost]; [reflexivity|]. rewrite IH. unfold put.
  destruct (Nat.eqb_spec l j); subst; reflexivity.
Qed.

Lemma dr_ext : forall x y x' y' gamma dc i j, (forall p, cost x y p = cost x' y' p) ->
  dr x y gamma dc i j = dr x' y' gamma dc i j.
Proof.
  intros x y x' y' gamma dc i j H. unfold dr, tt', zz, wgt.
  rewrite (total_ext (fun p => exp (- cost x y p / gamma) * dcost dc p) (fun p => exp (- cost x' y' p / gamma) * dcost dc p))
    by (intros; now rewrite H).
  rewrite (total_ext (fun p => exp (- cost x y p / gamma)) (fun p => exp (- cost x' y' p / gamma))) by (intros; now rewrite H).
  reflexivity.
Qed.

Lemma sq_deriv : forall s c u0, derivable_pt_lim (fun u => (s * u - c) * (s * u - c)) u0 (s * (2 * (s * u0 - c))).
Proof.
  intros s c u0.
  assert (derivable_pt_lim (fun u => s * u - c) u0 s) as H.
  { pose proof (derivable_pt_lim_minus (fun u => s * u) (fun _ => c) u0 _ _
      (derivable_pt_lim_scal id s u0 1 (derivable_pt_lim_id u0)) (derivable_pt_lim_const c u0)) as H.
    replace (s * 1 - 0) with s in H by ring. exact H. }
  replace (s * (2 * (s * u0 - c))) with (s * (s * u0 - c) + (s * u0 - c) * s) by ring.
  exact (derivable_pt_lim_mult _ _ _ _ _ H H).
Qed.

Lemma deriv_ext : forall f g u0 l, (forall u, f u = g u) -> derivable_pt_lim f u0 l -> derivable_pt_lim g u0 l.
Proof. intros f g u0 l E H eps P. destruct (H eps P) as (d & Hd). exists d. intros h A B. rewrite <- !E. auto. Qed.

Theorem grad_x : forall x y gamma n m L i, gamma <> 0 -> (0 < n)%nat -> (0 < m)%nat -> all_alignments n m L -> (i < n)%nat ->
  derivable_pt_lim (fun u => soft_min gamma (put x i u) y L) (x i) (sum_to m (gx x y gamma n m i)).
Proof.
  intros x y gamma n m L i G Pn Pm A Li.
  set (dc := fun k l => if (k =? i)%nat then 2 * (x k - y l) else 0).
  assert (forall k l, derivable_pt_lim (fun u => (put x i u k - y l) * (put x i u k - y l)) (x i) (dc k l)) as D.
  { intros k l. unfold put, dc. destruct (Nat.eqb_spec k i) as [->|N].
    - apply (deriv_ext (fun u => (1 * u - y l) * (1 * u - y l))); [intros; ring|].
      replace (2 * (x i - y l)) with (1 * (2 * (1 * x i - y l))) by ring. apply sq_deriv.
    - apply (derivable_pt_lim_const ((x k - y l) * (x k - y l))). }
  pose proof (soft_deriv (fun u => put x i u) (fun _ => y) (x i) gamma dc G D n m L A) as H.
  rewrite (dr_ext _ _ x y) in H by (intros; apply cost_put_id).
  rewrite <- (er_sum x y gamma G dc n m Pn Pm) in H. unfold grid in H.
  rewrite (sum_pick n _ (n - 1 - i)) in H; [| lia |].
  2:{ intros a La Na. rewrite (sum_ext m _ (fun _ => 0)); [apply sum_zero|]. intros b _. unfold dc.
      destruct (Nat.eqb_spec (n - 1 - a) i); [lia|ring]. }
  rewrite (sum_ext m _ (gx x y gamma n m i)) in H; [exact H|]. intros b _. unfold dc, gx.
  replace (n - 1 - (n - 1 - i))%nat with i by lia. rewrite Nat.eqb_refl. ring.
Qed.

Theorem grad_y : forall x y gamma n m L j, gamma <> 0 -> (0 < n)%nat -> (0 < m)%nat -> all_alignments n m L -> (j < m)%nat ->
  derivable_pt_lim (fun u => soft_min gamma x (put y j u) L) (y j) (sum_to n (gy x y gamma n m j)).
Proof.
  intros x y gamma n m L j G Pn Pm A Lj.
  set (dc := fun k l => if (l =? j)%nat then - 2 * (x k - y l) else 0).
  assert (forall k l, derivable_pt_lim (fun u => (x k - put y j u l) * (x k - put y j u l)) (y j) (dc k l)) as D.
  { intros k l. unfold put, dc. destruct (Nat.eqb_spec l j) as [->|N].
    - apply (deriv_ext (fun u => (-1 * u - - x k) * (-1 * u - - x k))); [intros; ring|].
      replace (- 2 * (x k - y j)) with (-1 * (2 * (-1 * y j - - x k))) by ring. apply sq_deriv.
    - apply (derivable_pt_lim_const ((x k - y l) * (x k - y l))). }
  pose proof (soft_deriv (fun _ => x) (fun u => put y j u) (y j) gamma dc G D n m L A) as H.
  rewrite (dr_ext _ _ x y) in H by (intros; apply cost_put_id2).
  rewrite <- (er_sum x y gamma G dc n m Pn Pm) in H. unfold grid in H.
  rewrite (sum_ext n _ (gy x y gamma n m j)) in H; [exact H|]. intros a La.
  rewrite (sum_pick m _ (m - 1 - j)); [| lia |].
  - unfold dc, gy. replace (m - 1 - (m - 1 - j))%nat with j by lia. rewrite Nat.eqb_refl. ring.
  - intros b Lb Nb. unfold dc. destruct (Nat.eqb_spec (m - 1 - b) j); [lia|ring].
Qed.

(** ** The operations *)

Theorem softdtw_value : forall fminf n m x y gamma rjm1 L, (0 < n)%nat -> (0 < m)%nat -> gamma 0%nat <> 0 -> all_alignments n m L ->
  softdtw fminf n m 1 x y gamma rjm1 = Ok (soft_min (gamma 0%nat) x y L).
Proof.
  intros fminf n m x y gamma rjm1 L Pn Pm G A. unfold softdtw. cbn [Nat.eqb negb]. rewrite read_ok by lia. cbn [rbind].
  rewrite value_ok by auto. f_equal. unfold rv, soft_min. f_equal. f_equal. symmetry. apply total_perm. now apply all_perm.
Qed.

Theorem softdtw_gradient : forall fminf n m x y gamma r ejp1 out L, (0 < n)%nat -> (0 < m)%nat -> gamma 0%nat <> 0 -> all_alignments n m L ->
  exists g, grad_softdtw fminf n m 1 x y gamma r ejp1 out = Ok g
  /\ (forall i, (i < n)%nat -> derivable_pt_lim (fun u => soft_min (gamma 0%nat) (put x i u) y L) (x i) (g i))
  /\ (forall j, (j < m)%nat -> derivable_pt_lim (fun u => soft_min (gamma 0%nat) x (put y j u) L) (y j) (g (n + j)%nat)).
Proof.
  intros fminf n m x y gamma r ejp1 out L Pn Pm G A. unfold grad_softdtw. cbn [Nat.eqb negb]. rewrite read_ok by lia. cbn [rbind].
  destruct (fill_ok x y (gamma 0%nat) G fminf n m r Pn Pm) as (r' & E & Hr). rewrite E. cbn [rbind].
  destruct (back_ok x y (gamma 0%nat) n m Pn Pm r' Hr ejp1 out) as (g & Eg & Hx & Hy).
  exists g. split; [exact Eg|]. split; intros i Li; [rewrite Hx by auto; now apply grad_x|rewrite Hy by auto; now apply grad_y].
Qed.

(** ** Bounds *)

Lemma total_ge : forall f L p, (forall q, 0 <= f q) -> In p L -> f p <= total f L.
Proof.
  intros f L p H. induction L as [|q L IH]; intros I; [easy|]. cbn. assert (0 <= total f L) as T.
  { clear - H. induction L; cbn; [lra|]. specialize (H a). lra. }
  destruct I as [->|I]; [lra|]. specialize (IH I). specialize (H q). lra.
Qed.

Lemma total_le : forall f L c, (forall q, In q L -> f q <= c) -> total f L <= INR (length L) * c.
Proof.
  intros f L c H. induction L as [|q L IH]; [cbn; lra|]. cbn [total]. rewrite (S_INR (length L) : INR (length (q :: L)) = _).
  assert (f q <= c) by (apply H; now left). assert (total f L <= INR (length L) * c) by (apply IH; intros; apply H; now right). lra.
Qed.

Lemma list_min : forall (f : list (nat * nat) -> R) L, L <> nil -> exists p, In p L /\ forall q, In q L -> f p <= f q.
Proof.
  intros f L. induction L as [|a L IH]; [easy|]. intros _. destruct L as [|b L].
  - exists a. split; [now left|]. intros q [->|[]]. lra.
  - destruct IH as (p & Ip & Hp); [discriminate|]. destruct (Rle_dec (f a) (f p)) as [C|C].
    + exists a. split; [now left|]. intros q [->|I]; [lra|]. specialize (Hp q I). lra.
    + exists p. split; [now right|]. intros q [->|I]; [lra|auto].
Qed.

Theorem soft_bounds : forall n m x y g L, 0 < g -> all_alignments n m L ->
  exists p, alignment (n - 1) (m - 1) p /\ (forall q, alignment (n - 1) (m - 1) q -> cost x y p <= cost x y q)
  /\ cost x y p - g * ln (INR (length L)) <= soft_min g x y L <= cost x y p.
Proof.
  intros n m x y g L G A. pose proof (all_perm _ _ _ A) as P. destruct A as [N A].
  assert (L <> nil) as NL.
  { intros ->. apply Permutation_nil in P. pose proof (zz_pos x y g ltac:(lra) (n - 1) (m - 1)) as Z. unfold zz in Z. rewrite P in Z. cbn in Z. lra. }
  destruct (list_min (cost x y) L NL) as (p & Ip & Hp). exists p. split; [now apply A|]. split; [intros q Hq; apply Hp; now apply A|].
  assert (forall a b, a <= b -> exp (- b / g) <= exp (- a / g)) as M.
  { intros a b [H|<-]; [|lra]. left. apply exp_increasing. apply Rmult_lt_compat_r; [now apply Rinv_0_lt_compat|lra]. }
  assert (0 < total (fun p => exp (- cost x y p / g)) L) as Z.
  { pose proof (total_ge (fun p => exp (- cost x y p / g)) L p ltac:(intros; left; apply exp_pos) Ip) as H. cbv beta in H.
    pose proof (exp_pos (- cost x y p / g)). lra. }
  assert (0 < INR (length L)) as NN by (apply lt_0_INR; destruct L; [easy|cbn; lia]).
  assert (forall c, c = g * (c / g)) as K by (intros; field; lra).
  unfold soft_min. split.
  - assert (ln (total (fun p => exp (- cost x y p / g)) L) <= ln (INR (length L)) + - cost x y p / g) as H.
    { rewrite <- (ln_exp (- cost x y p / g)), <- ln_mult by (auto using exp_pos).
      destruct (total_le (fun p => exp (- cost x y p / g)) L (exp (- cost x y p / g))) as [H|H].
      - intros q Iq. apply M. auto.
      - left. now apply ln_increasing.
      - rewrite H. lra. }
    apply (Rmult_le_compat_l g) in H; [|lra]. rewrite Rmult_plus_distr_l in H.
    replace (g * (- cost x y p / g)) with (- cost x y p) in H by (field; lra). lra.
  - assert (- cost x y p / g <= ln (total (fun p => exp (- cost x y p / g)) L)) as H.
    { rewrite <- (ln_exp (- cost x y p / g)) at 1.
      destruct (total_ge (fun p => exp (- cost x y p / g)) L p ltac:(intros; left; apply exp_pos) Ip) as [H|H]; cbv beta in H.
      - left. apply ln_increasing; [apply exp_pos|exact H].
      - rewrite H. lra. }
    apply (Rmult_le_compat_l g) in H; [|lra]. replace (g * (- cost x y p / g)) with (- cost x y p) in H by (field; lra). lra.
Qed.
