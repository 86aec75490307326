(** * Proofs about the conjugate gradient solvers. *)

From Coq Require Import Reals List Lra Lia.
From Verif Require Import Result Solver SolverSpec.
Import ListNotations.
Local Open Scope R_scope.

(** ** Sums *)

Lemma total_ext : forall n f g, (forall i, (i < n)%nat -> f i = g i) -> total n f = total n g.
Proof.
  induction n; intros f g H; simpl; auto. rewrite (IHn f g), (H n); auto.
Qed.

Lemma total_plus : forall n f g, total n (fun i => f i + g i) = total n f + total n g.
Proof. induction n; intros; simpl; [lra|]. rewrite IHn. lra. Qed.

Lemma total_scal : forall n c f, total n (fun i => c * f i) = c * total n f.
Proof. induction n; intros; simpl; [lra|]. rewrite IHn. lra. Qed.

Lemma total_zero : forall n, total n (fun _ => 0) = 0.
Proof. induction n; simpl; lra. Qed.

Lemma total_swap : forall n m (f : nat -> nat -> R),
  total n (fun i => total m (fun j => f i j)) = total m (fun j => total n (fun i => f i j)).
Proof.
  induction n; intros; simpl. { now rewrite total_zero. }
  rewrite IHn. now rewrite total_plus.
Qed.

Lemma total_nonneg : forall n f, (forall i, (i < n)%nat -> 0 <= f i) -> 0 <= total n f.
Proof.
  induction n; intros f H; simpl; [lra|].
  assert (0 <= total n f) by (apply IHn; auto). assert (0 <= f n) by auto. lra.
Qed.

Lemma dot_comm : forall n u v, dot n u v = dot n v u.
Proof. intros. apply total_ext. intros. lra. Qed.

Lemma dot_axpy_l : forall n u c v w, dot n (axpy u c v) w = dot n u w + c * dot n v w.
Proof.
  intros. unfold dot, axpy. rewrite <- total_scal, <- total_plus. apply total_ext. intros. lra.
Qed.

Lemma dot_axpy_r : forall n u c v w, dot n w (axpy u c v) = dot n w u + c * dot n w v.
Proof. intros. rewrite dot_comm, dot_axpy_l. now rewrite (dot_comm n u), (dot_comm n v). Qed.

Lemma dot_nonneg : forall n u, 0 <= dot n u u.
Proof. intros. apply total_nonneg. intros. apply Rle_0_sqr. Qed.

Lemma dot_ext : forall n u v w, (forall i, (i < n)%nat -> u i = v i) -> dot n u w = dot n v w.
Proof. intros. apply total_ext. intros. now rewrite H. Qed.

Lemma dot_ext_r : forall n u v w, (forall i, (i < n)%nat -> u i = v i) -> dot n w u = dot n w v.
Proof. intros. apply total_ext. intros. now rewrite H. Qed.

Lemma dot_zero_l : forall n u v, (forall i, (i < n)%nat -> u i = 0) -> dot n u v = 0.
Proof.
  intros. rewrite <- (total_zero n). apply total_ext. intros. rewrite H by auto. lra.
Qed.

(** ** Linear operators *)

Lemma linear_zero : forall n L, linear n L -> forall i, (i < n)%nat -> L (fun _ => 0) i = 0.
Proof.
  intros n L (E & A) i H.
  assert (L (axpy (fun _ => 0) 1 (fun _ => 0)) i = L (fun _ => 0) i)
    by (apply E; auto; intros; unfold axpy; lra).
  rewrite A in H0 by auto. lra.
Qed.

Lemma kernel_linear : forall n K alpha, linear n (kernel_op n K alpha).
Proof.
  intros n K alpha. split.
  - intros u v H i I. unfold kernel_op. rewrite (H i I). f_equal.
    apply total_ext. intros j J. now rewrite (H j J).
  - intros u c v i I. unfold kernel_op, axpy.
    rewrite (total_ext n _ (fun j => K i j * u j + c * (K i j * v j))) by (intros; lra).
    rewrite total_plus, total_scal. lra.
Qed.

(** ** Residual *)

Lemma cg_loop_residual : forall n L delta b, linear n L ->
  forall fuel a r p nr2 x,
  (forall i, (i < n)%nat -> r i = b i - L a i) ->
  cg_loop fuel n L delta a r p nr2 = Ok x ->
  dot n (fun i => L x i - b i) (fun i => L x i - b i) < delta.
Proof.
  intros n L delta b HL. induction fuel as [|fuel IH]; intros a r p nr2 x I H; [discriminate|].
  cbn [cg_loop] in H. destruct (Req_EM_T (dot n p (L p)) 0); [discriminate|].
  set (alp := nr2 / dot n p (L p)) in *.
  assert (I' : forall i, (i < n)%nat -> axpy r (- alp) (L p) i = b i - L (axpy a alp p) i).
  { intros i J. destruct HL as [_ HL]. rewrite HL by auto. unfold axpy. rewrite I by auto. ring. }
  destruct (Rlt_dec _ _) as [D|D] in H.
  - injection H as H. subst x. eapply Rle_lt_trans; [|exact D]. apply Req_le.
    apply total_ext. intros i J. rewrite (I' i J). ring.
  - destruct (Req_EM_T nr2 0); [discriminate|]. now apply (IH _ _ _ _ _ I' H).
Qed.

Lemma cg_residual : forall fuel n L b eps a, linear n L -> cg fuel n L b eps = Ok a ->
  squared_residual n L a b < INR n * eps ^ 2.
Proof.
  intros fuel n L b eps a HL H. unfold cg in H.
  replace (eps ^ 2) with (eps * eps) by ring.
  unfold squared_residual. destruct (Rlt_dec _ _) as [D|D] in H.
  - injection H as H. subst a. eapply Rle_lt_trans; [|exact D]. apply Req_le. unfold dot.
    apply total_ext. intros i J.
    assert (Z : L (fun i => 0 * b i) i = 0).
    { transitivity (L (fun _ => 0) i); [|now apply (linear_zero n L HL)].
      apply HL; auto. intros. ring. }
    rewrite Z. ring.
  - pose proof (cg_loop_residual n L (INR n * (eps * eps)) b HL fuel (fun _ => 0) b b (dot n b b) a) as R.
    assert (I : forall i, (i < n)%nat -> b i = b i - L (fun _ => 0) i)
      by (intros i J; rewrite (linear_zero n L HL i J); ring).
    specialize (R I H). eapply Rle_lt_trans; [|exact R]. apply Req_le. unfold dot.
    apply total_ext. intros. ring.
Qed.

Lemma pcg_loop_residual : forall n L P eps b, linear n L ->
  forall fuel a r p rz x,
  (forall i, (i < n)%nat -> r i = b i - L a i) ->
  pcg_loop fuel n L P eps a r p rz = Ok x ->
  dot n (fun i => L x i - b i) (fun i => L x i - b i) < eps * eps.
Proof.
  intros n L P eps b HL. induction fuel as [|fuel IH]; intros a r p rz x I H; [discriminate|].
  cbn [pcg_loop] in H. destruct (Req_EM_T (dot n p (L p)) 0); [discriminate|].
  set (alp := rz / dot n p (L p)) in *.
  assert (I' : forall i, (i < n)%nat -> axpy r (- alp) (L p) i = b i - L (axpy a alp p) i).
  { intros i J. destruct HL as [_ HL]. rewrite HL by auto. unfold axpy. rewrite I by auto. ring. }
  destruct (Rlt_dec _ _) as [D|D] in H.
  - injection H as H. subst x. eapply Rle_lt_trans; [|exact D]. apply Req_le.
    apply total_ext. intros i J. rewrite (I' i J). ring.
  - destruct (Req_EM_T rz 0); [discriminate|]. now apply (IH _ _ _ _ _ I' H).
Qed.

Lemma pcg_residual : forall fuel n L P b eps a, linear n L -> pcg fuel n L P b eps = Ok a ->
  squared_residual n L a b < eps ^ 2.
Proof.
  intros fuel n L P b eps a HL H. unfold pcg in H.
  assert (I : forall i, (i < n)%nat -> b i = b i - L (fun _ => 0) i)
    by (intros i J; rewrite (linear_zero n L HL i J); lra).
  pose proof (pcg_loop_residual n L P eps b HL fuel _ _ _ _ _ I H) as R.
  replace (eps ^ 2) with (eps * eps) by ring.
  unfold squared_residual. eapply Rle_lt_trans; [|exact R]. apply Req_le. unfold dot.
  apply total_ext. intros. ring.
Qed.

(** ** Orthogonal families *)

Fixpoint orthogonal (n : nat) (us : list vec) : Prop :=
  match us with
  | [] => True
  | u :: us' => dot n u u <> 0 /\ (forall v, In v us' -> dot n u v = 0) /\ orthogonal n us'
  end.

Fixpoint listsum (l : list R) : R := match l with [] => 0 | x :: l' => x + listsum l' end.

Lemma bessel : forall n us e, orthogonal n us ->
  exists f, dot n f f = dot n e e - listsum (map (fun u => dot n e u * dot n e u / dot n u u) us)
    /\ forall v, (forall u, In u us -> dot n u v = 0) -> dot n f v = dot n e v.
Proof.
  intros n us e. induction us as [|u us IH]; intros O.
  - exists e. simpl. split; [lra|auto].
  - destruct O as (N & O & O'). destruct (IH O') as (f & F & G). simpl.
    assert (FU : dot n f u = dot n e u).
    { apply G. intros w I. rewrite dot_comm. now apply O. }
    exists (axpy f (- (dot n f u / dot n u u)) u). split.
    + rewrite dot_axpy_l, !dot_axpy_r, F, (dot_comm n u f), FU. field. exact N.
    + intros v H. rewrite dot_axpy_l, G by auto. rewrite (H u) by auto. lra.
Qed.

Definition unit (m : nat) : vec := fun i => if Nat.eqb i m then 1 else 0.

Lemma dot_unit : forall n m u, (m < n)%nat -> dot n (unit m) u = u m.
Proof.
  intros n m u H. unfold dot, unit. induction n; [lia|]. simpl.
  destruct (Nat.eqb_spec n m).
  - subst. rewrite (total_ext m _ (fun _ => 0)).
    + rewrite total_zero. lra.
    + intros i I. destruct (Nat.eqb_spec i m); [lia|lra].
  - rewrite IHn by lia. lra.
Qed.

Lemma listsum_total : forall n (us : list vec) (f : vec -> nat -> R),
  total n (fun m => listsum (map (fun u => f u m) us)) = listsum (map (fun u => total n (f u)) us).
Proof.
  intros n us f. induction us as [|u us IH]; simpl; [apply total_zero|].
  now rewrite total_plus, IH.
Qed.

Lemma orthogonal_bound : forall n us, orthogonal n us -> (List.length us <= n)%nat.
Proof.
  intros n us O. apply INR_le.
  assert (E : INR (List.length us)
              = total n (fun m => listsum (map (fun u => u m * u m / dot n u u) us))).
  { rewrite listsum_total. clear - O. induction us as [|u us IH]; [reflexivity|].
    destruct O as (N & _ & O). cbn [List.length map listsum]. rewrite S_INR, (IH O).
    rewrite (total_ext n _ (fun m => / dot n u u * (u m * u m))) by (intros; unfold Rdiv; ring).
    rewrite total_scal. change (total n (fun m => u m * u m)) with (dot n u u).
    rewrite Rinv_l by exact N. ring. }
  rewrite E. clear E.
  replace (INR n) with (total n (fun _ => 1)).
  2:{ clear. induction n; [reflexivity|]. cbn [total]. rewrite IHn, S_INR. reflexivity. }
  assert (G : forall m, (m < n)%nat -> 0 <= 1 - listsum (map (fun u => u m * u m / dot n u u) us)).
  { intros m H. destruct (bessel n us (unit m) O) as (f & F & _).
    rewrite dot_unit in F by auto. unfold unit in F at 1. rewrite Nat.eqb_refl in F.
    erewrite map_ext in F; [rewrite <- F; apply dot_nonneg|].
    intros u. cbv beta. rewrite dot_unit by auto. reflexivity. }
  assert (0 <= total n (fun m => 1 - listsum (map (fun u => u m * u m / dot n u u) us)))
    by now apply total_nonneg.
  rewrite (total_ext n _ (fun m => 1 + -1 * listsum (map (fun u => u m * u m / dot n u u) us)))
    in H by (intros; ring).
  rewrite total_plus, total_scal in H. lra.
Qed.

(** ** Number of steps *)

Record state_ok (n : nat) (L : vec -> vec) (rs ps : list vec) (r p : vec) (nr2 : R) : Prop := {
  so_n : dot n r r = nr2;
  so_rs : orthogonal n rs;
  so_r : forall v, In v rs -> dot n r v = 0;
  so_p : forall q, In q ps -> dot n p (L q) = 0;
  so_pr : dot n p r = nr2;
  so_rp : forall q, In q ps -> dot n r q = 0;
  so_A : forall v, In v rs -> dot n v (L p) = 0;
  so_B : dot n r (L p) = dot n p (L p);
  so_C : forall q, In q ps -> exists v w c, In v (r :: rs) /\ In w (r :: rs)
           /\ forall x, dot n x (L q) = c * (dot n x v - dot n x w);
  so_D : forall v, In v (r :: rs) -> exists s t c, In s (p :: ps) /\ In t (p :: ps)
           /\ forall x, dot n v x = dot n s x - c * dot n t x
}.

Lemma cg_step : forall n L rs ps r p nr2, linear n L -> symmetric n L -> positive n L ->
  nr2 <> 0 -> state_ok n L rs ps r p nr2 ->
  let alp := nr2 / dot n p (L p) in
  let r' := axpy r (- alp) (L p) in
  let nr2' := dot n r' r' in
  dot n p (L p) <> 0
  /\ state_ok n L (r :: rs) (p :: ps) r' (axpy r' (nr2' / nr2) p) nr2'.
Proof.
  intros n L rs ps r p nr2 HL HS HP N S alp r' nr2'.
  destruct S as [Sn Srs Sr Sp Spr Srp SA SB SC SD].
  assert (D : dot n p (L p) <> 0).
  { assert (0 < dot n p (L p)); [|lra]. apply HP. intros Z. apply N. rewrite <- Spr.
    now apply dot_zero_l. }
  split; auto.
  assert (Na : alp <> 0).
  { unfold alp, Rdiv. apply Rmult_integral_contrapositive. split; auto. now apply Rinv_neq_0_compat. }
  assert (Ea : alp * dot n p (L p) = nr2) by (unfold alp; field; auto).
  (* the new residual is orthogonal to the previous ones *)
  assert (O1 : forall v, In v (r :: rs) -> dot n r' v = 0).
  { intros v [E|I]; unfold r'; rewrite dot_axpy_l.
    - subst v. rewrite Sn, (dot_comm n (L p) r), SB. lra.
    - rewrite (Sr v I), (dot_comm n (L p) v), (SA v I). lra. }
  assert (O2 : forall q, In q (p :: ps) -> dot n r' q = 0).
  { intros q [E|I]; unfold r'; rewrite dot_axpy_l.
    - subst q. rewrite (dot_comm n r p), Spr, (dot_comm n (L p) p). lra.
    - rewrite (Srp q I), (dot_comm n (L p) q), (HS q p), (dot_comm n (L q) p), (Sp q I). lra. }
  (* the product by the operator as a difference of residuals *)
  assert (LP : forall x, dot n x (L p) = / alp * (dot n x r - dot n x r')).
  { intros x. unfold r'. rewrite dot_axpy_r. field. auto. }
  assert (C' : forall q, In q (p :: ps) -> exists v w c, In v (r' :: r :: rs) /\ In w (r' :: r :: rs)
           /\ forall x, dot n x (L q) = c * (dot n x v - dot n x w)).
  { intros q [E|I].
    - subst q. exists r, r', (/ alp). split; [simpl; auto|]. split; [simpl; auto|]. exact LP.
    - destruct (SC q I) as (v & w & c & Iv & Iw & X). exists v, w, c.
      split; [now right|]. split; [now right|]. exact X. }
  set (p' := axpy r' (nr2' / nr2) p).
  assert (P1 : forall q, In q (p :: ps) -> dot n p' (L q) = 0).
  { intros q [E|I]; unfold p'; rewrite dot_axpy_l.
    - subst q. rewrite (LP r'). rewrite (O1 r) by (now left). fold nr2'.
      rewrite <- Ea at 1. field. split; auto.
    - rewrite (Sp q I). destruct (SC q I) as (v & w & c & Iv & Iw & X). rewrite X.
      rewrite (O1 v Iv), (O1 w Iw). lra. }
  assert (D' : forall v, In v (r' :: r :: rs) -> exists s t c, In s (p' :: p :: ps) /\ In t (p' :: p :: ps)
           /\ forall x, dot n v x = dot n s x - c * dot n t x).
  { intros v [E|I].
    - subst v. exists p', p, (nr2' / nr2). split; [simpl; auto|]. split; [simpl; auto|].
      intros x. unfold p'. rewrite dot_axpy_l. ring.
    - destruct (SD v I) as (s & t & c & Is & It & X). exists s, t, c.
      split; [now right|]. split; [now right|]. exact X. }
  constructor.
  - reflexivity.
  - simpl. split; [rewrite Sn; exact N|]. split; auto.
  - exact O1.
  - exact P1.
  - fold p'. unfold p'. rewrite dot_axpy_l, (dot_comm n p r'), (O2 p) by (now left). unfold nr2'. lra.
  - exact O2.
  - intros v I. destruct (SD v I) as (s & t & c & Is & It & X). fold p'. rewrite X.
    rewrite (HS s p'), (dot_comm n (L s) p'), (P1 s Is).
    rewrite (HS t p'), (dot_comm n (L t) p'), (P1 t It). lra.
  - fold p'. assert (E : dot n p' (L p') = dot n r' (L p') + nr2' / nr2 * dot n p (L p'))
      by (unfold p' at 1; now rewrite dot_axpy_l).
    rewrite E, (HS p p'), (dot_comm n (L p) p'), (P1 p) by (now left). lra.
  - exact C'.
  - exact D'.
Qed.

Lemma cg_loop_ends : forall n L delta, linear n L -> symmetric n L -> positive n L -> 0 < delta ->
  forall fuel rs ps a r p nr2, (n <= fuel + List.length rs)%nat -> delta <= nr2 ->
  state_ok n L rs ps r p nr2 ->
  exists x, cg_loop fuel n L delta a r p nr2 = Ok x.
Proof.
  intros n L delta HL HS HP HD. induction fuel as [|fuel IH]; intros rs ps a r p nr2 B G S.
  - exfalso. assert (O : orthogonal n (r :: rs)).
    { simpl. split; [rewrite (so_n _ _ _ _ _ _ _ S); lra|]. split; [apply (so_r _ _ _ _ _ _ _ S)|].
      apply (so_rs _ _ _ _ _ _ _ S). }
    apply orthogonal_bound in O. simpl in O. lia.
  - assert (N : nr2 <> 0) by lra.
    destruct (cg_step n L rs ps r p nr2 HL HS HP N S) as (D & S').
    cbn [cg_loop]. destruct (Req_EM_T (dot n p (L p)) 0); [contradiction|].
    destruct (Rlt_dec _ _) as [T|T]; [eauto|].
    destruct (Req_EM_T nr2 0); [contradiction|].
    apply (IH (r :: rs) (p :: ps)); auto; [simpl; lia|lra].
Qed.

Lemma cg_ends : forall n L b eps, linear n L -> symmetric n L -> positive n L ->
  (0 < n)%nat -> eps <> 0 -> exists a, cg n n L b eps = Ok a.
Proof.
  intros n L b eps HL HS HP Hn He. unfold cg.
  assert (HD : 0 < INR n * (eps * eps)).
  { apply Rmult_lt_0_compat; [now apply lt_0_INR|]. now apply Rsqr_pos_lt. }
  destruct (Rlt_dec _ _) as [T|T]; [eauto|].
  apply (cg_loop_ends n L _ HL HS HP HD n [] []); [simpl; lia|lra|].
  constructor; simpl; auto; try (intros; contradiction).
  intros v [E|[]]. subst v. exists b, b, 0. split; auto. split; auto. intros. lra.
Qed.

(** ** Loops that do not end *)

Lemma cg_loop_zero : forall n L fuel a r p nr2, cg_loop fuel n L 0 a r p nr2 = OutOfFuel.
Proof.
  intros n L. induction fuel as [|fuel IH]; intros; [reflexivity|]. cbn [cg_loop].
  destruct (Req_EM_T _ _); auto. destruct (Rlt_dec _ _) as [T|T].
  - exfalso. revert T. apply Rle_not_lt, dot_nonneg.
  - destruct (Req_EM_T nr2 0); auto.
Qed.

Lemma cg_zero : forall fuel n L b eps, n = O \/ eps = 0 -> cg fuel n L b eps = OutOfFuel.
Proof.
  intros fuel n L b eps H. unfold cg.
  assert (E : INR n * (eps * eps) = 0) by (destruct H; subst; simpl; ring).
  rewrite E. destruct (Rlt_dec _ _) as [T|T]; [|apply cg_loop_zero].
  exfalso. revert T. apply Rle_not_lt, dot_nonneg.
Qed.

Lemma pcg_null : forall fuel n L P eps, linear n L -> linear n P ->
  pcg fuel n L P (fun _ => 0) eps = OutOfFuel.
Proof.
  intros fuel n L P eps HL HP. unfold pcg. destruct fuel; [reflexivity|]. cbn [pcg_loop].
  destruct (Req_EM_T _ _) as [E|E]; auto. exfalso. apply E.
  apply dot_zero_l. intros i I. now apply linear_zero with (n := n).
Qed.

(** ** A case *)

Definition ex_matrix (i j : nat) : R := if Nat.eqb i j then 2 else 1.
Definition ex_rhs (i : nat) : R := match i with O => 1 | _ => 0 end.

Lemma ex_symmetric : symmetric 2 (kernel_op 2 ex_matrix 1).
Proof. intros u v. unfold dot, kernel_op, ex_matrix. simpl. ring. Qed.

Lemma ex_positive : positive 2 (kernel_op 2 ex_matrix 1).
Proof.
  intros u H. unfold dot, kernel_op, ex_matrix. simpl.
  assert (E : u O <> 0 \/ u 1%nat <> 0).
  { destruct (Req_dec (u O) 0); auto. destruct (Req_dec (u 1%nat) 0); auto.
    exfalso. apply H. intros i I. destruct i as [|[|i]]; auto. lia. }
  replace (0 + u 0%nat * (0 + 2 * u 0%nat + 1 * u 1%nat + 1 * u 0%nat)
           + u 1%nat * (0 + 1 * u 0%nat + 2 * u 1%nat + 1 * u 1%nat))
    with (2 * Rsqr (u 0%nat) + 2 * Rsqr (u 1%nat) + Rsqr (u 0%nat + u 1%nat)) by (unfold Rsqr; ring).
  pose proof (Rle_0_sqr (u 0%nat)). pose proof (Rle_0_sqr (u 1%nat)).
  pose proof (Rle_0_sqr (u 0%nat + u 1%nat)).
  destruct E as [E|E]; apply Rsqr_pos_lt in E; lra.
Qed.

Lemma ex_solved : dot 2 ex_rhs ex_rhs >= INR 2 * (/ 10) ^ 2
  /\ exists a, cg 2 2 (kernel_op 2 ex_matrix 1) ex_rhs (/ 10) = Ok a.
Proof.
  split; [unfold dot, ex_rhs; simpl; lra|].
  apply cg_ends; [apply kernel_linear|apply ex_symmetric|apply ex_positive|lia|lra].
Qed.

Lemma kernel_residual : forall fuel n K alpha b eps a,
  cg fuel n (kernel_op n K alpha) b eps = Ok a ->
  total n (fun i => (total n (fun j => K i j * a j) + alpha * a i - b i) ^ 2) < INR n * eps ^ 2.
Proof.
  intros fuel n K alpha b eps a H. now apply (cg_residual fuel n _ b eps a (kernel_linear n K alpha)).
Qed.
