(** Number of steps of the preconditioned solver. *)

From Coq Require Import Reals List Lra Lia Arith.
From Verif Require Import Result Solver SolverSpec C30Proofs.
Import ListNotations.
Local Open Scope R_scope.

(** ** More than n vectors of size n are dependent *)
Fixpoint comb (cs : list R) (us : list vec) : vec :=
  match cs, us with
  | c :: cs, u :: us => axpy (comb cs us) c u
  | _, _ => fun _ => 0
  end.
Definition all_zero (cs : list R) : Prop := forall c, In c cs -> c = 0.

Lemma comb_at : forall cs us i c u, comb (c :: cs) (u :: us) i = comb cs us i + c * u i.
Proof. reflexivity. Qed.

Lemma comb_app : forall cs cs' us us' i, List.length cs = List.length us ->
  comb (cs ++ cs') (us ++ us') i = comb cs us i + comb cs' us' i.
Proof.
  induction cs as [|c cs IH]; intros cs' [|u us] us' i E; try discriminate; cbn [app].
  - cbn [comb]. lra.
  - rewrite !comb_at, IH by (cbn in E; lia). lra.
Qed.

(** Subtraction of multiples of one vector. *)
Lemma comb_sub : forall cs us (f : vec -> R) w i,
  comb cs (map (fun u => axpy u (- f u) w) us) i
  = comb cs us i - comb cs (map (fun u => (fun _ => f u) : vec) us) O * w i.
Proof.
  induction cs as [|c cs IH]; intros [|u us] f w i; cbn [map]; try (cbn [comb]; lra).
  rewrite !comb_at, IH. unfold axpy. ring.
Qed.

Lemma comb_zero : forall cs us i, (forall u, In u us -> u i = 0) -> comb cs us i = 0.
Proof.
  induction cs as [|c cs IH]; intros [|u us] i H; try reflexivity.
  rewrite comb_at, IH by (intros; apply H; right; auto). rewrite (H u) by (left; auto). lra.
Qed.

Lemma find_pivot : forall n (us : list vec),
  (forall u, In u us -> u n = 0) \/ exists l w l', us = l ++ w :: l' /\ w n <> 0.
Proof.
  intros n. induction us as [|u us [H|(l & w & l' & -> & H)]].
  - left. intros u [].
  - destruct (Req_dec (u n) 0) as [E|E].
    + left. intros v [<-|I]; auto.
    + right. exists [], u, us. auto.
  - right. exists (u :: l), w, l'. auto.
Qed.

Lemma dependent : forall n us, (n < List.length us)%nat ->
  exists cs, List.length cs = List.length us /\ ~ all_zero cs /\ forall i, (i < n)%nat -> comb cs us i = 0.
Proof.
  induction n as [|n IH]; intros us HL.
  - exists (map (fun _ => 1) us). split; [apply map_length|]. split; [|intros; lia].
    destruct us as [|u us]; [cbn in HL; lia|]. intros Z. specialize (Z 1 (or_introl eq_refl)). lra.
  - destruct (find_pivot n us) as [Z|(l & w & l' & -> & W)].
    + destruct (IH us) as (cs & E & NZ & C); [lia|]. exists cs. split; [auto|]. split; [auto|].
      intros i I. destruct (Nat.eq_dec i n) as [->|Ne]; [apply comb_zero, Z|apply C; lia].
    + set (f := fun u : vec => u n / w n).
      destruct (IH (map (fun u => axpy u (- f u) w) (l ++ l'))) as (cs & E & NZ & C).
      { rewrite map_length, app_length. rewrite app_length in HL. cbn in HL. lia. }
      rewrite map_length in E.
      assert (S : exists c1 c2, cs = c1 ++ c2 /\ List.length c1 = List.length l /\ List.length c2 = List.length l').
      { exists (firstn (List.length l) cs), (skipn (List.length l) cs).
        rewrite firstn_skipn, firstn_length, skipn_length. rewrite app_length in E. split; [auto|]. split; lia. }
      destruct S as (c1 & c2 & -> & E1 & E2).
      set (k := comb (c1 ++ c2) (map (fun u => (fun _ => f u) : vec) (l ++ l')) O).
      exists (c1 ++ (- k) :: c2). split; [rewrite !app_length; cbn; lia|]. split.
      * intros Z. apply NZ. intros c I. apply Z. rewrite in_app_iff in *. cbn. tauto.
      * intros i I. rewrite comb_app by auto. rewrite comb_at.
        replace (comb c1 l i + (comb c2 l' i + - k * w i)) with (comb (c1 ++ c2) (l ++ l') i - k * w i)
          by (rewrite comb_app by auto; ring).
        destruct (Nat.eq_dec i n) as [->|Ne].
        -- assert (K : forall cs us, comb cs us n = comb cs (map (fun u => (fun _ => f u) : vec) us) O * w n).
           { clear - W f. induction cs as [|c cs IH]; intros [|u us]; cbn [map]; try (cbn [comb]; lra).
             rewrite !comb_at, IH. unfold f. field. auto. }
           unfold k. rewrite <- K. lra.
        -- rewrite <- (C i) by lia. rewrite comb_sub. reflexivity.
Qed.

(** ** Families that are orthogonal for the preconditioner *)
Fixpoint porthogonal (n : nat) (P : vec -> vec) (us : list vec) : Prop :=
  match us with
  | [] => True
  | u :: us' => dot n u (P u) <> 0 /\ (forall v, In v us' -> dot n u (P v) = 0) /\ porthogonal n P us'
  end.

Lemma porthogonal_comb : forall n P us cs, symmetric n P -> porthogonal n P us ->
  List.length cs = List.length us ->
  (forall v, In v us -> dot n (comb cs us) (P v) = 0) -> all_zero cs.
Proof.
  intros n P us. induction us as [|u us IH]; intros [|c cs] HS O E H; try discriminate; [intros c []|].
  destruct O as (N & O & O').
  assert (Z : forall cs us', (forall v, In v us' -> dot n u (P v) = 0) -> dot n (comb cs us') (P u) = 0).
  { clear - HS. induction cs as [|c cs IH]; intros [|v us'] Hv; cbn [comb];
      try (apply dot_zero_l; intros; reflexivity).
    rewrite dot_axpy_l, IH by (intros; apply Hv; right; auto).
    rewrite (HS v u), (dot_comm n (P v) u), (Hv v) by (left; auto). lra. }
  assert (C : c = 0).
  { specialize (H u (or_introl eq_refl)). cbn [comb] in H. rewrite dot_axpy_l, Z in H by auto.
    rewrite Rplus_0_l in H. apply Rmult_integral in H as [H|H]; [auto|contradiction]. }
  subst c. intros x [<-|I]; [reflexivity|]. apply (IH cs); auto.
  intros v Iv. specialize (H v (or_intror Iv)). cbn [comb] in H. rewrite dot_axpy_l in H. lra.
Qed.

Lemma porthogonal_bound : forall n P us, symmetric n P -> porthogonal n P us -> (List.length us <= n)%nat.
Proof.
  intros n P us HS O. destruct (le_lt_dec (List.length us) n) as [L|L]; auto. exfalso.
  destruct (dependent n us L) as (cs & E & NZ & C). apply NZ.
  apply (porthogonal_comb n P us cs HS O E). intros v _. apply dot_zero_l. exact C.
Qed.

(** ** Number of steps *)
Record pstate_ok (n : nat) (L P : vec -> vec) (rs ps : list vec) (r p : vec) (rz : R) : Prop := {
  po_n : dot n r (P r) = rz;
  po_rs : porthogonal n P rs;
  po_r : forall v, In v rs -> dot n r (P v) = 0;
  po_p : forall q, In q ps -> dot n p (L q) = 0;
  po_pr : dot n p r = rz;
  po_rp : forall q, In q ps -> dot n r q = 0;
  po_A : forall v, In v rs -> dot n (P v) (L p) = 0;
  po_B : dot n (P r) (L p) = dot n p (L p);
  po_C : forall q, In q ps -> exists v w c, In v (r :: rs) /\ In w (r :: rs)
           /\ forall x, dot n x (L q) = c * (dot n x v - dot n x w);
  po_D : forall v, In v (r :: rs) -> exists s t c, In s (p :: ps) /\ In t (p :: ps)
           /\ forall x, dot n (P v) x = dot n s x - c * dot n t x
}.

Lemma pcg_step : forall n L P rs ps r p rz, linear n L -> symmetric n L -> positive n L -> symmetric n P ->
  rz <> 0 -> pstate_ok n L P rs ps r p rz ->
  let alp := rz / dot n p (L p) in
  let r' := axpy r (- alp) (L p) in
  let rz' := dot n r' (P r') in
  dot n p (L p) <> 0
  /\ pstate_ok n L P (r :: rs) (p :: ps) r' (axpy (P r') (rz' / rz) p) rz'.
Proof.
  intros n L P rs ps r p rz HL HS HP HQ N S alp r' rz'.
  destruct S as [Sn Srs Sr Sp Spr Srp SA SB SC SD].
  assert (D : dot n p (L p) <> 0).
  { assert (0 < dot n p (L p)); [|lra]. apply HP. intros Z. apply N. rewrite <- Spr.
    now apply dot_zero_l. }
  split; auto.
  assert (Na : alp <> 0).
  { unfold alp, Rdiv. apply Rmult_integral_contrapositive. split; auto. now apply Rinv_neq_0_compat. }
  assert (Ea : alp * dot n p (L p) = rz) by (unfold alp; field; auto).
  assert (O1 : forall v, In v (r :: rs) -> dot n r' (P v) = 0).
  { intros v [E|I]; unfold r'; rewrite dot_axpy_l.
    - subst v. rewrite Sn, (dot_comm n (L p) (P r)), SB. lra.
    - rewrite (Sr v I), (dot_comm n (L p) (P v)), (SA v I). lra. }
  assert (O1' : forall v, In v (r :: rs) -> dot n (P r') v = 0).
  { intros v I. rewrite <- (HQ r' v). auto. }
  assert (O2 : forall q, In q (p :: ps) -> dot n r' q = 0).
  { intros q [E|I]; unfold r'; rewrite dot_axpy_l.
    - subst q. rewrite (dot_comm n r p), Spr, (dot_comm n (L p) p). lra.
    - rewrite (Srp q I), (dot_comm n (L p) q), (HS q p), (dot_comm n (L q) p), (Sp q I). lra. }
  assert (LP : forall x, dot n x (L p) = / alp * (dot n x r - dot n x r')).
  { intros x. unfold r'. rewrite dot_axpy_r. field. auto. }
  assert (C' : forall q, In q (p :: ps) -> exists v w c, In v (r' :: r :: rs) /\ In w (r' :: r :: rs)
           /\ forall x, dot n x (L q) = c * (dot n x v - dot n x w)).
  { intros q [E|I].
    - subst q. exists r, r', (/ alp). split; [simpl; auto|]. split; [simpl; auto|]. exact LP.
    - destruct (SC q I) as (v & w & c & Iv & Iw & X). exists v, w, c.
      split; [now right|]. split; [now right|]. exact X. }
  set (p' := axpy (P r') (rz' / rz) p).
  assert (P1 : forall q, In q (p :: ps) -> dot n p' (L q) = 0).
  { intros q [E|I]; unfold p'; rewrite dot_axpy_l.
    - subst q. rewrite (LP (P r')). rewrite (O1' r) by (now left). rewrite (dot_comm n (P r') r'). fold rz'.
      rewrite <- Ea at 1. field. split; auto.
    - rewrite (Sp q I). destruct (SC q I) as (v & w & c & Iv & Iw & X). rewrite X.
      rewrite (O1' v Iv), (O1' w Iw). lra. }
  assert (D' : forall v, In v (r' :: r :: rs) -> exists s t c, In s (p' :: p :: ps) /\ In t (p' :: p :: ps)
           /\ forall x, dot n (P v) x = dot n s x - c * dot n t x).
  { intros v [E|I].
    - subst v. exists p', p, (rz' / rz). split; [simpl; auto|]. split; [simpl; auto|].
      intros x. unfold p'. rewrite dot_axpy_l. ring.
    - destruct (SD v I) as (s & t & c & Is & It & X). exists s, t, c.
      split; [now right|]. split; [now right|]. exact X. }
  constructor.
  - reflexivity.
  - simpl. split; [rewrite Sn; exact N|]. split; auto.
  - exact O1.
  - exact P1.
  - fold p'. unfold p'. rewrite dot_axpy_l, (dot_comm n p r'), (O2 p) by (now left).
    rewrite (dot_comm n (P r') r'). unfold rz'. lra.
  - exact O2.
  - intros v I. destruct (SD v I) as (s & t & c & Is & It & X). fold p'. rewrite X.
    rewrite (HS s p'), (dot_comm n (L s) p'), (P1 s Is).
    rewrite (HS t p'), (dot_comm n (L t) p'), (P1 t It). lra.
  - fold p'. assert (E : dot n p' (L p') = dot n (P r') (L p') + rz' / rz * dot n p (L p'))
      by (unfold p' at 1; now rewrite dot_axpy_l).
    rewrite E, (HS p p'), (dot_comm n (L p) p'), (P1 p) by (now left). lra.
  - exact C'.
  - exact D'.
Qed.

Lemma dot_pos_nz : forall n u, 0 < dot n u u -> ~ (forall i, (i < n)%nat -> u i = 0).
Proof. intros n u H Z. rewrite (dot_zero_l n u u Z) in H. lra. Qed.

Lemma pcg_loop_ends : forall n L P eps, linear n L -> symmetric n L -> positive n L ->
  symmetric n P -> positive n P -> eps <> 0 ->
  forall fuel rs ps a r p rz, (n <= fuel + List.length rs)%nat -> 0 < dot n r r ->
  pstate_ok n L P rs ps r p rz ->
  exists x, pcg_loop fuel n L P eps a r p rz = Ok x.
Proof.
  intros n L P eps HL HS HP HQ HQP He. induction fuel as [|fuel IH]; intros rs ps a r p rz B G S;
    assert (N : rz <> 0) by (rewrite <- (po_n _ _ _ _ _ _ _ _ S); apply Rgt_not_eq, HQP, dot_pos_nz, G).
  - exfalso. assert (O : porthogonal n P (r :: rs)).
    { simpl. split; [rewrite (po_n _ _ _ _ _ _ _ _ S); lra|]. split; [apply (po_r _ _ _ _ _ _ _ _ S)|].
      apply (po_rs _ _ _ _ _ _ _ _ S). }
    apply porthogonal_bound in O; auto. simpl in O. lia.
  - destruct (pcg_step n L P rs ps r p rz HL HS HP HQ N S) as (D & S').
    cbn [pcg_loop]. destruct (Req_EM_T (dot n p (L p)) 0); [contradiction|].
    destruct (Rlt_dec _ _) as [T|T]; [eauto|].
    destruct (Req_EM_T rz 0); [contradiction|].
    apply (IH (r :: rs) (p :: ps)); auto; [simpl; lia|].
    assert (0 < eps * eps) by now apply Rsqr_pos_lt. lra.
Qed.

Lemma pcg_ends : forall n L P b eps, linear n L -> symmetric n L -> positive n L ->
  symmetric n P -> positive n P -> ~ (forall i, (i < n)%nat -> b i = 0) -> eps <> 0 ->
  exists a, pcg n n L P b eps = Ok a.
Proof.
  intros n L P b eps HL HS HP HQ HQP Hb He. unfold pcg.
  assert (G : 0 < dot n b b).
  { destruct (Rle_lt_or_eq_dec 0 (dot n b b) (dot_nonneg n b)) as [X|X]; [auto|].
    exfalso. apply Hb. clear - X. symmetry in X. unfold dot in X. induction n as [|n IH]; [intros; lia|].
    cbn [total] in X. pose proof (dot_nonneg n b) as Y. unfold dot in Y. pose proof (Rle_0_sqr (b n)) as Z. unfold Rsqr in Z.
    intros i I. destruct (Nat.eq_dec i n) as [->|Ne].
    - assert (E : b n * b n = 0) by lra. apply Rmult_integral in E. tauto.
    - apply IH; [lra|lia]. }
  apply (pcg_loop_ends n L P eps HL HS HP HQ HQP He n [] []); [simpl; lia|auto|].
  constructor; simpl; auto; try (intros; contradiction).
  intros v [E|[]]. subst v. exists (P b), (P b), 0. split; auto. split; auto. intros. lra.
Qed.

(** A diagonal preconditioner. *)
Definition ex_prec (u : vec) : vec := fun i => match i with O => 3 * u i | _ => u i end.

Lemma ex_prec_ok : symmetric 2 ex_prec /\ positive 2 ex_prec.
Proof.
  split.
  - intros u v. unfold dot, ex_prec. simpl. ring.
  - intros u H. unfold dot, ex_prec. simpl.
    assert (E : u O <> 0 \/ u 1%nat <> 0).
    { destruct (Req_dec (u O) 0); auto. destruct (Req_dec (u 1%nat) 0); auto.
      exfalso. apply H. intros i I. destruct i as [|[|i]]; auto. lia. }
    assert (A := Rle_0_sqr (u O)). assert (B := Rle_0_sqr (u 1%nat)). unfold Rsqr in *.
    destruct E as [E|E]; apply Rsqr_pos_lt in E; unfold Rsqr in E; lra.
Qed.

Lemma ex_prec_solved : exists a, pcg 2 2 (kernel_op 2 ex_matrix 1) ex_prec ex_rhs (/ 10) = Ok a.
Proof.
  apply pcg_ends; [apply kernel_linear|apply ex_symmetric|apply ex_positive|apply ex_prec_ok|apply ex_prec_ok| |lra].
  intros Z. specialize (Z O (Nat.lt_0_succ 1)). unfold ex_rhs in Z. lra.
Qed.
