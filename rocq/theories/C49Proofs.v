(** Proofs for the gradients of kernel linear systems. *)

From Coq Require Import ZArith Reals Lia Lra Arith Bool List FunctionalExtensionality.
From Verif Require Import Result Formula Diff GradSpec Calculus Adjoint SimplifyProofs DiffProofs KernelSum
  KernelSumSpec C05Proofs LinOps Loader LoaderProofs RedGradSpec C46Proofs Solver SolverSpec C30Proofs C49Lin
  KernelSolve KernelSolveSpec.
Import ListNotations.
Local Open Scope R_scope.
Notation stotal := Solver.total.
Notation ktotal := KernelSumSpec.total.

(** ** Arrays and vectors *)
Section Flat.
Variables (m d : nat).
Hypothesis D1 : (1 <= d)%nat.

Lemma flat_lt : forall r k, (r < m)%nat -> (k < d)%nat -> (r * d + k < m * d)%nat.
Proof. intros. nia. Qed.
Lemma flat_div : forall r k, (k < d)%nat -> Nat.div (r * d + k) d = r.
Proof. intros. rewrite Nat.div_add_l by lia. rewrite Nat.div_small by lia. lia. Qed.
Lemma flat_mod : forall r k, (k < d)%nat -> Nat.modulo (r * d + k) d = k.
Proof. intros. rewrite Nat.add_comm, Nat.mod_add by lia. apply Nat.mod_small. lia. Qed.
Lemma flat_back : forall i, (Nat.div i d * d + Nat.modulo i d)%nat = i.
Proof. intros. rewrite Nat.mul_comm. symmetry. apply Nat.div_mod. lia. Qed.
Lemma flat_row : forall i, (i < m * d)%nat -> (Nat.div i d < m)%nat.
Proof. intros. apply Nat.div_lt_upper_bound; [lia|]. lia. Qed.
Lemma flat_col : forall i, (Nat.modulo i d < d)%nat.
Proof. intros. apply Nat.mod_upper_bound. lia. Qed.

Lemma flatten_at : forall X r k, (k < d)%nat -> flatten d X (r * d + k)%nat = X r k.
Proof. intros. unfold flatten. now rewrite flat_div, flat_mod. Qed.
Lemma unflatten_at : forall u i, unflatten d u (Nat.div i d) (Nat.modulo i d) = u i.
Proof. intros. unfold unflatten. now rewrite flat_back. Qed.
Lemma flatten_unflatten : forall u, flatten d (unflatten d u) = u.
Proof. intros. apply functional_extensionality; intros i. apply unflatten_at. Qed.
Lemma unflatten_flatten : forall X r k, (k < d)%nat -> unflatten d (flatten d X) r k = X r k.
Proof. intros. unfold unflatten. now apply flatten_at. Qed.

Lemma stotal_app : forall a b g, stotal (a + b) g = stotal a g + stotal b (fun k => g (a + k)%nat).
Proof.
  intros a. induction b; intros g.
  - rewrite Nat.add_0_r. cbn [stotal]. ring.
  - rewrite Nat.add_succ_r. cbn [stotal]. rewrite IHb. ring.
Qed.
Lemma stotal_rsum : forall a g, stotal a g = rsum a g.
Proof. induction a; intros g; [reflexivity|]. cbn [stotal rsum]. now rewrite IHa. Qed.

Lemma stotal_rows : forall g, stotal (m * d) g = ktotal m (fun r => rsum d (fun k => g (r * d + k)%nat)).
Proof.
  induction m as [|a IH]; intros g; [reflexivity|].
  replace (S a * d)%nat with (a * d + d)%nat by lia. rewrite stotal_app, IH.
  cbn [ktotal]. now rewrite stotal_rsum.
Qed.

Lemma pairing_dot : forall U V, pairing m d U V = dot (m * d) (flatten d U) (flatten d V).
Proof.
  intros U V. unfold pairing, dot. rewrite stotal_rows. apply C05Proofs.total_ext. intros r Hr.
  rewrite ip_inner. unfold ip. apply rsum_ext. intros k K. now rewrite !flatten_at.
Qed.
Lemma pairing_ext : forall U V U' V', same_array m d U U' -> same_array m d V V' ->
  pairing m d U V = pairing m d U' V'.
Proof.
  intros U V U' V' HU HV. unfold pairing. apply C05Proofs.total_ext. intros r Hr.
  rewrite !ip_inner. apply ip_ext; intros k K; auto.
Qed.
Lemma same_flat : forall U u, same_array m d U (unflatten d u) <->
  forall i, (i < m * d)%nat -> flatten d U i = u i.
Proof.
  intros U u. split; intros H.
  - intros i I. unfold flatten. rewrite H by (auto using flat_row, flat_col). apply unflatten_at.
  - intros r k Hr Hk. unfold unflatten. rewrite <- H by now apply flat_lt. now rewrite flatten_at.
Qed.
Lemma same_flatten : forall U V, same_array m d U V <->
  forall i, (i < m * d)%nat -> flatten d U i = flatten d V i.
Proof.
  intros U V. split; intros H.
  - intros i I. unfold flatten. apply H; auto using flat_row, flat_col.
  - intros r k Hr Hk. rewrite <- (flatten_at U r k Hk), <- (flatten_at V r k Hk). apply H. now apply flat_lt.
Qed.
End Flat.

Lemma nrows_rows : forall c M N, nrows c M N = rows c M N.
Proof. reflexivity. Qed.
Lemma at_with : forall inv U A, with_arg inv U A = at_unknown inv U A.
Proof.
  intros. apply functional_extensionality; intros a. unfold with_arg, at_unknown.
  apply functional_extensionality; intros r. apply functional_extensionality; intros k.
  now destruct (Z.eqb a inv).
Qed.

(** ** The operator *)
Section Operator.
Variables (decl : declaration) (M N : nat) (f : fm) (tagI : nat) (inv : Z) (alpha : R) (ci : nat).
Hypotheses (Wf : wf f) (Decl : declared decl f) (T1 : (tagI <= 1)%nat)
  (Inv : decl inv = (dim f, ci)) (Sq : rows ci M N = rows tagI M N).
Let m := rows tagI M N.
Let d := dim f.
Let reg A := regularised decl A M N f tagI inv alpha.
Let prm eps := {| spred := {| sformula := f; stagI := tagI |}; spinv := inv; spalpha := alpha; speps := eps |}.

Lemma d_pos : (1 <= d)%nat.
Proof. apply dim_pos, Wf. Qed.

Lemma row_lt : forall c i j, (i < M)%nat -> (j < N)%nat -> (row c i j < rows c M N)%nat.
Proof. intros [|[|c]] i j I J; cbn [row rows]; lia. Qed.

Lemma reg_reduce : forall A U r k,
  reg A U r k = reduce_sum decl (with_arg inv U A) M N {| sformula := f; stagI := tagI |} r k + alpha * U r k.
Proof.
  intros A U r k. unfold reg, regularised, reduce_sum. cbn [stagI sformula]. rewrite at_with.
  destruct tagI; now rewrite C05Proofs.total_rsum.
Qed.

Lemma reg_ext : forall A U V, same_array m d U V -> same_array m d (reg A U) (reg A V).
Proof.
  intros A U V H r k Hr Hk. unfold reg, regularised. f_equal; [|now rewrite H].
  assert (X : forall i j, (i < M)%nat -> (j < N)%nat ->
    eval f (point decl (at_unknown inv U A) i j) k = eval f (point decl (at_unknown inv V A) i j) k).
  { intros i j I J. apply eval_agree; auto. intros a da ca Ha q Q.
    apply (vars_declared decl f Decl) in Ha. unfold point, at_unknown. rewrite Ha. cbn [snd].
    destruct (Z.eqb_spec a inv) as [->|]; [|reflexivity]. rewrite Inv in Ha. injection Ha as <- <-.
    apply H; [|exact Q]. unfold m. rewrite <- Sq. now apply row_lt. }
  unfold m in Hr. destruct tagI as [|[|?]]; [| |lia]; cbn [rows] in Hr;
    apply C05Proofs.total_ext; intros; apply X; auto.
Qed.

Lemma linop_reg : forall A eps u i, linop decl A M N (prm eps) u i = flatten d (reg A (unflatten d u)) i.
Proof.
  intros A eps u i. unfold linop, flatten. cbn [prm spred sformula spinv spalpha]. rewrite reg_reduce.
  fold d. now rewrite (unflatten_at d d_pos).
Qed.
Lemma linop_eps : forall A eps eps', linop decl A M N (prm eps) = linop decl A M N (prm eps').
Proof. reflexivity. Qed.

Lemma linop_ext : forall A eps u v, (forall i, (i < m * d)%nat -> u i = v i) ->
  forall i, (i < m * d)%nat -> linop decl A M N (prm eps) u i = linop decl A M N (prm eps) v i.
Proof.
  intros A eps u v H. setoid_rewrite linop_reg. apply same_flatten; [apply d_pos|]. apply reg_ext.
  intros r k Hr Hk. apply H. (apply flat_lt; auto; apply d_pos).
Qed.

Lemma linop_linear : forall A eps, linear_op m d (reg A) -> linear (m * d) (linop decl A M N (prm eps)).
Proof.
  intros A eps H. split; [apply linop_ext|]. intros u c v i I. rewrite !linop_reg.
  specialize (H (unflatten d u) c (unflatten d v)).
  exact (H (Nat.div i d) (Nat.modulo i d) (flat_row _ _ d_pos i I) (flat_col _ d_pos i)).
Qed.

Lemma dot_reg : forall A eps u v, dot (m * d) u (linop decl A M N (prm eps) v)
  = pairing m d (unflatten d u) (reg A (unflatten d v)).
Proof.
  intros A eps u v. rewrite (pairing_dot m d d_pos).
  rewrite (dot_ext (m * d) (flatten d (unflatten d u)) u)
    by (intros; unfold flatten; apply (unflatten_at d d_pos)).
  apply dot_ext_r. intros. apply linop_reg.
Qed.

Lemma linop_symmetric : forall A eps, symmetric_op m d (reg A) -> symmetric (m * d) (linop decl A M N (prm eps)).
Proof.
  intros A eps H u v. rewrite dot_reg, H, dot_comm, dot_reg.
  unfold pairing. apply C05Proofs.total_ext. intros. rewrite !ip_inner. unfold ip. apply rsum_ext. intros; ring.
Qed.
Lemma linop_positive : forall A eps, positive_op m d (reg A) -> positive (m * d) (linop decl A M N (prm eps)).
Proof.
  intros A eps H u Hu. rewrite dot_reg. apply H. intros Z. apply Hu. intros i I.
  rewrite <- (unflatten_at d d_pos u i). apply Z; [apply flat_row; auto using d_pos|apply flat_col, d_pos].
Qed.

Lemma solves_reg : forall A eps u B, solves (m * d) (linop decl A M N (prm eps)) (flatten d B) u
  <-> same_array m d (reg A (unflatten d u)) B.
Proof.
  intros A eps u B. rewrite (same_flatten m d d_pos). unfold solves. setoid_rewrite linop_reg. reflexivity.
Qed.

Lemma square_ok : forall eps, square decl M N (prm eps) = true.
Proof.
  intros eps. unfold square. cbn [prm spred spinv sformula stagI]. rewrite Inv.
  rewrite !nrows_rows, Sq, !Nat.eqb_refl. reflexivity.
Qed.

Lemma forward_ok : forall A eps fuel, linear_op m d (reg A) -> symmetric_op m d (reg A) ->
  positive_op m d (reg A) -> (0 < m)%nat -> 0 < eps -> (m * d <= fuel)%nat ->
  exists x, solve_forward fuel decl A M N (prm eps) = Ok (unflatten d x)
    /\ squared_residual (m * d) (linop decl A M N (prm eps)) x (flatten d (A inv)) < INR (m * d) * eps ^ 2.
Proof.
  intros A eps fuel HL HS HP Hm He Hf. unfold solve_forward. rewrite square_ok.
  cbn [prm spred spinv sformula stagI speps]. rewrite nrows_rows. fold m d. fold (prm eps).
  destruct (cg_ends (m * d) (linop decl A M N (prm eps)) (flatten d (A inv)) eps) as (x & X);
    auto using linop_linear, linop_symmetric, linop_positive.
  { pose proof d_pos. nia. }
  { lra. }
  exists x. rewrite (cg_more _ _ _ _ _ fuel x Hf X). split; [reflexivity|].
  eapply cg_residual; [now apply linop_linear|exact X].
Qed.

Lemma forward_residual : forall A eps fuel X, linear_op m d (reg A) ->
  solve_forward fuel decl A M N (prm eps) = Ok X ->
  ktotal m (fun r => ktotal d (fun k => (reg A X r k - A inv r k) ^ 2)) < INR (m * d) * eps ^ 2.
Proof.
  intros A eps fuel X HL H. unfold solve_forward in H. rewrite square_ok in H.
  cbn [prm spred spinv sformula stagI speps] in H. rewrite nrows_rows in H. fold m d in H. fold (prm eps) in H.
  destruct (cg _ _ _ _ _) as [x| | |] eqn:E; try discriminate. injection H as <-.
  apply cg_residual in E; [|now apply linop_linear].
  eapply Rle_lt_trans; [|exact E]. right. unfold squared_residual. rewrite (stotal_rows m d d_pos).
  apply C05Proofs.total_ext. intros r Hr. rewrite C05Proofs.total_rsum. apply rsum_ext. intros k K.
  rewrite linop_reg, !(flatten_at d d_pos) by exact K. reflexivity.
Qed.

(** ** The gradient formula *)
Variables (A : arguments) (nargs pos : Z) (dp c : nat) (H : nat -> nat -> R).
Hypotheses (Pos : decl pos = (dp, c)) (Dp : (1 <= dp)%nat) (C2 : (c <= 2)%nat) (Un : unmixed f)
  (Nargs : decl nargs = (dim f, tagI)) (Lt : (pos < nargs)%Z) (Lti : (inv < nargs)%Z)
  (Wn : without nargs f) (Wn1 : without (nargs + 1) f).
Hypothesis (Sm : forall U i j, (i < M)%nat -> (j < N)%nat -> smooth (point decl (at_unknown inv U A) i j) f).

Let Ag (X Z U : array) : arguments := with_arg (nargs + 1) X (with_arg nargs Z (with_arg inv U A)).
Let L eps t := linop decl (move_arg pos H A t) M N (prm eps).

Lemma point_other : forall B a X i j b, b <> a -> point decl (with_arg a X B) i j b = point decl B i j b.
Proof.
  intros B a X i j b Hb. unfold point, with_arg. apply functional_extensionality; intros k.
  destruct (Z.eqb_spec b a); [contradiction|reflexivity].
Qed.

Lemma Ag_moved : forall X Z U t, pos <> inv ->
  move_arg pos H (Ag X Z U) t
  = with_arg (nargs + 1) X (with_arg nargs Z (with_arg inv U (move_arg pos H A t))).
Proof.
  intros X Z U t Hp. unfold Ag. apply functional_extensionality; intros a.
  apply functional_extensionality; intros r. apply functional_extensionality; intros k.
  unfold move_arg, with_arg. destruct (Z.eqb_spec a pos) as [->|]; [|reflexivity].
  destruct (Z.eqb_spec pos (nargs + 1)); [lia|]. destruct (Z.eqb_spec pos nargs); [lia|].
  destruct (Z.eqb_spec pos inv); [contradiction|reflexivity].
Qed.

Lemma eval_Ag : forall B X Z i j,
  eval f (point decl (with_arg (nargs + 1) X (with_arg nargs Z B)) i j) = eval f (point decl B i j).
Proof.
  intros B X Z i j. rewrite (eval_without (nargs + 1) f _ (point decl (with_arg nargs Z B) i j) Wn1).
  - apply (eval_without nargs f _ _ Wn). intros b Hb. now apply point_other.
  - intros b Hb. now apply point_other.
Qed.
Lemma smooth_Ag : forall X Z U i j, (i < M)%nat -> (j < N)%nat -> smooth (point decl (Ag X Z U) i j) f.
Proof.
  intros X Z U i j I J. unfold Ag. unfold smooth.
  apply (inside_without _ (nargs + 1) f (point decl (with_arg nargs Z (with_arg inv U A)) i j) _ Wn1).
  { intros b Hb. symmetry. now apply point_other. }
  apply (inside_without _ nargs f (point decl (with_arg inv U A) i j) _ Wn).
  { intros b Hb. symmetry. now apply point_other. }
  rewrite at_with. apply Sm; auto.
Qed.

Lemma reduce_Ag : forall B X Z r k,
  reduce_sum decl (with_arg (nargs + 1) X (with_arg nargs Z B)) M N {| sformula := f; stagI := tagI |} r k
  = reduce_sum decl B M N {| sformula := f; stagI := tagI |} r k.
Proof.
  intros B X Z r k. unfold reduce_sum. cbn [stagI sformula].
  destruct tagI; apply rsum_ext; intros; now rewrite eval_Ag.
Qed.

Lemma linop_flatten : forall B eps U i, (i < m * d)%nat ->
  linop decl B M N (prm eps) (flatten d U) i = flatten d (reg B U) i.
Proof.
  intros B eps U i I. rewrite linop_reg. apply (proj1 (same_flatten m d d_pos _ _)); auto. apply reg_ext.
  intros r k R1 K1. now rewrite (unflatten_flatten d d_pos).
Qed.

Lemma summed_linop : forall X Z U t eps, pos <> inv ->
  summed_output decl M N f tagI Z (move_arg pos H (Ag X Z U) t)
  = dot (m * d) (flatten d Z) (fun i => L eps t (flatten d U) i - alpha * flatten d U i).
Proof.
  intros X Z U t eps Hp. rewrite (Ag_moved X Z _ t Hp). unfold summed_output.
  unfold dot. rewrite (stotal_rows m d d_pos). apply C05Proofs.total_ext. intros r Hr.
  rewrite ip_inner. unfold ip. apply rsum_ext. intros k K. rewrite reduce_Ag.
  unfold L. rewrite linop_flatten by (apply flat_lt; auto; apply d_pos).
  rewrite !(flatten_at d d_pos) by exact K. rewrite reg_reduce. ring.
Qed.

(** The gradient formula is accepted. *)
Hypothesis (Acc : pos = inv \/ exists h, DiffT f (Var pos dp c) (Var nargs (dim f) tagI) = Ok h).

Lemma backward_ok : forall B, pos <> inv ->
  exists G, backward decl B M N {| sformula := f; stagI := tagI |} nargs pos = Ok G.
Proof.
  intros B Hp. destruct Acc as [E|(h & E)]; [contradiction|]. unfold backward. rewrite Pos.
  unfold Sum_DiffT. cbn [sformula stagI]. rewrite E. eexists. reflexivity.
Qed.

Lemma bilinear_derivative : forall X Z U eps G, pos <> inv ->
  backward decl (Ag X Z U) M N {| sformula := f; stagI := tagI |} nargs pos = Ok G ->
  d0 (fun t => dot (m * d) (flatten d Z) (fun i => L eps t (flatten d U) i - alpha * flatten d U i))
     (pairing (rows c M N) dp G H).
Proof.
  intros X Z U eps G Hp HG.
  assert (E : Ag X Z U nargs = Z).
  { unfold Ag, with_arg. destruct (Z.eqb_spec nargs (nargs + 1)); [lia|]. now rewrite Z.eqb_refl. }
  eapply d0_ext; [intros t; apply (summed_linop X Z U t eps Hp)|].
  pose proof (kernel_sum_gradient_output decl (Ag X Z U) M N f tagI nargs pos dp c G Pos Dp C2 T1 Wf Decl Un
    Nargs d_pos ltac:(intros i j I J; now apply smooth_Ag) HG H) as Q.
  rewrite E in Q. exact Q.
Qed.

(** Entries of the operator are differentiable. *)
Lemma entries_derivable : exists K', forall eps i j, (i < m * d)%nat -> (j < m * d)%nat ->
  d0 (fun t => L eps t (unit j) i) (K' i j).
Proof.
  destruct (Z.eq_dec pos inv) as [Hp|Hp].
  - exists (fun _ _ => 0). intros eps i j _ _. eapply d0_ext; [|apply (d0_const (L eps 0 (unit j) i))].
    intros t. unfold L. rewrite !linop_reg. unfold flatten. rewrite !reg_reduce. do 2 f_equal.
    apply functional_extensionality; intros a. apply functional_extensionality; intros r.
    apply functional_extensionality; intros k. unfold with_arg, move_arg.
    destruct (Z.eqb_spec a inv); [reflexivity|]. destruct (Z.eqb_spec a pos); [congruence|reflexivity].
  - assert (X : forall i j, exists l, forall eps, (i < m * d)%nat -> (j < m * d)%nat ->
      d0 (fun t => L eps t (unit j) i) l).
    { intros i j.
      destruct (backward_ok (Ag (fun _ _ => 0) (unflatten d (unit i)) (unflatten d (unit j))) Hp) as (G & HG).
      exists (pairing (rows c M N) dp G H). intros eps I J.
      pose proof (bilinear_derivative _ _ _ eps G Hp HG) as B. rewrite !(flatten_unflatten d d_pos) in B.
      assert (B' : d0 (fun t => dot (m * d) (unit i)
          (fun i0 => L eps t (unit j) i0 - alpha * unit j i0) + alpha * unit j i)
         (pairing (rows c M N) dp G H + 0)) by (apply d0_plus; [exact B|apply d0_const]).
      rewrite Rplus_0_r in B'. eapply d0_ext; [|exact B']. intros t. cbv beta.
      rewrite dot_unit by exact I. ring. }
    assert (Y : forall n' n'', exists K', forall i j, (i < n')%nat -> (j < n'')%nat ->
       forall eps, (i < m * d)%nat -> (j < m * d)%nat -> d0 (fun t => L eps t (unit j) i) (K' i j)).
    { induction n' as [|n' IH]; intros n''; [exists (fun _ _ => 0); intros; lia|].
      destruct (IH n'') as (K1 & H1).
      assert (Y1 : exists k, forall j, (j < n'')%nat -> forall eps, (n' < m * d)%nat -> (j < m * d)%nat ->
         d0 (fun t => L eps t (unit j) n') (k j)).
      { clear - X. induction n'' as [|q IH]; [exists (fun _ => 0); intros; lia|].
        destruct IH as (k & Hk). destruct (X n' q) as (l & Hl).
        exists (fun j => if Nat.eqb j q then l else k j). intros j J.
        destruct (Nat.eqb_spec j q); [subst; exact Hl|apply Hk; lia]. }
      destruct Y1 as (k & Hk). exists (fun i j => if Nat.eqb i n' then k j else K1 i j).
      intros i j I J. destruct (Nat.eqb_spec i n'); [subst; apply Hk; auto|apply H1; auto; lia]. }
    destruct (Y (m * d)%nat (m * d)%nat) as (K' & HK). exists K'. intros eps i j I J. apply HK; auto.
Qed.

(** ** Conclusions *)
Hypotheses (Lin : forall t, linear_op m d (reg (move_arg pos H A t))) (Sym : symmetric_op m d (reg A))
  (Posi : positive_op m d (reg A)).

Lemma move_0 : move_arg pos H A 0 = A.
Proof.
  apply functional_extensionality; intros a. apply functional_extensionality; intros r.
  apply functional_extensionality; intros k. unfold move_arg. destruct (Z.eqb a pos); ring.
Qed.
Lemma Lin0 : linear_op m d (reg A).
Proof. rewrite <- move_0 at 1. apply Lin. Qed.

(** Motion of the right-hand side. *)
Let hh : vec := if Z.eqb pos inv then flatten d H else fun _ => 0.

Lemma rhs_moved : forall t, flatten d (move_arg pos H A t inv) = (fun i => flatten d (A inv) i + t * hh i).
Proof.
  intros t. apply functional_extensionality; intros i. unfold flatten, hh, move_arg.
  rewrite Z.eqb_sym. destruct (Z.eqb_spec pos inv); [reflexivity|ring].
Qed.

Lemma derivative_value : forall E z K', 
  (forall eps i j, (i < m * d)%nat -> (j < m * d)%nat -> d0 (fun t => L eps t (unit j) i) (K' i j)) ->
  solves (m * d) (L 1 0) (flatten d E) z ->
  forall (a : R -> array) rho, 0 < rho ->
  (forall t, Rabs t < rho -> same_array m d (reg (move_arg pos H A t) (a t)) (move_arg pos H A t inv)) ->
  d0 (fun t => pairing m d E (a t))
     (dot (m * d) z hh
      - stotal (m * d) (fun i => z i * stotal (m * d) (fun j => K' i j * flatten d (a 0) j))).
Proof.
  intros E z K' HK Hz a rho Hr Ha.
  assert (S0 : symmetric (m * d) (L 1 0)) by (unfold L; rewrite move_0; now apply linop_symmetric).
  assert (P0 : positive (m * d) (L 1 0)) by (unfold L; rewrite move_0; now apply linop_positive).
  eapply d0_ext; [|apply (solution_derivative (m * d) (L 1) K' (flatten d (A inv)) hh (flatten d E) z
     ltac:(intros; apply linop_linear, Lin) S0 P0 (HK 1) Hz (fun t => flatten d (a t)) rho Hr)].
  - intros t. symmetry. apply pairing_dot, d_pos.
  - intros t Ht i I. change (flatten d (A inv) i + t * hh i) with ((fun i => flatten d (A inv) i + t * hh i) i).
    rewrite <- (rhs_moved t). unfold L. rewrite linop_reg.
    specialize (Ha t Ht). apply (proj1 (same_flatten m d d_pos _ _)); auto.
    intros r k Hr' Hk. rewrite <- Ha by auto. apply reg_ext; auto.
    intros r1 k1 R1 K1. now rewrite (unflatten_flatten d d_pos).
Qed.

Lemma pairing_value : forall X Z U K' G, pos <> inv ->
  (forall eps i j, (i < m * d)%nat -> (j < m * d)%nat -> d0 (fun t => L eps t (unit j) i) (K' i j)) ->
  backward decl (Ag X Z U) M N {| sformula := f; stagI := tagI |} nargs pos = Ok G ->
  pairing (rows c M N) dp G H
  = stotal (m * d) (fun i => flatten d Z i * stotal (m * d) (fun j => K' i j * flatten d U j)).
Proof.
  intros X Z U K' G Hp HK HG. eapply d0_unique; [apply (bilinear_derivative X Z U 1 G Hp HG)|].
  set (u := flatten d U).
  apply (d0_tot (m * d) (fun i t => flatten d Z i * (L 1 t u i - alpha * u i))). intros i I. apply d0_scal.
  assert (B : d0 (fun t => stotal (m * d) (fun j => L 1 t (unit j) i * u j) - alpha * u i)
     (stotal (m * d) (fun j => K' i j * u j) - 0)).
  { apply d0_minus; [|apply d0_const].
    apply (d0_tot (m * d) (fun j t => L 1 t (unit j) i * u j)). intros j J.
    eapply d0_eq; [|apply (d0_mult (fun t => L 1 t (unit j) i) (fun _ => u j) (K' i j) 0);
      [apply HK; auto|apply d0_const]]. ring. }
  rewrite Rminus_0_r in B. eapply d0_ext; [|exact B]. intros t. cbv beta. f_equal.
  rewrite (linear_matrix (m * d) (L 1 t) ltac:(apply linop_linear, Lin) u i I).
  apply C30Proofs.total_ext. intros; ring.
Qed.

(** Exact solves give the exact gradient. *)
Lemma exact_gradient : forall eps E X Z G, same_array m d (reg A X) (A inv) -> same_array m d (reg A Z) E ->
  (if Z.eqb pos inv then Ok Z else solve_grad decl A M N (prm eps) nargs pos X Z) = Ok G ->
  forall (a : R -> array) rho, 0 < rho ->
  (forall t, Rabs t < rho -> same_array m d (reg (move_arg pos H A t) (a t)) (move_arg pos H A t inv)) ->
  derivable_pt_lim (fun t => pairing m d E (a t)) 0 (pairing (rows c M N) dp G H).
Proof.
  intros eps E X Z G HX HZ HG a rho Hr Ha.
  destruct entries_derivable as (K' & HK).
  assert (Hz : solves (m * d) (L 1 0) (flatten d E) (flatten d Z)).
  { unfold L. rewrite move_0. apply solves_reg. intros r k R1 K1. rewrite <- HZ by auto.
    apply reg_ext; auto. intros r1 k1 R2 K2. now rewrite (unflatten_flatten d d_pos). }
  pose proof (derivative_value E (flatten d Z) K' HK Hz a rho Hr Ha) as D.
  eapply d0_eq; [|exact D].
  assert (Xa : forall j, (j < m * d)%nat -> flatten d X j = flatten d (a 0) j).
  { apply (same_flatten m d d_pos).
    pose proof (positive_injective _ _ (linop_positive A 1 Posi)) as Inj.
    intros r k R1 K1. specialize (Inj (axpy (flatten d X) (-1) (flatten d (a 0)))).
    assert (Q : forall i, (i < m * d)%nat -> linop decl A M N (prm 1) (axpy (flatten d X) (-1) (flatten d (a 0))) i = 0).
    { intros i I. destruct (linop_linear A 1 Lin0) as [_ Ad]. rewrite Ad by exact I. rewrite !linop_reg.
      assert (Q1 : flatten d (reg A (unflatten d (flatten d X))) i = flatten d (A inv) i).
      { apply (proj1 (same_flatten m d d_pos _ _)); auto. intros r1 k1 R2 K2. rewrite <- HX by auto. apply reg_ext; auto.
        intros r2 k2 R3 K3. now rewrite (unflatten_flatten d d_pos). }
      assert (Q2 : flatten d (reg A (unflatten d (flatten d (a 0)))) i = flatten d (A inv) i).
      { apply (proj1 (same_flatten m d d_pos _ _)); auto. intros r1 k1 R2 K2.
        specialize (Ha 0 ltac:(rewrite Rabs_R0; exact Hr)). rewrite move_0 in Ha.
        rewrite <- Ha by auto. apply reg_ext; auto.
        intros r2 k2 R3 K3. now rewrite (unflatten_flatten d d_pos). }
      rewrite Q1, Q2. ring. }
    specialize (Inj Q (r * d + k)%nat ltac:((apply flat_lt; auto; apply d_pos))). unfold axpy in Inj.
    rewrite !(flatten_at d d_pos) in Inj by exact K1. lra. }
  destruct (Z.eqb_spec pos inv) as [Hp|Hp].
  - injection HG as <-. unfold hh. destruct (Z.eqb_spec pos inv); [|contradiction].
    assert (K0 : forall i j, (i < m * d)%nat -> (j < m * d)%nat -> K' i j = 0).
    { intros i j I J. eapply d0_unique; [apply (HK 1 i j I J)|].
      eapply d0_ext; [|apply (d0_const (L 1 0 (unit j) i))]. intros t. unfold L. rewrite !linop_reg.
      unfold flatten. rewrite !reg_reduce. do 2 f_equal.
      apply functional_extensionality; intros b. apply functional_extensionality; intros r.
      apply functional_extensionality; intros k. unfold with_arg, move_arg.
      destruct (Z.eqb_spec b inv); [reflexivity|]. destruct (Z.eqb_spec b pos); [congruence|reflexivity]. }
    rewrite Hp, Inv in Pos. injection Pos as <- <-. rewrite Sq. rewrite (pairing_dot _ _ d_pos). fold m d.
    rewrite (C30Proofs.total_ext (m * d) (fun i => flatten d Z i * _) (fun _ => 0)).
    + rewrite total_zero. ring.
    + intros i I. rewrite (C30Proofs.total_ext (m * d) _ (fun _ => 0)); [rewrite total_zero; ring|].
      intros j J. rewrite K0 by auto. ring.
  - unfold hh. destruct (Z.eqb_spec pos inv); [contradiction|].
    unfold solve_grad in HG. cbn [prm spred spinv] in HG.
    rewrite (pairing_value X (fun r k => - Z r k) X K' G Hp HK HG).
    rewrite (dot_comm (m * d)), dot_zero_l by auto. rewrite Rminus_0_l.
    replace (- stotal (m * d) (fun i => flatten d Z i * stotal (m * d) (fun j => K' i j * flatten d (a 0) j)))
      with (-1 * stotal (m * d) (fun i => flatten d Z i * stotal (m * d) (fun j => K' i j * flatten d (a 0) j)))
      by ring.
    rewrite <- total_scal. apply C30Proofs.total_ext. intros i I.
    rewrite (C30Proofs.total_ext (m * d) (fun j => K' i j * flatten d X j) (fun j => K' i j * flatten d (a 0) j))
      by (intros; now rewrite Xa).
    unfold flatten at 1. ring_simplify. unfold flatten. ring.
Qed.

(** Systems have one solution near 0. *)
Lemma solvable : exists rho, 0 < rho /\ forall t, Rabs t < rho ->
  exists U, the_solution m d (reg (move_arg pos H A t)) (move_arg pos H A t inv) U.
Proof.
  destruct entries_derivable as (K' & HK).
  assert (S0 : symmetric (m * d) (L 1 0)) by (unfold L; rewrite move_0; now apply linop_symmetric).
  assert (P0 : positive (m * d) (L 1 0)) by (unfold L; rewrite move_0; now apply linop_positive).
  destruct (near_solution (m * d) (L 1) K' (flatten d (A inv)) hh
    ltac:(intros; apply linop_linear, Lin) S0 P0 (HK 1)) as (rho & Hr & X).
  exists rho. split; [exact Hr|]. intros t Ht. destruct (X t Ht) as (a & Ha & Hu).
  rewrite <- (rhs_moved t) in Ha, Hu.
  exists (unflatten d a). split; [apply (solves_reg _ 1); exact Ha|]. intros V HV.
  apply (same_flat m d d_pos). intros i I. apply Hu; auto. intros k K. unfold L.
  rewrite linop_flatten by exact K. now apply (proj1 (same_flatten m d d_pos _ _)).
Qed.

Lemma approximate_gradient : (0 < m)%nat -> forall E,
  exists rho D C, 0 < rho /\
  (forall t, Rabs t < rho -> exists U, the_solution m d (reg (move_arg pos H A t)) (move_arg pos H A t inv) U) /\
  (forall a : R -> array,
    (forall t, Rabs t < rho -> same_array m d (reg (move_arg pos H A t) (a t)) (move_arg pos H A t inv)) ->
    derivable_pt_lim (fun t => pairing m d E (a t)) 0 D) /\
  forall eps fuel, 0 < eps <= 1 -> (m * d <= fuel)%nat ->
    exists X G, solve_forward fuel decl A M N (prm eps) = Ok X /\
      solve_backward fuel decl A M N (prm eps) nargs pos X E = Ok G /\
      Rabs (pairing (rows c M N) dp G H - D) <= C * eps.
Proof.
  intros Hm E. destruct solvable as (rho & Hr & Hsol). destruct entries_derivable as (K' & HK).
  set (L0 := linop decl A M N (prm 1)).
  assert (HL : linear (m * d) L0) by (apply linop_linear, Lin0).
  assert (HS : symmetric (m * d) L0) by now apply linop_symmetric.
  assert (HP : positive (m * d) L0) by now apply linop_positive.
  destruct (surjective (m * d) L0 (flatten d E) HL (positive_injective _ _ HP)) as (z & Hz).
  destruct (surjective (m * d) L0 (flatten d (A inv)) HL (positive_injective _ _ HP)) as (a0 & Ha0).
  destruct (approximate _ _ _ _ HL HS HP Hz) as (Cz & Cz0 & Az).
  destruct (approximate _ _ _ _ HL HS HP Ha0) as (Ca & Ca0 & Aa).
  destruct (bilinear_close (m * d) K' z a0 Cz Ca Cz0 Ca0) as (C1 & C10 & Bc).
  set (D := dot (m * d) z hh
      - stotal (m * d) (fun i => z i * stotal (m * d) (fun j => K' i j * a0 j))).
  exists rho, D, (norm1 (m * d) hh * Cz + C1). split; [exact Hr|]. split; [exact Hsol|]. split.
  - intros a Ha.
    assert (Hz' : solves (m * d) (L 1 0) (flatten d E) z) by (unfold L; rewrite move_0; exact Hz).
    pose proof (derivative_value E z K' HK Hz' a rho Hr Ha) as X.
    eapply d0_eq; [|exact X]. unfold D. f_equal. apply C30Proofs.total_ext. intros i I. f_equal.
    apply C30Proofs.total_ext. intros j J. f_equal.
    specialize (Ha 0 ltac:(rewrite Rabs_R0; exact Hr)). rewrite move_0 in Ha.
    assert (Zr : axpy (flatten d (a 0)) (-1) a0 j = 0).
    { apply (positive_injective _ _ HP); auto. intros k K. destruct HL as [_ Ad]. rewrite Ad by exact K.
      rewrite Ha0 by exact K. unfold L0. rewrite linop_flatten by exact K.
      rewrite (proj1 (same_flatten m d d_pos _ _) Ha k K). ring. }
    unfold axpy in Zr. lra.
  - intros eps fuel He Hf.
    destruct (forward_ok A eps fuel Lin0 Sym Posi Hm ltac:(lra) Hf) as (x & Fx & Rx).
    assert (RB : forall B, reg (with_arg inv B A) = reg A).
    { intros B. apply functional_extensionality; intros U.
      apply functional_extensionality; intros r. apply functional_extensionality; intros k.
      rewrite !reg_reduce. do 2 f_equal.
      apply functional_extensionality; intros b. unfold with_arg. now destruct (Z.eqb b inv). }
    destruct (forward_ok (with_arg inv E A) eps fuel ltac:(rewrite RB; apply Lin0) ltac:(rewrite RB; exact Sym)
      ltac:(rewrite RB; exact Posi) Hm ltac:(lra) Hf) as (zz & Fz & Rz).
    assert (Rz' : squared_residual (m * d) L0 zz (flatten d E) < INR (m * d) * eps ^ 2).
    { eapply Rle_lt_trans; [|exact Rz]. right. unfold squared_residual. apply C30Proofs.total_ext. intros i I.
      unfold L0. rewrite !linop_reg, RB. do 2 f_equal. unfold with_arg. now rewrite Z.eqb_refl. }
    pose proof (Az eps zz ltac:(lra) Rz') as Bz. pose proof (Aa eps x ltac:(lra) Rx) as Ba.
    assert (Dh : Rabs (dot (m * d) zz hh - dot (m * d) z hh) <= norm1 (m * d) hh * Cz * eps).
    { replace (dot (m * d) zz hh - dot (m * d) z hh) with (dot (m * d) hh (axpy zz (-1) z))
        by (rewrite dot_axpy_r, !(dot_comm (m * d) hh); ring).
      rewrite Rmult_assoc. apply dot_bound. intros i I. unfold axpy.
      replace (zz i + -1 * z i) with (zz i - z i) by ring. now apply Bz. }
    specialize (Bc eps zz x He Bz Ba).
    exists (unflatten d x).
    destruct (Z.eq_dec pos inv) as [Hp|Hp].
    + exists (unflatten d zz). split; [exact Fx|]. split.
      { unfold solve_backward. cbn [prm spinv] in *. rewrite Fz. rewrite Hp, Z.eqb_refl. reflexivity. }
      assert (K0 : forall i j, (i < m * d)%nat -> (j < m * d)%nat -> K' i j = 0).
      { intros i j I J. eapply d0_unique; [apply (HK 1 i j I J)|].
        eapply d0_ext; [|apply (d0_const (L 1 0 (unit j) i))]. intros t. unfold L. rewrite !linop_reg.
        unfold flatten. rewrite !reg_reduce. do 2 f_equal.
        apply functional_extensionality; intros b. apply functional_extensionality; intros r.
        apply functional_extensionality; intros k. unfold with_arg, move_arg.
        destruct (Z.eqb_spec b inv); [reflexivity|]. destruct (Z.eqb_spec b pos); [congruence|reflexivity]. }
      assert (S0 : stotal (m * d) (fun i => z i * stotal (m * d) (fun j => K' i j * a0 j)) = 0).
      { rewrite (C30Proofs.total_ext (m * d) _ (fun _ => 0)); [apply total_zero|].
        intros i I. rewrite (C30Proofs.total_ext (m * d) _ (fun _ => 0)); [rewrite total_zero; ring|].
        intros j J. rewrite K0 by auto. ring. }
      unfold D. rewrite S0, Rminus_0_r.
      rewrite Hp, Inv in Pos. injection Pos as <- <-. rewrite Sq. rewrite (pairing_dot _ _ d_pos). fold m d.
      rewrite (flatten_unflatten d d_pos).
      unfold hh in *. rewrite Hp, Z.eqb_refl in *. rewrite Rmult_plus_distr_r.
      assert (0 <= C1 * eps) by (apply Rmult_le_pos; lra). lra.
    + destruct (backward_ok (Ag (unflatten d x) (fun r k => - unflatten d zz r k) (unflatten d x)) Hp) as (G & HG).
      exists G. split; [exact Fx|]. split.
      { unfold solve_backward. cbn [prm spinv] in *. rewrite Fz.
        destruct (Z.eqb_spec pos inv); [contradiction|]. exact HG. }
      rewrite (pairing_value _ _ _ K' G Hp HK HG). rewrite (flatten_unflatten d d_pos).
      unfold D, hh. destruct (Z.eqb_spec pos inv); [contradiction|].
      rewrite (dot_comm (m * d)), dot_zero_l by auto. rewrite Rminus_0_l.
      replace (stotal (m * d) (fun i => flatten d (fun r k => - unflatten d zz r k) i *
          stotal (m * d) (fun j => K' i j * x j)) -
        - stotal (m * d) (fun i => z i * stotal (m * d) (fun j => K' i j * a0 j)))
        with (- (stotal (m * d) (fun i => zz i * stotal (m * d) (fun j => K' i j * x j))
          - stotal (m * d) (fun i => z i * stotal (m * d) (fun j => K' i j * a0 j)))).
      * rewrite Rabs_Ropp. eapply Rle_trans; [exact Bc|]. rewrite Rmult_plus_distr_r.
        assert (0 <= norm1 (m * d) (fun _ => 0) * Cz * eps).
        { apply Rmult_le_pos; [|lra]. apply Rmult_le_pos; [apply norm1_nonneg|exact Cz0]. }
        lra.
      * rewrite (C30Proofs.total_ext (m * d) (fun i => flatten d (fun r k => - unflatten d zz r k) i * _)
          (fun i => -1 * (zz i * stotal (m * d) (fun j => K' i j * x j)))).
        -- rewrite total_scal. ring.
        -- intros i I. unfold flatten. rewrite (unflatten_at d d_pos). ring.
Qed.

End Operator.
