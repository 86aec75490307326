(** Proof of the gradient of sum reductions. *)

From Coq Require Import ZArith Reals Lia Lra Arith FunctionalExtensionality.
From Verif Require Import Result Formula Diff GradSpec Calculus Adjoint DiffProofs KernelSum
  KernelSumSpec.
Local Open Scope R_scope.

Lemma total_rsum : forall n u, total n u = rsum n u.
Proof. induction n; simpl; intros; [reflexivity|]. now rewrite IHn. Qed.

Lemma total_ext : forall n u v, (forall k, (k < n)%nat -> u k = v k) -> total n u = total n v.
Proof. induction n; simpl; intros; [reflexivity|]. rewrite H by lia. f_equal. apply IHn. intros; apply H; lia. Qed.

Lemma d0_total : forall n (p : nat -> R -> R) l, (forall k, (k < n)%nat -> d0 (p k) (l k)) ->
  d0 (fun t => total n (fun k => p k t)) (total n l).
Proof.
  induction n; simpl; intros.
  - apply d0_const.
  - apply d0_plus; [apply IHn; intros; apply H; lia|apply H; lia].
Qed.

Lemma total_swap : forall n m (u : nat -> nat -> R),
  total n (fun i => total m (fun j => u i j)) = total m (fun j => total n (fun i => u i j)).
Proof.
  intros. rewrite (total_ext n _ (fun i => rsum m (u i))) by (intros; apply total_rsum).
  rewrite (total_ext m _ (fun j => rsum n (fun i => u i j))) by (intros; apply total_rsum).
  rewrite !total_rsum. apply rsum_swap.
Qed.

Lemma inner_total : forall m d (u : nat -> nat -> R) v,
  inner d (fun k => rsum m (fun j => u j k)) v = total m (fun j => inner d (u j) v).
Proof.
  induction m; intros.
  - simpl. induction d; simpl; [reflexivity|]. rewrite IHd. ring.
  - simpl. rewrite <- IHm. clear IHm. induction d; simpl; [ring|]. rewrite IHd. ring.
Qed.

Lemma declared_consistent : forall decl i d c f, decl i = (d, c) -> declared decl f ->
  consistent i d c f.
Proof.
  intros decl i d c f Hi. induction f; simpl; intros; try tauto.
  subst. rewrite Hi in H. inversion H. auto.
Qed.

Lemma moved_point : forall decl A i j pos H t c, snd (decl pos) = c ->
  point decl (move_arg pos H A t) i j = moved pos (H (row c i j)) (point decl A i j) t.
Proof.
  intros. apply functional_extensionality; intros a. apply functional_extensionality; intros k.
  unfold point, move_arg, moved. destruct (Z.eqb_spec a pos); [|reflexivity]. subst. reflexivity.
Qed.

Lemma kernel_sum_gradient : forall decl A M N f tagI nargs pos d c G,
  decl pos = (d, c) -> (1 <= d)%nat -> (c <= 2)%nat -> (tagI <= 1)%nat ->
  wf f -> declared decl f -> unmixed f ->
  decl nargs = (dim f, tagI) -> (1 <= dim f)%nat ->
  (forall i j, (i < M)%nat -> (j < N)%nat -> smooth (point decl A i j) f) ->
  backward decl A M N {| sformula := f; stagI := tagI |} nargs pos = Ok G ->
  forall H : nat -> nat -> R,
    derivable_pt_lim
      (fun t => paired decl M N f tagI (A nargs) (move_arg pos H A t)) 0
      (total (rows c M N) (fun r => inner d (G r) (H r))).
Proof.
  intros decl A M N f tagI nargs pos d c G Hpos Hd Hc Ht Hwf Hdec Hun Hn Hdf Hsm HG H.
  unfold backward in HG. rewrite Hpos in HG. unfold Sum_DiffT in HG. cbn [sformula stagI] in HG.
  destruct (DiffT f (Var pos d c) (Var nargs (dim f) tagI)) as [h| | |] eqn:E; try discriminate.
  assert (Hwg : wf (Var nargs (dim f) tagI)).
  { cbn. destruct (dim f); [lia|]. split; [|exact I]. reflexivity. }
  destruct (DiffT_adjoint pos d c f _ h E Hd Hwf (declared_consistent decl _ _ _ _ Hpos Hdec)
    Hun Hwg eq_refl) as [Hdh Had].
  assert (D : d0 (fun t => paired decl M N f tagI (A nargs) (move_arg pos H A t))
     (total M (fun i => total N (fun j => inner d (eval h (point decl A i j)) (H (row c i j)))))).
  { unfold paired.
    apply (d0_total M (fun i t => total N (fun j => inner (dim f) (A nargs (row tagI i j))
         (eval f (point decl (move_arg pos H A t) i j))))).
    intros i Hi.
    apply (d0_total N (fun j t => inner (dim f) (A nargs (row tagI i j))
         (eval f (point decl (move_arg pos H A t) i j)))). intros j Hj.
    destruct (Had (point decl A i j) (Hsm i j Hi Hj)) as [_ X]; [exact I|].
    specialize (X (H (row c i j))). eapply d0_ext; [|exact X].
    intros t. cbn beta.
    rewrite (moved_point decl A i j pos H t c) by now rewrite Hpos.
    rewrite !ip_inner. apply ip_ext; [|reflexivity]. intros k Hk.
    cbn [eval]. unfold point. rewrite Hn. reflexivity. }
  eapply d0_eq; [|exact D].
  inversion HG; subst G; clear HG. unfold reduce_sum. cbn [sformula stagI].
  destruct c as [|[|[|c]]]; [| | |lia]; cbn [Nat.eqb Nat.modulo row rows].
  - apply total_ext; intros i Hi. symmetry. apply (inner_total N d (fun j => eval h (point decl A i j))).
  - rewrite total_swap. apply total_ext; intros i Hi. symmetry. apply (inner_total M d (fun j => eval h (point decl A j i))).
  - cbn [total]. rewrite Rplus_0_l. symmetry.
    etransitivity; [apply (inner_total M d (fun i k => rsum N (fun j => eval h (point decl A i j) k)))|].
    apply total_ext. intros i Hi. apply (inner_total N d (fun j => eval h (point decl A i j))).
Qed.

(** The double sum is the pairing with the output of the forward reduction. *)
Lemma paired_output : forall decl M N f tagI E A, (tagI <= 1)%nat ->
  paired decl M N f tagI E A =
  total (rows tagI M N) (fun n =>
    inner (dim f) (reduce_sum decl A M N {| sformula := f; stagI := tagI |} n) (E n)).
Proof.
  intros. unfold paired, reduce_sum. cbn [sformula stagI].
  destruct tagI as [|[|?]]; [| |lia]; cbn [row rows].
  - apply total_ext; intros i Hi.
    etransitivity; [|symmetry; apply (inner_total N (dim f) (fun j => eval f (point decl A i j)))]. apply total_ext; intros j Hj.
    rewrite !ip_inner. unfold ip. rewrite <- !total_rsum. apply total_ext; intros; ring.
  - rewrite total_swap. apply total_ext; intros i Hi.
    etransitivity; [|symmetry; apply (inner_total M (dim f) (fun j => eval f (point decl A j i)))]. apply total_ext; intros j Hj.
    rewrite !ip_inner. unfold ip. rewrite <- !total_rsum. apply total_ext; intros; ring.
Qed.

Lemma kernel_sum_gradient_output : forall decl A M N f tagI nargs pos d c G,
  decl pos = (d, c) -> (1 <= d)%nat -> (c <= 2)%nat -> (tagI <= 1)%nat ->
  wf f -> declared decl f -> unmixed f ->
  decl nargs = (dim f, tagI) -> (1 <= dim f)%nat ->
  (forall i j, (i < M)%nat -> (j < N)%nat -> smooth (point decl A i j) f) ->
  backward decl A M N {| sformula := f; stagI := tagI |} nargs pos = Ok G ->
  forall H : nat -> nat -> R,
    derivable_pt_lim
      (fun t => summed_output decl M N f tagI (A nargs) (move_arg pos H A t)) 0
      (total (rows c M N) (fun r => inner d (G r) (H r))).
Proof.
  intros. eapply d0_ext; [|eapply kernel_sum_gradient; eassumption].
  intros t. apply paired_output; assumption.
Qed.
