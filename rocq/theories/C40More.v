(** Laplacians, with the closure of smooth formulas under gradients. *)

From Coq Require Import ZArith Reals Lia List.
From Verif Require Import Result Formula Diff GradSpec Closure Tangent DiffProofs LinOps LinOpsSpec LinOpsMain DiffClosure.
Local Open Scope nat_scope.

Lemma laplacian_smooth : forall f i d c h, Laplacian f (Var i d c) = Ok h -> 1 <= d ->
  wf f -> consistent i d c f -> unmixed f ->
  (forall dFT Gf, DiffT f (Var i d c) (Int 1) = Ok dFT ->
     DiffT dFT (Var i d c) (Var (new_index (indices dFT)) d 3) = Ok Gf ->
     sum_depth (new_index (indices dFT)) Gf <= 1) ->
  forall e eps, (0 < eps)%R -> (forall k t, (Rabs t < eps)%R -> smooth (moved i (basis k) e t) f) ->
    wf h /\ dim h = 1 /\ safe e h /\ is_laplacian (fun e => eval f e 0) i d e (eval h e 0).
Proof.
  intros f i d c h E Hd Wf K U Hs e eps He S.
  assert (S0 : smooth e f).
  { rewrite <- (moved_0 i (basis 0) e). apply S. rewrite Rabs_R0. exact He. }
  assert (Df : dim f = 1).
  { unfold Laplacian in E. destruct (dim f =? 1) eqn:D; [|discriminate]. now apply Nat.eqb_eq in D. }
  assert (C : forall dFT, DiffT f (Var i d c) (Int 1) = Ok dFT -> consistent i d c dFT /\ unmixed dFT /\ smooth e dFT).
  { intros dFT H. destruct (DiffT_smooth i d c f (Int 1) dFT e H Hd Wf K U S0) as (_ & _ & A & B); try exact I.
    - split; [reflexivity|exact I].
    - symmetry. exact Df.
    - split; [|split; [exact A|exact B]]. apply consistent_all.
      eapply DiffT_vars; [|exact H|apply consistent_all, K|repeat split]. intros x. destruct x; exact I. }
  destruct (laplacian_main f i d c h E Hd Wf K U) as (A1 & A2 & A3 & dFT & H & V).
  - intros dFT H. destruct (C dFT H) as (X & Y & _). auto.
  - exact Hs.
  - split; [exact A1|]. split; [exact A2|]. apply (V e eps He S). apply (C dFT H).
Qed.
