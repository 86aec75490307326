From Coq Require Import ZArith Reals Lra Lia.
From Verif Require Import Result Formula Simplify SimplifyProofs Diff GradSpec Calculus
  DiffTermination DiffProofs.
Local Open Scope nat_scope.

(** IfElse(c, (x1,x0), 0) with a condition of dimension 2. *)
Definition swap_if : fm :=
  Ter TIfElse (Var 1 2 1) (Cat (Lin (LElem 1) (Var 0 2 0)) (Lin (LElem 0) (Var 0 2 0)))
    (Zero 2).

Definition swap_if_grad : fm :=
  Ter TIfElse (Var 1 2 1)
    (Bin BAdd (Lin (LElemT 2 1) (Lin (LExtract 0 1) (Var 2 2 0)))
              (Lin (LElemT 2 0) (Lin (LExtract 1 1) (Var 2 2 0)))) (Zero 2).

Lemma swap_if_diff : DiffT swap_if (Var 0 2 0) (Var 2 2 0) = Ok swap_if_grad.
Proof. lazy. reflexivity. Qed.

Lemma swap_if_wrong : ~ adjoint_derivative swap_if 0 2 (Var 2 2 0) swap_if_grad.
Proof.
  intros [_ A].
  set (e := fun (j : Z) (k : nat) => match j, k with
    | 1%Z, O => 1%R | 1%Z, _ => (-1)%R | 2%Z, O => 1%R | _, _ => 0%R end).
  destruct (A e) as [_ B].
  - cbn. repeat split. intros k K. destruct k as [|[|k]]; [| |lia]; cbn; lra.
  - exact I.
  - set (H := fun k : nat => match k with 1 => 1%R | _ => 0%R end).
    specialize (B H).
    assert (C : derivable_pt_lim (fun t => inner (dim swap_if) (eval (Var 2 2 0) e)
                  (eval swap_if (moved 0 H e t))) 0%R 1%R).
    { eapply d0_ext; [|apply derivable_pt_lim_id]. intros t. cbn. unfold bcv. cbn.
      unfold moved. cbn. destruct (Rlt_dec 1 0); [lra|]. unfold id. ring. }
    assert (E := d0_unique _ _ _ B C). revert E.
    cbn. unfold bcv. cbn.
    destruct (Rlt_dec 1 0); [lra|]. destruct (Rlt_dec (-1) 0); lra.
Qed.

Lemma ifelse_refuted : exists f i d c g h,
  wf f /\ consistent i d c f /\ wf g /\ dim g = dim f /\ 1 <= d /\
  DiffT f (Var i d c) g = Ok h /\ dim h = d /\ ~ adjoint_derivative f i d g h.
Proof.
  exists swap_if, 0%Z, 2, 0, (Var 2 2 0), swap_if_grad.
  split; [cbn; repeat split|]. split; [cbn; repeat split; discriminate|].
  split; [cbn; repeat split|]. split; [reflexivity|]. split; [lia|].
  split; [exact swap_if_diff|]. split; [reflexivity|exact swap_if_wrong].
Qed.
