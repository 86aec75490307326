(** C44: soft dynamic time warping. *)

From Coq Require Import Reals List Arith Lia Lra.
From Verif Require Import Result Tensordot SoftDTW SoftDTWSpec C44Proofs C44Main.
Import ListNotations.
Local Open Scope R_scope.

(** The list of all alignments exists. *)
Theorem C44_alignments : forall n m, exists L, all_alignments n m L.
Proof. exact (fun n m => ex_intro _ _ (als_all n m)). Qed.
Print Assumptions C44_alignments.

Example C44_alignments_case : all_alignments 2 2
  [[(1, 1); (0, 0)]; [(1, 1); (0, 1); (0, 0)]; [(1, 1); (1, 0); (0, 0)]]%nat.
Proof. exact (als_all 2 2). Qed.

(** The value is the soft minimum of the costs of all alignments, whatever the function fminf and whatever the
    arrays held before. *)
Theorem C44_value : forall fminf n m x y gamma rjm1 L, (0 < n)%nat -> (0 < m)%nat -> gamma 0%nat <> 0 -> all_alignments n m L ->
  softdtw fminf n m 1 x y gamma rjm1 = Ok (soft_min (gamma 0%nat) x y L).
Proof. exact softdtw_value. Qed.
Print Assumptions C44_value.

(** Two sequences of one element: the squared difference. *)
Example C44_value_case : forall r, softdtw Rmin 1 1 1 (fun _ => 3) (fun _ => 1) (fun _ => 2) r = Ok 4.
Proof. intros r. vm_compute. f_equal. ring. Qed.

(** The other operation returns the partial derivatives of the value with respect to each element of both sequences. *)
Theorem C44_gradient : forall fminf n m x y gamma r ejp1 out L, (0 < n)%nat -> (0 < m)%nat -> gamma 0%nat <> 0 -> all_alignments n m L ->
  exists g, grad_softdtw fminf n m 1 x y gamma r ejp1 out = Ok g
  /\ (forall i, (i < n)%nat -> derivable_pt_lim (fun u => soft_min (gamma 0%nat) (put x i u) y L) (x i) (g i))
  /\ (forall j, (j < m)%nat -> derivable_pt_lim (fun u => soft_min (gamma 0%nat) x (put y j u) L) (y j) (g (n + j)%nat)).
Proof. exact softdtw_gradient. Qed.
Print Assumptions C44_gradient.

Example C44_gradient_case : exists L, all_alignments 3 2 L /\ (0 < 3)%nat /\ (0 < 2)%nat /\ (fun _ : nat => 1/2) 0%nat <> 0.
Proof. exists (als 2 1). repeat split; try lia; try lra; apply (als_all 3 2). Qed.

(** For gamma positive the soft minimum is at most the least cost, and less by at most gamma times the logarithm of the
    number of alignments. *)
Theorem C44_bounds : forall n m x y g L, 0 < g -> all_alignments n m L ->
  exists p, alignment (n - 1) (m - 1) p /\ (forall q, alignment (n - 1) (m - 1) q -> cost x y p <= cost x y q)
  /\ cost x y p - g * ln (INR (length L)) <= soft_min g x y L <= cost x y p.
Proof. exact soft_bounds. Qed.
Print Assumptions C44_bounds.
