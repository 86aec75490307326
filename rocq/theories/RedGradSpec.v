(** Specification of log-sum-exp and softmax-weighted sums over rows, as functions of the
    arguments; no maximum is subtracted here. *)

From Coq Require Import ZArith Reals.
From Verif Require Import Formula GradSpec KernelSum KernelSumSpec XReal Reductions CpuReduc LseSpec
  Result.
Local Open Scope R_scope.

(** Number of entries reduced, and the point read for entry j of row n. *)
Definition reduced (tagI M N : nat) : nat := match tagI with O => N | _ => M end.
Definition at_entry (decl : declaration) (A : arguments) (tagI n j : nat) : env :=
  match tagI with O => point decl A n j | _ => point decl A j n end.

(** sum_j exp(F(n,j)) G_k(n,j). *)
Definition exp_weighted (decl : declaration) (A : arguments) (M N : nat) (F G : fm) (tagI n k : nat)
  : R :=
  total (reduced tagI M N) (fun j =>
    exp (eval F (at_entry decl A tagI n j) 0) * eval G (at_entry decl A tagI n j) k).

(** sum_j exp(F(n,j)). *)
Definition exp_total (decl : declaration) (A : arguments) (M N : nat) (F : fm) (tagI n : nat) : R :=
  total (reduced tagI M N) (fun j => exp (eval F (at_entry decl A tagI n j) 0)).

(** What the user asks for. *)
Definition log_sum_exp decl A M N F G tagI n k : R := ln (exp_weighted decl A M N F G tagI n k).
Definition soft_max_sum decl A M N F g tagI n k : R :=
  exp_weighted decl A M N F g tagI n k / exp_total decl A M N F tagI n.

(** The loss sum_n <E_n, U_n>. *)
Definition loss (tagI M N d : nat) (E U : nat -> nat -> R) : R :=
  total (rows tagI M N) (fun n => inner d (U n) (E n)).

(** [saved] holds the rows computed by the forward reduction on the CPU with scheme s. *)
Definition forward_saved (s : scheme) decl A M N F G tagI (saved : nat -> nat -> R) : Prop :=
  forall n, (n < rows tagI M N)%nat -> exists out,
    cpu_row (LSE_Red (dim G)) s (reduced tagI M N)
      (lse_terms (fun j => (Some (eval F (at_entry decl A tagI n j) 0%nat),
                            eval G (at_entry decl A tagI n j)))) = Ok out /\
    forall p, (p < S (dim G))%nat -> out p = Fin (saved n p).

(** The variable of index i does not occur in f. *)
Fixpoint without (i : Z) (f : fm) : Prop :=
  match f with
  | Var j _ _ => j <> i
  | Zero _ | Int _ | Rat _ _ => True
  | Un _ f | Lin _ f | Sel _ f => without i f
  | Bin _ f g | Bil _ f g | Cat f g => without i f /\ without i g
  | Ter _ f g h => without i f /\ without i g /\ without i h
  end.
