(** Cases of the reductions of the R interface. *)

From Coq Require Import ZArith Reals Lra Lia List Bool Ascii String.
From Verif Require Import C64Grad RedText Result BackText Keys KeySpec Aliases AliasSpec Formula Simplify Build XReal Reductions ReductionSpec KernelSum Loader
  CpuReduc CpuConv CpuConvSpec LseSpec Postprocess FormulaSpec Methods MethodsSpec PyRead PyReadSpec C55Proofs
  C61Proofs GenericOps GenericOpsSpec RKeops RKeopsSpec RLazy RLazySpec C65Proofs C65Cases RMethods RMethodsSpec C66Proofs C66Cases RReduce RReduceSpec.
Import ListNotations.
Local Open Scope nat_scope.
Open Scope string_scope.

(** Arrays in memory. *)
Definition memory_of (l : list RKeops.matrix) : memory := fun a q =>
  match nth_error l (Z.to_nat a) with Some m => m_at m (q / m_cols m) (q mod m_cols m) | None => 0%R end.
Lemma memory_stored : forall l, stored l (memory_of l).
Proof.
  intros l a m E i k Hi Hk. unfold memory_of. rewrite Nat2Z.id, E. f_equal.
  - rewrite Nat.div_add_l by lia. rewrite Nat.div_small by exact Hk. lia.
  - rewrite Nat.add_comm, Nat.mod_add by lia. apply Nat.mod_small, Hk.
Qed.

(** The scalar products of the rows x_i and y_j: 4 rows i, 5 rows j. *)
Definition dots : RMethods.call := C2 Fdot xc yc.
Definition dots_program : program := XScal x_i (XTensor "0x55e2" Rj (Matrix 5 3 (fun j k => IZR (Z.of_nat (1 + j + k))))).
Lemma dots_objects : objects dots_program.
Proof.
  split.
  - intros a x v x' v' H H'. cbn -[Z.of_nat Nat.add] in H, H'. repeat destruct H as [H|H]; repeat destruct H' as [H'|H']; try contradiction; congruence.
  - intros a x v H. cbn -[Z.of_nat Nat.add] in H. repeat destruct H as [H|H]; try contradiction; injection H as <- <- <-; (split; [|cbn; lia]);
      [exists "55d1"|exists "55e2"]; split; reflexivity.
Qed.
Lemma dots_sizes : sizes dots_program 4 5.
Proof. intros a x v H. cbn -[Z.of_nat Nat.add] in H. repeat destruct H as [H|H]; try contradiction; injection H as <- <- <-; reflexivity. Qed.
Lemma dots_inside : inside dots 4 5.
Proof. intros i j _ _. cbn. tauto. Qed.
Lemma dots_formula : forall place F, as_formula (term_of place dots_program) = Some F ->
  F = Bil KScal (Var (Z.of_nat (place "0x55d1" Ri)) 3 0) (Var (Z.of_nat (place "0x55e2" Rj)) 3 1).
Proof. intros place F E. now injection E as <-. Qed.
Lemma dots_built : forall a b, exists h, build (Bil KScal (Var a 3 0) (Var b 3 1)) = Ok h.
Proof. intros a b. cbn. unfold when. destruct (feqb (Var a 3 0) (Var b 3 1)); eexists; reflexivity. Qed.
Lemma dots_run : exists z, run dots_program = Ok z /\ (exists o l, RReduce.sum z Rj = Ok (Reduced o l)) /\
  (exists o l, RReduce.min_argmin z Ri = Ok (Reduced o l)) /\ (exists o l, RReduce.argKmin z 2 Rj = Ok (Reduced o l)) /\
  (exists o l, RReduce.logsumexp z Ri None = Ok (Reduced o l)).
Proof. eexists. split; [reflexivity|]. repeat split; do 2 eexists; vm_compute; reflexivity. Qed.
Lemma dots_shifted : forall a b, exists h, build (Cat (Bil KScal (Var a 3 0) (Var b 3 1)) (Int 1)) = Ok h.
Proof. intros a b. cbn. unfold when. destruct (feqb (Var a 3 0) (Var b 3 1)); eexists; reflexivity. Qed.

(** Weights with one column. *)
Definition weights_j : RMethods.call := CVar "0x55f3" Rj (m1 5 1).
Lemma weights_run : exists y, run b_j = Ok y.
Proof. eexists. reflexivity. Qed.
Lemma weights_sizes : sizes b_j 4 5.
Proof. intros a x v H. cbn in H. destruct H as [H|[]]. injection H as <- <- <-. reflexivity. Qed.
Lemma weights_inside : inside weights_j 4 5.
Proof. intros i j _ _. cbn. tauto. Qed.
Lemma weights_formula : forall after G, as_formula (term_of after b_j) = Some G -> G = Var (Z.of_nat (after "0x55f3" Rj)) 1 1.
Proof. intros after G E. now injection E as <-. Qed.
Lemma dots_weighted : forall a b c, exists h, build (Cat (Bil KScal (Var a 3 0) (Var b 3 1)) (Cat (Int 1) (Var c 1 1))) = Ok h.
Proof. intros a b c. cbn. unfold when. destruct (feqb (Var a 3 0) (Var b 3 1)); eexists; reflexivity. Qed.
