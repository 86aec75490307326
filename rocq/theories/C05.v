(** C05 -- the gradient of a kernel sum is the gradient of the summed output. *)

From Coq Require Import ZArith Reals Lra Lia.
From Verif Require Import Result Formula Diff GradSpec KernelSum KernelSumSpec C05Proofs.

(** Let a be the output of the sum reduction of f over the rows of category 1 (tagI = 0) or 0
    (tagI = 1), and E = A nargs the incoming gradient.  The array G returned by the backward
    pass for argument [pos] (of category c: i-variable, j-variable or parameter) satisfies:
    the derivative of sum_n <a_n, E_n>, when all rows of the argument move along H, is
    sum_r <G_r, H_r>.  All numbers of rows, including 0.

    Partial: the restriction [unmixed f] of C03. *)
Theorem C05_kernel_sum_gradient_partial : forall decl A M N f tagI nargs pos d c G,
  decl pos = (d, c) -> (1 <= d)%nat -> (c <= 2)%nat -> (tagI <= 1)%nat ->
  wf f -> declared decl f -> unmixed f ->
  decl nargs = (dim f, tagI) -> (1 <= dim f)%nat ->
  (forall i j, (i < M)%nat -> (j < N)%nat -> smooth (point decl A i j) f) ->
  backward decl A M N {| sformula := f; stagI := tagI |} nargs pos = Ok G ->
  forall H : nat -> nat -> R,
    derivable_pt_lim
      (fun t => summed_output decl M N f tagI (A nargs) (move_arg pos H A t)) 0
      (total (rows c M N) (fun r => inner d (G r) (H r))).
Proof. exact kernel_sum_gradient_output. Qed.
Print Assumptions C05_kernel_sum_gradient_partial.

(** exp(-|x_i - y_j|^2 / p) * b_j summed over j, differentiated with respect to the
    parameter p, at any point with p <> 0. *)
Definition C05_decl : declaration := fun a =>
  match a with 0%Z => (3, 0) | 1%Z => (3, 1) | 2%Z => (2, 1) | 3%Z => (1, 2) | _ => (2, 0) end%nat.
Example C05_case :
  let d2 := Bin BSub (Var 0 3 0) (Var 1 3 1) in
  let f := Bin BMult (Var 2 2 1)
             (Un UExp (Un UMinus (Bin BDiv (Lin LSum (Un USquare d2)) (Var 3 1 2)))) in
  wf f /\ declared C05_decl f /\ unmixed f /\ C05_decl 4%Z = (dim f, 0%nat) /\
  (forall A i j, A 3%Z O O <> 0%R -> smooth (point C05_decl A i j) f) /\
  forall A M N, exists G, backward C05_decl A M N {| sformula := f; stagI := 0 |} 4 3 = Ok G.
Proof.
  cbv zeta. split; [cbn; repeat split|]. split; [cbn; repeat split|].
  split; [cbn; repeat split|]. split; [reflexivity|]. split.
  - intros A i j HA. cbn. repeat split; intros; try exact I.
    replace k with O by lia. exact HA.
  - intros. eexists. unfold backward, Sum_DiffT. cbn [C05_decl sformula stagI].
    match goal with |- context [DiffT ?a ?b ?c] =>
      let h := eval lazy in (DiffT a b c) in
      replace (DiffT a b c) with h by (lazy; reflexivity) end.
    cbn beta iota. reflexivity.
Qed.
