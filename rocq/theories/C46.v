(** C46 -- gradients and tangents of log-sum-exp and softmax reductions are those of the function the user
    asks for. *)

From Coq Require Import ZArith Reals.
From Verif Require Import Result Formula Diff GradSpec KernelSum KernelSumSpec CpuReduc RedGrad RedGradSpec
  C46Proofs.
Local Open Scope nat_scope.

(** The rows (m, s) that the gradients need are those of the forward pass, which always computes them. *)
Theorem C46_saved : forall s decl A M N F G tagI, s <> kahan_scheme -> 0 < reduced tagI M N ->
  exists saved, forward_saved s decl A M N F G tagI saved.
Proof. exact saved_exists. Qed.
Print Assumptions C46_saved.

(** Back-propagation through L = log sum_j exp(F) G: whatever the incoming gradient E of L, the direction H and
    the argument, the array returned for the argument is the gradient of the loss sum <E, L>.  Positions nargs
    and nargs + 1 hold the incoming gradient of (m, s) and the saved (m, s). *)
Theorem C46_logsumexp : forall s decl A M N F G tagI nargs pos d c E Gr,
  decl pos = (d, c) -> 1 <= d -> c <= 2 -> tagI <= 1 ->
  wf F -> wf G -> declared decl F -> declared decl G -> unmixed F -> unmixed G ->
  without nargs F -> without nargs G ->
  decl nargs = (S (dim G), tagI) -> decl (nargs + 1)%Z = (S (dim G), tagI) ->
  pos <> nargs -> pos <> (nargs + 1)%Z ->
  (forall i j, i < M -> j < N -> smooth (point decl A i j) F /\ smooth (point decl A i j) G) ->
  s <> kahan_scheme -> 0 < reduced tagI M N ->
  forward_saved s decl A M N F G tagI (A (nargs + 1)%Z) ->
  (forall n k, n < rows tagI M N -> k < dim G -> (0 < exp_weighted decl A M N F G tagI n k)%R) ->
  (forall n p, n < rows tagI M N -> p < S (dim G) ->
     A nargs n p = lse_post_grad (dim G) (A (nargs + 1)%Z n) (E n) p) ->
  lse_backward decl A M N F G tagI nargs pos = Ok Gr ->
  forall H : nat -> nat -> R,
    derivable_pt_lim (fun t => loss tagI M N (dim G) E
      (log_sum_exp decl (move_arg pos H A t) M N F G tagI)) 0
      (total (rows c M N) (fun r => inner d (Gr r) (H r))).
Proof. exact gradient_lse. Qed.
Print Assumptions C46_logsumexp.

(** The same for sum_j exp(F) g / sum_j exp(F). *)
Theorem C46_softmax : forall s decl A M N F g G tagI nargs pos d c E Gr,
  decl pos = (d, c) -> 1 <= d -> c <= 2 -> tagI <= 1 ->
  wf F -> wf g -> declared decl F -> declared decl g -> unmixed F -> unmixed g ->
  without nargs F -> without nargs g ->
  softmax_weights g = Ok G ->
  decl nargs = (2 + dim g, tagI) -> decl (nargs + 1)%Z = (2 + dim g, tagI) ->
  pos <> nargs -> pos <> (nargs + 1)%Z ->
  (forall i j, i < M -> j < N -> smooth (point decl A i j) F /\ smooth (point decl A i j) g) ->
  s <> kahan_scheme -> 0 < reduced tagI M N ->
  forward_saved s decl A M N F G tagI (A (nargs + 1)%Z) ->
  (forall n p, n < rows tagI M N -> p < 2 + dim g ->
     A nargs n p = softmax_post_grad (dim g) (A (nargs + 1)%Z n) (E n) p) ->
  lse_backward decl A M N F G tagI nargs pos = Ok Gr ->
  forall H : nat -> nat -> R,
    derivable_pt_lim (fun t => loss tagI M N (dim g) E
      (soft_max_sum decl (move_arg pos H A t) M N F g tagI)) 0
      (total (rows c M N) (fun r => inner d (Gr r) (H r))).
Proof. exact gradient_softmax. Qed.
Print Assumptions C46_softmax.

(** Forward mode, the tangent of the argument being at position nargs.  Partial: when the formula of the tangent
    is accepted (C40). *)
Theorem C46_logsumexp_jvp_partial : forall s decl A M N F G tagI nargs pos d c T,
  decl pos = (d, c) -> 1 <= d -> tagI <= 1 ->
  wf F -> wf G -> declared decl F -> declared decl G -> unmixed F -> unmixed G ->
  decl nargs = (d, c) -> decl (nargs + 1)%Z = (S (dim G), tagI) -> pos <> (nargs + 1)%Z ->
  (forall i j, i < M -> j < N -> smooth (point decl A i j) F /\ smooth (point decl A i j) G) ->
  s <> kahan_scheme -> 0 < reduced tagI M N ->
  forward_saved s decl A M N F G tagI (A (nargs + 1)%Z) ->
  lse_jvp decl A M N F G tagI nargs pos = Ok T ->
  forall n k, n < rows tagI M N -> k < dim G -> (0 < exp_weighted decl A M N F G tagI n k)%R ->
    derivable_pt_lim (fun t => log_sum_exp decl (move_arg pos (A nargs) A t) M N F G tagI n k) 0
      (lse_post_tangent (A (nargs + 1)%Z n) (T n) k).
Proof. exact tangent_lse. Qed.
Print Assumptions C46_logsumexp_jvp_partial.

Theorem C46_softmax_jvp_partial : forall s decl A M N F g G tagI nargs pos d c T,
  decl pos = (d, c) -> 1 <= d -> tagI <= 1 ->
  wf F -> wf g -> declared decl F -> declared decl g -> unmixed F -> unmixed g ->
  softmax_weights g = Ok G ->
  decl nargs = (d, c) -> decl (nargs + 1)%Z = (2 + dim g, tagI) -> pos <> (nargs + 1)%Z ->
  (forall i j, i < M -> j < N -> smooth (point decl A i j) F /\ smooth (point decl A i j) g) ->
  s <> kahan_scheme -> 0 < reduced tagI M N ->
  forward_saved s decl A M N F G tagI (A (nargs + 1)%Z) ->
  lse_jvp decl A M N F G tagI nargs pos = Ok T ->
  forall n k, n < rows tagI M N -> k < dim g ->
    derivable_pt_lim (fun t => soft_max_sum decl (move_arg pos (A nargs) A t) M N F g tagI n k) 0
      (softmax_post_tangent (A (nargs + 1)%Z n) (T n) k).
Proof. exact tangent_softmax. Qed.
Print Assumptions C46_softmax_jvp_partial.

(** The rows (m, s) themselves, which LogSumExpWeight returns to the user, have wrong gradients: with one row and
    one entry x, m = x has derivative 1, and the gradient returned for E = (1, 0) is 0. *)
Theorem C46_raw_refuted : exists Gr,
  lse_backward raw_decl raw_args 1 1 (Var 0 1 0) (Int 1) 0 1 0 = Ok Gr /\
  (forall t, forward_saved block_sum raw_decl (move_arg 0 (fun _ _ => 1%R) raw_args t) 1 1
     (Var 0 1 0) (Int 1) 0 (fun _ => raw_out t)) /\
  derivable_pt_lim (fun t => inner 2 (raw_out t) (raw_args 1%Z 0)) 0%R 1%R /\
  total 1 (fun r => inner 1 (Gr r) (fun _ => 1%R)) = 0%R.
Proof. exact raw_wrong. Qed.
Print Assumptions C46_raw_refuted.

(** F = x_i y_j exp(p) with two weights (3, z_j): every hypothesis on formulas is met, gradients and tangents are
    accepted, with or without the constant weight, and the sums are positive when z is. *)
Example C46_case :
  let F := Bin BMult (Bin BMult (Var 0 1 0) (Var 1 1 1)) (Un UExp (Var 2 1 2)) in
  let G := Cat (Int 3) (Var 3 1 1) in
  let decl := fun a => if (a =? 0)%Z then (1, 0) else if (a =? 1)%Z then (1, 1) else
    if (a =? 2)%Z then (1, 2) else if (a =? 3)%Z then (1, 1) else (3, 0) in
  let decl' := fun a => if (a =? 0)%Z then (1, 0) else if (a =? 1)%Z then (1, 1) else
    if (a =? 2)%Z then (1, 2) else if (a =? 3)%Z then (1, 1) else if (a =? 4)%Z then (1, 2) else (3, 0) in
  wf F /\ wf G /\ dim F = 1 /\ declared decl F /\ declared decl G /\ unmixed F /\ unmixed G /\
  without 4 F /\ without 4 G /\ (forall e, smooth e F /\ smooth e G) /\
  (forall A, exists Gr, lse_backward decl A 3 4 F G 0 4 2 = Ok Gr) /\
  (forall A, exists T, lse_jvp decl' A 3 4 F G 0 4 2 = Ok T) /\
  softmax_weights (Var 3 1 1) = Ok (Cat (Int 1) (Var 3 1 1)) /\
  (forall A, exists Gr, lse_backward decl A 3 4 F (Cat (Int 1) (Var 3 1 1)) 0 4 0 = Ok Gr).
Proof.
  cbv zeta. repeat split; try (cbn; congruence); intros A; eexists; lazy; reflexivity.
Qed.
