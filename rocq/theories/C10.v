(** C10 -- entries equal to -inf in a log-sum-exp. *)

From Coq Require Import ZArith Reals Lra Lia List.
From Verif Require Import Result XReal Reductions LseSpec CpuReduc Postprocess C09Proofs C10Proofs.
Import ListNotations.
Local Open Scope R_scope.

(** The property would be: for every sequence with at least one finite value, logsumexp is
    log sum w exp f with -inf entries (None) contributing zero.  It is false. *)

(** direct_sum: NaN for every sequence starting with -inf. *)
Theorem C10_masked_first_refuted : forall d n e k, (k < d)%nat -> (0 < n)%nat -> fst (e O) = None ->
  exists out, cpu_row (LSE_Red d) direct_sum n (lse_terms e) = Ok out /\ lse_post out k = NaN.
Proof. exact masked_first. Qed.
Print Assumptions C10_masked_first_refuted.

(** block_sum, the default: NaN as soon as a block starts with -inf. *)
Theorem C10_masked_block_start_refuted : forall d n e k j0, (k < d)%nat -> (j0 < n)%nat ->
  (j0 mod period_accumulate n = 0)%nat -> fst (e j0) = None ->
  exists out, cpu_row (LSE_Red d) block_sum n (lse_terms e) = Ok out /\ lse_post out k = NaN.
Proof. exact masked_block_start. Qed.
Print Assumptions C10_masked_block_start_refuted.

(** What holds: -inf elsewhere contributes zero.  Missing: -inf in first position (of the
    sequence for direct_sum, of a block for block_sum), where the previous theorems give NaN. *)
Theorem C10_masked_later_partial : forall s d n e, (0 < n)%nat -> s <> kahan_scheme ->
  (forall j, (j < n)%nat ->
     match s with block_sum => j mod period_accumulate n = 0 | _ => j = 0 end%nat ->
     fst (e j) <> None) ->
  exists out, cpu_row (LSE_Red d) s n (lse_terms e) = Ok out /\
    forall k, (k < d)%nat -> 0 < exp_sum k (taken n e) ->
      lse_post out k = Fin (ln (exp_sum k (taken n e))).
Proof. exact masked_later. Qed.
Print Assumptions C10_masked_later_partial.

(** The same entries in two orders: (0, -inf) gives log 1, (-inf, 0) gives NaN. *)
Theorem C10_order_matters_refuted : forall s, s <> kahan_scheme ->
  let a := (Some 0, fun _ => 1) : entry in
  let b := (None, fun _ => 1) : entry in
  (exists out, cpu_row (LSE_Red 1) s 2 (lse_terms (fun j => nth j [a; b] a)) = Ok out /\
     lse_post out O = Fin 0) /\
  (exists out, cpu_row (LSE_Red 1) s 2 (lse_terms (fun j => nth j [b; a] a)) = Ok out /\
     lse_post out O = NaN).
Proof. exact order_matters. Qed.
Print Assumptions C10_order_matters_refuted.

(** -inf in the middle of a block of five, for both schemes. *)
Example C10_case : forall s j, (j < 5)%nat ->
  match s with block_sum => j mod period_accumulate 5 = 0 | _ => j = 0 end%nat ->
  fst ((fun j => (if Nat.eqb j 3 then None else Some 1, fun _ => 1) : entry) j) <> None.
Proof.
  intros s j Hj H. do 5 (destruct j as [|j]; [try discriminate; destruct s; cbn in H; discriminate|]). lia.
Qed.
