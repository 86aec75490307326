(** C11 -- all summation schemes compute the same sum. *)

From Coq Require Import ZArith Reals Lra Lia List.
From Verif Require Import Result Formula XReal Reductions CpuReduc SumSpec LseSpec C11Proofs.
Import ListNotations.
Local Open Scope R_scope.

(** Finite terms, any number of them: each scheme returns the sum, component by component. *)
Theorem C11_every_scheme_sums : forall s d n F x, finite_terms d n F x ->
  exists out, cpu_row (Sum_Red d) s n F = Ok out /\
    forall k, (k < d)%nat -> out k = Fin (rsum n (fun j => x j k)).
Proof. exact schemes_sum. Qed.
Print Assumptions C11_every_scheme_sums.

(** direct_sum and block_sum agree for any terms, infinities and NaN included. *)
Theorem C11_direct_and_block : forall s d n F, s <> kahan_scheme ->
  exists out, cpu_row (Sum_Red d) s n F = Ok out /\
    forall k, (k < d)%nat -> out k = xsum n (fun j => F j k).
Proof. exact direct_block. Qed.
Print Assumptions C11_direct_and_block.

(** Block accumulation counts every term once whatever the period and whenever it is stopped. *)
Theorem C11_any_period : forall d per n F k, (k < d)%nat ->
  let st := for_up n (block_body (Sum_Red d) (sum_pair d) per F)
                   (rinit (Sum_Red d), rinit (Sum_Red d)) in
  xadd (fst st k) (snd st k) = xsum n (fun j => F j k).
Proof. exact block_loop. Qed.
Print Assumptions C11_any_period.

(** After any number m of terms the accumulator of the Kahan scheme is the partial sum and its
    compensation is zero. *)
Theorem C11_kahan_compensation_zero : forall d n F x m, finite_terms d n F x -> (m <= n)%nat ->
  let st := for_up m (fun j (st : cells * cells) => sum_kahan d (fst st) (F j) (snd st))
                   (rinit (Sum_Red d), fun _ => Fin 0) in
  forall k, (k < d)%nat -> fst st k = Fin (rsum m (fun j => x j k)) /\ snd st k = Fin 0.
Proof. exact kahan_loop. Qed.
Print Assumptions C11_kahan_compensation_zero.

(** Log-sum-exp reductions of finite values: same accumulator with direct_sum and block_sum. *)
Theorem C11_logsumexp_schemes : forall d n e, (0 < n)%nat ->
  (forall j, (j < n)%nat -> fst (e j) <> None) ->
  exists out1 out2,
    cpu_row (LSE_Red d) direct_sum n (lse_terms e) = Ok out1 /\
    cpu_row (LSE_Red d) block_sum n (lse_terms e) = Ok out2 /\
    forall p, (p <= d)%nat -> out1 p = out2 p.
Proof. exact schemes_lse. Qed.
Print Assumptions C11_logsumexp_schemes.

(** kahan_scheme is accepted for log-sum-exp but generating its code raises. *)
Theorem C11_kahan_logsumexp_refuted : forall d n F,
  get_scheme true (Some kahan_scheme) = Ok kahan_scheme /\
  cpu_row (LSE_Red d) kahan_scheme n F = PyErr.
Proof. exact kahan_lse_error. Qed.
Print Assumptions C11_kahan_logsumexp_refuted.

(** An infinite term followed by any number of zeros: +inf, but NaN with kahan_scheme. *)
Theorem C11_kahan_infinite_refuted : forall d n F k, (k < d)%nat ->
  (forall j, (j < n)%nat -> F j k = if Nat.eqb j 0 then PInf else Fin 0) -> (2 <= n)%nat ->
  (exists out, cpu_row (Sum_Red d) direct_sum n F = Ok out /\ out k = PInf) /\
  (exists out, cpu_row (Sum_Red d) kahan_scheme n F = Ok out /\ out k = NaN).
Proof. exact kahan_infinite. Qed.
Print Assumptions C11_kahan_infinite_refuted.

(** Fifty terms: seven full blocks and one left over term. *)
Example C11_case :
  finite_terms 2 50 (fun j k => Fin (INR j + INR k)) (fun j k => INR j + INR k) /\
  period_accumulate 50 = 7%nat.
Proof. split; [intros j k _ _; reflexivity|reflexivity]. Qed.
