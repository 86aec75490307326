(** * C67: the reductions of the R interface on the CPU.

    The claim (sum, min, argmin, max, argmax, Kmin, argKmin, logsumexp, sumsoftmaxweight and their variants, applied to a call
    of the functions of R, give for each row the sum, the optimum with its first place, the K smallest values with their places,
    the logarithm of the sum of exponentials of the values of the call, and the mean of weights by these exponentials) holds for the numbers that the CPU routine of
    the engine writes ([C67_sum_partial], [C67_optimum_partial], [C67_smallest_partial], [C67_logsumexp_partial],
    [C67_softmax_partial]), where the functions of the call are defined and the engine builds the formula.  The reductions are accepted when an index is
    given ([C67_accepted]) and refused otherwise, except sum, which is then the sum of the coordinates ([C67_no_index]),
    and min, argmin, max and argmax, for which see [C65_min_refuted]; sumsoftmaxweight without an index is not covered.
    Restricted to real tensors and exact numbers; the conversion of the output to a matrix of R is not modelled. *)

From Coq Require Import ZArith Reals List Bool Ascii String.
From Verif Require Import C64Grad RedText Result BackText Keys KeySpec Aliases AliasSpec Formula Simplify Build XReal Reductions ReductionSpec KernelSum Loader
  CpuReduc CpuConv CpuConvSpec LseSpec Postprocess FormulaSpec Methods MethodsSpec PyRead PyReadSpec
  GenericOps GenericOpsSpec RKeops RKeopsSpec RLazy RLazySpec C65Proofs C65Cases RMethods RMethodsSpec C66Proofs C66Cases RReduce RReduceSpec C67Proofs C67Softmax C67Accept C67Cases.
Import ListNotations.
Local Open Scope nat_scope.
Open Scope string_scope.

(** With an index, the reductions of a call with at least one tensor are accepted. *)
Theorem C67_accepted : forall c p z index, program_of c = Ok p -> run p = Ok z -> objects p -> not_empty c -> leaves p <> [] -> index <> RNA ->
  (forall f, In f ([RReduce.sum; sum_reduction] ++ map fst optima)%list -> exists o l, f z index = Ok (Reduced o l)) /\
  (forall f K, In f (map fst smallest) -> exists o l, f z K index = Ok (Reduced o l)) /\
  (forall f, In f [logsumexp; logsumexp_reduction] -> exists o l, f z index None = Ok (Reduced o l)) /\
  (forall f d q y, In f [sumsoftmaxweight; sumsoftmaxweight_reduction] -> program_of d = Ok q -> run q = Ok y -> objects q -> not_empty d ->
    exists o l, f z index y = Ok (Reduced o l)).
Proof. exact accepted_reductions. Qed.
Print Assumptions C67_accepted.

Example C67_accepted_case : exists z o l o' l', run mixed_program = Ok z /\ argmax z Ri = Ok (Reduced o l) /\ Kmin_argKmin z 3 Rj = Ok (Reduced o' l').
Proof.
  destruct mixed_reduced as (z & _ & _ & R & _).
  destruct (C67_accepted mixed _ z Ri mixed_program_of R mixed_objects mixed_not_empty ltac:(discriminate) ltac:(discriminate)) as (A & _).
  destruct (C67_accepted mixed _ z Rj mixed_program_of R mixed_objects mixed_not_empty ltac:(discriminate) ltac:(discriminate)) as (_ & B & _).
  destruct (A argmax) as (o & l & E); [cbn; auto 20|]. destruct (B Kmin_argKmin 3%Z) as (o' & l' & E'); [cbn; auto 20|].
  exists z, o, l, o', l'. auto.
Qed.

(** Without index, sum is the sum of the coordinates; the other reductions of the claim are refused, and the weights of logsumexp. *)
Theorem C67_no_index : forall c p z, program_of c = Ok p -> run p = Ok z ->
  (is_number c = false -> exists q y, program_of (C1 Fsum c) = Ok q /\ run q = Ok y /\ RReduce.sum z RNA = Ok (Tensor y)) /\
  (forall f, In f [sum_reduction; min_reduction; argmin_reduction; min_argmin; min_argmin_reduction; max_reduction; argmax_reduction; max_argmax; max_argmax_reduction] ->
    f z RNA = KErr) /\
  (forall f K, In f (map fst smallest) -> f z K RNA = KErr) /\
  (forall f index w, In f [logsumexp; logsumexp_reduction] -> f z RNA None = KErr /\ f z index (Some w) = KErr) /\
  (forall f w, In f [sumsoftmaxweight; sumsoftmaxweight_reduction] -> f z RNA w = KErr).
Proof. exact without_index. Qed.
Print Assumptions C67_no_index.

Example C67_no_index_case : exists z q y, run mixed_program = Ok z /\ program_of (C1 Fsum mixed) = Ok q /\ run q = Ok y /\ RReduce.sum z RNA = Ok (Tensor y) /\ z_dim y = 1%Z.
Proof.
  destruct mixed_reduced as (z & _ & _ & R & _). destruct (C67_no_index mixed _ z mixed_program_of R) as (S & _).
  destruct (S eq_refl) as (q & y & H & RY & E). exists z, q, y. do 4 (split; [assumption|]). injection E as <-. reflexivity.
Qed.

(** Row [n] of the output contains the sums over [index] of the values of the call. *)
Theorem C67_sum_partial : forall c p z f index o l, program_of c = Ok p -> run p = Ok z -> objects p -> not_empty c ->
  In f [RReduce.sum; RReduce.sum_reduction] -> f z index = Ok (Reduced o l) ->
  exists place F, as_formula (term_of place p) = Some F /\
    engine_runs o F None (fun ro => forall M N A s, sizes p M N -> stored l A -> inside c M N ->
      output ro 0 s A M N (fun out => forall n k, n < rows_of index M N -> k < RMethodsSpec.size c ->
        out (n * RMethodsSpec.size c + k) = Fin (RMethodsSpec.total (terms_of index M N) (fun m => term_at c index n m k)))).
Proof. exact sum_claim. Qed.
Print Assumptions C67_sum_partial.

Example C67_sum_case : exists z o l q al e a ro, run dots_program = Ok z /\ RReduce.sum z Rj = Ok (Reduced o l) /\
  operator_text o = Ok q /\ engine_aliases 0 None None (p_aliases q) = Ok al /\ reads (p_formula q) e /\ dictionary al a /\ reduction_in a e = Ok (ro, None) /\
  output ro 0 block_sum (memory_of l) 4 5 (fun out => forall n, n < 4 -> out (n * 1 + 0) = Fin (RMethodsSpec.total 5 (fun m => value dots n m 0))).
Proof.
  destruct dots_run as (z & R & (o & l & S) & _).
  destruct (C67_sum_partial dots _ z _ Rj o l eq_refl R dots_objects (conj I (conj I I)) (or_introl eq_refl) S) as (place & F & AF & q & al & e & a & T & L & RD & DI & E1 & E2).
  apply dots_formula in AF. subst F. destruct (dots_built (Z.of_nat (place "0x55d1" Ri)) (Z.of_nat (place "0x55e2" Rj))) as (h & B).
  destruct (E2 h B) as (ro & Q). destruct (E1 ro None Q) as (_ & V). exists z, o, l, q, al, e, a, ro. do 7 (split; [assumption|]).
  destruct (V 4 5 (memory_of l) block_sum dots_sizes (memory_stored l) dots_inside) as (r & AC & X). exists r. split; [exact AC|].
  intros schedule out CO. destruct (X schedule out CO) as (out' & E & W). exists out'. split; [exact E|]. intros n Hn. exact (W n 0 Hn (le_n 1)).
Qed.

(** The smallest or largest values and the first indices where they are taken. *)
Theorem C67_optimum_partial : forall c p z f mx vals args index o l, program_of c = Ok p -> run p = Ok z -> objects p -> not_empty c ->
  In (f, (mx, vals, args)) optima -> f z index = Ok (Reduced o l) ->
  exists place F, as_formula (term_of place p) = Some F /\
    engine_runs o F None (fun ro => forall M N A, sizes p M N -> stored l A -> inside c M N -> 0 < terms_of index M N ->
      output ro 0 direct_sum A M N (fun out => forall n k, n < rows_of index M N -> k < RMethodsSpec.size c ->
        let width := if vals && args then 2 * RMethodsSpec.size c else RMethodsSpec.size c in
        exists i, first_optimum mx (terms_of index M N) (fun m => term_at c index n m k) i /\
          (vals = true -> out (n * width + k) = Fin (term_at c index n i k)) /\
          (args = true -> out (n * width + ((if vals then RMethodsSpec.size c else 0) + k)) = Fin (INR i)))).
Proof. exact optimum_claim. Qed.
Print Assumptions C67_optimum_partial.

Example C67_optimum_case : exists z o l q al e a ro, run dots_program = Ok z /\ RReduce.min_argmin z Ri = Ok (Reduced o l) /\
  operator_text o = Ok q /\ engine_aliases 0 None None (p_aliases q) = Ok al /\ reads (p_formula q) e /\ dictionary al a /\ reduction_in a e = Ok (ro, None) /\
  output ro 0 direct_sum (memory_of l) 4 5 (fun out => forall n, n < 5 ->
    exists i, first_optimum false 4 (fun m => value dots m n 0) i /\ out (n * 2 + 0) = Fin (value dots i n 0) /\ out (n * 2 + (1 + 0)) = Fin (INR i)).
Proof.
  destruct dots_run as (z & R & _ & (o & l & S) & _).
  destruct (C67_optimum_partial dots _ z _ false true true Ri o l eq_refl R dots_objects (conj I (conj I I)) ltac:(cbn; auto 20) S)
    as (place & F & AF & q & al & e & a & T & L & RD & DI & E1 & E2).
  apply dots_formula in AF. subst F. destruct (dots_built (Z.of_nat (place "0x55d1" Ri)) (Z.of_nat (place "0x55e2" Rj))) as (h & B).
  destruct (E2 h B) as (ro & Q). destruct (E1 ro None Q) as (_ & V). exists z, o, l, q, al, e, a, ro. do 7 (split; [assumption|]).
  destruct (V 4 5 (memory_of l) dots_sizes (memory_stored l) dots_inside (Nat.lt_0_succ 3)) as (r & AC & X). exists r. split; [exact AC|].
  intros schedule out CO. destruct (X schedule out CO) as (out' & E & W). exists out'. split; [exact E|]. intros n Hn.
  destruct (W n 0 Hn (le_n 1)) as (i & FO & V1 & V2). exists i. split; [exact FO|]. split; [exact (V1 eq_refl)|exact (V2 eq_refl)].
Qed.

(** The K smallest values in increasing order, and their indices. *)
Theorem C67_smallest_partial : forall c p z f vals args K index o l, program_of c = Ok p -> run p = Ok z -> objects p -> not_empty c -> (0 < K)%Z ->
  In (f, (vals, args)) smallest -> f z K index = Ok (Reduced o l) ->
  exists place F, as_formula (term_of place p) = Some F /\
    engine_runs o F (Some K) (fun ro => forall M N A, sizes p M N -> stored l A -> inside c M N ->
      output ro (Z.to_nat K) direct_sum A M N (fun out => forall n k, n < rows_of index M N -> k < RMethodsSpec.size c ->
        let width := if vals && args then 2 * RMethodsSpec.size c else RMethodsSpec.size c in
        exists L, k_smallest (Z.to_nat K) (map (fun m => (Fin (term_at c index n m k), Z.of_nat m)) (seq 0 (terms_of index M N))) L /\
          List.length L = Z.to_nat K /\ forall s v i, nth_error L s = Some (v, i) ->
          (vals = true -> out (n * (Z.to_nat K * width) + (s * width + k)) = v) /\
          (args = true -> out (n * (Z.to_nat K * width) + (s * width + ((if vals then RMethodsSpec.size c else 0) + k))) = Fin (IZR i)))).
Proof. exact smallest_claim. Qed.
Print Assumptions C67_smallest_partial.

Example C67_smallest_case : exists z o l q al e a ro, run dots_program = Ok z /\ RReduce.argKmin z 2 Rj = Ok (Reduced o l) /\
  operator_text o = Ok q /\ engine_aliases 0 None None (p_aliases q) = Ok al /\ reads (p_formula q) e /\ dictionary al a /\ reduction_in a e = Ok (ro, Some 2%Z) /\
  output ro 2 direct_sum (memory_of l) 4 5 (fun out => forall n, n < 4 ->
    exists L, k_smallest 2 (map (fun m => (Fin (value dots n m 0), Z.of_nat m)) (seq 0 5)) L /\ List.length L = 2 /\
      forall s v i, nth_error L s = Some (v, i) -> out (n * 2 + (s * 1 + 0)) = Fin (IZR i)).
Proof.
  destruct dots_run as (z & R & _ & _ & (o & l & S) & _).
  destruct (C67_smallest_partial dots _ z _ false true 2 Rj o l eq_refl R dots_objects (conj I (conj I I)) eq_refl ltac:(cbn; auto 20) S)
    as (place & F & AF & q & al & e & a & T & L & RD & DI & E1 & E2).
  apply dots_formula in AF. subst F. destruct (dots_built (Z.of_nat (place "0x55d1" Ri)) (Z.of_nat (place "0x55e2" Rj))) as (h & B).
  destruct (E2 h B) as (ro & Q). destruct (E1 ro _ Q) as (_ & V). exists z, o, l, q, al, e, a, ro. do 7 (split; [assumption|]).
  destruct (V 4 5 (memory_of l) dots_sizes (memory_stored l) dots_inside) as (r & AC & X). exists r. split; [exact AC|].
  intros schedule out CO. destruct (X schedule out CO) as (out' & E & W). exists out'. split; [exact E|]. intros n Hn.
  destruct (W n 0 Hn (le_n 1)) as (K & KS & LL & VL). exists K. split; [exact KS|]. split; [exact LL|]. intros s v i J. exact (proj2 (VL s v i J) eq_refl).
Qed.

(** After the step that finishes log-sum-exp, the logarithm of the sum of exponentials. *)
Theorem C67_logsumexp_partial : forall c p z f index o l, program_of c = Ok p -> run p = Ok z -> objects p -> not_empty c -> RMethodsSpec.size c = 1 ->
  In f [logsumexp; logsumexp_reduction] -> f z index None = Ok (Reduced o l) ->
  exists place F, as_formula (term_of place p) = Some F /\
    engine_runs o (Cat F (Int 1)) None (fun ro => forall M N A s, sizes p M N -> stored l A -> inside c M N -> 0 < terms_of index M N -> s <> kahan_scheme ->
      output ro 0 s A M N (fun out => forall n, n < rows_of index M N ->
        lse_post (fun q => out (n * 2 + q)) 0 = Fin (ln (RMethodsSpec.total (terms_of index M N) (fun m => exp (term_at c index n m 0)))))).
Proof. exact logsumexp_claim. Qed.
Print Assumptions C67_logsumexp_partial.

Example C67_logsumexp_case : exists z o l q al e a ro, run dots_program = Ok z /\ logsumexp z Ri None = Ok (Reduced o l) /\
  operator_text o = Ok q /\ engine_aliases 0 None None (p_aliases q) = Ok al /\ reads (p_formula q) e /\ dictionary al a /\ reduction_in a e = Ok (ro, None) /\
  output ro 0 block_sum (memory_of l) 4 5 (fun out => forall n, n < 5 ->
    lse_post (fun q => out (n * 2 + q)) 0 = Fin (ln (RMethodsSpec.total 4 (fun m => exp (value dots m n 0))))).
Proof.
  destruct dots_run as (z & R & _ & _ & _ & (o & l & S)).
  destruct (C67_logsumexp_partial dots _ z _ Ri o l eq_refl R dots_objects (conj I (conj I I)) eq_refl (or_introl eq_refl) S)
    as (place & F & AF & q & al & e & a & T & L & RD & DI & E1 & E2).
  apply dots_formula in AF. subst F. destruct (dots_shifted (Z.of_nat (place "0x55d1" Ri)) (Z.of_nat (place "0x55e2" Rj))) as (h & B).
  destruct (E2 h B) as (ro & Q). destruct (E1 ro _ Q) as (_ & V). exists z, o, l, q, al, e, a, ro. do 7 (split; [assumption|]).
  exact (V 4 5 (memory_of l) block_sum dots_sizes (memory_stored l) dots_inside (Nat.lt_0_succ 3) ltac:(discriminate)).
Qed.

(** After its last step sumsoftmaxweight is the mean of the values of the weights by the exponentials of the values of the call. *)
Theorem C67_softmax_partial : forall c p z w q y f index o l,
  program_of c = Ok p -> run p = Ok z -> objects p -> not_empty c -> RMethodsSpec.size c = 1 -> program_of w = Ok q -> run q = Ok y -> objects q -> not_empty w ->
  In f [sumsoftmaxweight; sumsoftmaxweight_reduction] -> f z index y = Ok (Reduced o l) ->
  exists place after F G, as_formula (term_of place p) = Some F /\ as_formula (term_of after q) = Some G /\
    engine_runs o (Cat F (Cat (Int 1) G)) None (fun ro => forall M N A s, sizes p M N -> sizes q M N -> stored l A -> inside c M N -> inside w M N ->
      0 < terms_of index M N -> s <> kahan_scheme ->
      output ro 0 s A M N (fun out => forall n k, n < rows_of index M N -> k < RMethodsSpec.size w ->
        softmax_post (fun q => out (n * (2 + RMethodsSpec.size w) + q)) k =
          Fin (RMethodsSpec.total (terms_of index M N) (fun m => (exp (term_at c index n m 0) * term_at w index n m k)%R) /
               RMethodsSpec.total (terms_of index M N) (fun m => exp (term_at c index n m 0))))).
Proof. exact softmax_output_claim. Qed.
Print Assumptions C67_softmax_partial.

Example C67_softmax_case : exists z y o l q al e a ro, run dots_program = Ok z /\ run b_j = Ok y /\ sumsoftmaxweight z Rj y = Ok (Reduced o l) /\
  operator_text o = Ok q /\ engine_aliases 0 None None (p_aliases q) = Ok al /\ reads (p_formula q) e /\ dictionary al a /\ reduction_in a e = Ok (ro, None) /\
  output ro 0 block_sum (memory_of l) 4 5 (fun out => forall n, n < 4 ->
    softmax_post (fun q => out (n * 3 + q)) 0 =
      Fin (RMethodsSpec.total 5 (fun m => (exp (value dots n m 0) * value weights_j n m 0)%R) / RMethodsSpec.total 5 (fun m => exp (value dots n m 0)))).
Proof.
  destruct dots_run as (z & R & _). destruct weights_run as (y & R').
  destruct (C67_accepted dots _ z Rj eq_refl R dots_objects (conj I (conj I I)) ltac:(discriminate) ltac:(discriminate)) as (_ & _ & _ & AC).
  destruct (AC sumsoftmaxweight weights_j b_j y (or_introl eq_refl) eq_refl R' weight_objects I) as (o & l & S).
  destruct (C67_softmax_partial dots _ z weights_j _ y _ Rj o l eq_refl R dots_objects (conj I (conj I I)) eq_refl eq_refl R' weight_objects I (or_introl eq_refl) S)
    as (place & after & F & G & AF & AG & q & al & e & a & T & L & RD & DI & E1 & E2).
  apply dots_formula in AF. subst F. apply weights_formula in AG. subst G.
  destruct (dots_weighted (Z.of_nat (place "0x55d1" Ri)) (Z.of_nat (place "0x55e2" Rj)) (Z.of_nat (after "0x55f3" Rj))) as (h & B).
  destruct (E2 h B) as (ro & Q). destruct (E1 ro _ Q) as (_ & V). exists z, y, o, l, q, al, e, a, ro. do 8 (split; [assumption|]).
  destruct (V 4 5 (memory_of l) block_sum dots_sizes weights_sizes (memory_stored l) dots_inside weights_inside (Nat.lt_0_succ 4) ltac:(discriminate)) as (r & AC' & X).
  exists r. split; [exact AC'|]. intros schedule out CO. destruct (X schedule out CO) as (out' & E & W). exists out'. split; [exact E|].
  intros n Hn. exact (W n 0 Hn (le_n 1)).
Qed.
