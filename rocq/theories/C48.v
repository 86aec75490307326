(** C48 -- the code of the dense CPU routine computes the reduction. *)

From Coq Require Import ZArith Reals List String Arith.
From Verif Require Import Result Formula Keys XReal Reductions ReductionSpec Postprocess CpuReduc KernelSum KernelSumSpec CpuConv CpuConvSpec LseSpec
  CodeGen CSem CodeGenSpec KernelCode KernelSem KernelCodeSpec C48Main.
Import ListNotations.
Local Open Scope nat_scope.

(** The code is made once for a formula and runs for all data and sizes, with the rows in any order: no undefined
    behaviour, the rows of the output receive the values given by the model of the schemes (C12), nothing else in
    the memory changes.  Partial: exact reals, the reductions of [red], the operations of Formula.v. *)
Theorem C48_routine_partial : forall r s f decl tagI nargs t ta g,
  KernelSumSpec.declared decl f -> wf f -> categories decl -> tagI <= 1 -> types_ok r t ta ->
  available (meaning r (dim f)) s ->
  (forall i d, occurs i d f -> (0 <= i < Z.of_nat nargs)%Z) ->
  exists st g', row_code r s f tagI nargs t ta g = Ok (st, g')
  /\ forall A M N m schedule c, complete schedule ->
     arguments_in decl f A M N nargs (name "arg" (g "arg"%string)) m -> no_generated m ->
     get "out" m = Some (OArr c) -> out_rows tagI M N * red_dim r (dim f) <= List.length c ->
     (forall n j, n < out_rows tagI M N -> j < red_terms tagI M N -> safe (at_point decl A tagI n j) f) ->
     exists m' v, launch schedule st tagI M N m = Some m'
       /\ output_rows m m' (out_rows tagI M N) (red_dim r (dim f)) v
       /\ forall n, cpu_row (meaning r (dim f)) s (red_terms tagI M N) (terms decl A f tagI n) = Ok (v n).
Proof. exact routine_correct. Qed.
Print Assumptions C48_routine_partial.

(** Sums, for the three schemes and any types of the data and of the accumulator. *)
Theorem C48_sum_partial : forall s f decl tagI nargs t ta g,
  KernelSumSpec.declared decl f -> wf f -> categories decl -> tagI <= 1 ->
  (forall i d, occurs i d f -> (0 <= i < Z.of_nat nargs)%Z) ->
  exists st g', row_code CSum s f tagI nargs t ta g = Ok (st, g')
  /\ forall A M N m schedule, complete schedule ->
     ready decl f A tagI M N nargs (dim f) (name "arg" (g "arg"%string)) m ->
     exists m' v, launch schedule st tagI M N m = Some m' /\ output_rows m m' (out_rows tagI M N) (dim f) v
       /\ forall n k, n < out_rows tagI M N -> k < dim f ->
          v n k = Fin (reduce_sum decl (contiguous decl A) M N {| sformula := f; stagI := tagI |} n k).
Proof. exact routine_sum. Qed.
Print Assumptions C48_sum_partial.

(** Minimum (maximum) with its first index. *)
Theorem C48_optimum_partial : forall mx f decl tagI nargs t g,
  KernelSumSpec.declared decl f -> wf f -> categories decl -> tagI <= 1 ->
  (forall i d, occurs i d f -> (0 <= i < Z.of_nat nargs)%Z) ->
  exists st g', row_code (COptArg mx true) direct_sum f tagI nargs t t g = Ok (st, g')
  /\ forall A M N m schedule, complete schedule ->
     ready decl f A tagI M N nargs (2 * dim f) (name "arg" (g "arg"%string)) m ->
     exists m' v, launch schedule st tagI M N m = Some m' /\ output_rows m m' (out_rows tagI M N) (2 * dim f) v
       /\ forall n k, n < out_rows tagI M N -> k < dim f -> 0 < red_terms tagI M N ->
          exists i, i < red_terms tagI M N
            /\ v n k = terms decl A f tagI n i k /\ v n (dim f + k) = of_long (Z.of_nat i)
            /\ (forall j, j < red_terms tagI M N ->
                  as_good mx (terms decl A f tagI n i k) (terms decl A f tagI n j k))
            /\ (forall j, j < i -> terms decl A f tagI n j k <> terms decl A f tagI n i k).
Proof. exact routine_optimum. Qed.
Print Assumptions C48_optimum_partial.

(** Log-sum-exp with weights in the components after the first. *)
Theorem C48_logsumexp_partial : forall s w f decl tagI nargs t g,
  KernelSumSpec.declared decl f -> wf f -> categories decl -> tagI <= 1 -> dim f = S w -> s <> kahan_scheme ->
  (forall i d, occurs i d f -> (0 <= i < Z.of_nat nargs)%Z) ->
  exists st g', row_code CLse s f tagI nargs t t g = Ok (st, g')
  /\ forall A M N m schedule, complete schedule ->
     ready decl f A tagI M N nargs (dim f) (name "arg" (g "arg"%string)) m -> 0 < red_terms tagI M N ->
     exists m' v, launch schedule st tagI M N m = Some m' /\ output_rows m m' (out_rows tagI M N) (dim f) v
       /\ forall n k, n < out_rows tagI M N -> k < w ->
          let es := taken (red_terms tagI M N) (entry_of decl A f tagI n) in
          (0 < exp_sum k es)%R -> lse_post (v n) k = Fin (ln (exp_sum k es)).
Proof. exact routine_logsumexp. Qed.
Print Assumptions C48_logsumexp_partial.

(** The code of a row does not declare again the index i, the sizes or the output, and declares j only once, for
    its loop: [x + i*d] always means the row of the loop. *)
Theorem C48_indices_not_hidden : forall r s f tagI nargs t ta g st g', row_code r s f tagI nargs t ta g = Ok (st, g') ->
  (forall x, In x ["i"; "nx"; "ny"; "out"]%string -> count_occ string_dec (CodeGenSpec.declared st) x = 0)
  /\ count_occ string_dec (CodeGenSpec.declared st) "j"%string = 1.
Proof. exact row_names. Qed.
Print Assumptions C48_indices_not_hidden.

(** The options accept an accumulator in double precision for data in simple precision and log-sum-exp reductions,
    but no code can be made for it. *)
Theorem C48_double_accumulator_refuted : exists r, dtype_acc_allowed r = true /\
  forall s f tagI nargs g c, row_code r s f tagI nargs TFloat TDouble g <> Ok c.
Proof. exact double_accumulator. Qed.
Print Assumptions C48_double_accumulator_refuted.

(** Sum of exp(-x_i y_j), x = (2,3), y = (5,7,11), with block_sum, float data and a double accumulator. *)
Example C48_hypotheses : KernelSumSpec.declared decl3 kernel3 /\ wf kernel3 /\ categories decl3
  /\ forall i d, occurs i d kernel3 -> (0 <= i < Z.of_nat 2)%Z.
Proof. exact case_declared. Qed.
Example C48_ready_case : ready decl3 kernel3 data3 0 2 3 2 1 (name "arg" 0) memory3.
Proof. exact case_ready. Qed.
Example C48_case : exists st g' m', row_code CSum block_sum kernel3 0 2 TFloat TDouble g3 = Ok (st, g')
  /\ launch (fun n => rev (seq 0 n)) st 0 2 3 memory3 = Some m'
  /\ get "out" m' = Some (OArr [Some (Fin (exp (- (2 * 5)) + exp (- (2 * 7)) + exp (- (2 * 11))));
                               Some (Fin (exp (- (3 * 5)) + exp (- (3 * 7)) + exp (- (3 * 11))))]).
Proof. exact case_sum. Qed.
