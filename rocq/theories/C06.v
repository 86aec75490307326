(** C06 -- min/max and argmin/argmax reductions return the optimum and its first index. *)

From Coq Require Import ZArith Reals Lra Lia List.
From Verif Require Import Result XReal Reductions ReductionSpec C06Proofs.

(** Dense range 0..n-1, any n, any values except NaN, any component k.  [out] is the output of
    Min_ArgMin (Max_ArgMax), [arg] of ArgMin (ArgMax) and [opt] of Min (Max). *)
Theorem C06_optimum_and_first_index : forall mx d n F,
  (forall j k, (j < n)%nat -> (k < d)%nat -> F j k <> NaN) -> forall k, (k < d)%nat ->
  let out := rfinal (OptArg_Red mx OBoth d)
               (run (OptArg_Red mx OBoth d) (dense n F) (rinit (OptArg_Red mx OBoth d))) in
  let arg := rfinal (OptArg_Red mx OArg d)
               (run (OptArg_Red mx OArg d) (dense n F) (rinit (OptArg_Red mx OArg d))) in
  let opt := rfinal (Opt_Red mx d) (run (Opt_Red mx d) (dense n F) (rinit (Opt_Red mx d))) in
  (n = 0%nat -> out k = worst mx /\ out (d + k)%nat = Fin 0 /\ arg k = Fin 0 /\ opt k = worst mx) /\
  ((0 < n)%nat -> exists i, (i < n)%nat /\ out k = F i k /\
    out (d + k)%nat = of_long (Z.of_nat i) /\ arg k = of_long (Z.of_nat i) /\ opt k = F i k /\
    (forall j, (j < n)%nat -> as_good mx (F i k) (F j k)) /\
    (forall j, (j < i)%nat -> F j k <> F i k)).
Proof. exact optarg_dense. Qed.
Print Assumptions C06_optimum_and_first_index.

(** Any increasing sequence of indices (block-sparse reductions), provided that some value
    differs from the initial +inf (-inf). *)
Theorem C06_sparse_indices : forall mx d l, good_seq d l -> forall k, (k < d)%nat ->
  (exists z x, In (z, x) l /\ x k <> worst mx) ->
  let out := rfinal (OptArg_Red mx OBoth d)
               (run (OptArg_Red mx OBoth d) l (rinit (OptArg_Red mx OBoth d))) in
  let arg := rfinal (OptArg_Red mx OArg d)
               (run (OptArg_Red mx OArg d) l (rinit (OptArg_Red mx OArg d))) in
  let opt := rfinal (Opt_Red mx d) (run (Opt_Red mx d) l (rinit (Opt_Red mx d))) in
  exists i, first_best mx (column k l) i (out k) /\ out (d + k)%nat = of_long i /\
            arg k = of_long i /\ opt k = out k.
Proof. exact optarg_correct. Qed.
Print Assumptions C06_sparse_indices.

(** Values 2, 1, 1 in one component: hypotheses of both theorems. *)
Example C06_case :
  let F := fun j (_ : nat) => match j with O => Fin 2 | _ => Fin 1 end in
  (forall j k, (j < 3)%nat -> (k < 1)%nat -> F j k <> NaN) /\
  good_seq 1 (dense 3 F) /\ exists z x, In (z, x) (dense 3 F) /\ x O <> worst false.
Proof.
  cbv zeta. split; [intros [|j] k _ _; discriminate|]. split.
  - split; [apply dense_sorted|]. intros z x Hx k _. unfold dense in Hx. cbn in Hx.
    destruct Hx as [Hx|[Hx|[Hx|[]]]]; inversion Hx; discriminate.
  - exists 0%Z. eexists. split; [left; reflexivity|discriminate].
Qed.
