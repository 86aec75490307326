(** C34: layout of multi-valued reductions. *)

From Coq Require Import ZArith Reals List String Lia.
From Verif Require Import Result XReal Reductions ReductionSpec Postprocess LseSpec CpuReduc Layout LayoutSpec
  C06Proofs C34Proofs.
Import ListNotations.

(** K smallest values: the entry [.., s, k] is the value number s of component k, in the row that the
    first indices give.  [l]: leading dimensions (batch and output axis).  The last dimension is
    dropped when there is one component.
    Partial: some row has to exist, and values have to be below +inf as in C07. *)
Theorem C34_kmin_partial : forall l K f terms,
  (0 < entries_of l)%nat -> (0 < K)%nat -> (0 < f)%nat ->
  (forall r, (r < entries_of l)%nat -> finite_seq f (terms r)) ->
  let row r := rfinal (KMin_Red OVal K f) (run (KMin_Red OVal K f) (terms r) (rinit (KMin_Red OVal K f))) in
  exists a, postprocess "KMin" K (buffer l (rdim (KMin_Red OVal K f)) row) = Ok (Floats a)
  /\ shape a = l ++ kshape K f
  /\ forall idx k, index l idx -> (k < f)%nat ->
     exists L, k_smallest K (map (fun p => (snd p k, fst p)) (terms (number l idx))) L /\ List.length L = K
     /\ forall s v i, nth_error L s = Some (v, i) ->
        flat a (number (shape a) (idx ++ kindex f s k)) = v.
Proof. exact post_kmin. Qed.
Print Assumptions C34_kmin_partial.

(** Their indices. *)
Theorem C34_argkmin_partial : forall l K f terms,
  (0 < entries_of l)%nat -> (0 < K)%nat -> (0 < f)%nat ->
  (forall r, (r < entries_of l)%nat -> finite_seq f (terms r)) ->
  let row r := rfinal (KMin_Red OArg K f) (run (KMin_Red OArg K f) (terms r) (rinit (KMin_Red OArg K f))) in
  exists a, postprocess "ArgKMin" K (buffer l (rdim (KMin_Red OArg K f)) row) = Ok (Longs a)
  /\ shape a = l ++ kshape K f
  /\ forall idx k, index l idx -> (k < f)%nat ->
     exists L, k_smallest K (map (fun p => (snd p k, fst p)) (terms (number l idx))) L /\ List.length L = K
     /\ forall s v i, nth_error L s = Some (v, i) ->
        flat a (number (shape a) (idx ++ kindex f s k)) = i.
Proof. exact post_argkmin. Qed.
Print Assumptions C34_argkmin_partial.

(** Both: two arrays of the same shape. *)
Theorem C34_kmin_argkmin_partial : forall l K f terms,
  (0 < entries_of l)%nat -> (0 < K)%nat -> (0 < f)%nat ->
  (forall r, (r < entries_of l)%nat -> finite_seq f (terms r)) ->
  let row r := rfinal (KMin_Red OBoth K f) (run (KMin_Red OBoth K f) (terms r) (rinit (KMin_Red OBoth K f))) in
  forall op, In op ["KMin_ArgKMin"; "KMinArgKMin"]%string ->
  exists a b, postprocess op K (buffer l (rdim (KMin_Red OBoth K f)) row) = Ok (Pair a b)
  /\ shape a = l ++ kshape K f /\ shape b = l ++ kshape K f
  /\ forall idx k, index l idx -> (k < f)%nat ->
     exists L, k_smallest K (map (fun p => (snd p k, fst p)) (terms (number l idx))) L /\ List.length L = K
     /\ forall s v i, nth_error L s = Some (v, i) ->
        flat a (number (shape a) (idx ++ kindex f s k)) = v
        /\ flat b (number (shape b) (idx ++ kindex f s k)) = i.
Proof. exact post_kmin_both. Qed.
Print Assumptions C34_kmin_argkmin_partial.

(** Two batches of three rows, two smallest of four values of two components. *)
Example C34_kmin_case :
  let F r j k := Fin (IZR (Z.of_nat (r + j * j + k))) in
  entries_of [2; 3]%nat = 6%nat /\ (forall r, (r < 6)%nat -> finite_seq 2 (dense 4 (F r)))
  /\ index [2; 3]%nat [1; 2]%nat /\ number [2; 3]%nat [1; 2]%nat = 5%nat
  /\ kshape 2 2 = [2; 2]%nat.
Proof.
  cbv zeta. repeat split.
  - apply dense_sorted.
  - unfold dense in H0. cbn in H0.
    repeat (destruct H0 as [H0|H0]; [inversion H0; discriminate|]). destruct H0.
  - unfold dense in H0. cbn in H0.
    repeat (destruct H0 as [H0|H0]; [inversion H0; discriminate|]). destruct H0.
  - repeat constructor; lia.
Qed.

(** Without any row (an empty output axis or batch) the user gets an error instead of an empty array. *)
Theorem C34_empty_refuted : forall l K f row op,
  In op ["KMin"; "ArgKMin"; "KMin_ArgKMin"; "KMinArgKMin"]%string ->
  entries_of l = 0%nat -> postprocess op K (buffer l f row) = PyErr.
Proof. exact view_kmin_empty. Qed.
Print Assumptions C34_empty_refuted.

(** Minimum (maximum) and its first index: two arrays. *)
Theorem C34_min_argmin : forall mx l d n K F,
  (0 < entries_of l)%nat -> (0 < d)%nat -> (0 < n)%nat ->
  (forall r j k, (r < entries_of l)%nat -> (j < n)%nat -> (k < d)%nat -> F r j k <> NaN) ->
  let row r := rfinal (OptArg_Red mx OBoth d)
    (run (OptArg_Red mx OBoth d) (dense n (F r)) (rinit (OptArg_Red mx OBoth d))) in
  forall op, In op (if mx then ["Max_ArgMax"; "MaxArgMax"] else ["Min_ArgMin"; "MinArgMin"])%string ->
  exists a b, postprocess op K (buffer l (rdim (OptArg_Red mx OBoth d)) row) = Ok (Pair a b)
  /\ shape a = l ++ [d] /\ shape b = l ++ [d]
  /\ forall idx k, index l idx -> (k < d)%nat ->
     let r := number l idx in
     exists i, (i < n)%nat /\ flat a (number (shape a) (idx ++ [k])) = F r i k
     /\ flat b (number (shape b) (idx ++ [k])) = Z.of_nat i
     /\ (forall j, (j < n)%nat -> as_good mx (F r i k) (F r j k))
     /\ (forall j, (j < i)%nat -> F r j k <> F r i k).
Proof. exact post_min_argmin. Qed.
Print Assumptions C34_min_argmin.

(** The index alone. *)
Theorem C34_argmin : forall mx l d n K F,
  (0 < n)%nat ->
  (forall r j k, (r < entries_of l)%nat -> (j < n)%nat -> (k < d)%nat -> F r j k <> NaN) ->
  let row r := rfinal (OptArg_Red mx OArg d)
    (run (OptArg_Red mx OArg d) (dense n (F r)) (rinit (OptArg_Red mx OArg d))) in
  exists b, postprocess (if mx then "ArgMax" else "ArgMin")%string K
              (buffer l (rdim (OptArg_Red mx OArg d)) row) = Ok (Longs b)
  /\ shape b = l ++ [d]
  /\ forall idx k, index l idx -> (k < d)%nat ->
     let r := number l idx in
     exists i, (i < n)%nat /\ flat b (number (shape b) (idx ++ [k])) = Z.of_nat i
     /\ (forall j, (j < n)%nat -> as_good mx (F r i k) (F r j k))
     /\ (forall j, (j < i)%nat -> F r j k <> F r i k).
Proof. exact post_argmin. Qed.
Print Assumptions C34_argmin.

Example C34_min_case :
  let F r j k := Fin (IZR (Z.of_nat (r + j * j + k))) in
  forall r j k, (r < entries_of [2; 3])%nat -> (j < 4)%nat -> (k < 2)%nat -> F r j k <> NaN.
Proof. discriminate. Qed.

(** Softmax: every component is divided by the sum of the exponentials of its row. *)
Theorem C34_softmax : forall l n K s e, (0 < n)%nat -> s <> kahan_scheme -> forall row d op,
  In op ["SumSoftMaxWeight"; "SoftMax"]%string ->
  (forall r j, (r < entries_of l)%nat -> (j < n)%nat -> fst (e r j) <> None /\ snd (e r j) 0%nat = 1%R) ->
  (forall r, (r < entries_of l)%nat -> cpu_row (LSE_Red (S d)) s n (lse_terms (e r)) = Ok (row r)) ->
  exists a, postprocess op K (buffer l (rdim (LSE_Red (S d))) row) = Ok (Floats a)
  /\ shape a = l ++ [d]
  /\ forall idx k, index l idx -> (k < d)%nat ->
     let t := taken n (e (number l idx)) in
     flat a (number (shape a) (idx ++ [k])) = Fin (exp_sum (S k) t / exp_sum 0 t).
Proof. exact post_softmax_rows. Qed.
Print Assumptions C34_softmax.

(** Log-sum-exp, with one or several weights. *)
Theorem C34_logsumexp : forall l n K s e, (0 < n)%nat -> s <> kahan_scheme -> forall row d, (0 < d)%nat ->
  (forall r j, (r < entries_of l)%nat -> (j < n)%nat -> fst (e r j) <> None) ->
  (forall r, (r < entries_of l)%nat -> cpu_row (LSE_Red d) s n (lse_terms (e r)) = Ok (row r)) ->
  exists a, postprocess "LogSumExp" K (buffer l (rdim (LSE_Red d)) row) = Ok (Floats a)
  /\ shape a = l ++ [d]
  /\ forall idx k, index l idx -> (k < d)%nat ->
     let t := taken n (e (number l idx)) in
     (0 < exp_sum k t)%R ->
     flat a (number (shape a) (idx ++ [k])) = Fin (ln (exp_sum k t)).
Proof. exact post_lse_rows. Qed.
Print Assumptions C34_logsumexp.

(** The rows exist: three values with weights (1, r), six rows. *)
Example C34_softmax_case :
  let e r j := (Some (INR (r + j)), fun k => match k with O => 1%R | S _ => INR r end) : entry in
  (forall r j, (r < entries_of [2; 3])%nat -> (j < 3)%nat -> fst (e r j) <> None /\ snd (e r j) 0%nat = 1%R)
  /\ exists row, forall r, cpu_row (LSE_Red 2) block_sum 3 (lse_terms (e r)) = Ok (row r).
Proof.
  cbv zeta. split; [split; [discriminate|reflexivity]|].
  eexists (fun r => _). intros r. reflexivity.
Qed.

(** From the name given by the user to the entries of the answer: softmax of values v with weights w. *)
Theorem C34_user_softmax : forall l n K s d op (v : nat -> nat -> R) (w : nat -> nat -> nat -> R),
  (0 < n)%nat -> s <> kahan_scheme -> In op ["SumSoftMaxWeight"; "SoftMax"]%string ->
  exists name sec red, preprocess op true = Ok (name, sec) /\ engine_red name sec d = Some red
  /\ forall row,
    (forall r, (r < entries_of l)%nat ->
       cpu_row red s n (lse_terms (fun j => (Some (v r j), engine_weight sec (w r j)))) = Ok (row r)) ->
    exists a, postprocess op K (buffer l (rdim red) row) = Ok (Floats a)
    /\ shape a = l ++ [d]
    /\ forall idx k, index l idx -> (k < d)%nat ->
       let r := number l idx in
       flat a (number (shape a) (idx ++ [k]))
       = Fin (exp_weighted n (v r) (fun j => w r j k) / exp_weighted n (v r) (fun _ => 1%R)).
Proof. exact user_softmax. Qed.
Print Assumptions C34_user_softmax.

(** The same for log-sum-exp, with and without weights. *)
Theorem C34_user_logsumexp : forall l n K s d (formula2 : bool) (v : nat -> nat -> R) (w : nat -> nat -> nat -> R),
  (0 < n)%nat -> s <> kahan_scheme -> (0 < d)%nat ->
  exists name sec red, preprocess "LogSumExp" formula2 = Ok (name, sec) /\ engine_red name sec d = Some red
  /\ forall row,
    (forall r, (r < entries_of l)%nat ->
       cpu_row red s n (lse_terms (fun j => (Some (v r j), engine_weight sec (w r j)))) = Ok (row r)) ->
    exists a, postprocess "LogSumExp" K (buffer l (rdim red) row) = Ok (Floats a)
    /\ shape a = l ++ [if formula2 then d else 1%nat]
    /\ forall idx k, index l idx -> (k < (if formula2 then d else 1))%nat ->
       let r := number l idx in
       let total := exp_weighted n (v r) (fun j => if formula2 then w r j k else 1%R) in
       (0 < total)%R -> flat a (number (shape a) (idx ++ [k])) = Fin (ln total).
Proof. exact user_lse. Qed.
Print Assumptions C34_user_logsumexp.

(** The rows exist: three values with weights (r, j), and the sum is positive. *)
Example C34_user_case :
  let v r j := INR (r + j) in let w r j k := match k with O => INR (1 + r) | S _ => INR (1 + j) end in
  (exists row, forall r, cpu_row (LSE_Red 3) block_sum 3
     (lse_terms (fun j => (Some (v r j), engine_weight WithOne (w r j)))) = Ok (row r))
  /\ (exists row, forall r, cpu_row (LSE_Red 2) block_sum 3
     (lse_terms (fun j => (Some (v r j), engine_weight Given (w r j)))) = Ok (row r))
  /\ forall r, (0 < exp_weighted 3 (v r) (fun _ => 1))%R.
Proof.
  cbv zeta. split; [eexists (fun r => _); intros r; reflexivity|].
  split; [eexists (fun r => _); intros r; reflexivity|]. intros r. apply exp_weighted_pos. lia.
Qed.

(** "LogSumExpWeight", documented as the logarithm of a weighted sum, is computed as "LogSumExp"
    with weights but is not finalized: the user gets the pair (maximum, scaled sum). *)
Theorem C34_logsumexpweight_refuted : forall l K d row,
  preprocess "LogSumExpWeight" true = preprocess "LogSumExp" true
  /\ exists a, postprocess "LogSumExpWeight" K (buffer l (rdim (LSE_Red d)) row) = Ok (Floats a)
     /\ shape a <> l ++ [d]
     /\ forall idx, index l idx -> flat a (number (shape a) (idx ++ [0%nat])) = row (number l idx) 0%nat.
Proof. exact lse_weight. Qed.
Print Assumptions C34_logsumexpweight_refuted.
