(** * C39: calls with inconsistent sizes are not rejected, and read outside the arrays.

    The claim (every call with inconsistent sizes or dimensions raises an exception before any array is
    read) is false for Genred: the tests of Sizes.h are not compiled and only the number of arguments is
    checked ([C39_accepted_refuted], [C39_too_small_refuted], [C39_batch_wraps_refuted],
    [C39_batch_skipped_refuted]).
    What holds: consistent calls read only numbers of their arrays, so that their result depends on nothing else
    ([C39_dense_partial], [C39_batches_partial], [C39_result_partial]); without batch dimensions, exactly the
    arrays that are too small are read outside ([C39_exact_partial]); a wrong number of arguments is rejected
    ([C39_count]); symbolic tensors reject the combinations of different sizes ([C39_lazy], [C39_lazy_rejects]).
    Restricted to the CPU routines, contiguous arrays, no user ranges. *)

From Coq Require Import ZArith Reals Arith Lia Permutation String List.
From Verif Require Import Result Formula XReal Reductions KernelSum KernelSumSpec CpuReduc Loader CpuConv CpuConvSpec
  RangesConv RangesSpec Broadcast ArgCheck ArgCheckSpec C39Proofs.
From Verif Require LazyTensors.
Import ListNotations.

(** A wrong number of arguments. *)
Theorem C39_count : forall aliases shapes, List.length shapes <> List.length aliases -> call aliases shapes = KErr.
Proof. exact wrong_count. Qed.
Print Assumptions C39_count.

(** Consistent calls are accepted with the sizes of the arrays. *)
Theorem C39_consistent : forall aliases shapes full M N, consistent aliases shapes full M N ->
  call aliases shapes = Ok {| p_nx := M; p_ny := N; p_ranges := negb (List.length full =? 0); p_batch := full |}.
Proof. exact call_ok. Qed.
Print Assumptions C39_consistent.

(** Consistent calls without batch dimensions read only numbers of their arrays. *)
Theorem C39_dense_partial : forall aliases shapes full M N f decl tagI,
  consistent aliases shapes full M N -> declared decl f -> categories decl -> tagI <= 1 -> uses aliases decl f ->
  full = [] -> exists l, cpu_reads f tagI aliases shapes = Ok l /\ Forall (inside_array shapes) l.
Proof. exact dense_inside. Qed.
Print Assumptions C39_dense_partial.

(** The same with any number of batch dimensions, when there are rows and columns, all variables are used
    by the formula, and offsets are representable. *)
Theorem C39_batches_partial : forall aliases shapes full M N f decl tagI,
  consistent aliases shapes full M N -> declared decl f -> categories decl -> tagI <= 1 -> uses aliases decl f ->
  1 <= M -> 1 <= N ->
  (forall al, In al aliases -> In (Z.of_nat (a_pos al), a_dim al, a_cat al) (vars f)) ->
  (forall sh, In sh shapes -> (Z.of_nat (entries sh) <= 2 ^ 31)%Z) ->
  (forall al, In al aliases -> 1 <= a_dim al) ->
  exists l, cpu_reads f tagI aliases shapes = Ok l /\ Forall (inside_array shapes) l.
Proof. exact batch_inside. Qed.
Print Assumptions C39_batches_partial.

(** A call that reads only numbers of the arrays has a result that depends only on the arrays. *)
Theorem C39_result_partial : forall decl f r s tagI aliases shapes schedule junk tmp A B out l,
  declared decl f -> wf f -> categories decl -> tagI <= 1 -> reduction_of (dim f) r -> complete schedule ->
  cpu_reads f tagI aliases shapes = Ok l -> Forall (inside_array shapes) l -> same_arrays shapes A B ->
  cpu_call schedule junk tmp r s f tagI aliases shapes A out =
  cpu_call schedule junk tmp r s f tagI aliases shapes B out.
Proof. exact same_result. Qed.
Print Assumptions C39_result_partial.

(** Without batch dimensions: the reads are inside the arrays if and only if every variable of the formula is
    an argument that has at least as many numbers as its declaration and the sizes found by the call require. *)
Theorem C39_exact_partial : forall f tagI aliases shapes p, tagI <= 1 ->
  (forall a d c, In (a, d, c) (vars f) -> c <= 2) ->
  call aliases shapes = Ok p -> p_ranges p = false -> 1 <= p_nx p -> 1 <= p_ny p ->
  exists l, cpu_reads f tagI aliases shapes = Ok l /\
    (Forall (inside_array shapes) l <->
     forall a d c, In (a, d, c) (vars f) -> 1 <= d ->
       exists n sh, a = Z.of_nat n /\ nth_error shapes n = Some sh /\ rows_read c (p_nx p) (p_ny p) * d <= entries sh).
Proof. exact dense_exact. Qed.
Print Assumptions C39_exact_partial.

(** A call with two-dimensional arrays is accepted whatever their sizes. *)
Theorem C39_accepted_refuted : forall aliases shapes, List.length shapes = List.length aliases -> aliases <> [] ->
  (forall x, In x shapes -> List.length x <= 2) ->
  (forall al, In al aliases -> a_cat al <= 1 -> exists n d, nth_error shapes (a_pos al) = Some [n; d]) ->
  exists p, call aliases shapes = Ok p /\ p_ranges p = false.
Proof. exact two_dimensional. Qed.
Print Assumptions C39_accepted_refuted.

(** And when the array of a variable is too small for the sizes that were found or for its declared dimension,
    a sum of this variable depends on numbers that are outside all arrays. *)
Theorem C39_too_small_refuted : forall aliases shapes p al x, call aliases shapes = Ok p -> p_ranges p = false ->
  1 <= p_nx p -> 1 <= p_ny p -> In al aliases -> a_cat al <= 2 -> 1 <= a_dim al ->
  nth_error shapes (a_pos al) = Some x -> entries x < rows_read (a_cat al) (p_nx p) (p_ny p) * a_dim al ->
  let f := Var (Z.of_nat (a_pos al)) (a_dim al) (a_cat al) in
  exists tagI A B, tagI <= 1 /\ same_arrays shapes A B /\
    forall schedule junk tmp s out, complete schedule ->
      cpu_call schedule junk tmp (Sum_Red (a_dim al)) s f tagI aliases shapes A out <>
      cpu_call schedule junk tmp (Sum_Red (a_dim al)) s f tagI aliases shapes B out.
Proof. exact too_small. Qed.
Print Assumptions C39_too_small_refuted.

(** Batch sizes 3 and 2 are accepted: the last batch is computed with the first batch of the other array. *)
Theorem C39_batch_wraps_refuted : forall junk tmp A out, exists o,
  cpu_call (fun n => seq 0 n) junk tmp (Sum_Red 1) direct_sum product 0 two_arrays [[3; 1; 1]; [2; 1; 1]] A out
    = Ok ([3; 1; 1], o) /\
  o 0%nat = Fin (A 0%Z 0%nat * A 1%Z 0%nat)%R /\ o 1%nat = Fin (A 0%Z 1%nat * A 1%Z 1%nat)%R /\
  o 2%nat = Fin (A 0%Z 2%nat * A 1%Z 0%nat)%R.
Proof. exact batch_wraps. Qed.
Print Assumptions C39_batch_wraps_refuted.

(** Batch sizes 2 and 3: the last batch of the output is not computed. *)
Theorem C39_batch_skipped_refuted : forall junk tmp A out, exists o,
  cpu_call (fun n => seq 0 n) junk tmp (Sum_Red 1) direct_sum product 0 two_arrays [[2; 1; 1]; [3; 1; 1]] A out
    = Ok ([3; 1; 1], o) /\
  o 0%nat = Fin (A 0%Z 0%nat * A 1%Z 0%nat)%R /\ o 1%nat = Fin (A 0%Z 1%nat * A 1%Z 1%nat)%R /\ o 2%nat = Fin 0%R.
Proof. exact batch_skipped. Qed.
Print Assumptions C39_batch_skipped_refuted.

(** Symbolic tensors: an expression that is accepted carries the numbers of rows and the type of its arrays. *)
Theorem C39_lazy : forall e l, construct e = Ok l ->
  forall r, In r (arrays e) -> exists x, r = Ok x /\
    (LazyTensors.ni x = None \/ LazyTensors.ni x = LazyTensors.ni l) /\
    (LazyTensors.nj x = None \/ LazyTensors.nj x = LazyTensors.nj l) /\
    (LazyTensors.dtype x = None \/ LazyTensors.dtype x = LazyTensors.dtype l).
Proof. exact lazy_sizes. Qed.
Print Assumptions C39_lazy.

(** Arrays with different numbers of rows are not combined. *)
Theorem C39_lazy_rejects : forall e x y n m, In (Ok x) (arrays e) -> In (Ok y) (arrays e) ->
  (LazyTensors.ni x = Some n /\ LazyTensors.ni y = Some m \/ LazyTensors.nj x = Some n /\ LazyTensors.nj y = Some m) ->
  n <> m -> forall l, construct e <> Ok l.
Proof. exact lazy_rejects. Qed.
Print Assumptions C39_lazy_rejects.

(** Consistent arrays: x (2, 1, 4, 3), y (1, 5, 6, 3) and a parameter (2, 5, 1), and the formula p * (x - y). *)
Example C39_consistent_case :
  let aliases := [{| a_cat := 0; a_dim := 3; a_pos := 0 |}; {| a_cat := 1; a_dim := 3; a_pos := 1 |};
                  {| a_cat := 2; a_dim := 1; a_pos := 2 |}] in
  let shapes := [[2; 1; 4; 3]; [1; 5; 6; 3]; [2; 5; 1]] in
  let f := Bin BMult (Var 2 1 2) (Bin BSub (Var 0 3 0) (Var 1 3 1)) in
  let decl := fun a : Z => if Z.eqb a 2 then (1, 2) else if Z.eqb a 1 then (3, 1) else (3, 0) in
  consistent aliases shapes [2; 5] 4 6 /\ declared decl f /\ wf f /\ categories decl /\ uses aliases decl f /\
  (forall al, In al aliases -> In (Z.of_nat (a_pos al), a_dim al, a_cat al) (vars f)) /\
  (forall sh, In sh shapes -> (Z.of_nat (entries sh) <= 2 ^ 31)%Z) /\ (forall al, In al aliases -> 1 <= a_dim al).
Proof.
  cbv zeta. split; [|split; [repeat split|split; [repeat split|]]].
  - split.
    + apply Permutation_refl.
    + reflexivity.
    + cbn [In]. intros al [<-|[<-|[<-|[]]]]; cbn; lia.
    + cbn [In]. intros al [<-|[<-|[<-|[]]]]; [exists [2; 1]|exists [1; 5]|exists [2; 5]]; (split; [repeat (constructor; [auto; fail|]); constructor|reflexivity]).
    + intros [|[|q]] Hq; [right|right|cbn in Hq; lia]; (split; [cbn; lia|]).
      * exists [2; 1; 4; 3]. split; [cbn; auto|reflexivity].
      * exists [1; 5; 6; 3]. split; [cbn; auto|reflexivity].
    + right. exists {| a_cat := 0; a_dim := 3; a_pos := 0 |}. split; [left; reflexivity|reflexivity].
    + right. exists {| a_cat := 1; a_dim := 3; a_pos := 1 |}. split; [right; left; reflexivity|reflexivity].
    + exists {| a_cat := 0; a_dim := 3; a_pos := 0 |}. split; [left; reflexivity|cbn; lia].
  - split.
    { intros a. destruct (Z.eqb a 2); [cbn; lia|]. destruct (Z.eqb a 1); cbn; lia. }
    split.
    { intros a d c H. cbn in H. destruct H as [H|[H|[H|[]]]]; inversion H; subst.
      - eexists. split; [left; reflexivity|]. repeat split.
      - eexists. split; [right; left; reflexivity|]. repeat split.
      - eexists. split; [right; right; left; reflexivity|]. repeat split. }
    split.
    { cbn. intros al [<-|[<-|[<-|[]]]]; cbn; auto. }
    split.
    { cbn [In]. intros sh [<-|[<-|[<-|[]]]]; cbn; lia. }
    cbn [In]. intros al [<-|[<-|[<-|[]]]]; cbn; lia.
Qed.

(** A second i variable with fewer rows than the first: accepted with 5 rows, and 2 rows of 3 numbers are less
    than 5 rows of 3 numbers. *)
Example C39_too_small_case :
  let aliases := [{| a_cat := 0; a_dim := 3; a_pos := 0 |}; {| a_cat := 1; a_dim := 3; a_pos := 1 |};
                  {| a_cat := 0; a_dim := 3; a_pos := 2 |}] in
  let shapes := [[5; 3]; [4; 3]; [2; 3]] in
  call aliases shapes = Ok {| p_nx := 5; p_ny := 4; p_ranges := false; p_batch := [] |} /\ entries [2; 3] < rows_read 0 5 4 * 3.
Proof. cbv zeta. split; [reflexivity|cbn; lia]. Qed.

(** Two i arrays of 5 and 6 rows. *)
Example C39_lazy_case :
  let x := LArray "float32" 1 [5; 1; 3]%Z None in let y := LArray "float32" 2 [6; 1; 3]%Z None in
  (exists l, LazyTensors.lt_array "float32" 1 [5; 1; 3]%Z None = Ok l /\ LazyTensors.ni l = Some 5%Z) /\
  (exists l, LazyTensors.lt_array "float32" 2 [6; 1; 3]%Z None = Ok l /\ LazyTensors.ni l = Some 6%Z) /\
  construct (LBin "+" true None LazyTensors.DSameOr1 None false x y) = KErr /\
  exists l, construct (LBin "+" true None LazyTensors.DSameOr1 None false x x) = Ok l.
Proof.
  cbv zeta. split; [|split; [|split]].
  - eexists. split; reflexivity.
  - eexists. split; reflexivity.
  - reflexivity.
  - eexists. reflexivity.
Qed.
