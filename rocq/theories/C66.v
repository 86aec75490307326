(** * C66: functions on the symbolic tensors of the R interface.

    The claim (a call of the functions of R on symbolic tensors, numbers and vectors stands for the mathematical function
    of its name, coordinate by coordinate; the announced dimension is the one of the result; the call is accepted when its
    arguments fit) holds for all calls of the functions of RMethods ([C66_value], [C66_accepted], and with the reductions
    of C65 [C66_reduction_partial], [C66_weighted_partial]).
    It is false for extractT, which accepts one coordinate too many ([C66_extractT_refuted]) and announces the dimension of
    its argument ([C66_extractT_dimension_refuted]), and for elemT, which takes any formula with an integer constant for a
    number ([C66_elemT_refuted]) and announces dimension 1 ([C66_elemT_dimension_refuted]), and for weightedsqnorm, which
    does not compare the number of weights with the dimension ([C66_weights_refuted]).
    Restricted to real tensors; one_hot is known to be accepted for parameters only. *)

From Coq Require Import ZArith Reals List Ascii String.
From Verif Require Import RedText Result BackText Keys KeySpec Aliases AliasSpec Formula Simplify Build Methods MethodsSpec PyRead PyReadSpec
  GenericOps GenericOpsSpec RKeops RKeopsSpec RLazy RLazySpec C65Proofs C65Cases RMethods RMethodsSpec C66Proofs C66Cases.
Import ListNotations.
Local Open Scope nat_scope.
Open Scope string_scope.

(** Where the functions are defined, the formula has the values of the functions at the rows of the matrices. *)
Theorem C66_value : forall c p z, program_of c = Ok p -> run p = Ok z -> objects p -> not_empty c ->
  z_dim z = Z.of_nat (size c) /\
  forall place, exists F, as_formula (term_of place p) = Some F /\ wf F /\ dim F = size c /\
    forall i j e, rows place p i j e -> defined c i j -> forall k, k < size c -> eval F e k = value c i j k.
Proof. exact values. Qed.
Print Assumptions C66_value.

Example C66_value_case : exists z, run mixed_program = Ok z /\ z_dim z = 3%Z /\
  forall place, exists F, as_formula (term_of place mixed_program) = Some F /\
    forall i j e, rows place mixed_program i j e -> eval F e 2 = value mixed i j 2.
Proof.
  destruct mixed_reduced as (z & _ & _ & R & _). destruct (C66_value mixed _ z mixed_program_of R mixed_objects mixed_not_empty) as [D V].
  exists z. split; [exact R|]. split; [exact D|]. intros place. destruct (V place) as (F & A & _ & _ & E). exists F. split; [exact A|].
  intros i j e H. apply (E i j e H (mixed_defined i j)). apply le_n.
Qed.

(** Calls whose arguments fit are accepted, with the dimension of the result. *)
Theorem C66_accepted : forall c, fitting c -> exists p z, program_of c = Ok p /\ run p = Ok z /\ z_dim z = Z.of_nat (size c).
Proof. exact accepted_claim. Qed.
Print Assumptions C66_accepted.

Example C66_accepted_case : exists p z, program_of mixed = Ok p /\ run p = Ok z /\ z_dim z = 3%Z.
Proof. exact (C66_accepted mixed mixed_fitting). Qed.

Example C66_accepted_more_case : exists p z, program_of encoded = Ok p /\ run p = Ok z /\ z_dim z = 4%Z.
Proof. exact (C66_accepted encoded encoded_fitting). Qed.

(** The engine reduces a formula with these values, on the matrices of the call. *)
Theorem C66_reduction_partial : forall c p z op index opt o l, program_of c = Ok p -> run p = Ok z -> objects p -> not_empty c ->
  reduction z op index opt = Ok (o, l) ->
  exists place F, wf F /\ dim F = size c /\
    (forall i j e, rows place p i j e -> defined c i j -> forall k, k < size c -> eval F e k = value c i j k) /\
    forall k one cls phi d, r_reduction F op opt k one cls phi d ->
    (forall a x v, In (a, x, v) (leaves p) -> exists m, nth_error l (place a x) = Some m /\ points "col" v m) /\
    exists p al, operator_text o = Ok p /\ engine_aliases 0 None None (p_aliases p) = Ok al /\
      engine_makes al (p_formula p) k one (1 - axis_of index) F cls phi d.
Proof. exact reduced_values. Qed.
Print Assumptions C66_reduction_partial.

Example C66_reduction_case : exists z o l F p al, run mixed_program = Ok z /\ reduction z "Sum" Rj NoArg = Ok (o, l) /\ dim F = 3 /\
  operator_text o = Ok p /\ engine_aliases 0 None None (p_aliases p) = Ok al /\ engine_makes al (p_formula p) None false 0 F "Sum_Reduction" F 3.
Proof.
  destruct mixed_reduced as (z & o & l & R & S & _).
  destruct (C66_reduction_partial mixed _ z _ Rj _ o l mixed_program_of R mixed_objects mixed_not_empty S) as (place & F & _ & D & _ & X).
  destruct (X _ _ _ _ _ (rr_one F "Sum" (or_introl eq_refl))) as (_ & p & al & T & L & M). rewrite D in M. cbn in D.
  exists z, o, l, F, p, al. repeat (split; [assumption|]). exact M.
Qed.

(** Also with a weight. *)
Theorem C66_weighted_partial : forall c p z w q y op index o l,
  program_of c = Ok p -> run p = Ok z -> objects p -> not_empty c -> program_of w = Ok q -> run q = Ok y -> objects q -> not_empty w ->
  reduction z op index (TensorArg y) = Ok (o, l) ->
  exists place place' F G,
    (forall a x v, In (a, x, v) (leaves p) -> exists m, nth_error l (place a x) = Some m /\ points "col" v m) /\
    (forall a x v, In (a, x, v) (leaves q) -> exists m, nth_error l (place' a x) = Some m /\ points "col" v m) /\
    wf F /\ dim F = size c /\ wf G /\ dim G = size w /\
    (forall i j e, rows place p i j e -> defined c i j -> forall k, k < size c -> eval F e k = value c i j k) /\
    (forall i j e, rows place' q i j e -> defined w i j -> forall k, k < size w -> eval G e k = value w i j k) /\
    forall K, weighted_by op G K ->
    exists p al, operator_text o = Ok p /\ engine_aliases 0 None None (p_aliases p) = Ok al /\
      engine_makes al (p_formula p) None true (1 - axis_of index) F "Max_SumShiftExpWeight_Reduction" (Cat F K) (Z.of_nat (dim F + dim K)).
Proof. exact weighted_values. Qed.
Print Assumptions C66_weighted_partial.

Example C66_weighted_case : exists z y o l F G p al, run (XScal x_i x_i) = Ok z /\ run b_j = Ok y /\
  reduction z "SumSoftMaxWeight" Rj (TensorArg y) = Ok (o, l) /\ dim F = 1 /\ dim G = 1 /\
  operator_text o = Ok p /\ engine_aliases 0 None None (p_aliases p) = Ok al /\
  engine_makes al (p_formula p) None true 0 F "Max_SumShiftExpWeight_Reduction" (Cat F (Cat (Int 1) G)) (Z.of_nat (dim F + dim (Cat (Int 1) G))).
Proof.
  destruct square_weighted as (z & y & o & l & R & R' & S).
  destruct (C66_weighted_partial (C2 Fdot xc xc) _ z (CVar "0x55f3" Rj (m1 5 1)) _ y _ Rj o l eq_refl R square_objects (conj I (conj I I)) eq_refl R' weight_objects I S)
    as (place & place' & F & G & _ & _ & _ & D & _ & D' & _ & _ & X).
  destruct (X (Cat (Int 1) G) (or_intror (conj eq_refl eq_refl))) as (p & al & T & L & M).
  exists z, y, o, l, F, G, p, al. repeat (split; [assumption|]). exact M.
Qed.

(** extractT(x, 2, 4) with three columns needs five places: R accepts, the engine refuses. *)
Theorem C66_extractT_refuted : exists x z o l p al a e, run x_i = Ok x /\ extractT x 2 4 = Ok z /\ reduction z "Sum" Rj NoArg = Ok (o, l) /\
  operator_text o = Ok p /\ p_formula p = "Sum_Reduction(ExtractT(V0,2,4),0)" /\ engine_aliases 0 None None (p_aliases p) = Ok al /\
  reads (p_formula p) e /\ dictionary al a /\ reduction_in a e = KErr.
Proof. exact extractT_accepts. Qed.
Print Assumptions C66_extractT_refuted.

(** extractT(x, 2, 7), of dimension 7, announces 3: R refuses its sum with a matrix with seven columns. *)
Theorem C66_extractT_dimension_refuted : exists x z s, run x_i = Ok x /\ run seven_i = Ok s /\ extractT x 2 7 = Ok z /\ z_dim z = 3%Z /\
  z_formula z = "ExtractT(A0x55d1i,2,7)" /\ binaryop z s "Add" false (Some SameOr1) None = KErr /\
  exists o a e, reads "Sum_Reduction(Add(ExtractT(V0,2,7),V1),0)" e /\ dictionary ["V0=Var(0,3,0)"; "V1=Var(1,7,0)"] a /\
    reduction_in a e = Ok (o, None) /\ ro_dim o = 7%Z.
Proof. exact extractT_dimension. Qed.
Print Assumptions C66_extractT_dimension_refuted.

(** elemT(x + 1, 0, 4) with three columns: x + 1 is taken for a number, the engine refuses. *)
Theorem C66_elemT_refuted : exists x z o l p al a e, run x_plus = Ok x /\ z_dim x = 3%Z /\ elemT x 0 4 = Ok z /\
  reduction z "Sum" Rj NoArg = Ok (o, l) /\
  operator_text o = Ok p /\ p_formula p = "Sum_Reduction(ElemT(Add(V0,IntCst(1)),4,0),0)" /\ engine_aliases 0 None None (p_aliases p) = Ok al /\
  reads (p_formula p) e /\ dictionary al a /\ reduction_in a e = KErr.
Proof. exact elemT_accepts. Qed.
Print Assumptions C66_elemT_refuted.

(** elemT(p, 1, 4), of dimension 4, announces 1: R refuses its scalar product with a matrix with four columns. *)
Theorem C66_elemT_dimension_refuted : exists x y z, run one_pm = Ok x /\ run four_j = Ok y /\ elemT x 1 4 = Ok z /\ z_dim z = 1%Z /\
  z_formula z = "ElemT(A0x88b5NA,4,1)" /\ scalar_product z y = KErr /\
  exists o a e, reads "Sum_Reduction((ElemT(V0,4,1)|V1),0)" e /\ dictionary ["V0=Var(0,1,2)"; "V1=Var(1,4,1)"] a /\
    reduction_in a e = Ok (o, None) /\ ro_dim o = 1%Z.
Proof. exact elemT_dimension. Qed.
Print Assumptions C66_elemT_dimension_refuted.

(** weightedsqnorm(x, s) with two weights for three coordinates: R accepts, the engine refuses. *)
Theorem C66_weights_refuted : exists p z o l q al a e, program_of (C2 Fwsqnorm xc wc) = Ok p /\ run p = Ok z /\ reduction z "Sum" Rj NoArg = Ok (o, l) /\
  operator_text o = Ok q /\ p_formula q = "Sum_Reduction(WeightedSqNorm(V0,V1),0)" /\ engine_aliases 0 None None (p_aliases q) = Ok al /\
  reads (p_formula q) e /\ dictionary al a /\ reduction_in a e = KErr.
Proof. exact weights_accepted. Qed.
Print Assumptions C66_weights_refuted.
