(** C58: the texts of gradients and tangents, and derivatives of any order. *)

From Coq Require Import ZArith Reals Lia List Bool String.
From Verif Require Import Result Aliases Formula GradSpec KernelSum KernelSumSpec RedGrad Simplify PyRead RedText BackText BackSpec C58Proofs C58Written.
Import ListNotations.
Local Open Scope nat_scope.

(** The engine makes one reduction of given parameters. *)
Theorem C58_one_reduction : forall p R R', engine_makes p R -> engine_makes p R' -> R = R'.
Proof. exact makes_unique. Qed.
Print Assumptions C58_one_reduction.

Example C58_one_reduction_case : engine_makes case_params (RSum case_red) /\ engine_makes lse_params (RLse (Var 0 1 0) (Var 1 1 1) 0).
Proof. exact (conj case_makes lse_makes). Qed.

(** The text that a backward pass writes for an argument is read by the engine as the transposed derivative, with
    respect to the variable of this argument, of the reduction that it makes of the text it was given: the incoming
    gradient and the saved output are the two variables after the arguments. *)
Theorem C58_text : forall p R needs k a, pass p R needs k a -> (1 <= a_dim a)%Z -> (0 <= a_cat a)%Z ->
  (1 <= red_dim R)%Z -> (0 <= red_tag R)%Z -> forall R', engine_makes (a_params a) R' <->
    red_DiffT R (Var (a_pos a) (Z.to_nat (a_dim a)) (Z.to_nat (a_cat a)))
      (Var (Z.of_nat (List.length needs)) (Z.to_nat (red_dim R)) (Z.to_nat (red_tag R)))
      (Var (Z.of_nat (List.length needs) + 1) (Z.to_nat (red_dim R)) (Z.to_nat (red_tag R))) = Ok R'.
Proof. exact pass_text. Qed.
Print Assumptions C58_text.

Example C58_text_case :
  pass case_params (RSum case_red) [true; true] 0 {| a_pos := 0; a_dim := 1; a_cat := 0; a_params := case_first |}
  /\ p_formula case_first = "Grad_WithSavedForward(Sum_Reduction(Square(x)*y,0),Var(0,1,0),Var(2,1,0),Var(3,1,0))"%string
  /\ engine_makes case_first (RSum case_red1).
Proof. exact (conj case_pass (conj eq_refl case_makes1)). Qed.

(** The same for tangents. *)
Theorem C58_tangent_text : forall p R given k a, jvp_pass p R given k a -> (1 <= a_dim a)%Z -> (0 <= a_cat a)%Z ->
  (1 <= red_dim R)%Z -> (0 <= red_tag R)%Z -> forall R', engine_makes (a_params a) R' <->
    red_Diff R (Var (a_pos a) (Z.to_nat (a_dim a)) (Z.to_nat (a_cat a)))
      (Var (Z.of_nat (List.length given)) (Z.to_nat (a_dim a)) (Z.to_nat (a_cat a)))
      (Var (Z.of_nat (List.length given) + 1) (Z.to_nat (red_dim R)) (Z.to_nat (red_tag R))) = Ok R'.
Proof. exact jvp_text. Qed.
Print Assumptions C58_tangent_text.

Example C58_tangent_text_case :
  jvp_pass case_first (RSum case_red1) [true; false; false; false] 0
    {| a_pos := 0; a_dim := 1; a_cat := 0; a_params := case_tangent |}
  /\ exists r, engine_makes case_tangent (RSum r) /\ stagI r = 0.
Proof. exact (conj case_jvp case_makes3). Qed.

(** From an operation on regular formulas, after any number of passes that each differentiate with respect to any
    argument (also the incoming gradients of the passes before), what one more pass returns for the argument [k] is the
    gradient for it of the sum that the last operation computes: derivatives of any order.  Partial: when the engine
    accepts the text; the positions are the places in the list; exact real arithmetic; no batch dimensions. *)
Theorem C58_orders_partial : forall decl A M N, 0 < M -> 0 < N -> forall p R0 q r needs k a R',
  engine_makes p R0 -> regular_red decl A M N R0 -> orders p q ->
  pass q (RSum r) needs k a -> aligned decl (p_aliases (a_params a)) -> engine_makes (a_params a) R' ->
  exists rd, R' = RSum rd /\ gradient_of decl A M N r (Z.of_nat (List.length needs)) (Z.of_nat k) rd.
Proof. exact orders_gradient. Qed.
Print Assumptions C58_orders_partial.

(** A second derivative: first x then y, of the sum of x^2 y. *)
Example C58_orders_case :
  (forall A M N, regular_red case_decl A M N (RSum case_red)) /\ engine_makes case_params (RSum case_red)
  /\ orders case_params case_first
  /\ pass case_first (RSum case_red1) [false; true; true; false] 1 {| a_pos := 1; a_dim := 1; a_cat := 1; a_params := case_second |}
  /\ aligned case_decl (p_aliases case_second) /\ engine_makes case_second (RSum case_red2)
  /\ sformula case_red2 = Bin BMult (Int 2) (Bin BMult (Var 2 1 0) (Bin BMult (Var 0 1 0) (Var 4 1 0))) /\ stagI case_red2 = 1.
Proof.
  exact (conj case_regular (conj case_makes (conj case_orders (conj case_pass1 (conj case_aligned (conj case_makes2
    (conj eq_refl eq_refl))))))).
Qed.

(** Regularity is kept by all the passes: no derivative leaves the domain where the one before is differentiable. *)
Theorem C58_regular_partial : forall decl A M N, 0 < M -> 0 < N -> forall p R0 q,
  engine_makes p R0 -> regular_red decl A M N R0 -> orders p q -> aligned decl (p_aliases q) ->
  forall R, engine_makes q R -> regular_red decl A M N R.
Proof. exact orders_regular. Qed.
Print Assumptions C58_regular_partial.

Example C58_regular_case : orders case_params case_second /\ aligned case_decl (p_aliases case_second)
  /\ engine_makes case_second (RSum case_red2).
Proof. exact (conj (O_next _ _ _ _ _ _ case_orders case_pass1) (conj case_aligned case_makes2)). Qed.

(** The tangents of these operations: derivatives in the direction of the tangent given for the argument. *)
Theorem C58_tangent_partial : forall decl A M N, 0 < M -> 0 < N -> forall p R0 q r given k a R',
  engine_makes p R0 -> regular_red decl A M N R0 -> orders p q ->
  jvp_pass q (RSum r) given k a -> aligned decl (p_aliases (a_params a)) -> engine_makes (a_params a) R' ->
  exists rd, R' = RSum rd /\ tangent_of decl A M N r (Z.of_nat (List.length given)) (Z.of_nat k) rd.
Proof. exact orders_tangent. Qed.
Print Assumptions C58_tangent_partial.

Example C58_tangent_case :
  orders case_params case_first /\ aligned case_decl (p_aliases case_tangent) /\
  jvp_pass case_first (RSum case_red1) [true; false; false; false] 0
    {| a_pos := 0; a_dim := 1; a_cat := 0; a_params := case_tangent |}
  /\ exists r, engine_makes case_tangent (RSum r) /\ stagI r = 0.
Proof. exact (conj case_orders (conj case_aligned (conj case_jvp case_makes3))). Qed.

(** For a log-sum-exp reduction the pass is the one of C46. *)
Theorem C58_lse : forall decl A M N p F G t needs k a R', pass p (RLse F G t) needs k a ->
  regular_red decl A M N (RLse F G t) -> aligned decl (p_aliases (a_params a)) -> engine_makes (a_params a) R' ->
  exists rd, R' = RSum rd /\ lse_backward decl A M N F G t (Z.of_nat (List.length needs)) (Z.of_nat k) =
    Ok (collapsed (a_cat a) M (reduce_sum decl A M N rd)).
Proof. exact lse_pass. Qed.
Print Assumptions C58_lse.

Example C58_lse_case :
  pass lse_params (RLse (Var 0 1 0) (Var 1 1 1) 0) [true; true] 0 {| a_pos := 0; a_dim := 1; a_cat := 0; a_params := lse_second |}
  /\ exists r, engine_makes lse_second (RSum r).
Proof. exact (conj lse_case_pass lse_makes1). Qed.

(** Derivatives of constants are zero, of the shape of the argument. *)
Theorem C58_zero : forall decl A M N, 0 < M -> 0 < N -> forall p R0 q d t needs k a R',
  engine_makes p R0 -> regular_red decl A M N R0 -> orders p q ->
  pass q (RZero d t) needs k a -> aligned decl (p_aliases (a_params a)) -> engine_makes (a_params a) R' ->
  R' = RZero (Z.to_nat (a_dim a)) (Nat.modulo (Z.to_nat (a_cat a)) 2).
Proof. exact orders_zero. Qed.
Print Assumptions C58_zero.

Example C58_zero_case :
  (exists o, engine_makes arg_params (ROther o None) /\ ro_id o = "ArgMin_Reduction"%string /\
    (forall A M N, regular_red case_decl A M N (ROther o None)) /\
    pass arg_params (ROther o None) [true; true] 0 {| a_pos := 0; a_dim := 1; a_cat := 0; a_params := arg_first |} /\
    engine_makes arg_first (RZero 1 0))
  /\ pass arg_first (RZero 1 0) [true; true; false; false] 1 {| a_pos := 1; a_dim := 1; a_cat := 1; a_params := arg_second |}
  /\ engine_makes arg_second (RZero 1 1).
Proof. exact (conj arg_makes (conj arg_pass arg_makes2)). Qed.

(** With explicit positions in another order than the list, which the declarations allow, the gradient returned at
    the first place is the one of another argument. *)
Theorem C58_positions_refuted : exists decl A p r needs a rd,
  pass p (RSum r) needs 0 a /\ regular_red decl A 1 1 (RSum r) /\
  (exists l, get_types 0 (p_aliases p) = Ok l /\ forall x, In x l -> exists z, ar_pos x = Some z /\
     decl z = (Z.to_nat (ar_dim x), Z.to_nat (ar_cat x))) /\
  engine_makes (a_params a) (RSum rd) /\
  ~ gradient_of decl A 1 1 r (Z.of_nat (List.length needs)) 0 rd.
Proof. exact permuted. Qed.
Print Assumptions C58_positions_refuted.

Example C58_positions_case : pass perm_params (RSum perm_red) [true; true] 0
    {| a_pos := 1; a_dim := 1; a_cat := 0; a_params := perm_second |}
  /\ p_aliases perm_params = ["x=Vi(1,1)"; "y=Vj(0,1)"]%string.
Proof. exact (conj perm_pass eq_refl). Qed.

(** The flag that keeps the fast scheme for the multiplied variable is lost in a backward pass when an argument before it
    needs a gradient too, because the loop writes it on the shared parameters; not in the loop of tangents. *)
Theorem C58_flag_refuted : exists p dimout tag calls p' tangents a b,
  p_highdim p = FInt 1 /\ backward_calls p dimout tag [true; true] = Ok (calls, p') /\
  jvp_calls p dimout tag [true; true] = Ok tangents /\
  nth_error calls 1 = Some (Some a) /\ nth_error tangents 1 = Some (Some b) /\ a_pos a = 1%Z /\ a_pos b = 1%Z /\
  p_highdim (a_params a) = FNone /\ p_highdim (a_params b) = FInt 2 /\ p_highdim p' = FNone.
Proof. exact flag_lost. Qed.
Print Assumptions C58_flag_refuted.

Example C58_flag_case :
  let p := {| p_formula := "Sum_Reduction(Exp(x)*y,0)"; p_aliases := ["x=Vi(0,1)"; "y=Vj(1,200)"]; p_highdim := FInt 1 |}%string in
  exists calls p' a, backward_calls p 200 0 [false; true] = Ok (calls, p') /\ nth_error calls 1 = Some (Some a)
    /\ p_highdim (a_params a) = FInt 2.
Proof. do 3 eexists. split; [reflexivity|]. split; reflexivity. Qed.

(** Tangents of constants are zero, of the shape of the output. *)
Theorem C58_zero_tangent : forall p R given k a R', jvp_pass p R given k a -> (1 <= a_dim a)%Z -> (0 <= a_cat a)%Z ->
  (1 <= red_dim R)%Z -> (0 <= red_tag R)%Z ->
  (exists d t, R = RZero d t) \/ (exists o x, R = ROther o x) -> engine_makes (a_params a) R' ->
  R' = RZero (Z.to_nat (red_dim R)) (Z.to_nat (red_tag R)).
Proof. exact zero_tangent. Qed.
Print Assumptions C58_zero_tangent.

Example C58_zero_tangent_case : exists o, jvp_pass arg_params (ROther o None) [false; true] 1
    {| a_pos := 1; a_dim := 1; a_cat := 1; a_params := arg_tangent |} /\ ro_dim o = 1%Z /\ ro_tag o = 0%Z /\ engine_makes arg_tangent (RZero 1 0).
Proof. exact arg_jvp. Qed.

(** The text that Genred writes for a log-sum-exp of a formula F weighted by a formula G is read by the engine as the
    log-sum-exp of F with weights G, over the axis. *)
Theorem C58_lse_text : forall op F G ef eg ax t al hd X, op = "LogSumExp"%string \/ op = "LogSumExpWeight"%string -> G <> ""%string ->
  reads F ef -> reads G eg -> red_text op F None ax G = Ok t ->
  engine_makes {| p_formula := t; p_aliases := al; p_highdim := hd |} X ->
  exists al' names f g, engine_aliases 0 None None al = Ok al' /\ dictionary (fun _ => None) al' names /\
    evaluate names ef = Ok (VF f) /\ evaluate names eg = Ok (VF g) /\ X = RLse f g (Z.to_nat (1 - ax)).
Proof. exact lse_written. Qed.
Print Assumptions C58_lse_text.

Example C58_lse_text_case : red_text "LogSumExp" "x" None 1 "y" = Ok (p_formula lse_params) /\
  exists al' names f g, engine_aliases 0 None None (p_aliases lse_params) = Ok al' /\ dictionary (fun _ => None) al' names /\
    evaluate names (PName "x") = Ok (VF f) /\ evaluate names (PName "y") = Ok (VF g) /\ RLse (Var 0 1 0) (Var 1 1 1) 0 = RLse f g 0.
Proof.
  split; [reflexivity|].
  exact (C58_lse_text "LogSumExp" "x" "y" _ _ 1 _ _ _ _ (or_introl eq_refl) ltac:(discriminate) x_read y_read eq_refl lse_makes).
Qed.

(** The same for a soft-max: the weights are 1, then the ones of G. *)
Theorem C58_softmax_text : forall op F G ef eg ax t al hd X, op = "SumSoftMaxWeight"%string \/ op = "SoftMax"%string -> G <> ""%string ->
  reads F ef -> reads G eg -> red_text op F None ax G = Ok t ->
  engine_makes {| p_formula := t; p_aliases := al; p_highdim := hd |} X ->
  exists al' names f g h, engine_aliases 0 None None al = Ok al' /\ dictionary (fun _ => None) al' names /\
    evaluate names ef = Ok (VF f) /\ evaluate names eg = Ok (VF g) /\ X = RLse f h (Z.to_nat (1 - ax)) /\
    dim h = S (dim g) /\ forall e, eval h e 0 = 1%R /\ forall k, k < dim g -> eval h e (S k) = eval g e k.
Proof. exact soft_written. Qed.
Print Assumptions C58_softmax_text.

Example C58_softmax_text_case : red_text "SumSoftMaxWeight" "x" None 0 "y" = Ok (p_formula soft_params) /\
  engine_makes soft_params (RLse (Var 0 1 0) (Cat (IntCst 1) (Var 1 1 1)) 1).
Proof. exact (conj eq_refl soft_makes). Qed.
