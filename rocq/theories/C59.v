(** C59: derivatives of any order are always built for formulas without rational constants. *)

From Coq Require Import ZArith Reals Lia List Bool String.
From Verif Require Import Result Aliases Formula Simplify Diff GradSpec KernelSum KernelSumSpec PyRead RedText BackText BackSpec
  C58Proofs GradReadySpec GradReady C59Proofs.
Import ListNotations.
Local Open Scope nat_scope.

(** The gradient of a lasting formula with respect to any variable is built without an exception, has the dimension of the
    variable, and is a lasting formula: it can be differentiated again.  Partial: [lasting] leaves out rational
    constants, roots, Asin, Acos, Clamp and Mod. *)
Theorem C59_gradient_partial : forall f i d c g, 1 <= d -> wf f -> lasting f -> wf g -> lasting g -> dim g = dim f ->
  exists h, DiffT f (Var i d c) g = Ok h /\ wf h /\ lasting h /\ dim h = d.
Proof. exact DiffT_lasting. Qed.
Print Assumptions C59_gradient_partial.

(** exp(-|x-y|^2) / (1 + |x-y|^2) b, and the atan2 and the power of two variables. *)
Example C59_gradient_case :
  let s := Lin LSum (Un USquare (Bin BSub (Var 0 3 0) (Var 1 3 1))) in
  let f := Bin BMult (Bin BDiv (Un UExp (Un UMinus s)) (Bin BAdd (Int 1) s)) (Var 2 2 1) in
  wf f /\ lasting f /\ dim f = 2 /\ wf (Bin BAtan2 (Var 0 3 0) (Var 1 3 1)) /\ lasting (Bin BAtan2 (Var 0 3 0) (Var 1 3 1))
  /\ lasting (Bin BPowf (Var 0 3 0) (Var 1 3 1)).
Proof. cbn. repeat split; discriminate. Qed.

(** Through any number of backward passes, each for any argument, the engine accepts the text that the pass writes. *)
Theorem C59_orders_partial : forall decl p R0 q, engine_makes p R0 -> lasting_red R0 -> orders p q ->
  aligned decl (p_aliases q) -> exists R, engine_makes q R /\ lasting_red R.
Proof. exact orders_lasting. Qed.
Print Assumptions C59_orders_partial.

Example C59_orders_case : engine_makes case_params (RSum case_red) /\ lasting_red (RSum case_red) /\ orders case_params case_second
  /\ aligned case_decl (p_aliases case_second) /\ lasting_red (RLse (Var 0 1 0) (Var 1 1 1) 0)
  /\ engine_makes lse_params (RLse (Var 0 1 0) (Var 1 1 1) 0).
Proof.
  split; [exact case_makes|]. split; [cbn; repeat split; lia|].
  split; [exact (O_next _ _ _ _ _ _ case_orders case_pass1)|]. split; [exact case_aligned|].
  split; [cbn; repeat split; lia|exact lse_makes].
Qed.

(** With C58: the gradient of each pass exists and is right. *)
Theorem C59_exists_partial : forall decl A M N, 0 < M -> 0 < N -> forall p R0 q r needs k a,
  engine_makes p R0 -> regular_red decl A M N R0 -> lasting_red R0 -> orders p q ->
  pass q (RSum r) needs k a -> aligned decl (p_aliases (a_params a)) ->
  exists rd, engine_makes (a_params a) (RSum rd) /\ gradient_of decl A M N r (Z.of_nat (List.length needs)) (Z.of_nat k) rd.
Proof. exact orders_exist. Qed.
Print Assumptions C59_exists_partial.

Example C59_exists_case :
  (forall A M N, regular_red case_decl A M N (RSum case_red)) /\ lasting_red (RSum case_red)
  /\ pass case_first (RSum case_red1) [false; true; true; false] 1 {| a_pos := 1; a_dim := 1; a_cat := 1; a_params := case_second |}.
Proof. split; [exact case_regular|]. split; [cbn; repeat split; lia|exact case_pass1]. Qed.

(** With rational constants it can fail: x/2 + z + 3 x is a formula, smooth everywhere, whose gradient for x raises
    AttributeError, in Add (Add.py lines 71-74) for the constants 1/2 and 3. *)
Theorem C59_rational_refuted : exists f i d c g,
  (do h <- Divide (Var 0 3 0) (Int 2) ; do s <- Add h (Var 1 3 1) ; do t <- Mult (Int 3) (Var 0 3 0) ; Add s t) = Ok f /\
  wf f /\ consistent i d c f /\ unmixed f /\ wf g /\ dim g = dim f /\ (forall e, smooth e f) /\ DiffT f (Var i d c) g = PyErr.
Proof. exact rational. Qed.
Print Assumptions C59_rational_refuted.

(** The gradient for z is built. *)
Example C59_rational_case : DiffT half_formula (Var 1 3 1) (Var 2 3 0) = Ok (Var 2 3 0).
Proof. lazy. reflexivity. Qed.
