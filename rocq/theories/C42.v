(** C42 -- the shape announced by a symbolic tensor is the shape of what the engine computes. *)

From Coq Require Import ZArith List Bool String.
From Verif Require Import Result Formula LazyTensors Methods MethodsSpec Build Diff GradSpec C42Proofs DotProofs C42More.
Import ListNotations.
Open Scope string_scope.

(** The formula of a symbolic tensor, made by any sequence of methods, is the text of the engine expression [t]; if the
    engine accepts [t], it computes the announced dimension. *)
Theorem C42_announced : forall l t d, made l t ->
  formula l = written t /\ (engine_dim t = Ok d -> ndim l = d).
Proof. exact announced. Qed.
Print Assumptions C42_announced.

(** Except for the operations whose arguments are checked by the engine only, it is always accepted. *)
Theorem C42_accepted : forall l t, made l t -> checked t = true -> engine_dim t = Ok (ndim l).
Proof. exact accepted_early. Qed.
Print Assumptions C42_accepted.

(** The attribute [shape] is the shape of the values: batch dimensions, rows, columns, and the dimension computed by the
    engine, left out when it is 1. *)
Theorem C42_shape : forall l t d, made l t -> engine_dim t = Ok d ->
  lt_shape l = shape_of (match batchdims l with Some b => b | None => [] end) (rows (ni l)) (rows (nj l)) d.
Proof. exact shapes. Qed.
Print Assumptions C42_shape.

(** For the operations of Formula, the formula built by the engine, after its simplifications, is well formed and has
    the announced dimension. *)
Theorem C42_formula : forall l t f h d, made l t -> as_formula t = Some f -> engine_dim t = Ok d -> build f = Ok h ->
  wf h /\ Z.of_nat (dim h) = ndim l.
Proof. exact built_dim. Qed.
Print Assumptions C42_formula.

(** (x - y) of dimension 3, its squared norm, a Gaussian, times a matrix of 2 lines applied to a vector. *)
Example C42_case :
  let x := lt_floats 0 3 in let y := lt_floats 1 3 in let a := lt_floats 2 6 in
  let tx := TVar 0 3 2 in let ty := TVar 1 3 2 in let ta := TVar 2 6 2 in
  exists d n m g,
    m_arith Asub false x y = Ok d /\ m_sqdist x y = Ok n /\ m_matvec a d = Ok m /\
    m_arith Amul false (m_map Mexp (m_map Mminus n)) m = Ok g /\
    let t := TOp "*" (T1 "Exp" (T1 "Minus" (T2 "SqDist" tx ty []) []) []) (T2 "MatVecMult" ta (TOp "-" tx ty) []) in
    made g t /\ engine_dim t = Ok 2%Z /\ lt_shape g = [1; 1; 2]%Z /\
    formula g = "(Exp(Minus(SqDist(Var(0,3,2), Var(1,3,2)))) * MatVecMult(Var(2,6,2), (Var(0,3,2) - Var(1,3,2))))".
Proof.
  intros x y a tx ty ta. do 4 eexists. split; [vm_compute; reflexivity|]. split; [vm_compute; reflexivity|].
  split; [vm_compute; reflexivity|]. split; [vm_compute; reflexivity|].
  split; [|split; [vm_compute; reflexivity|split; vm_compute; reflexivity]].
  assert (X : made x tx) by (apply made_floats; discriminate). assert (Y : made y ty) by (apply made_floats; discriminate).
  assert (A : made a ta) by (apply made_floats; discriminate).
  refine (made_arith Amul _ _ _ _ _ (made_map Mexp _ _ (made_map Mminus _ _ (made_sqdist x tx y ty _ X Y _)))
    (made_matvec a ta _ _ _ A (made_arith Asub x tx y ty _ X Y _) _) _); vm_compute; reflexivity.
Qed.

(** A matrix of 6 numbers cannot be applied to a vector of 4: the front end announces a dimension, the engine raises. *)
Example C42_late_case : exists m, m_matvec (lt_floats 0 6) (lt_floats 1 4) = Ok m /\
  engine_dim (T2 "MatVecMult" (TVar 0 6 2) (TVar 1 4 2) []) = KErr /\ ndim m = 1%Z.
Proof. eexists. split; [reflexivity|]. split; reflexivity. Qed.

(** Gradients.  Partial: the expression and the variable are not nested gradients, and a function of two arguments
    other than + - * / does not mix dimensions (see below). *)
Theorem C42_gradient_partial : forall l t f v i d c e u g r h,
  made l t -> as_formula t = Some f -> engine_dim t = Ok (ndim l) ->
  made v (TVar i d c) -> made e u -> as_formula u = Some g -> engine_dim u = Ok (ndim e) ->
  m_grad l v e = Ok r ->
  consistent i (Z.to_nat d) (Z.to_nat c) f -> unmixed f ->
  DiffT f (Var i (Z.to_nat d) (Z.to_nat c)) g = Ok h ->
  formula r = "Grad(" ++ written t ++ ", " ++ written (TVar i d c) ++ ", " ++ written u ++ ")"
  /\ Z.of_nat (dim h) = ndim r.
Proof. exact gradient_dim. Qed.
Print Assumptions C42_gradient_partial.

Example C42_gradient_case :
  let x := lt_floats 0 1 in let y := lt_floats 1 3 in
  exists l r h, m_arith Amul false x y = Ok l /\ made l (TOp "*" (TVar 0 1 2) (TVar 1 3 2)) /\
    m_grad l x (lt_floats 2 3) = Ok r /\ ndim r = 1%Z /\
    consistent 0 1 2 (Bin BMult (Var 0 1 2) (Var 1 3 2)) /\ unmixed (Bin BMult (Var 0 1 2) (Var 1 3 2)) /\
    DiffT (Bin BMult (Var 0 1 2) (Var 1 3 2)) (Var 0 1 2) (Var 2 3 2) = Ok h.
Proof.
  do 3 eexists. split; [reflexivity|]. split.
  { eapply (made_arith Amul (lt_floats 0 1) _ (lt_floats 1 3)); [(apply made_floats; discriminate)|(apply made_floats; discriminate)|reflexivity]. }
  split; [reflexivity|]. split; [reflexivity|]. split; [cbn; split; intros; try split; congruence|].
  split; [cbn; auto|]. lazy. reflexivity.
Qed.

(** Atan2 of a number and a vector of dimension 3, derived with respect to the number: the announced dimension is 1, the
    formula of the engine has dimension 3. *)
Theorem C42_gradient_refuted : exists l r h,
  made l (T2 "Atan2" (TVar 0 1 2) (TVar 1 3 2) []) /\ m_grad l (lt_floats 0 1) (lt_floats 2 3) = Ok r /\
  DiffT (Bin BAtan2 (Var 0 1 2) (Var 1 3 2)) (Var 0 1 2) (Var 2 3 2) = Ok h /\ ndim r = 1%Z /\ dim h = 3.
Proof. exact gradient_atan2. Qed.
Print Assumptions C42_gradient_refuted.

(** The text written by [grad_matrix] contains the end of a line, which no expression accepted by the engine does. *)
Theorem C42_grad_matrix_refuted : forall rest l v t d, engine_dim t = Ok d ->
  formula (m_grad_matrix rest l v) <> written t.
Proof. exact grad_matrix_text. Qed.
Print Assumptions C42_grad_matrix_refuted.

(** [difference_matrix] writes an operation that the engine does not have. *)
Theorem C42_difference_matrix_refuted : forall l t l' t' r, made l t -> made l' t' -> m_difference_matrix l l' = Ok r ->
  formula r = written (T2 "DifferenceMatrix" t t' []) /\
  forall d, engine_dim (T2 "DifferenceMatrix" t t' []) <> Ok d.
Proof. exact difference_matrix_unknown. Qed.
Print Assumptions C42_difference_matrix_refuted.

Example C42_difference_matrix_case : exists r, m_difference_matrix (lt_floats 0 3) (lt_floats 1 2) = Ok r /\ ndim r = 6%Z.
Proof. eexists. split; reflexivity. Qed.
