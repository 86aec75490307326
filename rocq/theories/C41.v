(** C41 -- gradients of broadcast batch arguments have the shape of the argument. *)

From Coq Require Import Reals List Arith.
From Verif Require Import Result BackShape BackShapeSpec C41Proofs.
Import ListNotations.
Local Open Scope nat_scope.

(** The gradient given to PyTorch for a variable of batch shape [Ba], when the engine has returned a gradient of batch
    shape [B], has the shape of the variable, and each entry is the sum of the gradients over the indices at which this
    entry was read. *)
Theorem C41_variable : forall cat Ba B M D g, cat <> 2 -> stretches Ba B ->
  exists out, finish_grad cat (Ba ++ [M; D]) {| shape := B ++ [M; D]; data := g |} = Ok out /\
    shape out = Ba ++ [M; D] /\
    forall idx, In idx (all_indices (Ba ++ [M; D])) ->
      at_index (Ba ++ [M; D]) (data out) idx
      = gathered (Ba ++ [M; D]) (B ++ [M; D]) (at_index (B ++ [M; D]) g) idx.
Proof. exact variable_grad. Qed.
Print Assumptions C41_variable.

(** The same for a parameter, which is read by all the rows. *)
Theorem C41_parameter : forall Ba B M D g, stretches Ba B ->
  exists out, finish_grad 2 (Ba ++ [D]) {| shape := B ++ [M; D]; data := g |} = Ok out /\
    shape out = Ba ++ [D] /\
    forall ba d, In ba (all_indices Ba) -> d < D ->
      at_index (Ba ++ [D]) (data out) (ba ++ [d])
      = gathered (Ba ++ [1; D]) (B ++ [M; D]) (at_index (B ++ [M; D]) g) (ba ++ [0; d]).
Proof. exact parameter_grad. Qed.
Print Assumptions C41_parameter.

Example C41_shapes_case : stretches [1; 3; 2] [4; 3; 2] /\
  gathered [1; 2] [3; 2] (fun p => INR (nth 0 p 0 + 10 * nth 1 p 0)) [0; 1] = INR 33.
Proof.
  split; [constructor; [right; auto|]; constructor; [left; auto|]; constructor; [left; auto|constructor]|]. unfold gathered, sum_over.
  change (filter (fun p => same_index (seen [1; 2] p) [0; 1]) (all_indices [3; 2])) with [[0; 1]; [1; 1]; [2; 1]].
  cbn. ring.
Qed.

(** So it is the gradient: if the numbers returned by the engine are the derivatives of a function of independent copies
    of the argument, the numbers given to PyTorch are the derivatives of the function of the argument. *)
Theorem C41_variable_gradient : forall cat Ba B M D F x g, cat <> 2 -> stretches Ba B ->
  gradient_at (B ++ [M; D]) F (fun p => x (seen (Ba ++ [M; D]) p)) (at_index (B ++ [M; D]) g) ->
  exists out, finish_grad cat (Ba ++ [M; D]) {| shape := B ++ [M; D]; data := g |} = Ok out /\
    shape out = Ba ++ [M; D] /\
    gradient_at (Ba ++ [M; D]) (fun y => F (fun p => y (seen (Ba ++ [M; D]) p))) x
      (at_index (Ba ++ [M; D]) (data out)).
Proof. exact variable_gradient. Qed.
Print Assumptions C41_variable_gradient.

Theorem C41_parameter_gradient : forall Ba B M D F x g, stretches Ba B -> 1 <= M ->
  gradient_at (B ++ [M; D]) F (fun p => x (seen (Ba ++ [D]) (drop_row p))) (at_index (B ++ [M; D]) g) ->
  exists out, finish_grad 2 (Ba ++ [D]) {| shape := B ++ [M; D]; data := g |} = Ok out /\
    shape out = Ba ++ [D] /\
    gradient_at (Ba ++ [D]) (fun y => F (fun p => y (seen (Ba ++ [D]) (drop_row p)))) x
      (at_index (Ba ++ [D]) (data out)).
Proof. exact parameter_gradient. Qed.
Print Assumptions C41_parameter_gradient.

(** A linear function of the copies and its derivatives. *)
Example C41_gradient_case :
  gradient_at ([2] ++ [1; 1]) (fun z => z [0; 0; 0]%nat + 3 * z [1; 0; 0]%nat)%R (fun _ => 0%R)
    (at_index ([2] ++ [1; 1]) (fun i => if i =? 0 then 1%R else 3%R)).
Proof. exact gradient_case. Qed.

(** Shapes are compared from the first dimension: a parameter without batch dimensions, used with arrays that have
    one, receives an error instead of a gradient. *)
Theorem C41_unpadded_refuted : forall B M D g, 2 <= B -> 1 <= D ->
  finish_grad 2 [D] {| shape := [B; M; D]; data := g |} = PyErr.
Proof. exact unpadded. Qed.
Print Assumptions C41_unpadded_refuted.
