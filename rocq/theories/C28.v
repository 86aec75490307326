(** C28: batch shapes are combined as in NumPy. *)

From Coq Require Import ZArith List.
From Verif Require Import Result Broadcast BroadcastSpec C28Proofs.
Import ListNotations.
Open Scope Z_scope.

(** Compatible shapes give the broadcast shape, the others raise.  Partial: dimensions are
    positive; see the refutation below for zero. *)
Theorem C28_shape_partial : forall a b, positive a -> positive b ->
  (compatible a b -> exists c, check_broadcasting (Some a) (Some b) = Ok (Some c) /\ broadcasts a b c)
  /\ (~ compatible a b -> check_broadcasting (Some a) (Some b) = KErr).
Proof. exact combined. Qed.
Print Assumptions C28_shape_partial.

Example C28_shape_case : broadcasts [4; 1; 3] [5; 1] [4; 5; 3] /\ ~ compatible [4; 2] [4; 3].
Proof. exact example_case. Qed.

(** The combination is commutative, for all dimensions. *)
Theorem C28_commutative : forall a b, check_broadcasting a b = check_broadcasting b a.
Proof. exact check_comm. Qed.
Print Assumptions C28_commutative.

Example C28_commutative_case :
  check_broadcasting (Some [3]) (Some [2; 1]) = Ok (Some [2; 3])
  /\ check_broadcasting (Some [3]) (Some [2; 2]) = KErr.
Proof. split; reflexivity. Qed.

(** It is associative, errors included.  Partial: positive dimensions. *)
Theorem C28_associative_partial : forall a b c,
  positive_opt a -> positive_opt b -> positive_opt c ->
  (do x <- check_broadcasting a b ; check_broadcasting x c)
  = (do y <- check_broadcasting b c ; check_broadcasting a y).
Proof. exact check_assoc. Qed.
Print Assumptions C28_associative_partial.

Example C28_associative_case :
  (do x <- check_broadcasting (Some [3]) (Some [2; 1]) ; check_broadcasting x (Some [7; 1; 1]))
  = Ok (Some [7; 2; 3])
  /\ (do x <- check_broadcasting (Some [3]) (Some [2; 1]) ; check_broadcasting x (Some [7])) = KErr.
Proof. split; reflexivity. Qed.

(** The output of a reduction has the shape broadcast from the batch shapes of all
    its arguments.  Partial: positive dimensions, arguments padded to the
    same number of batch dimensions (as fixvariables does). *)
Theorem C28_output_partial : forall n args c,
  (forall s, In s args -> (n <= length s)%nat /\ positive (firstn n s)) ->
  broadcasts_all (map (firstn n) args) c -> genred_batch n args = Ok c.
Proof. exact genred_batch_ok. Qed.
Print Assumptions C28_output_partial.

Example C28_output_case :
  broadcasts_all (map (firstn 2) [[3; 1; 10; 2]; [1; 4; 20; 2]; [1; 1; 7]]) [3; 4].
Proof. exact example_all. Qed.

(** With an empty batch dimension the result is not the one of NumPy, and combining is not
    associative. *)
Theorem C28_zero_refuted :
  broadcasts [0] [1] [0]
  /\ check_broadcasting (Some [0]) (Some [1]) = Ok (Some [1])
  /\ (do x <- check_broadcasting (Some [0]) (Some [1]) ; check_broadcasting x (Some [5]))
     = Ok (Some [5])
  /\ (do y <- check_broadcasting (Some [1]) (Some [5]) ; check_broadcasting (Some [0]) y) = KErr.
Proof. exact zero_refuted. Qed.
Print Assumptions C28_zero_refuted.
