(** Specification for derivatives of any order. *)

From Coq Require Import ZArith Reals List String.
From Verif Require Import Result Aliases Formula GradSpec KernelSum KernelSumSpec PyRead RedText BackText.
Import ListNotations.
Local Open Scope nat_scope.

(** Each declaration of the list is the one of its place, with the dimension and category of [decl]. *)
Definition aligned (decl : declaration) (aliases : list string) : Prop :=
  exists l, get_types 0 aliases = Ok l /\ forall k a, nth_error l k = Some a ->
    ar_pos a = Some (Z.of_nat k) /\ (1 <= ar_dim a)%Z /\ (0 <= ar_cat a <= 2)%Z /\
    decl (Z.of_nat k) = (Z.to_nat (ar_dim a), Z.to_nat (ar_cat a)).

(** In a pass through the operation [p], with one flag of [needs] for each argument, the gradient for the argument at
    place [k] is asked for by the call [a]. *)
Definition pass (p : params) (R : red) (needs : list bool) (k : nat) (a : asked) : Prop :=
  engine_makes p R /\ List.length needs = List.length (p_aliases p) /\
  exists calls p', backward_calls p (red_dim R) (red_tag R) needs = Ok (calls, p') /\
    nth_error calls k = Some (Some a).

(** The operations that are reached from [p] by passes. *)
Inductive orders (p : params) : params -> Prop :=
| O_first : orders p p
| O_next q R needs k a : orders p q -> pass q R needs k a -> orders p (a_params a).

(** Formulas that the calculus covers, at all the points of the arguments. *)
Definition regular (decl : declaration) (A : arguments) (M N : nat) (f : fm) : Prop :=
  wf f /\ declared decl f /\ unmixed f /\ forall i j, i < M -> j < N -> smooth (point decl A i j) f.
Definition regular_red (decl : declaration) (A : arguments) (M N : nat) (R : red) : Prop :=
  match R with
  | RSum r => stagI r <= 1 /\ regular decl A M N (sformula r)
  | RLse F G t => t <= 1 /\ regular decl A M N F /\ regular decl A M N G
  | RZero d t => 1 <= d /\ t <= 1
  | ROther o _ => (1 <= ro_dim o)%Z /\ (0 <= ro_tag o <= 1)%Z
  end.

(** [rd] gives the gradient of the loss sum <E, output of r>, E being the incoming gradient, argument [nargs], for
    the argument [k]; the rows are summed for a parameter. *)
Definition gradient_of (decl : declaration) (A : arguments) (M N : nat) (r : sum_reduction) (nargs k : Z)
    (rd : sum_reduction) : Prop :=
  let (d, c) := decl k in
  forall H : nat -> nat -> Rdefinitions.R,
    derivable_pt_lim (fun t => summed_output decl M N (sformula r) (stagI r) (A nargs) (move_arg k H A t)) 0
      (total (rows c M N) (fun n => inner d (collapsed (Z.of_nat c) M (reduce_sum decl A M N rd) n) (H n))).

(** The same for [jvp]. *)
Definition jvp_pass (p : params) (R : red) (given : list bool) (k : nat) (a : asked) : Prop :=
  engine_makes p R /\ List.length given = List.length (p_aliases p) /\
  exists calls, jvp_calls p (red_dim R) (red_tag R) given = Ok calls /\ nth_error calls k = Some (Some a).

(** [rd] gives the derivative of the output of [r] in the direction of the tangent, argument [nargs], of the argument [k]. *)
Definition tangent_of (decl : declaration) (A : arguments) (M N : nat) (r : sum_reduction) (nargs k : Z)
    (rd : sum_reduction) : Prop :=
  forall n m, n < rows (stagI r) M N -> m < dim (sformula r) ->
    derivable_pt_lim (fun t => reduce_sum decl (move_arg k (A nargs) A t) M N r n m) 0 (reduce_sum decl A M N rd n m).
