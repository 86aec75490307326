(** Specification of the texts of the operators of the R interface. *)

From Coq Require Import ZArith Reals List Bool Ascii String.
From Verif Require Import Result Keys KeySpec Aliases AliasSpec Formula GradSpec KernelSum KernelSumSpec RedGradSpec GenericOpsSpec RKeops.
Import ListNotations.
Local Open Scope nat_scope.
Open Scope string_scope.

(** Parentheses are balanced, commas are between parentheses; [n] parentheses are open. *)
Fixpoint closed (n : nat) (s : string) : bool :=
  match s with
  | EmptyString => n =? 0
  | String c s =>
      if (c =? "(")%char then closed (S n) s
      else if (c =? ")")%char then match n with O => false | S n => closed n s end
      else if (c =? ",")%char then match n with O => false | S _ => closed n s end
      else closed n s
  end%nat.

(** A formula, a name or a number. *)
Definition part (s : string) : Prop :=
  closed 0 s = true /\ has "$" s = false /\ has " " s = false /\ contains "_Reduction" s = false.

(** A name, of a variable for example. *)
Definition simple_name (s : string) : Prop :=
  s <> "" /\ has "(" s = false /\ has ")" s = false /\ has "," s = false /\ has "$" s = false /\ has " " s = false.

(** The name of a reduction. *)
Definition reduction_name (s : string) : Prop := simple_name s /\ String.prefix "Grad" s = false.

(** The text of a reduction, and what it stands for: operation, formula, axis and third argument. *)
Inductive written : string -> described -> Prop :=
| W_plain op f ax : reduction_name op -> part f -> (0 <= ax)%Z ->
    written (op ++ "_Reduction(" ++ f ++ "," ++ str_int ax ++ ")")
      {| d_op := op; d_main := f; d_axis := Some ax; d_opt := NoOption |}
| W_number op f k ax : reduction_name op -> op <> "LogSumExpWeight" -> op <> "SumSoftMaxWeight" -> part f ->
    (0 <= k)%Z -> (0 <= ax)%Z ->
    written (op ++ "_Reduction(" ++ f ++ "," ++ str_int k ++ "," ++ str_int ax ++ ")")
      {| d_op := op; d_main := f; d_axis := Some ax; d_opt := Number (Some k) |}
| W_weight op f g ax : op = "LogSumExpWeight" \/ op = "SumSoftMaxWeight" -> part f -> part g -> (0 <= ax)%Z ->
    written (op ++ "_Reduction(" ++ f ++ "," ++ g ++ "," ++ str_int ax ++ ")")
      {| d_op := op; d_main := f; d_axis := Some ax; d_opt := Weight g |}.

(** The text of the derivative of [x], the first pair being the one of the first derivative. *)
Definition grad_of (x v e : string) : string := "Grad(" ++ x ++ "," ++ v ++ "," ++ e ++ ")".
Fixpoint derivatives (x : string) (l : list (string * string)) : string :=
  match l with [] => x | (v, e) :: l => derivatives (grad_of x v e) l end.
Definition simple_names (l : list (string * string)) : Prop := Forall (fun p => simple_name (fst p) /\ simple_name (snd p)) l.

(** The reduction of the derivatives of the formula. *)
Definition with_main (d : described) (f : string) : described :=
  {| d_op := d_op d; d_main := f; d_axis := d_axis d; d_opt := d_opt d |}.

(** The arguments of an operator: texts with spaces anywhere, different names, positive dimensions, positions that are
    the places in the list when they are written. *)
Record r_arguments (ss : list string) (ds : list AliasSpec.declaration) : Prop := {
  rg_texts : Forall2 (fun s d => valid d /\ spaced s (text d)) ss ds;
  rg_named : Forall (fun d => name_of d <> None) ds;
  rg_once : once ds;
  rg_dims : Forall (fun d => 1 <= dimension d)%Z ds;
  rg_places : forall i n kd p m, nth_error ds i = Some (Named n kd p m) -> p = None \/ p = Some (Z.of_nat i) }.

(** [decl] gives the dimensions and categories of the arguments, then of an incoming gradient of dimension 1. *)
Definition r_declared (decl : KernelSum.declaration) (ds : list AliasSpec.declaration) (kd : kind) : Prop :=
  (forall i d, nth_error ds i = Some d -> decl (Z.of_nat i) = (Z.to_nat (dimension d), Z.to_nat (kept d))) /\
  decl (Z.of_nat (List.length ds)) = (1%nat, Z.to_nat (AliasSpec.category kd)).

(** [out] is the gradient, for the argument [k], of the loss sum E . log-sum-exp, E being the argument [nargs]. *)
Definition lse_gradient_of (decl : KernelSum.declaration) (A : arguments) (M N : nat) (F G : fm) (tag : nat) (nargs k : Z)
    (out : nat -> nat -> R) : Prop :=
  let (d, c) := decl k in
  forall H : nat -> nat -> R,
    derivable_pt_lim (fun t => total (rows tag M N) (fun n => (A nargs n 0%nat * log_sum_exp decl (move_arg k H A t) M N F G tag n 0)%R)) 0
      (total (rows c M N) (fun n => inner d (out n) (H n))).

(** The array that stands for a value: one row for each point. *)
Definition points (inner_dim : string) (v : rvalue) (x : matrix) : Prop :=
  match v with
  | Vector n f => inner_dim = "col" /\ m_rows x = n /\ m_cols x = 1%nat /\ forall i, i < n -> m_at x i 0%nat = f i
  | Matrix n m f =>
      (inner_dim = "col" /\ m_rows x = n /\ m_cols x = m /\ forall i k, i < n -> k < m -> m_at x i k = f i k) \/
      (inner_dim = "row" /\ m_rows x = m /\ m_cols x = n /\ forall i k, i < m -> k < n -> m_at x i k = f k i)
  end.
(** [v] is given for the argument [a] at place [k]: under its name when there are names. *)
Definition given (input : rlist) (k : nat) (a : rarg) (v : rvalue) : Prop :=
  ((exists n w, In (Some n, w) input) /\ In (Some (ra_name a), v) input) \/
  ((forall n w, ~ In (Some n, w) input) /\ exists n, nth_error input k = Some (n, v)).
