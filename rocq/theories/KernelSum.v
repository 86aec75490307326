(** Sum reductions over pairs of rows, and their gradients. *)

From Coq Require Import ZArith Reals.
From Verif Require Import Result Formula Diff.

(** ** Arguments

    [args a r k] is component k of row r of argument a.  [decl a] gives the dimension and
    the category declared for argument a (the aliases "Vi", "Vj", "Pm" with categories 0, 1,
    2).  Only two-dimensional arguments are considered here, no batch dimensions. *)
Definition arguments := Z -> nat -> nat -> R.
Definition declaration := Z -> nat * nat.

(** Row read by a variable of category c at the pair (i,j).
    keopscore/keopscore/utils/code_gen_utils.py, direct_table (lines 618-630): the table of
    pointers uses (arg + i * dim) for i-variables, (arg + j * dim) for j-variables, and row 0
    for parameters. *)
Definition row (c i j : nat) : nat :=
  match c with O => i | 1%nat => j | _ => O end.

Definition point (decl : declaration) (A : arguments) (i j : nat) : env :=
  fun a k => A a (row (snd (decl a)) i j) k.

(** ** formulas/reductions/Sum_Reduction.py, class Sum_Reduction (lines 10-49) *)
Record sum_reduction := { sformula : fm; stagI : nat }.

(** Output of the reduction: row i is the sum over j when tagI = 0, row j the sum over i when
    tagI = 1 (Reduction.py lines 8-20).  M and N are the numbers of i and j rows.  The loop
    computing it is modelled separately. *)
Definition reduce_sum (decl : declaration) (A : arguments) (M N : nat) (r : sum_reduction)
    (n k : nat) : R :=
  match stagI r with
  | O => rsum N (fun j => eval (sformula r) (point decl A n j) k)
  | _ => rsum M (fun i => eval (sformula r) (point decl A i n) k)
  end.

(** Sum_Reduction.DiffT (lines 41-44): Sum_Reduction(Grad(formula, v, gradin), v.cat % 2). *)
Definition Sum_DiffT (r : sum_reduction) (v : fm) (g : fm) : res sum_reduction :=
  match v with
  | Var _ _ c =>
      match DiffT (sformula r) v g with
      | Ok h => Ok {| sformula := h; stagI := Nat.modulo c 2 |}
      | KErr => KErr | PyErr => PyErr | OutOfFuel => OutOfFuel
      end
  | _ => PyErr
  end.

(** ** pykeops/torch/generic/generic_red.py, GenredAutograd_base._backward (lines 152-259)

    For the argument at position [pos] declared with dimension d and category c: the gradient
    formula is built with eta = Var(nargs, dimout, tagIJ) (line 165), reduced, and for
    parameters summed over its rows (lines 216-228).  [nargs] is the position at which the
    incoming gradient is appended (line 191). *)
Definition backward (decl : declaration) (A : arguments) (M N : nat) (r : sum_reduction)
    (nargs pos : Z) : res (nat -> nat -> R) :=
  let (d, c) := decl pos in
  match Sum_DiffT r (Var pos d c) (Var nargs (dim (sformula r)) (stagI r)) with
  | Ok rg =>
      let grad := reduce_sum decl A M N rg in
      Ok (if Nat.eqb c 2 then fun _ k => rsum M (fun i => grad i k) else grad)
  | KErr => KErr | PyErr => PyErr | OutOfFuel => OutOfFuel
  end.
