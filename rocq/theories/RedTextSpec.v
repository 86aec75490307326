(** Specification of the reductions: what the names of the users stand for. *)

From Coq Require Import ZArith List Bool String.
From Verif Require Import Result Formula FormulaSpec Build LazyTensors PyRead PyReadSpec RedText.
Import ListNotations.
Open Scope string_scope.

(** Reductions of a formula, values with their positions, the [k] smallest values, sums of exponentials with weights:
    the class of the engine, the formula that it reduces, the number of values for each index. *)
Definition wanted (op : string) (k : option Z) (f : fm) (g : option fm) : option (string * fm * Z) :=
  let d := Z.of_nat (dim f) in
  match k, g with
  | None, None =>
      if existsb (String.eqb op) ["Sum"; "Min"; "Max"; "ArgMin"; "ArgMax"] then Some (op ++ "_Reduction", f, d)
      else if existsb (String.eqb op) ["Min_ArgMin"; "Max_ArgMax"] then Some (op ++ "_Reduction", f, 2 * d)%Z
      else if String.eqb op "LogSumExp" then Some ("Max_SumShiftExpWeight_Reduction", Cat f (Int 1), 2)%Z
      else None
  | Some k, None =>
      if (k =? 0)%Z then None
      else if existsb (String.eqb op) ["KMin"; "ArgKMin"] then Some (op ++ "_Reduction", f, k * d)%Z
      else if String.eqb op "KMin_ArgKMin" then Some (op ++ "_Reduction", f, 2 * k * d)%Z
      else None
  | None, Some g =>
      if existsb (String.eqb op) ["LogSumExp"; "LogSumExpWeight"] then
        Some ("Max_SumShiftExpWeight_Reduction", Cat f g, 1 + Z.of_nat (dim g))%Z
      else if existsb (String.eqb op) ["SumSoftMaxWeight"; "SoftMax"] then
        Some ("Max_SumShiftExpWeight_Reduction", Cat f (Cat (Int 1) g), 2 + Z.of_nat (dim g))%Z
      else None
  | Some _, Some _ => None
  end.

(** Sums of exponentials are those of one number. *)
Definition exponential (op : string) : bool :=
  existsb (String.eqb op) ["LogSumExp"; "LogSumExpWeight"; "SumSoftMaxWeight"; "SoftMax"].

(** What the engine makes of a text [x]: the class [cls] with the formula [phi] that the simplifications give, the other
    axis as a category, [d] values, and [k]; when [one] is set, only for a formula [F] of dimension 1. *)
Definition makes (x : string) (k : option Z) (one : bool) (a : Z) (F : fm) (cls : string) (phi : fm) (d : Z) : Prop :=
  exists e, reads x e /\ forall names,
    (forall o k', get_reduction names None e = Ok (o, k') ->
       k' = k /\ ro_id o = cls /\ build phi = Ok (ro_formula o) /\ equivalent phi (ro_formula o) /\ ro_child o = ro_formula o
       /\ ro_tag o = (1 - a)%Z /\ ro_dim o = d /\ (one = true -> dim F = 1%nat))
    /\ (forall h, build phi = Ok h -> (one = true -> dim F = 1%nat) ->
         exists o, get_reduction names None e = Ok (o, k) /\ ro_formula o = h).

(** The tensors of a call, the symbolic variables. *)
Definition all_variables (l : lazy) (w : option lazy) : list tensor :=
  (variables l ++ match w with Some o => variables o | None => [] end)%list.
Definition all_symbolic (l : lazy) (w : option lazy) : list (Z * Z * Z) :=
  (symbolic l ++ match w with Some o => symbolic o | None => [] end)%list.

(** The variable of high dimension of a sum: the last factor, when it was recorded. *)
Definition highdim (op : string) (l : lazy) : option tensor :=
  match (if String.eqb op "Sum" then rec_highdim l else None) with
  | Some (_, v) => match variables v with x :: _ => Some x | [] => None end
  | None => None
  end.
