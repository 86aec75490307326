(** * Generic operations on formulas with named arguments.

    Models [generic_sum], [generic_logsumexp], [generic_argkmin] and [generic_argmin]
    (pykeops/pykeops/torch/generic/generic_ops.py lines 6-203, pykeops/pykeops/numpy/generic/generic_ops.py lines 6-228),
    [cat2axis] (pykeops/pykeops/common/utils.py lines 24-34), and the names that the engine gives to the arguments
    (keopscore/keopscore/formulas/GetReduction.py lines 26-32).

    Simplifications: the options that do not go into the text are left out (see Options).  The declarations are given to
    the engine by LoadKeOps.py (see Aliases).  The reading of a text is a relation (see PyRead), hence so is the table of
    the names.  A name that is declared hides the function of the same name, and calling it raises, here even in the part of a
    chain of comparisons that is not reached. *)

From Coq Require Import ZArith List Bool Ascii String.
From Verif Require Import Result Keys Folder Aliases Formula PyRead RedText.
Import ListNotations.
Open Scope string_scope.

(** utils.py 24-34 *)
Definition cat2axis (cat : Z) : res Z :=
  if (cat =? 0)%Z || (cat =? 1)%Z then Ok ((cat + 1) mod 2)%Z else PyErr.

(** generic_ops.py: the text of the reduction; the dimension of the output is used by [generic_argkmin] only. *)
Definition generic (op f output : string) : res string :=
  do a <- get_type output None ;
  do axis <- cat2axis (ar_cat a) ;
  red_text op f (if String.eqb op "ArgKMin" then Some (ar_dim a) else None) axis "".
Definition generic_sum := generic "Sum".
Definition generic_logsumexp := generic "LogSumExp".
Definition generic_argkmin := generic "ArgKMin".
Definition generic_argmin := generic "ArgMin".

(** GetReduction.py 26-31: [aliases_dict], in the order of the assignments. *)
Inductive dictionary : list string -> list (string * pv) -> Prop :=
| dict_nil : dictionary [] []
| dict_skip : forall a l d, contains "=" a = false -> dictionary l d -> dictionary (a :: l) d
| dict_add : forall a l d n v e x, contains "=" a = true -> split "=" a = [n; v] -> reads v e ->
    evaluate (fun _ => None) e = Ok x -> dictionary l d -> dictionary (a :: l) ((n, x) :: d).
(** The last assignment counts. *)
Definition found (d : list (string * pv)) (s : string) : option pv := assoc s (rev d).

(** The functions that are called. *)
Fixpoint called (e : py) : list string :=
  match e with
  | PName _ | PNum _ => []
  | PNeg e => called e
  | PPow a b | PBin _ a b | PItem a b => called a ++ called b
  | PCmp a l => called a ++ flat_map (fun p => called (snd p)) l
  | PCall f l => (match f with PName s => [s] | _ => called f end) ++ flat_map called l
  | PList l => flat_map called l
  end%list.

(** Line 32. *)
Definition reduction_in (d : list (string * pv)) (e : py) : res (redobj * option Z) :=
  if existsb (fun s => match found d s with Some _ => true | None => false end) (called e) then PyErr
  else get_reduction (found d) None e.
