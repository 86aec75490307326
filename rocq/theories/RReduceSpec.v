(** Specification of the reductions of the R interface: the numbers in the output of the CPU routine. *)

From Coq Require Import ZArith Reals List Bool String.
From Verif Require Import RedText Result BackText Keys Aliases Formula Simplify Build XReal Reductions ReductionSpec KernelSum Loader CpuReduc CpuConv CpuConvSpec
  FormulaSpec Methods MethodsSpec PyRead PyReadSpec GenericOps GenericOpsSpec RKeops RKeopsSpec RLazy RLazySpec RMethods RMethodsSpec RReduce.
Import ListNotations.
Local Open Scope nat_scope.
Open Scope string_scope.

(** The rows of the output of a reduction over [index], and the terms of each row. *)
Definition rows_of (index : rindex) (M N : nat) : nat := match index with Ri => N | _ => M end.
Definition terms_of (index : rindex) (M N : nat) : nat := match index with Ri => M | _ => N end.
(** Coordinate [k] of the term [m] of the row [n]. *)
Definition term_at (c : call) (index : rindex) (n m k : nat) : R :=
  match index with Ri => value c m n k | _ => value c n m k end.

(** The matrices indexed by i have [M] rows, those indexed by j have [N] rows. *)
Definition sizes (p : program) (M N : nat) : Prop :=
  forall a x v, In (a, x, v) (leaves p) ->
    match x, v with Ri, Matrix n _ _ => n = M | Rj, Matrix n _ _ => n = N | _, _ => True end.
(** The arrays are in the memory of the routine, row after row. *)
Definition stored (l : list RKeops.matrix) (A : memory) : Prop :=
  forall a m, nth_error l a = Some m -> forall i k, i < m_rows m -> k < m_cols m -> A (Z.of_nat a) (i * m_cols m + k) = m_at m i k.
(** The numbers given to one_hot are below the number of places. *)
Fixpoint in_range (c : call) (i j : nat) : Prop :=
  match c with
  | CVar _ _ _ | CInt _ | CVec _ _ _ => True
  | C1 _ c | CElem c _ | CExtract c _ _ => in_range c i j
  | C2 _ c d => in_range c i j /\ in_range d i j
  | C3 _ c d e => in_range c i j /\ in_range d i j /\ in_range e i j
  | COneHot c d => in_range c i j /\ exists n, n < Z.to_nat d /\ value c i j 0 = INR n
  end.
(** At all rows the functions of the call are defined. *)
Definition inside (c : call) (M N : nat) : Prop := forall i j, i < M -> j < N -> defined c i j /\ in_range c i j.

(** The accumulators of the classes of reductions. *)
Definition accumulators (cls : string) (K d : nat) : option Reductions.reduction :=
  if String.eqb cls "Sum_Reduction" then Some (Sum_Red d)
  else if String.eqb cls "Min_Reduction" then Some (Opt_Red false d)
  else if String.eqb cls "Max_Reduction" then Some (Opt_Red true d)
  else if String.eqb cls "ArgMin_Reduction" then Some (OptArg_Red false OArg d)
  else if String.eqb cls "ArgMax_Reduction" then Some (OptArg_Red true OArg d)
  else if String.eqb cls "Min_ArgMin_Reduction" then Some (OptArg_Red false OBoth d)
  else if String.eqb cls "Max_ArgMax_Reduction" then Some (OptArg_Red true OBoth d)
  else if String.eqb cls "KMin_Reduction" then Some (KMin_Red OVal K d)
  else if String.eqb cls "ArgKMin_Reduction" then Some (KMin_Red OArg K d)
  else if String.eqb cls "KMin_ArgKMin_Reduction" then Some (KMin_Red OBoth K d)
  else if String.eqb cls "Max_SumShiftExpWeight_Reduction" then Some (LSE_Red (d - 1))
  else None.

(** The engine reads the text of [o]; it makes a reduction when it can build [phi], and then [P] holds for this reduction. *)
Definition engine_runs (o : operator) (phi : fm) (k : option Z) (P : redobj -> Prop) : Prop :=
  exists q al e a, operator_text o = Ok q /\ engine_aliases 0 None None (p_aliases q) = Ok al /\ reads (p_formula q) e /\ dictionary al a /\
    (forall ro k', reduction_in a e = Ok (ro, k') -> k' = k /\ P ro) /\
    (forall h, build phi = Ok h -> exists ro, reduction_in a e = Ok (ro, k)).
(** The output of the routine for [ro], in any order of its rows. *)
Definition output (ro : redobj) (K : nat) (s : scheme) (A : memory) (M N : nat) (P : cells -> Prop) : Prop :=
  exists r, accumulators (ro_id ro) K (dim (ro_formula ro)) = Some r /\
    forall schedule out, complete schedule ->
    exists out', launch_cpu schedule r s (ro_formula ro) (Z.to_nat (ro_tag ro)) A M N out = Ok out' /\ P out'.

(** The functions that give the smallest or the largest ([largest]) values, their indices, or both. *)
Definition optima : list ((lazy_tensor -> rindex -> res answer) * (bool * bool * bool)) :=
  [(RReduce.min, (false, true, false)); (min_reduction, (false, true, false));
   (argmin, (false, false, true)); (argmin_reduction, (false, false, true));
   (min_argmin, (false, true, true)); (min_argmin_reduction, (false, true, true));
   (RReduce.max, (true, true, false)); (max_reduction, (true, true, false));
   (argmax, (true, false, true)); (argmax_reduction, (true, false, true));
   (max_argmax, (true, true, true)); (max_argmax_reduction, (true, true, true))].
(** [i] is the first place of the optimum of [v 0], ..., [v (n-1)]. *)
Definition first_optimum (largest : bool) (n : nat) (v : nat -> R) (i : nat) : Prop :=
  i < n /\ (forall j, j < n -> if largest then (v j <= v i)%R else (v i <= v j)%R) /\ forall j, j < i -> v j <> v i.
(** The K smallest values, their indices, or both. *)
Definition smallest : list ((lazy_tensor -> Z -> rindex -> res answer) * (bool * bool)) :=
  [(Kmin, (true, false)); (Kmin_reduction, (true, false)); (argKmin, (false, true)); (argKmin_reduction, (false, true));
   (Kmin_argKmin, (true, true)); (Kmin_argKmin_reduction, (true, true))].
