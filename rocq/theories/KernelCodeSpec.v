(** * Specification for the generated CPU routine (C48). *)

From Coq Require Import ZArith Reals List String Arith.
From Verif Require Import Result Formula Keys XReal Reductions CpuReduc KernelSum KernelSumSpec CpuConvSpec
  CodeGen CSem CodeGenSpec KernelCode.
Import ListNotations.
Local Open Scope nat_scope.

(** The reduction made by the code. *)
Definition meaning (r : red) (d : nat) : reduction :=
  match r with
  | CSum => Sum_Red d
  | COpt mx => Opt_Red mx d
  | COptArg mx both => OptArg_Red mx (if both then OBoth else OArg) d
  | CLse => LSE_Red (d - 1)
  end.

(** The types for which the code can be made. *)
Definition types_ok (r : red) (t ta : ftype) : Prop := r = CSum \/ t = ta.

(** The arguments of the formula are among the [nargs] arguments of the routine, and are in memory:
    [A] is their content. *)
Definition arguments_in (decl : declaration) (f : fm) (A : Z -> nat -> R) (M N nargs : nat) (arg : string) (m : mem) : Prop :=
  forall i d, CodeGenSpec.occurs i d f ->
    (0 <= i < Z.of_nat nargs)%Z
    /\ exists c, get (arg ++ "[" ++ str_int i ++ "]")%string m = Some (OArr c)
       /\ forall q, q < rows (snd (decl i)) M N * d -> nth_error c q = Some (Some (Fin (A i q))).

(** No name made by [new_c_varname] is in use. *)
Definition no_generated (m : mem) : Prop :=
  forall t c, get (t ++ "_" ++ str_int (Z.of_nat c))%string m = None.

(** The point at which the formula is evaluated in iteration [j] for row [n]. *)
Definition at_point (decl : declaration) (A : Z -> nat -> R) (tagI n j : nat) : env :=
  match tagI with O => point decl (contiguous decl A) n j | _ => point decl (contiguous decl A) j n end.

(** Memory in which the routine can run: the arguments, an output with enough room for rows of
    dimension [d], and the formula is defined at every point. *)
Definition ready (decl : declaration) (f : fm) (A : Z -> nat -> R) (tagI M N nargs d : nat) (arg : string) (m : mem) : Prop :=
  arguments_in decl f A M N nargs arg m /\ no_generated m
  /\ (exists c, get "out" m = Some (OArr c) /\ out_rows tagI M N * d <= List.length c)
  /\ forall n j, n < out_rows tagI M N -> j < red_terms tagI M N -> safe (at_point decl A tagI n j) f.

(** [m'] is [m] where [n] rows of dimension [d] of the array "out" have received the values [v], and
    nothing else has changed. *)
Definition output_rows (m m' : mem) (n d : nat) (v : nat -> nat -> xr) : Prop :=
  map fst m' = map fst m
  /\ (forall x, x <> "out"%string -> get x m' = get x m)
  /\ exists c c', get "out" m = Some (OArr c) /\ get "out" m' = Some (OArr c')
     /\ List.length c' = List.length c
     /\ (forall i k, i < n -> k < d -> nth_error c' (i * d + k) = Some (Some (v i k)))
     /\ forall q, n * d <= q -> nth_error c' q = nth_error c q.
