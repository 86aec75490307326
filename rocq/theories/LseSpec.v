(** Specification of log-sum-exp reductions over real sequences with masked entries (histories of
    accumulators run the updates and merges of Reductions.v). *)

From Coq Require Import Reals List.
From Verif Require Import XReal Reductions.
Import ListNotations.
Local Open Scope R_scope.

(** An entry is a value f (None for -inf) and a vector of weights w. *)
Definition entry := (option R * (nat -> R))%type.

(** The cells read for it: the formula is Concat(f, w). *)
Definition entry_cells (e : entry) : nat -> xr :=
  fun p => match p with
           | O => match fst e with Some f => Fin f | None => NInf end
           | S k => Fin (snd e k)
           end.

(** sum_j w_j[k] exp(f_j - m), masked entries contributing zero. *)
Fixpoint shifted_sum (m : R) (k : nat) (l : list entry) : R :=
  match l with
  | [] => 0
  | (Some f, w) :: l => w k * exp (f - m) + shifted_sum m k l
  | (None, _) :: l => shifted_sum m k l
  end.

(** sum_j w_j[k] exp(f_j). *)
Fixpoint exp_sum (k : nat) (l : list entry) : R :=
  match l with
  | [] => 0
  | (Some f, w) :: l => w k * exp f + exp_sum k l
  | (None, _) :: l => exp_sum k l
  end.

(** m is the maximum of the unmasked values. *)
Definition is_max (m : R) (l : list entry) : Prop :=
  (exists w, In (Some m, w) l) /\ forall f w, In (Some f, w) l -> f <= m.

(** Histories of an accumulator: start from the initial state, add entries one by one, merge
    two accumulators. *)
Inductive history :=
| Start
| Update (h : history) (e : entry)
| Merge (h1 h2 : history).

Fixpoint entries (h : history) : list entry :=
  match h with
  | Start => []
  | Update h e => entries h ++ [e]
  | Merge h1 h2 => entries h1 ++ entries h2
  end.

(** All values are finite, and no merge joins two accumulators that have seen nothing. *)
Fixpoint finite_history (h : history) : Prop :=
  match h with
  | Start => True
  | Update h e => finite_history h /\ fst e <> None
  | Merge h1 h2 => finite_history h1 /\ finite_history h2 /\ entries h1 ++ entries h2 <> []
  end.

(** Accumulator after a history, for weights of dimension d. *)
Fixpoint state (d : nat) (h : history) : cells :=
  match h with
  | Start => rinit (LSE_Red d)
  | Update h e => rshort (LSE_Red d) (state d h) (entry_cells e) 0
  | Merge h1 h2 => lse_pair d (state d h1) (state d h2)
  end.

(** The first n entries of a sequence, and the formula values for them. *)
Definition taken (n : nat) (e : nat -> entry) : list entry := map e (seq 0 n).
Definition lse_terms (e : nat -> entry) (j : nat) : cells := entry_cells (e j).
