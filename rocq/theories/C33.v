(** C33: indices returned by Arg reductions. *)

From Coq Require Import ZArith List String.
From Verif Require Import Keys KeySpec Aliases ArgIndices C33Proofs.
Import ListNotations.
Local Open Scope Z_scope.

(** An index of a reduction that is accepted is returned exactly, whatever copies are made on the
    way in types that are at least as precise as that of the data.
    Partial: in double precision there is no guard, and the size has to be at most 2^53. *)
Theorem C33_exact_partial : forall op t nred path ind,
  contains "Arg" op = true -> accepted op (type_name t) nred = true ->
  (t = Float64 -> nred <= 2 ^ 53) ->
  (forall u, In (ToFloat u) path -> precision t <= precision u) ->
  0 <= ind < nred -> returned t path ind = ind.
Proof. exact accepted_exact. Qed.
Print Assumptions C33_exact_partial.

Example C33_exact_case : contains "Arg" "KMinArgKMin" = true
  /\ accepted "KMinArgKMin" (type_name Float32) 16000000 = true
  /\ returned Float32 [ToFloat Float32; ToInt; ToFloat Float32] 15999999 = 15999999.
Proof.
  split; [reflexivity|]. split; [reflexivity|].
  apply (C33_exact_partial "KMinArgKMin" Float32 16000000); try reflexivity.
  - discriminate.
  - intros u [H|[H|[H|[]]]]; inversion H; apply Z.le_refl.
  - split; [discriminate|reflexivity].
Qed.

(** In double precision the size is not checked. *)
Theorem C33_double_refuted : forall op,
  accepted op (type_name Float64) (2 ^ 53 + 2) = true
  /\ returned Float64 [] (2 ^ 53 + 1) <> 2 ^ 53 + 1.
Proof. exact big_double. Qed.
Print Assumptions C33_double_refuted.

(** The two thresholds of the guard are needed: sizes slightly above them are refused, and their
    indices would be wrong. *)
Theorem C33_half_guard : accepted "ArgMin" (type_name Float16) 2050 = false
  /\ returned Float16 [] 2049 = 2048.
Proof. exact needed_half. Qed.
Print Assumptions C33_half_guard.

Theorem C33_single_guard : accepted "ArgMin" (type_name Float32) 16777218 = false
  /\ returned Float32 [] 16777217 = 16777216.
Proof. exact needed_single. Qed.
Print Assumptions C33_single_guard.
