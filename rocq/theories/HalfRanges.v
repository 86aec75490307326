(** * Half precision and ranges.

    Models [ranges2half2] (pykeops/pykeops/torch/half2_convert.py lines 51-71) and the pairs of rows that the
    kernel visits with the ranges it gives.

    Simplifications: one triple of ranges (those of the output and of the reduction), without batch
    dimensions.  Only the numbers are modelled: in the code, the concatenation of integer
    and floating-point arrays gives floating-point numbers, whose address is then
    given to the kernel as one of integers.  The first array is modified in place, so the model also
    returns what the array of the caller becomes: [_forward] (torch/generic/generic_red.py lines 118-122)
    does not copy a contiguous array of type int64. *)

From Coq Require Import List Arith Bool.
From Verif Require Import Half2.
Import ListNotations.

Record ranges := { r_i : list (nat * nat); r_slices : list nat; r_red : list (nat * nat) }.

Definition floor2 (a : nat) : nat := a / 2.
Definition ceil2 (a : nat) : nat := (a + 1) / 2.

(** Lines 61-69. *)
Definition block2 (N : nat) (red : list (nat * nat)) : list (nat * nat) :=
  let b := map (fun r => (N / 2 + floor2 (fst r + 1), N / 2 + ceil2 (snd r + 1))) red in
  if N mod 2 =? 0 then
    match rev red, rev b with
    | (_, e) :: _, (s2, e2) :: b' => if e =? N then (rev b' ++ [(s2, e2 - 1)])%list else b
    | _, _ => b
    end
  else b.

(** Lines 51-71; the first block of the reduction is computed in the code but not used. *)
Definition ranges2half2 (r : ranges) (N : nat) : ranges :=
  {| r_i := map (fun p => (floor2 (fst p), ceil2 (snd p))) (r_i r);
     r_slices := (r_slices r ++ map (fun s => s + List.length (r_red r)) (r_slices r))%list;
     r_red := (r_red r ++ block2 N (r_red r))%list |}.

(** The array [ranges_i] of the caller after the call. *)
Definition caller_after (r : ranges) : ranges :=
  {| r_i := map (fun p => (floor2 (fst p), ceil2 (snd p))) (r_i r);
     r_slices := r_slices r; r_red := r_red r |}.

(** The rows of the reduction that a kernel visits for the row [i] of the output: for each range of
    rows that contains [i], the ranges of the reduction between two slices.  The ranges of rows are
    disjoint; otherwise, several blocks write the same row. *)
Definition visited (r : ranges) (i : nat) : list nat :=
  flat_map (fun b =>
    match nth_error (r_i r) b, nth_error (r_slices r) b with
    | Some (s, e), Some hi =>
        if (s <=? i) && (i <? e) then
          let lo := match b with O => 0 | S b' => nth b' (r_slices r) 0 end in
          flat_map (fun p => seq (fst p) (snd p - fst p)) (firstn (hi - lo) (skipn lo (r_red r)))
        else []
    | _, _ => []
    end) (seq 0 (List.length (r_i r))).

(** The same in half precision: the pair of the row, the pairs that are visited, and the row in the lane. *)
Definition visited_half (r : ranges) (N i : nat) : list nat :=
  map (fun m => true_index N (2 * m + i mod 2)) (visited (ranges2half2 r N) (i / 2)).
