(** * Half precision: rows by pairs.

    Models pykeops/pykeops/torch/half2_convert.py, the parts of
    pykeops/pykeops/common/keops_io/LoadKeOps.py lines 187-243 and of keopscore/keopscore/include/Sizes.h
    lines 211-222 and 413-436 about [use_half], and the evaluation of a formula by lanes in a kernel.

    Simplifications: arrays have no batch dimensions; a batch dimension repeats the same operations on
    every element.  An array of shape (M, D) is a number of rows and a function of the row and the column.
    [view] and [contiguous] are written with the position in memory.  The values are of any type, rounding
    is part of the formula and of the reduction. *)

From Coq Require Import List Arith Bool ZArith.
From Verif Require Import Result.
Import ListNotations.

Record array (A : Type) := { rows : nat; cols : nat; at_ : nat -> nat -> A }.
Arguments rows {A}. Arguments cols {A}. Arguments at_ {A}.

(** Position [q] of the memory of an array of [D] columns. *)
Definition memory {A} (x : array A) (q : nat) : A := at_ x (q / cols x) (q mod cols x).

(** [torch.cat((x, y), dim=-2)]. *)
Definition cat {A} (x y : array A) : array A :=
  {| rows := rows x + rows y; cols := cols x;
     at_ := fun i d => if i <? rows x then at_ x i d else at_ y (i - rows x) d |}.

(** Rows from [a], [n] of them. *)
Definition cut {A} (x : array A) (a n : nat) : array A :=
  {| rows := n; cols := cols x; at_ := fun i d => at_ x (a + i) d |}.

(** Lines 5-14. *)
Definition make_odd_cat {A} (y : array A) : res (array A * nat) :=
  let N := rows y in
  if N mod 2 =? 0 then
    if N =? 0 then PyErr
    else Ok (cat (cat y (cut y (N - 1) 1)) (cut y 0 (N - 1)), N)
  else Ok (cat y y, N).

(** Lines 17-26. *)
Definition make_even_size {A} (x : array A) : array A * bool :=
  let M := rows x in
  if M mod 2 =? 1 then (cat x (cut x (M - 1) 1), true) else (x, false).

(** Lines 29-37: memory seen with shape (M // 2, 2, D), transposed to (M // 2, D, 2). *)
Definition half2half2 {A} (x : array A) : res (array A) :=
  let M := rows x in let D := cols x in
  if M mod 2 =? 0 then
    let v k l d := memory x ((k * 2 + l) * D + d) in
    let t k d l := v k l d in
    let c q := t (q / (D * 2)) ((q / 2) mod D) (q mod 2) in
    Ok {| rows := M; cols := D; at_ := fun i d => c (i * D + d) |}
  else PyErr.

(** Lines 40-48. *)
Definition half22half {A} (x : array A) : res (array A) :=
  let M := rows x in let D := cols x in
  if M mod 2 =? 0 then
    let v k d l := memory x ((k * D + d) * 2 + l) in
    let t k l d := v k d l in
    let c q := t (q / (2 * D)) ((q / D) mod 2) (q mod D) in
    Ok {| rows := M; cols := D; at_ := fun i d => c (i * D + d) |}
  else PyErr.

(** An argument: category and array, of one row for a parameter. *)
Record argument (A : Type) := { a_cat : nat; a_array : array A }.
Arguments a_cat {A}. Arguments a_array {A}.

(** Lines 107-131: new arguments, [tag_dummy] and [N]. *)
Fixpoint convert {A} (axis : nat) (args : list (argument A)) (tag_dummy : bool) (N : nat)
  : res (list (argument A) * bool * nat) :=
  match args with
  | [] => Ok ([], tag_dummy, N)
  | a :: args' =>
      do r <- (if a_cat a =? 2 then
                 let x := fst (make_even_size (a_array a)) in
                 do x <- half2half2 x ;
                 Ok ({| rows := 1; cols := 2 * cols x; at_ := fun _ q => memory x q |}, tag_dummy, N)
               else if a_cat a =? axis then
                 do y <- make_odd_cat (a_array a) ;
                 do x <- half2half2 (fst y) ;
                 Ok (x, tag_dummy, Nat.max N (snd y))
               else
                 let '(x, tag) := make_even_size (a_array a) in
                 do x <- half2half2 x ;
                 Ok (x, tag, N)) ;
      let '(x, tag, N') := r in
      do rest <- convert axis args' tag N' ;
      let '(l, tag', N'') := rest in
      Ok ({| a_cat := a_cat a; a_array := x |} :: l, tag', N'')
  end.

(** Lines 73-133 without ranges. *)
Definition preprocess_half2 {A} (axis nx ny : nat) (args : list (argument A)) :=
  convert axis args false (if axis =? 1 then ny else nx).

(** ** Kernel *)

(** Lane [l] of the value of an argument for the pair of rows [k] of the output and the pair of rows
    [m] of the reduction: pairs of numbers that follow each other in memory. *)
Definition lane {A} (axis k m l : nat) (a : argument A) : list A :=
  let mem := memory (a_array a) in
  let D := cols (a_array a) in
  if a_cat a =? 2 then map (fun d => mem (2 * d + l)) (seq 0 (D / 2))
  else
    let row := if a_cat a =? axis then m else k in
    map (fun d => mem (2 * (row * D + d) + l)) (seq 0 D).

(** The memory of the output: for each pair of rows, each component and each lane, the
    reduction of the values of the formula.  [formula] has the values of the variables
    as arguments, [reduce] is the result of the reduction of a list. *)
Definition kernel {A V} (axis n2 E : nat) (formula : list (list A) -> V) (reduce : nat -> list V -> A)
  (args : list (argument A)) (q : nat) : A :=
  let l := q mod 2 in
  let e := (q / 2) mod E in
  let k := q / (2 * E) in
  reduce e (map (fun m => formula (map (lane axis k m l) args)) (seq 0 n2)).

(** LoadKeOps.py lines 187-243; the sizes in the kernel are those of Sizes.h: the number of rows made
    even for the output, twice the number of rows for the reduction, both divided by two. *)
Definition genred_half {A V} (axis nx ny E : nat) (formula : list (list A) -> V)
  (reduce : nat -> list V -> A) (args : list (argument A)) : res (array A) :=
  do r <- preprocess_half2 axis nx ny args ;
  let '(newargs, tag_dummy, _) := r in
  let M := if axis =? 1 then nx else ny in
  let M := M + M mod 2 in
  let n2 := 2 * (if axis =? 1 then ny else nx) / 2 in
  let out := {| rows := M; cols := E;
                at_ := fun i d => kernel axis n2 E formula reduce newargs (i * E + d) |} in
  do out <- half22half out ;
  Ok (if tag_dummy then cut out 0 (rows out - 1) else out).

(** ** Positions of the reduced rows *)

(** Lines 136-160: the correction of the indices that are found in the array built by [make_odd_cat]. *)
Definition true_index (N pos : nat) : nat :=
  if N mod 2 =? 0 then
    let pos := if pos =? N then N - 1 else pos in
    if N <? pos then pos - (N + 1) else pos
  else if N <=? pos then pos - N else pos.
