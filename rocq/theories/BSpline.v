(** * B-splines.

    Models keopscore/keopscore/formulas/maths/BSpline.py (lines 18-110 and 117-118), the tests on the types of operands made by
    [c_variable.binary_op] and [ternary] (keopscore/keopscore/utils/code_gen_utils.py lines 112-136 and 185-200) and the code
    of Extract.py for this use.

    The generated code is modelled by its execution on arrays of reals, as in Tensordot: a read or write outside of an
    array is [KErr], and so are the errors raised.  Arithmetic is exact. *)

From Coq Require Import ZArith Reals List Bool Arith String.
From Verif Require Import Result Tensordot.
Import ListNotations.

(** ** Types of the C++ variables *)

(** [binary_op]: the type of the result of an arithmetic operation, when the two operands are C++ variables. *)
Definition binary_type (a b : string) : res string :=
  if negb (String.eqb a b) then
    if (String.eqb a "int" && String.eqb b "signed long int")
       || (String.eqb a "signed long int" && String.eqb b "int") then Ok "signed long int"%string
    else KErr
  else Ok a.

(** The operations written by [Op] on values that are not indices, in the order of the source: the arrays have the type
    [dtype], the variables x, ratio_1 and ratio_2 the type float. *)
Definition op_types (dtype : string) : res unit :=
  let f := "float"%string in
  (* inner_loop_code, lines 60-64: knots < knots, (x - knots) / (knots - knots), and the zero of type float *)
  do _ <- binary_type dtype dtype ;
  do n <- binary_type f dtype ;
  do d <- binary_type dtype dtype ;
  do q <- binary_type n d ;
  do _ <- (if String.eqb q f then Ok tt else KErr) ;
  (* lines 67-68: ratio_1 * out + (1 - ratio_2) * out *)
  do a <- binary_type f dtype ;
  do u <- binary_type f f ;
  do b <- binary_type u dtype ;
  do _ <- binary_type a b ;
  (* line 78: (knots <= x) && (x < knots) *)
  do _ <- binary_type dtype f ;
  do _ <- binary_type f dtype ;
  (* lines 85-89 *)
  do n <- binary_type f dtype ;
  do q <- binary_type n dtype ;
  if String.eqb q f then Ok tt else KErr.

(** ** The code *)

(** The ratio (x - t_a) / (t_b - t_a), or zero, lines 60-64 and 85-89. *)
Definition ratio (n : nat) (knots : nat -> R) (x : R) (a b : nat) : res R :=
  do ta <- read n knots a ;
  do tb <- read n knots b ;
  Ok (if Rlt_dec ta tb then (x - ta) / (tb - ta) else 0)%R.

(** Lines 76-93; [n] is the number of knots, [out] has n - 1 entries. *)
Definition bspline_code (n order : nat) (knots : nat -> R) (x : R) (out : nat -> R) : res (nat -> R) :=
  do out <- for_loop (n - 1) (fun j out =>
    do a <- read n knots j ;
    do b <- read n knots (j + 1) ;
    write (n - 1) out j (if Rle_dec a x then if Rlt_dec x b then 1 else 0 else 0)%R) out ;
  for_from order 1 (fun k out =>
    do ratio_1 <- ratio n knots x 0 k ;
    do s <- for_loop (n - 1 - k) (fun i s =>
      do ratio_2 <- ratio n knots x (i + 1) (i + 1 + k) ;
      do u <- read (n - 1) (snd s) i ;
      do v <- read (n - 1) (snd s) (i + 1) ;
      do out <- write (n - 1) (snd s) i (fst s * u + (1 - ratio_2) * v)%R ;
      Ok (ratio_2, out)) (ratio_1, out) ;
    Ok (snd s)) out.

(** [BSpline], lines 21-44 and 117-118: the constructor, the code, and the first entries of the result.  [nk] and [nx] are
    the dimensions of the two arguments; the number of entries is returned with them. *)
Definition bspline (dtype : string) (nk nx : nat) (order : Z) (knots : nat -> R) (x : nat -> R) (out : nat -> R)
    : res (nat * (nat -> R)) :=
  if (order <? 0)%Z then KErr
  else if negb (nx =? 1) then KErr
  else if (Z.of_nat nk <? order + 2)%Z then KErr
  else
    let d := nk - Z.to_nat order - 1 in
    if nk - 1 <? d then KErr   (* Extract.py, line 22 *)
    else
      do _ <- op_types dtype ;
      do x0 <- read nx x 0 ;
      do out <- bspline_code nk (Z.to_nat order) knots x0 out ;
      Ok (d, out).
