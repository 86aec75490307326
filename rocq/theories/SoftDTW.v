(** * Soft dynamic time warping.

    Models keopscore/keopscore/formulas/maths/SoftDTW_SqDist.py: the constructors (lines 22-30 and 101-110), the code written
    by [SoftDTW_SqDist.Op] (lines 32-83) and the code written by [GradSoftDTW_SqDist.Op] (lines 112-212).

    The generated code is modelled by its execution on arrays of reals, as in Tensordot: a read or write outside of an array
    is [KErr], as is an error raised.  Arithmetic is exact, with the functions exp and ln of the reals.  [fminf] is any
    function of two numbers: in double precision the one called by the code rounds its arguments.  The contents of arrays
    declared without initialisation, and of the array of the result, are arguments. *)

From Coq Require Import Reals List Bool Arith.
From Verif Require Import Result Tensordot.
Local Open Scope R_scope.

Section Code.
Variable fminf : R -> R -> R.

Definition min3 (a b c : R) : R := fminf (fminf a b) c.

(** What lines 73 and 151 add to the square: [p], [q] and [s] are the three exponents in the order of the source. *)
Definition soft (gamma min p q s : R) : R :=
  min - gamma * ln (exp ((min - p) / gamma) + exp ((min - q) / gamma) + exp ((min - s) / gamma)).

(** ** Value *)

(** Lines 39-79.  The state of the loops is (rij, rim1j, rjm1). *)
Definition value_code (n m : nat) (x y : nat -> R) (gamma : R) (rjm1 : nat -> R) : res R :=
  do x0 <- read n x 0 ;
  do y0 <- read m y 0 ;
  let rij := (x0 - y0) * (x0 - y0) in
  do s <- for_from (n - 1) 1 (fun i s =>
    let '(_, rim1j, rjm1) := s in
    do xi <- read n x i ;
    do y0 <- read m y 0 ;
    let rij := (xi - y0) * (xi - y0) + rim1j in
    do rjm1 <- write n rjm1 (i - 1) rim1j ;
    Ok (rij, rij, rjm1)) (rij, rij, rjm1) ;
  let '(rij, rim1j, rjm1) := s in
  do rjm1 <- write n rjm1 (n - 1) rij ;
  do s <- for_from (m - 1) 1 (fun j s =>
    let '(_, _, rjm1) := s in
    do x0 <- read n x 0 ;
    do yj <- read m y j ;
    do r0 <- read n rjm1 0 ;
    let rij := (x0 - yj) * (x0 - yj) + r0 in
    do s <- for_from (n - 1) 1 (fun i s =>
      let '(_, rim1j, rjm1) := s in
      do xi <- read n x i ;
      do yj <- read m y j ;
      do a <- read n rjm1 (i - 1) ;
      do b <- read n rjm1 i ;
      let rij := (xi - yj) * (xi - yj) + soft gamma (min3 a b rim1j) a rim1j b in
      do rjm1 <- write n rjm1 (i - 1) rim1j ;
      Ok (rij, rij, rjm1)) (rij, rij, rjm1) ;
    let '(rij, rim1j, rjm1) := s in
    do rjm1 <- write n rjm1 (n - 1) rij ;
    Ok (rij, rim1j, rjm1)) (rij, rim1j, rjm1) ;
  Ok (fst (fst s)).

(** ** Gradient *)

(** Lines 126-153: the matrix r. *)
Definition fill_code (n m : nat) (x y : nat -> R) (gamma : R) (r : nat -> R) : res (nat -> R) :=
  do x0 <- read n x 0 ;
  do y0 <- read m y 0 ;
  do r <- write (n * m) r 0 ((x0 - y0) * (x0 - y0)) ;
  do r <- for_from (n - 1) 1 (fun i r =>
    do xi <- read n x i ;
    do y0 <- read m y 0 ;
    do p <- read (n * m) r (i - 1) ;
    write (n * m) r i ((xi - y0) * (xi - y0) + p)) r ;
  for_from (m - 1) 1 (fun j r =>
    do x0 <- read n x 0 ;
    do yj <- read m y j ;
    do p <- read (n * m) r ((j - 1) * n) ;
    do r <- write (n * m) r (j * n) ((x0 - yj) * (x0 - yj) + p) ;
    for_from (n - 1) 1 (fun i r =>
      do xi <- read n x i ;
      do yj <- read m y j ;
      do r <- write (n * m) r (j * n + i) ((xi - yj) * (xi - yj)) ;
      do a <- read (n * m) r ((j - 1) * n + i - 1) ;
      do b <- read (n * m) r ((j - 1) * n + i) ;
      do c <- read (n * m) r (j * n + i - 1) ;
      do u <- read (n * m) r (j * n + i) ;
      write (n * m) r (j * n + i) (u + soft gamma (min3 a b c) a c b)) r) r.

(** The weights a, b and c: exp((r' - r - d*d) / gamma). *)
Definition weight (gamma r' r d : R) : R := exp ((r' - r - d * d) / gamma).

(** Lines 157-209.  The loops go down from n - 2 and m - 2: iteration k is that of i = n - 2 - k.  The state of the loops
    is (d, eij, eip1j, ejp1, out); grady is the part of out that begins at n. *)
Definition back_code (n m : nat) (x y : nat -> R) (gamma : R) (r : nat -> R) (ejp1 out : nat -> R) : res (nat -> R) :=
  do xn <- read n x (n - 1) ;
  do ym <- read m y (m - 1) ;
  let d := xn - ym in
  let eij := 1 in
  do out <- write (n + m) out (n - 1) (2 * d * eij) ;
  do out <- write (n + m) out (n + (m - 1)) (- 2 * d * eij) ;
  do s <- for_from (n - 1) 0 (fun k s =>
    let '(d, eij, eip1j, ejp1, out) := s in
    let i := (n - 2 - k)%nat in
    do r1 <- read (n * m) r ((m - 1) * n + i + 1) ;
    do r0 <- read (n * m) r ((m - 1) * n + i) ;
    let eij := weight gamma r1 r0 d * eip1j in
    do ejp1 <- write n ejp1 (i + 1) eip1j ;
    do xi <- read n x i ;
    do ym <- read m y (m - 1) ;
    let d := xi - ym in
    do out <- write (n + m) out i (2 * d * eij) ;
    do g <- read (n + m) out (n + (m - 1)) ;
    do out <- write (n + m) out (n + (m - 1)) (g - 2 * d * eij) ;
    Ok (d, eij, eij, ejp1, out)) (d, eij, eij, ejp1, out) ;
  let '(d, eij, eip1j, ejp1, out) := s in
  do ejp1 <- write n ejp1 0 eij ;
  do s <- for_from (m - 1) 0 (fun l s =>
    let '(_, _, _, ejp1, out) := s in
    let j := (m - 2 - l)%nat in
    do xn <- read n x (n - 1) ;
    do yj1 <- read m y (j + 1) ;
    do r1 <- read (n * m) r ((j + 1) * n + (n - 1)) ;
    do r0 <- read (n * m) r (j * n + (n - 1)) ;
    do e <- read n ejp1 (n - 1) ;
    let eij := weight gamma r1 r0 (xn - yj1) * e in
    do yj <- read m y j ;
    let d := xn - yj in
    do g <- read (n + m) out (n - 1) ;
    do out <- write (n + m) out (n - 1) (g + 2 * d * eij) ;
    do out <- write (n + m) out (n + j) (- 2 * d * eij) ;
    do s <- for_from (n - 1) 0 (fun k s =>
      let '(d, eij, eip1j, ejp1, out) := s in
      let i := (n - 2 - k)%nat in
      do r1 <- read (n * m) r (j * n + i + 1) ;
      do r0 <- read (n * m) r (j * n + i) ;
      let a := weight gamma r1 r0 d in
      do xi <- read n x i ;
      do yj1 <- read m y (j + 1) ;
      do r2 <- read (n * m) r ((j + 1) * n + i) ;
      let b := weight gamma r2 r0 (xi - yj1) in
      do xi1 <- read n x (i + 1) ;
      do r3 <- read (n * m) r ((j + 1) * n + i + 1) ;
      let c := weight gamma r3 r0 (xi1 - yj1) in
      do e0 <- read n ejp1 i ;
      do e1 <- read n ejp1 (i + 1) ;
      let eij := a * eip1j + b * e0 + c * e1 in
      do ejp1 <- write n ejp1 (i + 1) eip1j ;
      do yj <- read m y j ;
      let d := xi - yj in
      do g <- read (n + m) out i ;
      do out <- write (n + m) out i (g + 2 * d * eij) ;
      do h <- read (n + m) out (n + j) ;
      do out <- write (n + m) out (n + j) (h - 2 * d * eij) ;
      Ok (d, eij, eij, ejp1, out)) (d, eij, eij, ejp1, out) ;
    let '(d, eij, eip1j, ejp1, out) := s in
    do ejp1 <- write n ejp1 0 eij ;
    Ok (d, eij, eip1j, ejp1, out)) (d, eij, eip1j, ejp1, out) ;
  Ok (snd s).

(** ** The operations, with the tests of the constructors *)

(** [SoftDTW_SqDist]: arguments of dimensions n, m and ng. *)
Definition softdtw (n m ng : nat) (x y gamma : nat -> R) (rjm1 : nat -> R) : res R :=
  if negb (ng =? 1)%nat then KErr
  else do g <- read ng gamma 0 ; value_code n m x y g rjm1.

(** [GradSoftDTW_SqDist]: the result has n + m entries. *)
Definition grad_softdtw (n m ng : nat) (x y gamma : nat -> R) (r ejp1 out : nat -> R) : res (nat -> R) :=
  if negb (ng =? 1)%nat then KErr
  else
    do g <- read ng gamma 0 ;
    do r <- fill_code n m x y g r ;
    back_code n m x y g r ejp1 out.

End Code.
