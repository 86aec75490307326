(** * Tensor contractions.

    Models keopscore/keopscore/formulas/maths/TensorDot.py (lines 9-49: the functions on lists, lines
    56-148: the constructor, 150-196: the code that is generated, 198-222: the gradient), Kron.py
    (lines 18-33), MatVecMult.py (lines 19-46), VecMatMult.py (lines 19-46), TensorProd.py (lines 18-43).

    The generated code is modelled by its execution: nested loops over arrays of reals, in the row major
    order (C_CONTIGUOUS, the only one that TensorDot has).  A read or write outside of an array, and the use
    of a variable that is not declared, are [KErr]; so are the assertions.  Exceptions of Python are [PyErr].
    Python integers are unbounded; the division of line 108 is made in floating point by the code and is
    exact here.  Indices given by users may be negative ([list Z]). *)

From Coq Require Import ZArith Reals List Bool Arith.
From Verif Require Import Result Factor.
Import ListNotations.

(** ** Lists *)

Fixpoint product (x : list nat) : nat := match x with [] => 1 | a :: x => a * product x end.

(** [f(x) for x in l] *)
Fixpoint mapr {A B} (f : A -> res B) (l : list A) : res (list B) :=
  match l with [] => Ok [] | x :: l => do y <- f x ; do r <- mapr f l ; Ok (y :: r) end.

(** [select]: negative indices count from the end. *)
Definition select {A} (x : list A) (ind : list Z) : res (list A) := mapr (py_get A x) ind.

Definition range (a b : nat) : list Z := map Z.of_nat (seq a (b - a)).

(** [delete] *)
Definition delete {A} (x : list A) (ind : list Z) : res (list A) :=
  select x (filter (fun i => negb (existsb (Z.eqb i) ind)) (range 0 (List.length x))).

(** [cumprod]: running products. *)
Fixpoint cumprod (acc : nat) (x : list nat) : list nat :=
  match x with [] => [] | a :: x => (acc * a) :: cumprod (acc * a) x end.
Definition cumprod_array (x : list nat) : list nat :=
  match x with [] => [] | _ :: t => rev (cumprod 1 (rev t)) ++ [1] end.

(** sorted(range(len(keys)), key=keys.__getitem__), a stable sort. *)
Fixpoint insert (k : Z) (i : nat) (l : list (Z * nat)) : list (Z * nat) :=
  match l with
  | [] => [(k, i)]
  | (k', i') :: l' => if (k' <=? k)%Z then (k', i') :: insert k i l' else (k, i) :: l
  end.
Fixpoint sort_from (i : nat) (keys : list Z) (sorted : list (Z * nat)) : list (Z * nat) :=
  match keys with [] => sorted | k :: keys => sort_from (S i) keys (insert k i sorted) end.
Definition sorted_positions (keys : list Z) : list Z :=
  map (fun p => Z.of_nat (snd p)) (sort_from 0 keys []).

(** [permutation] *)
Definition permutation {A} (perm : list Z) (arr : list A) : res (list A) :=
  select arr (sorted_positions perm).

(** ** The constructor *)

Record td := {
  dimfa : list nat;
  dimfb : list nat;
  keepdims : list nat;
  loopdim : list nat;
  td_dim : nat;
  list_strides_dimsfa : list nat;
  list_strides_dimsfb : list nat;
  list_strides_keepdim : list nat;
  list_indices_keepdim : list nat;     (* line 163 *)
  list_indices_a_intot : list nat;
  list_indices_b_intot : list nat;
  (* for the gradient *)
  indices_keepdim_a : list Z;
  indices_keepdim_b : list Z;
  dimfa_grad : list nat;
  moveaxis_a : list Z;
  moveaxis_b : list Z;
  contfa_grad : list Z;
  contfb_grad : list Z
}.

Definition require (b : bool) : res unit := if b then Ok tt else KErr.
Definition nats_eqb (x y : list nat) : bool := if list_eq_dec Nat.eq_dec x y then true else false.
Definition zs_eqb (x y : list Z) : bool := if list_eq_dec Z.eq_dec x y then true else false.

(** fad, fbd: the dimensions of the two formulas. *)
Definition tensordot (fad fbd : nat) (dimsfa dimsfb : list nat) (contfa contfb : list Z)
    (permute : option (list Z)) : res td :=
  do sb <- select dimsfb contfb ;
  do sa <- select dimsfa contfa ;
  do _ <- require (nats_eqb sb sa) ;
  do _ <- require (fad =? product dimsfa) ;
  do _ <- require (fbd =? product dimsfb) ;
  do ika <- delete (range 0 (List.length dimsfa)) contfa ;
  do kda <- delete dimsfa contfa ;
  do ikb <- delete (range 0 (List.length dimsfb)) contfb ;
  do kdb <- delete dimsfb contfb ;
  let kd := kda ++ kdb in
  do pkd <- match permute with None => Ok kd | Some p => permutation p kd end ;
  do d <- (if List.length contfa =? 0 then Ok (fad * fbd)
           else if product sa =? 0 then PyErr
           else Ok ((fad * fbd) / (product sa * product sa))) ;
  do perm <- match permute with
             | None => Ok (range 0 (List.length kd))
             | Some p =>
                 do pp <- permutation p p ;
                 do _ <- require (zs_eqb pp (range 0 (List.length kd))) ;
                 Ok p
             end ;
  let total := List.length dimsfa + List.length dimsfb - List.length contfa in
  do la <- permutation (ika ++ contfa) (range 0 (List.length kda) ++ range (List.length kd) total) ;
  do lb <- permutation (ikb ++ contfb)
             (range (List.length kda) (List.length kd) ++ range (List.length kd) total) ;
  do dg <- permutation perm kd ;
  do rca <- permutation contfb contfa ;
  do pa <- select perm (range 0 (List.length kda)) ;
  do rka <- permutation pa ika ;
  do rcb <- permutation contfa contfb ;
  do pb <- select perm (range (List.length kda) (List.length kd)) ;
  do rkb <- permutation pb ikb ;
  do lik <- permutation perm (range 0 (List.length kd)) ;
  Ok {| dimfa := dimsfa; dimfb := dimsfb; keepdims := kd; loopdim := kd ++ sa; td_dim := d;
        list_strides_dimsfa := cumprod_array dimsfa;
        list_strides_dimsfb := cumprod_array dimsfb;
        list_strides_keepdim := cumprod_array pkd;
        list_indices_keepdim := map Z.to_nat lik;
        list_indices_a_intot := map Z.to_nat la;
        list_indices_b_intot := map Z.to_nat lb;
        indices_keepdim_a := ika; indices_keepdim_b := ikb;
        dimfa_grad := dg; moveaxis_a := rka ++ rca; moveaxis_b := rkb ++ rcb;
        contfa_grad := pb; contfb_grad := pa |}.

(** ** The generated code *)

(** for (i = 0; i < n; ++i) body *)
Fixpoint for_from {S} (n i : nat) (body : nat -> S -> res S) (s : S) : res S :=
  match n with O => Ok s | S n => do s' <- body i s ; for_from n (i + 1) body s' end.
Definition for_loop {S} (n : nat) (body : nat -> S -> res S) (s : S) : res S := for_from n 0 body s.

(** Nested loops; [vars]: the values of the variables of the loops around. *)
Fixpoint nest {S} (dims : list nat) (vars : list nat) (body : list nat -> S -> res S) (s : S) : res S :=
  match dims with
  | [] => body vars s
  | d :: dims => for_loop d (fun i => nest dims (vars ++ [i]) body) s
  end.

(** "0 + TD_var_v * stride + ...", lines 163-180: the pairs (v, stride). *)
Fixpoint index_terms (vs strides : list nat) : res (list (nat * nat)) :=
  match vs, strides with
  | [], _ => Ok []
  | v :: vs, s :: strides => do r <- index_terms vs strides ; Ok ((v, s) :: r)
  | _ :: _, [] => PyErr
  end.
Fixpoint index_value (terms : list (nat * nat)) (vars : list nat) : res nat :=
  match terms with
  | [] => Ok 0
  | (v, s) :: terms =>
      match nth_error vars v with
      | None => KErr
      | Some x => do r <- index_value terms vars ; Ok (x * s + r)
      end
  end.

(** Arrays of a given size. *)
Definition read (size : nat) (x : nat -> R) (i : nat) : res R := if i <? size then Ok (x i) else KErr.
Definition write (size : nat) (x : nat -> R) (i : nat) (a : R) : res (nat -> R) :=
  if i <? size then Ok (fun j => if j =? i then a else x j) else KErr.

(** The names of the variables of loops, TD_var_F, TD_var_G, ...: chr(70 + i) has to be a character of
    identifiers. *)
Definition name_ok (i : nat) : bool :=
  let c := 70 + i in
  (65 <=? c) && (c <=? 90) || (c =? 95) || (97 <=? c) && (c <=? 122) || (48 <=? c) && (c <=? 57).

Definition td_op (t : td) (fad fbd : nat) (out a b : nat -> R) : res (nat -> R) :=
  do _ <- require (forallb name_ok (seq 0 (List.length (loopdim t)))) ;
  do to <- index_terms (list_indices_keepdim t) (list_strides_keepdim t) ;
  do ta <- index_terms (list_indices_a_intot t) (list_strides_dimsfa t) ;
  do tb <- index_terms (list_indices_b_intot t) (list_strides_dimsfb t) ;
  do out <- for_loop (td_dim t) (fun i out => write (td_dim t) out i 0%R) out ;
  nest (loopdim t) [] (fun vars out =>
    do io <- index_value to vars ;
    do ia <- index_value ta vars ;
    do ib <- index_value tb vars ;
    do x <- read (td_dim t) out io ;
    do y <- read fad a ia ;
    do z <- read fbd b ib ;
    write (td_dim t) out io (x + y * z)%R) out.

(** The two formulas of the gradient, lines 198-222: constructors. *)
Definition grad_a (t : td) (fbd : nat) : res td :=
  tensordot (td_dim t) fbd (dimfa_grad t) (dimfb t) (contfa_grad t) (indices_keepdim_b t)
    (Some (moveaxis_a t)).
Definition grad_b (t : td) (fad : nat) : res td :=
  tensordot (td_dim t) fad (dimfa_grad t) (dimfa t) (contfb_grad t) (indices_keepdim_a t)
    (Some (moveaxis_b t)).

(** ** Kron *)
Definition kron (fad fbd : nat) (dimsfa dimsfb : list nat) : res td :=
  do _ <- require (List.length dimsfa =? List.length dimsfb) ;
  let n := List.length dimsfa in
  tensordot fad fbd dimsfa dimsfb [] []
    (Some (map (fun i => Z.of_nat (2 * i)) (seq 0 n) ++ map (fun i => Z.of_nat (2 * i + 1)) (seq 0 n))).

(** ** Matrix products *)

(** The state of the loops: the counter q and the array. *)
Definition matvec (ad bd : nat) (out a b : nat -> R) : res (nat * (nat -> R)) :=
  if bd =? 0 then PyErr else
  if negb (ad mod bd =? 0) then KErr else
  let n := ad / bd in
  do r <- for_loop n (fun i s =>
    do out <- write n (snd s) i 0%R ;
    for_loop bd (fun k s =>
      do o <- read n (snd s) i ;
      do x <- read ad a (fst s) ;
      do y <- read bd b k ;
      do out <- write n (snd s) i (o + x * y)%R ;
      Ok (fst s + 1, out)) (fst s, out)) (0, out) ;
  Ok (n, snd r).

Definition vecmat (bd ad : nat) (out b a : nat -> R) : res (nat * (nat -> R)) :=
  if bd =? 0 then PyErr else
  if negb (ad mod bd =? 0) then KErr else
  let n := ad / bd in
  do r <- for_loop n (fun i out =>
    do out <- write n out i 0%R ;
    for_loop bd (fun k out =>
      do o <- read n out i ;
      do x <- read ad a (k * n + i) ;
      do y <- read bd b k ;
      write n out i (o + x * y)%R) out) out ;
  Ok (n, r).

Definition tensorprod (ad bd : nat) (out a b : nat -> R) : res (nat * (nat -> R)) :=
  do r <- for_loop ad (fun k s =>
    for_loop bd (fun l s =>
      do x <- read ad a k ;
      do y <- read bd b l ;
      do out <- write (ad * bd) (snd s) (fst s) (x * y)%R ;
      Ok (fst s + 1, out)) s) (0, out) ;
  Ok (ad * bd, snd r).
