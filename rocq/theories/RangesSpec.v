(** Specifications for block-sparse and batched reductions. *)

From Coq Require Import ZArith Reals Arith List.
From Verif Require Import Result Formula XReal Reductions KernelSum LseSpec Postprocess CpuReduc
  RangesConv CpuConvSpec.
Import ListNotations.

(** ** Block-sparse patterns *)

(** A block: an interval of output rows and the intervals of columns to visit, [first, last). *)
Record block := { brows : nat * nat; bcols : list (nat * nat) }.
Definition interval (p : nat * nat) : list nat := seq (fst p) (snd p - fst p).
Definition visited (b : block) : list nat := flat_map interval (bcols b).

(** Arrays describing a pattern (documentation of Genred, argument ranges): intervals of rows,
    cumulated numbers of column intervals, column intervals. *)
Fixpoint cumulated (n : nat) (bs : list block) : list nat :=
  match bs with
  | [] => []
  | b :: bs => n + length (bcols b) :: cumulated (n + length (bcols b)) bs
  end.
Definition describes (bs : list block) (ranges : list (nat * nat)) (slices : list nat)
    (redranges : list (nat * nat)) : Prop :=
  ranges = map brows bs /\ slices = cumulated 0 bs /\ redranges = flat_map bcols bs.

(** A user's pattern, for a reduction over j (tagI = 0) or over i. *)
Definition user_describes (u : user_ranges) (tagI : nat) (bs : list block) : Prop :=
  match tagI with
  | O => describes bs (ranges_i u) (slices_i u) (redranges_j u)
  | _ => describes bs (ranges_j u) (slices_j u) (redranges_i u)
  end.

(** The last block visits something. *)
Definition ends_visiting (bs : list block) : Prop := exists bs' blk, bs = bs' ++ [blk] /\ bcols blk <> [].

(** No row belongs to two blocks; rows are below nx. *)
Definition disjoint_rows (nx : nat) (bs : list block) : Prop :=
  NoDup (flat_map (fun b => interval (brows b)) bs) /\
  (forall b, In b bs -> snd (brows b) <= nx).

(** ** Value of a row: reduction of a list of (index, value of the formula) *)
Definition lsum (k : nat) (l : list (Z * (nat -> R))) : R :=
  fold_right (fun p s => snd p k + s)%R 0%R l.
Definition as_entry (p : Z * (nat -> R)) : entry := (Some (snd p 0), fun k => snd p (S k)).
Definition fins (x : nat -> R) : cells := fun k => Fin (x k).

(** direct_sum: the sequential reduction of C06 and C07.  Sum: the sum, for every scheme.
    Log-sum-exp: the logarithm of the weighted sum of exponentials, when the list is not empty. *)
Definition row_value (r : reduction) (s : scheme) (l : list (Z * (nat -> R))) (v : cells) : Prop :=
  (s = direct_sum -> forall k, k < rdim r ->
     v k = rfinal r (run r (map (fun p => (fst p, fins (snd p))) l) (rinit r)) k) /\
  (forall d, r = Sum_Red d -> forall k, k < d -> v k = Fin (lsum k l)) /\
  (forall w, r = LSE_Red w -> l <> [] -> forall k, k < w ->
     (0 < exp_sum k (map as_entry l))%R ->
     lse_post v k = Fin (ln (exp_sum k (map as_entry l)))).

(** Values of the formula at output row i over the columns of a block, with their indices. *)
Definition block_terms (decl : declaration) (A : Loader.memory) (f : fm) (tagI i : nat) (cols : list nat)
    : list (Z * (nat -> R)) :=
  map (fun j => (Z.of_nat j,
                 eval f (match tagI with
                         | O => point decl (contiguous decl A) i j
                         | _ => point decl (contiguous decl A) j i
                         end))) cols.

(** ** numpy indexing *)

(** Position in a C-contiguous array. *)
Fixpoint ravel (shape idx : list nat) : nat :=
  match shape, idx with
  | _ :: shape, x :: idx => x * fold_right Nat.mul 1 shape + ravel shape idx
  | _, _ => 0
  end.
(** Broadcasting: index 0 along the dimensions of size 1. *)
Fixpoint clip (shape idx : list nat) : list nat :=
  match shape, idx with
  | d :: shape, x :: idx => (if d =? 1 then 0 else x) :: clip shape idx
  | _, _ => []
  end.
(** Sizes compatible with the common sizes [full]. *)
Definition compatible (shape full : list nat) : Prop := Forall2 (fun d n => d = 1 \/ d = n) shape full.
(** Index inside a shape. *)
Definition inside (idx full : list nat) : Prop := Forall2 lt idx full.
(** Row of an array of batch sizes [shape] with n rows, for the batch index bs and row x. *)
Definition numpy_row (shape : list nat) (n : nat) (bs : list nat) (x : nat) : nat :=
  ravel (shape ++ [n]) (clip shape bs ++ [x]).

(** Sizes of an argument: nb batch sizes, number of rows (not for parameters), dimension. *)
Definition shape_ok (decl : declaration) (argshapes : Z -> list nat) (full : list nat) (M N : nat) (a : Z) : Prop :=
  exists s, compatible s full /\
    argshapes a = s ++ match snd (decl a) with
                       | O => [M; fst (decl a)]
                       | 1 => [N; fst (decl a)]
                       | _ => [fst (decl a)]
                       end.

(** The common sizes: each is 1 or the size of some argument. *)
Definition common (argshapes : Z -> list nat) (full : list nat) (args : list Z) : Prop :=
  forall q, q < length full -> nth q full 0 = 1 \/ exists a, In a args /\ nth q (argshapes a) 0 = nth q full 0.

(** The formula evaluated at batch index bs, rows i and j, arguments broadcast. *)
Definition batch_point (decl : declaration) (argshapes : Z -> list nat) (A : Loader.memory) (bs : list nat)
    (i j : nat) : env :=
  fun a k =>
    let s := firstn (length bs) (argshapes a) in
    let n := match snd (decl a) with O | 1 => nth (length bs) (argshapes a) 0 | _ => 1 end in
    A a (numpy_row s n bs (row (snd (decl a)) i j) * fst (decl a) + k).
Definition batch_terms (decl : declaration) (argshapes : Z -> list nat) (A : Loader.memory) (f : fm)
    (tagI : nat) (bs : list nat) (i n : nat) : list (Z * (nat -> R)) :=
  map (fun j => (Z.of_nat j,
                 eval f (match tagI with
                         | O => batch_point decl argshapes A bs i j
                         | _ => batch_point decl argshapes A bs j i
                         end))) (seq 0 n).

(** Number of rows of an argument, all batch indices together, at most 2^31. *)
Definition fits (decl : declaration) (argshapes : Z -> list nat) (nb : nat) (a : Z) : Prop :=
  (Z.of_nat (fold_right Nat.mul 1%nat (firstn nb (argshapes a)) *
             match snd (decl a) with O | 1 => nth nb (argshapes a) 0 | _ => 1 end)%nat <= 2 ^ 31)%Z.

(** The data computed by Sizes.h and fill_shapes for a formula. *)
Definition batch_data (f : fm) (tagI : nat) (argshapes : Z -> list nat) (nb M N : nat) : batching :=
  let L := Loader.loader f tagI in
  let names := fun c => map fst (Loader.vars_cat f c) in
  {| bsizes := fill_sizes argshapes nb M N (names 0) (names 1) (names 2);
     shapes_i := shapes_of argshapes nb (Loader.varsI L);
     shapes_j := shapes_of argshapes nb (Loader.varsJ L);
     shapes_p := param_shapes argshapes nb (Loader.varsP L) |}.
