(** Clusters and block-sparse patterns.

    Models pykeops/pykeops/numpy/cluster/{matrix,utils,grid_cluster}.py and
    pykeops/pykeops/torch/cluster/{matrix,utils,grid_cluster}.py.

    One-dimensional arrays are lists; a two-dimensional array of booleans or indices is its two
    sizes and its entries.  cluster_centroids is in Centroids.v. *)

From Coq Require Import ZArith Reals Arith List Bool.
From Verif Require Import Result RangesConv.
Import ListNotations.

(** ** matrix.py: from_matrix *)

Record matrix (T : Type) := { nrows : nat; ncols : nat; entry_at : nat -> nat -> T }.
Arguments nrows {T}. Arguments ncols {T}. Arguments entry_at {T}.

(** Attribute T, method t. *)
Definition transposed {T} (m : matrix T) : matrix T :=
  {| nrows := ncols m; ncols := nrows m; entry_at := fun i j => entry_at m j i |}.

(** a[k] for a boolean array k: the entries of a where k holds, in the order of the rows;
    IndexError if the sizes differ. *)
Definition masked {T} (a : matrix T) (k : matrix bool) : res (list T) :=
  if (nrows a =? nrows k) && (ncols a =? ncols k)
  then Ok (flat_map (fun i => flat_map (fun j => if entry_at k i j then [entry_at a i j] else [])
                                       (seq 0 (ncols a)))
                    (seq 0 (nrows a)))
  else PyErr.

(** a[l] for a list l of non-negative indices: IndexError if one is too large. *)
Definition taken {T} (a : list T) (l : list nat) : res (list T) := mapr (rd a) l.

(** np.sum(keep, axis=1); axis=0 is the same on the transposed array. *)
Definition row_counts (k : matrix bool) : list nat :=
  map (fun i => fold_left (fun n j => n + (if entry_at k i j then 1 else 0)) (seq 0 (ncols k)) 0)
      (seq 0 (nrows k)).

Fixpoint cumsum (acc : nat) (l : list nat) : list nat :=
  match l with
  | [] => []
  | x :: l => (acc + x) :: cumsum (acc + x) l
  end.

(** numpy/cluster/matrix.py lines 112-130, torch/cluster/matrix.py lines 113-130; meshgrid gives
    the arrays I[a,b] = a and J[a,b] = b.  The conversions to int64 do not change the values. *)
Definition from_matrix (ri rj : list (nat * nat)) (keep : matrix bool) : res user_ranges :=
  let I := {| nrows := nrows keep; ncols := ncols keep; entry_at := fun a _ => a |} in
  let J := {| nrows := nrows keep; ncols := ncols keep; entry_at := fun _ b => b |} in
  do li <- masked (transposed I) (transposed keep) ;
  do redi <- taken ri li ;
  do lj <- masked J keep ;
  do redj <- taken rj lj ;
  Ok {| ranges_i := ri; slices_i := cumsum 0 (row_counts keep); redranges_j := redj;
        ranges_j := rj; slices_j := cumsum 0 (row_counts (transposed keep)); redranges_i := redi |}.

(** utils.py: swap_axes (numpy lines 227-235, torch lines 235-245). *)
Definition swap_axes (ranges : option user_ranges) : option user_ranges :=
  match ranges with
  | None => None
  | Some u => Some {| ranges_i := ranges_j u; slices_i := slices_j u; redranges_j := redranges_i u;
                      ranges_j := ranges_i u; slices_j := slices_i u; redranges_i := redranges_j u |}
  end.

(** ** utils.py: sort_clusters and cluster_ranges *)

(** numpy lines 33-43.  np.argsort (quicksort, not stable) is the argument: its result on the
    labels.  A tuple or list of arrays is sorted array by array, an array is a list of one. *)
Definition sort_clusters {T} (argsort : list nat -> list nat) (x : list (list T)) (lab : list nat)
    : res (list (list T) * list nat) :=
  let perm := argsort lab in
  do lab' <- taken lab perm ;
  do x' <- mapr (fun a => taken a perm) x ;
  Ok (x', lab').

(** torch lines 38-47: torch.sort returns the sorted labels and the permutation. *)
Definition sort_clusters_torch {T} (sort : list nat -> list nat * list nat) (x : list (list T)) (lab : list nat)
    : res (list (list T) * list nat) :=
  let '(lab', perm) := sort lab in
  do x' <- mapr (fun a => taken a perm) x ;
  Ok (x', lab').

(** np.bincount: occurrences of 0 .. max; the empty array gives an empty array. *)
Definition bincount (lab : list nat) : list nat :=
  map (fun k => length (filter (Nat.eqb k) lab))
      (seq 0 match lab with [] => 0 | _ => S (fold_left Nat.max lab 0) end).

(** Numbers in floating point with p bits of mantissa: rounding to nearest, ties to even, of a
    non-negative integer. *)
Definition rounded (p : nat) (n : nat) : nat :=
  if n <? 2 ^ p then n
  else
    let u := 2 ^ (S (Nat.log2 n) - p) in
    let q := n / u in let r := n mod u in
    u * (if 2 * r <? u then q
         else if u <? 2 * r then q + 1
         else if Nat.even q then q else q + 1).

(** cumsum in floating point: every partial sum is rounded. *)
Fixpoint cumsum_rounded (rnd : nat -> nat) (acc : nat) (l : list nat) : list nat :=
  match l with
  | [] => []
  | x :: l => rnd (acc + x) :: cumsum_rounded rnd (rnd (acc + x)) l
  end.

(** Lines 90-91 (numpy), 96-97 (torch): [pivots[:-1], pivots[1:]] stacked. *)
Definition stack_pivots (cs : list nat) : list (nat * nat) := combine (removelast (0 :: cs)) cs.

(** numpy cluster_ranges lines 88-91: integers, no rounding. *)
Definition cluster_ranges (lab : list nat) (Nlab : option (list nat)) : list (nat * nat) :=
  let Nlab := match Nlab with None => bincount lab | Some n => n end in
  stack_pivots (cumsum 0 Nlab).

(** torch cluster_ranges lines 94-97: bincount(lab).float(), single precision (24 bits), and the
    sums in single precision; converted to integers at the end. *)
Definition cluster_ranges_torch (lab : list nat) : list (nat * nat) :=
  stack_pivots (cumsum_rounded (rounded 24) 0 (map (rounded 24) (bincount lab))).

(** ** grid_cluster.py *)

(** Values stored on a given number of bits, two's complement. *)
Definition wrap (bits : Z) (n : Z) : Z := ((n + 2 ^ (bits - 1)) mod 2 ^ bits - 2 ^ (bits - 1))%Z.

Definition floor (x : R) : Z := (up x - 1)%Z.

(** Lines 26-33. *)
Definition weights (D : nat) : res (list Z) :=
  match D with
  | 1 => Ok [1]%Z
  | 2 => Ok [2 ^ 10; 1]%Z
  | 3 => Ok [2 ^ 20; 2 ^ 10; 1]%Z
  | _ => PyErr
  end.

(** Elementwise operation on two rows of the same length. *)
Fixpoint map2 {A B C} (h : A -> B -> C) (a : list A) (b : list B) : list C :=
  match a, b with
  | x :: a, y :: b => h x y :: map2 h a b
  | _, _ => []
  end.

(** Smallest element; np.min of an empty array is a ValueError. *)
Definition minimum (l : list Z) : res Z :=
  match l with [] => PyErr | x :: l => Ok (fold_left Z.min l x) end.
Definition rminimum (l : list R) : res R :=
  match l with [] => PyErr | x :: l => Ok (fold_left Rmin l x) end.

(** Access with Python's convention for negative indices. *)
Definition py_index (len i : Z) : res Z :=
  if (0 <=? i)%Z && (i <? len)%Z then Ok i
  else if (- len <=? i)%Z && (i <? 0)%Z then Ok (i + len)%Z
  else PyErr.

(** np.sort(np.unique(lab)): increasing list without repetition. *)
Fixpoint insert (x : Z) (l : list Z) : list Z :=
  match l with
  | [] => [x]
  | y :: l' => if (x <? y)%Z then x :: l else if (x =? y)%Z then l else y :: insert x l'
  end.
Definition unique (l : list Z) : list Z := fold_right insert [] l.

(** foo[u_lab] = np.arange(N_lab), foo uninitialised (junk). *)
Fixpoint assign (len : Z) (foo : Z -> Z) (ix : list Z) (v : Z) : res (Z -> Z) :=
  match ix with
  | [] => Ok foo
  | i :: ix => do q <- py_index len i ; assign len (fun z => if Z.eqb z q then v else foo z) ix (v + 1)
  end.

(** numpy lines 38-44, torch lines 44-49 (N_lab = len(u_lab); the labels fit in the type). *)
Definition compact (junk : Z -> Z) (lab : list Z) : res (list Z) :=
  let u := unique lab in
  match u with
  | [] => PyErr
  | u0 :: us =>
      let len := (fold_left Z.max us u0 + 1)%Z in
      do foo <- assign len junk u 0 ;
      mapr (fun l => do q <- py_index len l ; Ok (foo q)) lab
  end.

(** Lines 34-44 after the quantization: cells of the points, on [bits] bits; the sum along axis 1
    is on 64 bits for both libraries. *)
Definition grid_labels (bits : Z) (junk : Z -> Z) (D : nat) (cells : list (list Z)) : res (list Z) :=
  do w <- weights D ;
  let lab := map (fun c => fold_left (fun s v => wrap 64 (s + v)) (map2 (fun x y => wrap bits (wrap bits x * y)) c w) 0%Z) cells in
  do m <- minimum lab ;
  compact junk (map (fun l => wrap 64 (l - m)) lab).

(** numpy lines 34-46: floor(x / size) in 64-bit integers. *)
Definition grid_cluster (junk : Z -> Z) (D : nat) (x : list (list R)) (size : list R) : res (list Z) :=
  grid_labels 64 junk D (map (fun p => map2 (fun a s => floor (a / s)) p size) x).

(** torch lines 26-51: origin at the smallest coordinates, 32-bit integers. *)
Definition column_min (x : list (list R)) (d : nat) : res R := rminimum (map (fun p => nth d p 0%R) x).
Definition grid_cluster_torch (junk : Z -> Z) (D : nat) (x : list (list R)) (size : list R) : res (list Z) :=
  do _ <- weights D ;
  do o <- mapr (column_min x) (seq 0 D) ;
  grid_labels 32 junk D
    (map (fun p => map2 (fun a s => floor (a / s)) (map2 (fun a m => (a - m)%R) p o) size) x).
