(** * Centroids of clusters.

    Models pykeops/pykeops/numpy/cluster/utils.py lines 97-224 and
    pykeops/pykeops/torch/cluster/utils.py lines 101-232 ([cluster_centroids],
    [cluster_ranges_centroids]).

    One-dimensional arrays are lists, the points are the list of their rows.  Arithmetic is exact; a
    quotient by zero, which is an infinity or not a number, is [None]. *)

From Coq Require Import Reals Arith List Bool.
From Verif Require Import Result RangesConv Clusters.
Import ListNotations.
Local Open Scope R_scope.

(** [bincount(lab, weights=w)]: a sum for each class, up to the largest label; ValueError
    when the sizes differ. *)
Definition wbincount (lab : list nat) (w : list R) : res (list R) :=
  if Nat.eqb (length lab) (length w) then
    Ok (map (fun k => fold_left (fun s p => if Nat.eqb (fst p) k then s + snd p else s)
                        (combine lab w) 0)
            (seq 0 match lab with [] => O | _ => S (fold_left Nat.max lab O) end))
  else PyErr.

(** Elementwise operation on two arrays of one dimension: an array of size one is repeated. *)
Definition broadcast {A B C} (h : A -> B -> C) (a : list A) (b : list B) : res (list C) :=
  if Nat.eqb (length a) (length b) then Ok (map2 h a b)
  else match a, b with
       | [x], _ => Ok (map (h x) b)
       | _, [y] => Ok (map (fun x => h x y) a)
       | _, _ => PyErr
       end.

Definition quotient (a b : R) : option R := if Req_EM_T b 0 then None else Some (a / b).

(** [c[:, d] = v], [c] having [n] rows. *)
Definition column {A} (n : nat) (v : list A) : res (list A) :=
  if Nat.eqb (length v) n then Ok v
  else match v with [x] => Ok (repeat x n) | _ => PyErr end.

(** [cluster_centroids], numpy lines 133-146, torch lines 136-149: the columns of the result, for points with
    [D] coordinates. *)
Definition cluster_centroids (D : nat) (x : list (list R)) (lab : list nat)
    (Nlab weights weights_c : option (list R)) : res (list (list (option R))) :=
  let Nlab := match Nlab with Some n => n | None => map INR (bincount lab) end in
  do wc <- match weights, weights_c with
           | Some w, None => do s <- wbincount lab w ; Ok (Some s)
           | _, c => Ok c
           end ;
  mapr (fun d =>
          let xd := map (fun p => nth d p 0) x in
          do v <- match weights with
                  | None => do s <- wbincount lab xd ; broadcast quotient s Nlab
                  | Some w =>
                      do xw <- broadcast Rmult xd w ;
                      do s <- wbincount lab xw ;
                      match wc with Some c => broadcast quotient s c | None => PyErr end
                  end ;
          column (length Nlab) v)
       (seq 0 D).

(** [cluster_ranges_centroids], numpy lines 215-224.  The counts are converted to floating point numbers
    and back, see Clusters.v. *)
Definition cluster_ranges_centroids (D : nat) (x : list (list R)) (lab : list nat)
    (weights : option (list R)) : res (list (nat * nat) * list (list (option R)) * list R) :=
  let Nlab := bincount lab in
  match weights with
  | Some w =>
      do wc <- wbincount lab w ;
      do c <- cluster_centroids D x lab (Some (map INR Nlab)) (Some w) (Some wc) ;
      Ok (cluster_ranges lab (Some Nlab), c, wc)
  | None =>
      do c <- cluster_centroids D x lab (Some (map INR Nlab)) None None ;
      Ok (cluster_ranges lab (Some Nlab), c, map INR Nlab)
  end.

(** torch lines 220-232: weights below [min_weight] are replaced by it; the ranges are those of
    [cluster_ranges_torch], in single precision. *)
Definition clamped (min_weight w : R) : R := if Rle_dec w min_weight then min_weight else w.

Definition cluster_ranges_centroids_torch (D : nat) (x : list (list R)) (lab : list nat)
    (weights : option (list R)) (min_weight : R)
    : res (list (nat * nat) * list (list (option R)) * list R) :=
  let Nlab := map INR (bincount lab) in
  match weights with
  | Some w =>
      let w := map (clamped min_weight) w in
      do wc <- wbincount lab w ;
      do c <- cluster_centroids D x lab (Some Nlab) (Some w) (Some wc) ;
      Ok (cluster_ranges_torch lab, c, wc)
  | None =>
      do c <- cluster_centroids D x lab (Some Nlab) None None ;
      Ok (cluster_ranges_torch lab, c, Nlab)
  end.
