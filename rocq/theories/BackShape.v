(** Shapes of gradients in back-propagation.

    Models pykeops/pykeops/torch/generic/generic_red.py lines 218-256 (GenredAutograd_base._backward, from the gradient
    returned by the engine to the gradient returned to PyTorch).

    A tensor is its shape and its numbers in row-major order.  [sum_dims], [sum_rows] and [reshape] are the operations
    [sum(dims, keepdim=True)], [sum(-2)] and [reshape] of PyTorch, on contiguous tensors. *)

From Coq Require Import Reals List Bool Arith.
From Verif Require Import Result.
Import ListNotations.
Local Open Scope nat_scope.

Definition count (s : list nat) : nat := fold_right Nat.mul 1 s.
Record tensor := { shape : list nat; data : nat -> R }.

Fixpoint addup (n : nat) (u : nat -> R) : R := match n with O => 0%R | S m => (addup m u + u m)%R end.

(** [t.sum(dims, keepdim=True)]; [k] is the position of the first dimension of [s]. *)
Fixpoint sum_dims (k : nat) (dims : list nat) (s : list nat) (u : nat -> R) : list nat * (nat -> R) :=
  match s with
  | [] => ([], u)
  | n :: s' =>
      let p := count s' in
      if existsb (Nat.eqb k) dims then
        let (r, w) := sum_dims (S k) dims s' (fun i => addup n (fun a => u (a * p + i))) in
        (1 :: r, w)
      else
        let r := fst (sum_dims (S k) dims s' u) in
        (n :: r, fun i => snd (sum_dims (S k) dims s' (fun j => u (i / count r * p + j))) (i mod count r))
  end.

(** [t.sum(-2)]: fails with less than two dimensions. *)
Definition sum_rows (t : tensor) : res tensor :=
  match rev (shape t) with
  | D :: M :: b =>
      Ok {| shape := rev b ++ [D]; data := fun i => addup M (fun m => data t ((i / D * M + m) * D + i mod D)) |}
  | _ => PyErr
  end.

(** [t.reshape(s)]: fails when the numbers of entries differ. *)
Definition reshape (s : list nat) (t : tensor) : res tensor :=
  if count s =? count (shape t) then Ok {| shape := s; data := data t |} else PyErr.

(** [s[:-n]]. *)
Definition but_last (n : nat) (s : list nat) : list nat := firstn (length s - n) s.

(** [tuple(i for (i, (x, y)) in enumerate(zip(a, g)) if x < y)]. *)
Fixpoint smaller (k : nat) (a g : list nat) : list nat :=
  match a, g with
  | x :: a', y :: g' => if x <? y then k :: smaller (S k) a' g' else smaller (S k) a' g'
  | _, _ => []
  end.

(** Lines 218-256; [arg] is the shape of the argument, [cat] its category. *)
Definition finish_grad (cat : nat) (arg : list nat) (grad : tensor) : res tensor :=
  do gd <- (if cat =? 2 then
              do g <- sum_rows grad ; Ok (g, smaller 0 (but_last 1 arg) (but_last 1 (shape g)))
            else Ok (grad, smaller 0 (but_last 2 arg) (but_last 2 (shape grad)))) ;
  let (g, dims) := gd : tensor * list nat in
  let g' := match dims with
            | [] => g
            | _ => let (s, u) := sum_dims 0 dims (shape g) (data g) in {| shape := s; data := u |}
            end in
  reshape arg g'.
