(** * Layout of the outputs given to the user.

    Models [postprocess], pykeops/pykeops/common/operations.py lines 38-86, with the tools
    pykeops/pykeops/numpy/utils.py lines 60-66 and pykeops/pykeops/torch/utils.py lines 61-78,
    and [preprocess], lines 7-35.

    An array is a shape and its entries in row-major order: strides are not represented, an array
    that shares its data with another one is the array of the same entries.  The last argument of
    [postprocess] (dtype) and [nout] are not read by the code.  The broadcast division by an array
    whose last dimension is 1 is written for equal leading dimensions only. *)

From Coq Require Import ZArith Reals Arith List Bool String.
From Verif Require Import Result XReal Reductions Postprocess.
Import ListNotations.
Local Open Scope nat_scope.

Record arr (A : Type) := Arr { shape : list nat; flat : nat -> A }.
Arguments Arr {A}. Arguments shape {A}. Arguments flat {A}.

Definition prod (l : list nat) : nat := fold_right Nat.mul 1 l.

(** [tools.view(x, s)]: [None] is the dimension -1.  A dimension -1 beside a zero is refused by
    numpy and by torch. *)
Definition known (dims : list (option nat)) : nat :=
  prod (map (fun d => match d with Some n => n | None => 1 end) dims).
Definition unknowns (dims : list (option nat)) : nat :=
  List.length (filter (fun d => match d with Some _ => false | None => true end) dims).
Definition view {A} (a : arr A) (dims : list (option nat)) : res (arr A) :=
  let total := prod (shape a) in
  match unknowns dims with
  | 0 => if Nat.eqb total (known dims)
         then Ok (Arr (map (fun d => match d with Some n => n | None => 1 end) dims) (flat a)) else PyErr
  | 1 => if Nat.eqb (known dims) 0 then PyErr
         else if Nat.eqb (total mod known dims) 0
         then Ok (Arr (map (fun d => match d with Some n => n | None => total / known dims end) dims) (flat a))
         else PyErr
  | _ => PyErr
  end.

(** shape[:-1] and shape[-1] *)
Definition lead {A} (a : arr A) : list nat := removelast (shape a).
Definition last_dim {A} (a : arr A) : nat := List.last (shape a) 0.

(** x[..., k, :] *)
Definition select_row {A} (k : nat) (a : arr A) : res (arr A) :=
  match rev (shape a) with
  | d :: n :: r =>
      if k <? n
      then Ok (Arr (rev r ++ [d]) (fun p => flat a (p / d * (n * d) + k * d + p mod d)))
      else PyErr
  | _ => PyErr
  end.

(** x[..., k] *)
Definition select_last {A} (k : nat) (a : arr A) : res (arr A) :=
  match shape a with
  | [] => PyErr
  | _ => if k <? last_dim a then Ok (Arr (lead a) (fun p => flat a (p * last_dim a + k))) else PyErr
  end.

(** x[..., k:] *)
Definition from_last {A} (k : nat) (a : arr A) : res (arr A) :=
  match shape a with
  | [] => PyErr
  | _ => let n := last_dim a - k in
         Ok (Arr (lead a ++ [n]) (fun p => flat a (p / n * last_dim a + k + p mod n)))
  end.

(** x[..., None] *)
Definition add_last {A} (a : arr A) : arr A := Arr (shape a ++ [1]) (flat a).

(** x.squeeze(-1), called when the last dimension is 1 *)
Definition squeeze_last {A} (a : arr A) : arr A :=
  if Nat.eqb (last_dim a) 1 then Arr (lead a) (flat a) else a.

(** An operation between x and y, where the last dimension of one of them may be 1. *)
Definition broadcast_last {A} (op : A -> A -> A) (x y : arr A) : res (arr A) :=
  if list_eq_dec Nat.eq_dec (lead x) (lead y) then
    if Nat.eqb (last_dim y) 1
    then Ok (Arr (shape x) (fun p => op (flat x p) (flat y (p / last_dim x))))
    else if Nat.eqb (last_dim x) 1
    then Ok (Arr (shape y) (fun p => op (flat x (p / last_dim y)) (flat y p)))
    else if Nat.eqb (last_dim x) (last_dim y)
    then Ok (Arr (shape x) (fun p => op (flat x p) (flat y p)))
    else PyErr
  else PyErr.

Definition amap {A B} (f : A -> B) (a : arr A) : arr B := Arr (shape a) (fun p => f (flat a p)).

(** [tools.long] *)
Definition long (a : arr xr) : arr Z := amap to_long a.

Inductive output := Floats (a : arr xr) | Longs (a : arr Z) | Pair (a : arr xr) (b : arr Z).

Definition is_one_of (s : string) (l : list string) : bool := existsb (String.eqb s) l.

Definition somes (l : list nat) : list (option nat) := map Some l.

(** [postprocess], lines 38-86. *)
Definition postprocess (reduction_op : string) (opt_arg : nat) (out : arr xr) : res output :=
  if is_one_of reduction_op ["SumSoftMaxWeight"; "SoftMax"]%string then
    do num <- from_last 2 out ;
    do den <- select_last 1 out ;
    do q <- broadcast_last xdiv num (add_last den) ;
    Ok (Floats q)
  else if is_one_of reduction_op ["ArgMin"; "ArgMax"]%string then
    Ok (Longs (long out))
  else if is_one_of reduction_op ["Min_ArgMin"; "MinArgMin"; "Max_ArgMax"; "MaxArgMax"]%string then
    do tmp <- view out (somes (lead out) ++ [Some 2; None]) ;
    do vals <- select_row 0 tmp ;
    do indices <- select_row 1 tmp ;
    Ok (Pair vals (long indices))
  else if is_one_of reduction_op ["KMin"]%string then
    do out <- view out (somes (lead out) ++ [Some opt_arg; None]) ;
    Ok (Floats (squeeze_last out))
  else if is_one_of reduction_op ["ArgKMin"]%string then
    do out <- view (long out) (somes (lead out) ++ [Some opt_arg; None]) ;
    Ok (Longs (squeeze_last out))
  else if is_one_of reduction_op ["KMin_ArgKMin"; "KMinArgKMin"]%string then
    do out <- view out (somes (lead out) ++ [Some opt_arg; Some 2; None]) ;
    do vals <- select_row 0 out ;
    do indices <- select_row 1 out ;
    if Nat.eqb (last_dim vals) 1
    then Ok (Pair (squeeze_last vals) (squeeze_last (long indices)))
    else Ok (Pair vals (long indices))
  else if is_one_of reduction_op ["LogSumExp"]%string then
    if Nat.eqb (last_dim out) 2 then
      do m <- select_last 0 out ;
      do s <- select_last 1 out ;
      (* both arrays have the same shape *)
      Ok (Floats (add_last (Arr (shape m) (fun p => xadd (flat m p) (xlog (flat s p))))))
    else
      do m <- select_last 0 out ;
      do s <- from_last 1 out ;
      do r <- broadcast_last xadd (add_last m) (amap xlog s) ;
      Ok (Floats r)
  else Ok (Floats out).

(** [preprocess], lines 7-35: the reduction of the engine, and what is put before formula2. *)
Inductive second := NoSecond | Given | WithOne.
Definition preprocess (reduction_op : string) (formula2 : bool) : res (string * second) :=
  let given := if formula2 then Given else NoSecond in
  if is_one_of reduction_op ["SumSoftMaxWeight"; "SoftMax"]%string then
    if formula2 then Ok ("Max_SumShiftExpWeight"%string, WithOne)
    else PyErr (* concatenation of a string and None *)
  else if is_one_of reduction_op ["LogSumExp"]%string then
    if formula2 then Ok ("Max_SumShiftExpWeight"%string, Given) else Ok ("Max_SumShiftExp"%string, NoSecond)
  else if is_one_of reduction_op ["LogSumExpWeight"]%string then
    if formula2 then Ok ("Max_SumShiftExpWeight"%string, Given) else PyErr
  else Ok (reduction_op, given).

(** The reduction that the engine runs for these names, with a second formula of dimension [d], and the
    weights that it reads: Max_SumShiftExpWeight_Reduction.py lines 24-33, where the weight is the
    constant 1 by default (Max_SumShiftExp_Reduction, same file, is the same class). *)
Definition engine_dim (sec : second) (d : nat) : nat :=
  match sec with NoSecond => 1 | Given => d | WithOne => S d end.
Definition engine_red (name : string) (sec : second) (d : nat) : option reduction :=
  if String.eqb name "Max_SumShiftExpWeight"%string then Some (LSE_Red (engine_dim sec d))
  else if String.eqb name "Max_SumShiftExp"%string then Some (LSE_Red (engine_dim sec d))
  else None.
Definition engine_weight (sec : second) (w : nat -> R) : nat -> R :=
  match sec with
  | NoSecond => fun _ => 1%R
  | Given => w
  | WithOne => fun k => match k with O => 1%R | S k => w k end
  end.

(** The array written by the map-reduce schemes: one row of [dim] cells for each output index. *)
Definition buffer (leading : list nat) (dim : nat) (row : nat -> cells) : arr xr :=
  Arr (leading ++ [dim]) (fun p => row (p / dim) (p mod dim)).
