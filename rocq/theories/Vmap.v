(** * Reductions under torch.vmap.

    Models
    - pykeops/pykeops/torch/generic/generic_red.py lines 304-317 ([GenredAutograd.vmap]), 71-131
      ([GenredAutograd_base._forward]) and 657-695 (sizes of a call of a Genred object);
    - pykeops/pykeops/common/keops_io/LoadKeOps.py lines 177-245 ([genred]: ranges, shape of the output, output
      given by the caller);
    - keopscore/keopscore/include/Ranges.h lines 19-100 (user ranges, batches, both).

    A tensor of torch is a list of sizes and a value for each list of indices: strides and views are not
    represented.  [contents] is what [.contiguous()] puts in memory.  Inside torch.vmap, a mapped tensor is seen
    without the dimension [in_dim]; the static method vmap receives the whole tensors and the list of the
    dimensions, None for the tensors that are not mapped, and returns a tensor whose first dimension is the mapped
    one ([return ..., (0, None)]).

    Simplifications: routines of the CPU; not half precision; the formula is not Zero; a single level of vmap; the
    post-processing of the output is in Layout.v.  [PyErr] also stands for undefined behaviours of the compiled
    code. *)

From Coq Require Import ZArith Reals Arith List Bool.
From Verif Require Import Result Formula XReal Reductions CpuReduc Loader CpuConv GpuConv RangesConv
  RangesSpec Broadcast ArgCheck.
Import ListNotations.

Record tensor := Tensor { t_size : list nat; t_at : list nat -> R }.

(** ** torch *)

(** The list in which the elements at positions a and b are exchanged. *)
Definition swapped (a b : nat) (l : list nat) : list nat :=
  map (fun q => nth (if q =? a then b else if q =? b then a else q) l 0) (seq 0 (length l)).

(** [x.transpose(a, b)]; IndexError for a dimension that does not exist. *)
Definition transpose (x : tensor) (a b : nat) : res tensor :=
  if (a <? length (t_size x)) && (b <? length (t_size x))
  then Ok (Tensor (swapped a b (t_size x)) (fun idx => t_at x (swapped a b idx)))
  else PyErr.

(** [x[None, ...]]. *)
Definition add_first (x : tensor) : tensor := Tensor (1 :: t_size x) (fun idx => t_at x (tl idx)).

(** Indices of the number at position p of a contiguous array. *)
Fixpoint coords (shape : list nat) (p : nat) : list nat :=
  match shape with
  | [] => []
  | _ :: shape => p / fold_right Nat.mul 1 shape :: coords shape (p mod fold_right Nat.mul 1 shape)
  end.

Definition contents (args : list tensor) : memory :=
  fun a p => if (a <? 0)%Z then 0%R
             else match nth_error args (Z.to_nat a) with
                  | Some x => t_at x (coords (t_size x) p)
                  | None => 0%R
                  end.

(** Sizes of a tensor without the mapped dimension. *)
Definition hidden (d : option nat) (sizes : list nat) : list nat :=
  match d with None => sizes | Some d => firstn d sizes ++ skipn (S d) sizes end.

(** ** The call *)

Record parameters := {
  formula : fm; tag : nat; red : reduction; sch : scheme;
  nx : nat; ny : nat;
  ranges : option user_ranges;
  out_shape : option (list nat)  (* the sizes of the tensor [out], None when it is not given *)
}.

Section Engine.
(** Order of the parallel loops and uninitialised memory, as in CpuConv.v and RangesConv.v. *)
Context (schedule : nat -> list nat) (junk : rarray) (tmp : cells).

(** Ranges.h and the routine with ranges.  With batch dimensions and user ranges, none of the members is set:
    the test that refuses it is between [#if do_checks] and [#endif] and [do_checks] is 0. *)
Definition ranges_routine (q : parameters) (shapes : list (list nat)) (A : memory) (rows : nat) (mem : cells)
    : res cells :=
  let sh := shape_at shapes in
  let f := formula q in
  let nb := nbatchdims sh (map fst (vars_cat f 0)) (map fst (vars_cat f 1)) in
  let run := fun bt sp => launch_cpu_ranges schedule junk tmp (red q) (sch q) f (tag q) A bt sp rows mem in
  match nb, ranges q with
  | O, None => run None no_ranges
  | O, Some u => run None (from_user u (tag q))
  | _, None =>
      let bt := batch_data f (tag q) sh nb (nx q) (ny q) in
      run (Some bt) (batch_ranges (bsizes bt) (tag q))
  | _, Some _ => PyErr
  end.

(** [_forward] and [genred].  [mem] is the memory from the address of the output, before the call; the result is
    the sizes of the output and this memory after the call. *)
Definition forward (q : parameters) (args : list tensor) (mem : cells) : res (list nat * cells) :=
  let shapes := map t_size args in
  match shapes with
  | [] => PyErr
  | _ =>
      let nb := max_rank shapes - 2 in
      let use_ranges := negb (nb =? 0) || match ranges q with Some _ => true | None => false end in
      do batch <- (if nb =? 0 then Ok [] else genred_batch nb (map (map Z.of_nat) shapes)) ;
      let rows := if tag q =? 0 then nx q else ny q in
      let shapeout := match out_shape q with
                      | Some s => s
                      | None => map Z.to_nat batch ++ [rows; rdim (red q)]
                      end in
      do o <- (if use_ranges
               then ranges_routine q shapes (contents args) (fold_right Nat.mul 1 (removelast shapeout)) mem
               else launch_cpu schedule (red q) (sch q) (formula q) (tag q) (contents args) (nx q) (ny q) mem) ;
      Ok (shapeout, o)
  end.

(** [GenredAutograd.vmap], lines 304-317: the arguments given to the second call of [apply]. *)
Fixpoint vmap_args (in_dims : list (option nat)) (args : list tensor) : res (list tensor) :=
  match in_dims, args with
  | d :: in_dims, x :: args =>
      do y <- match d with None => Ok (add_first x) | Some d => transpose x 0 d end ;
      do ys <- vmap_args in_dims args ;
      Ok (y :: ys)
  | [], [] => Ok []
  | _, _ => PyErr
  end.
Definition vmap_rule (in_dims : list (option nat)) (q : parameters) (args : list tensor) (mem : cells)
    : res (list nat * cells) :=
  do args <- vmap_args in_dims args ;
  forward q args mem.

(** What a Genred object knows. *)
Record genred := {
  g_aliases : list alias; g_formula : fm; g_tag : nat; g_red : reduction; g_sch : scheme
}.

(** [Genred.__call__]: the parameters, from the sizes that it sees. *)
Definition call_parameters (g : genred) (shapes : list (list nat)) (u : option user_ranges)
    (out : option (list nat)) : res parameters :=
  if length shapes =? length (g_aliases g) then
    do s <- get_sizes (g_aliases g) shapes ;
    Ok {| formula := g_formula g; tag := g_tag g; red := g_red g; sch := g_sch g;
          nx := fst s; ny := snd s; ranges := u; out_shape := out |}
  else KErr.

(** A call with tensors. *)
Definition plain_call (g : genred) (u : option user_ranges) (out : option (list nat)) (args : list tensor)
    (mem : cells) : res (list nat * cells) :=
  do q <- call_parameters g (map t_size args) u out ;
  forward q args mem.

(** The same call inside torch.vmap. *)
Definition vmap_call (g : genred) (u : option user_ranges) (out : option (list nat)) (in_dims : list (option nat))
    (args : list tensor) (mem : cells) : res (list nat * cells) :=
  do q <- call_parameters g (map (fun p => hidden (fst p) (t_size (snd p))) (combine in_dims args)) u out ;
  vmap_rule in_dims q args mem.
End Engine.
