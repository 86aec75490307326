(** * Calls of a reduction: sizes of the arguments, checks, and addresses read.

    Models
    - pykeops/pykeops/common/parse_type.py lines 48-68 ([get_sizes]);
    - pykeops/pykeops/numpy/generic/generic_red.py lines 292-345 and
      pykeops/pykeops/torch/generic/generic_red.py lines 79-83, 657-664 (call of a Genred object: the same
      tests and sizes for both libraries);
    - pykeops/pykeops/common/keops_io/LoadKeOps.py lines 177-245 ([genred]: shape of the output);
    - the choice between the dense routine and the routine with ranges on the CPU, and
      keopscore/keopscore/include/Ranges.h lines 19-88 when no ranges are given.

    Simplifications: arrays are contiguous; no user ranges; not half precision; the output is allocated
    by the call; the formula is not Zero.  In Sizes.h the tests are between
    [#if do_checks] and [#endif], and [do_checks] is defined as 0 (line 12), so that they are not compiled:
    there is nothing to model. *)

From Coq Require Import ZArith Reals Arith List Bool.
From Verif Require Import Result Formula XReal Reductions CpuReduc Loader CpuConv GpuConv RangesConv
  RangesSpec Broadcast.
Import ListNotations.

(** An alias, as [get_type] returns it: category, dimension, position. *)
Record alias := { a_cat : nat; a_dim : nat; a_pos : nat }.

(** [args[pos].shape[-2]]. *)
Definition last_but_one (sh : list nat) : res nat :=
  match rev sh with _ :: n :: _ => Ok n | _ => PyErr end.
Definition rows_of (shapes : list (list nat)) (pos : nat) : res nat :=
  do sh <- rd shapes pos ; last_but_one sh.

Definition size_or_1 (n : option nat) : nat := match n with Some n => n | None => 1 end.

(** [get_sizes], lines 50-68. *)
Fixpoint sizes_loop (aliases : list alias) (shapes : list (list nat)) (nx ny : option nat) : res (nat * nat) :=
  match aliases with
  | [] => Ok (size_or_1 nx, size_or_1 ny)
  | a :: aliases =>
      do s <- (if a_cat a =? 0 then do n <- rows_of shapes (a_pos a) ; Ok (Some n, ny)
               else if a_cat a =? 1 then do n <- rows_of shapes (a_pos a) ; Ok (nx, Some n)
               else Ok (nx, ny)) ;
      match s with
      | (Some n, Some m) => Ok (n, m)
      | (nx, ny) => sizes_loop aliases shapes nx ny
      end
  end.
Definition get_sizes (aliases : list alias) (shapes : list (list nat)) : res (nat * nat) :=
  sizes_loop aliases shapes None None.

(** [max(len(arg.shape) for arg in args) - 2]. *)
Definition max_rank (shapes : list (list nat)) : nat := fold_right (fun sh n => Nat.max (length sh) n) 0 shapes.

(** What is passed to the compiled routine: sizes, whether it is the routine with ranges, and the batch shape of
    the output. *)
Record plan := { p_nx : nat; p_ny : nat; p_ranges : bool; p_batch : list nat }.

(** The call.  With arrays of at most one dimension, the number of batch dimensions is negative and
    [arg.shape[:nbatchdims]] is empty, as it is when there are two dimensions. *)
Definition call (aliases : list alias) (shapes : list (list nat)) : res plan :=
  if length shapes =? length aliases then
    match shapes with
    | [] => PyErr
    | _ =>
        let nb := max_rank shapes - 2 in
        do s <- get_sizes aliases shapes ;
        do b <- (if nb =? 0 then Ok []
                 else genred_batch nb (map (map Z.of_nat) shapes)) ;
        Ok {| p_nx := fst s; p_ny := snd s; p_ranges := negb (nb =? 0); p_batch := map Z.to_nat b |}
    end
  else KErr.

(** ** Addresses read *)

(** An address: the position of the argument, and the index of a number in its array. *)
Definition address := (Z * nat)%type.
Definition row_reads (vs : list (Z * nat)) (rows : nat -> nat) : list address :=
  map (fun c => (src c, spos c)) (load_copies vs rows 0 0).

(** CpuReduc.py lines 45-64 with the pointers of direct_table: for each i and j, the formula reads the rows
    of its variables.  (A formula such as Elem does not read every number of a row.) *)
Definition dense_reads (L : var_loader) (nx ny : nat) : list address :=
  flat_map (fun i => flat_map (fun j =>
    row_reads (varsI L) (fun _ => i) ++ row_reads (varsJ L) (fun _ => j) ++ row_reads (varsP L) (fun _ => 0))
    (seq 0 ny)) (seq 0 nx).

(** CpuReduc_ranges.py lines 202-224. *)
Fixpoint slice_reads (L : var_loader) (bt : option batching) (ry : list nat) (slices : list nat)
    : res (list address) :=
  match slices with
  | [] => Ok []
  | slice :: slices =>
      do start_y <- rd ry (2 * slice) ;
      do end_y <- rd ry (2 * slice + 1) ;
      do oj <- offsets bt shapes_j start_y 0 ;
      do rest <- slice_reads L bt ry slices ;
      Ok (flat_map (fun q => row_reads (varsJ L) (row_at oj start_y (start_y + q))) (seq 0 (end_y - start_y)) ++ rest)
  end.

(** Lines 173-228. *)
Fixpoint range_reads (L : var_loader) (bt : option batching) (sp : sparsity) (indices : list nat)
    : res (list address) :=
  match indices with
  | [] => Ok []
  | range_index :: indices =>
      do start_x <- rd (ranges_x sp) (2 * range_index) ;
      do end_x <- rd (ranges_x sp) (2 * range_index + 1) ;
      do start_slice <- (if range_index <? 1 then Ok 0 else rd (slices_x sp) (range_index - 1)) ;
      do end_slice <- rd (slices_x sp) range_index ;
      do oi <- offsets bt shapes_i start_x 0 ;
      do op_ <- offsets bt shapes_p range_index 0 ;
      do js <- slice_reads L bt (ranges_y sp) (seq start_slice (end_slice - start_slice)) ;
      do rest <- range_reads L bt sp indices ;
      Ok (row_reads (varsP L) (row_param op_)
          ++ flat_map (fun q => row_reads (varsI L) (row_at oi start_x (start_x + q))) (seq 0 (end_x - start_x))
          ++ js ++ rest)
  end.

(** ** The computation *)

Definition shape_at (shapes : list (list nat)) (a : Z) : list nat :=
  if (a <? 0)%Z then [] else nth (Z.to_nat a) shapes [].

(** Sizes.h and Ranges.h for the routine with ranges: without batch dimensions and without user ranges, there is
    no range at all. *)
Definition no_ranges : sparsity := {| ranges_x := []; slices_x := []; ranges_y := []; nranges := 0 |}.
Definition batch_setting (f : fm) (tagI : nat) (shapes : list (list nat)) (p : plan)
    : option batching * sparsity :=
  let sh := shape_at shapes in
  let nb := nbatchdims sh (map fst (vars_cat f 0)) (map fst (vars_cat f 1)) in
  if nb =? 0 then (None, no_ranges)
  else let bt := batch_data f tagI sh nb (p_nx p) (p_ny p) in (Some bt, batch_ranges (bsizes bt) tagI).

(** The whole call on the CPU: [A] is the memory, in which the arrays are the beginnings of the [A a]. *)
Definition cpu_call (schedule : nat -> list nat) (junk : rarray) (tmp : cells) (r : reduction) (s : scheme)
    (f : fm) (tagI : nat) (aliases : list alias) (shapes : list (list nat)) (A : memory) (out : cells)
    : res (list nat * cells) :=
  do p <- call aliases shapes ;
  let rows := if tagI =? 0 then p_nx p else p_ny p in
  do o <- (if p_ranges p then
             let (bt, sp) := batch_setting f tagI shapes p in
             launch_cpu_ranges schedule junk tmp r s f tagI A bt sp (fold_right Nat.mul rows (p_batch p)) out
           else launch_cpu schedule r s f tagI A (p_nx p) (p_ny p) out) ;
  Ok (p_batch p ++ [rows; rdim r], o).

(** The addresses that it reads. *)
Definition cpu_reads (f : fm) (tagI : nat) (aliases : list alias) (shapes : list (list nat)) : res (list address) :=
  do p <- call aliases shapes ;
  if p_ranges p then
    let (bt, sp) := batch_setting f tagI shapes p in
    range_reads (loader f tagI) bt sp (seq 0 (nranges sp))
  else
    Ok (dense_reads (loader f tagI) (if tagI =? 1 then p_ny p else p_nx p) (if tagI =? 1 then p_nx p else p_ny p)).
