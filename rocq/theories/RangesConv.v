(** Block-sparse reductions and batch dimensions.

    Models keopscore/keopscore/mapreduce/cpu/CpuReduc_ranges.py lines 102-285,
    mapreduce/gpu/GpuReduc1D_ranges.py lines 77-172, include/ranges_utils.h, include/Sizes.h
    lines 170-411, include/Ranges.h lines 13-88, and the preparation of the block table in
    binders/nvrtc/keops_nvrtc.cpp lines 75-325.

    Arrays of integers are lists; reading outside one (undefined behaviour in C++) is [PyErr].
    Integers are non-negative and unbounded, except the value returned by broadcast_index, an int
    of 32 bits.  Half precision (use_half) is not modelled here. *)

From Coq Require Import ZArith Reals Arith List Bool Permutation.
From Verif Require Import Result Formula XReal Reductions CpuReduc Loader CpuConv GpuConv.
Import ListNotations.

Definition rd {T} (l : list T) (q : nat) : res T :=
  match nth_error l q with Some x => Ok x | None => PyErr end.

Fixpoint mapr {T U} (h : T -> res U) (l : list T) : res (list U) :=
  match l with
  | [] => Ok []
  | x :: l => do y <- h x ; do ys <- mapr h l ; Ok (y :: ys)
  end.

(** ** ranges_utils.h *)

(** Conversion of a long to the 32-bit int returned by the function. *)
Definition to_int (n : nat) : Z := ((Z.of_nat n + 2 ^ 31) mod 2 ^ 32 - 2 ^ 31)%Z.

(** Lines 7-13; the dimensions are listed from the last batch dimension to the first.  Dividing
    by zero kills the process: [PyErr]. *)
Fixpoint broadcast_loop (i : nat) (dims : list (nat * nat)) (r step full_step : nat) : res nat :=
  match dims with
  | [] => Ok r
  | (d, full) :: dims =>
      do r <- (if d =? 1 then Ok r
               else if (full_step =? 0) || (d =? 0) then PyErr
               else Ok (r + ((i / full_step) mod d) * step)) ;
      broadcast_loop i dims r (step * d) (full_step * full)
  end.

(** Lines 3-15: [shape] is the list of the batch sizes of the argument followed by M_N.  A
    negative result would be used as an address before the array: [PyErr]. *)
Definition broadcast_index (i : nat) (full : list nat) (shape : list nat * nat) : res nat :=
  let M_N := snd shape in
  if M_N =? 0 then PyErr
  else
    do r <- broadcast_loop i (rev (combine (fst shape) full)) (i mod M_N) M_N M_N ;
    if (to_int r <? 0)%Z then PyErr else Ok (Z.to_nat (to_int r)).

(** vect_broadcast_index, lines 17-25. *)
Definition vect_broadcast_index (i : nat) (full : list nat) (shapes : list (list nat * nat))
    (add_offset : nat) : res (list nat) :=
  mapr (fun sh => do r <- broadcast_index i full sh ; Ok (add_offset + r)) shapes.

(** ** Sizes.h

    The array _shapes is represented by its first row (batch sizes of the output, M, N) and a row
    per argument (batch sizes, number of rows).  [argshapes a] is the shape of argument a. *)
Record sizes := { full_batch : list nat; size_M : nat; size_N : nat }.

(** Lines 236-257: the first size different from 1 becomes the standard. *)
Fixpoint standard (full shape : list nat) : list nat :=
  match full, shape with
  | f :: full, d :: shape => (if (negb (d =? 1)) && (f =? 1) then d else f) :: standard full shape
  | _, _ => full
  end.

(** Lines 261-411 (do_checks is 0: no check), arguments in the order i, j, parameters. *)
Definition fill_sizes (argshapes : Z -> list nat) (nb M N : nat) (indsI indsJ indsP : list Z) : sizes :=
  {| full_batch := fold_left (fun full a => standard full (firstn nb (argshapes a)))
                     (indsI ++ indsJ ++ indsP) (repeat 1 nb);
     size_M := M; size_N := N |}.

(** Lines 177-194: the number of batch dimensions is read on one of the arguments. *)
Fixpoint min_pos (l : list Z) : Z :=
  match l with [] => -1 | [a] => a | a :: l => Z.min a (min_pos l) end.
Definition nbatchdims (argshapes : Z -> list nat) (indsI indsJ : list Z) : nat :=
  let pos := Z.max (min_pos indsI) (min_pos indsJ) in
  if (pos >? -1)%Z then length (argshapes pos) - 2 else 0.

(** nbatches, lines 140-141. *)
Definition nbatches (s : sizes) : nat := fold_left Nat.mul (full_batch s) 1.

(** ** Ranges.h *)

(** The arrays ranges_x, slices_x, ranges_y of one direction, flat, and the number of ranges. *)
Record sparsity := { ranges_x : list nat; slices_x : list nat; ranges_y : list nat; nranges : nat }.

(** User ranges: two-dimensional arrays (.., 2) for ranges and redranges. *)
Record user_ranges := {
  ranges_i : list (nat * nat); slices_i : list nat; redranges_j : list (nat * nat);
  ranges_j : list (nat * nat); slices_j : list nat; redranges_i : list (nat * nat)
}.
Definition flat (l : list (nat * nat)) : list nat := flat_map (fun p => [fst p; snd p]) l.

(** Lines 28-39 and CpuReduc_ranges.py lines 162-165. *)
Definition from_user (u : user_ranges) (tagI : nat) : sparsity :=
  if tagI =? 0
  then {| ranges_x := flat (ranges_i u); slices_x := slices_i u; ranges_y := flat (redranges_j u);
          nranges := length (ranges_i u) |}
  else {| ranges_x := flat (ranges_j u); slices_x := slices_j u; ranges_y := flat (redranges_i u);
          nranges := length (ranges_j u) |}.

(** Lines 40-86: block-diagonal pattern for batches. *)
Definition batch_ranges (s : sizes) (tagI : nat) : sparsity :=
  let arr := fun m => flat (map (fun b => (b * m, (b + 1) * m)) (seq 0 (nbatches s))) in
  {| ranges_x := arr (if tagI =? 0 then size_M s else size_N s);
     slices_x := map (fun b => b + 1) (seq 0 (nbatches s));
     ranges_y := arr (if tagI =? 0 then size_N s else size_M s);
     nranges := nbatches s |}.

(** ** Offsets of the variables *)

(** With batch dimensions: sizes, and the shapes of the variables (fill_shapes, ranges_utils.h
    lines 27-91): batch sizes and number of rows, 1 for parameters. *)
Record batching := {
  bsizes : sizes;
  shapes_i : list (list nat * nat);
  shapes_j : list (list nat * nat);
  shapes_p : list (list nat * nat)
}.
Definition shapes_of (argshapes : Z -> list nat) (nb : nat) (vs : list (Z * nat)) : list (list nat * nat) :=
  map (fun v => (firstn nb (argshapes (fst v)), nth nb (argshapes (fst v)) 0)) vs.
Definition param_shapes (argshapes : Z -> list nat) (nb : nat) (vs : list (Z * nat)) : list (list nat * nat) :=
  map (fun v => (firstn nb (argshapes (fst v)), 1)) vs.

(** Offsets for an abstract index, None without batch dimensions. *)
Definition offsets (bt : option batching) (sel : batching -> list (list nat * nat)) (i add : nat)
    : res (option (list nat)) :=
  match bt with
  | None => Ok None
  | Some b => do l <- vect_broadcast_index i (full_batch (bsizes b)) (sel b) add ; Ok (Some l)
  end.

(** Row read for variable number u: the abstract index, or the position relative to the start of
    the range plus the offset of the variable. *)
Definition row_at (off : option (list nat)) (start i u : nat) : nat :=
  match off with None => i | Some l => (i - start) + nth u l 0 end.
(** Index given to the reduction. *)
Definition col_index (off : option (list nat)) (start j : nat) : nat :=
  match off with None => j | Some _ => j - start end.
Definition row_param (off : option (list nat)) (u : nat) : nat :=
  match off with None => 0 | Some l => nth u l 0 end.

Definition loaded_fout (f : fm) (L : var_loader) (xi yj pp : rarray) : cells :=
  fun k => Fin (eval f (table_env (table L xi yj pp)) k).

(** ** CpuReduc_ranges.py *)

(** Lines 202-224; each load overwrites the array yj, here from its uninitialised content. *)
Fixpoint slice_loop (op : scheme_ops) (f : fm) (L : var_loader) (A : memory) (bt : option batching)
    (ry : list nat) (junk xi pp : rarray) (slices : list nat) (st : cells * cells) : res (cells * cells) :=
  match slices with
  | [] => Ok st
  | slice :: slices =>
      do start_y <- rd ry (2 * slice) ;
      do end_y <- rd ry (2 * slice + 1) ;
      do oj <- offsets bt shapes_j start_y 0 ;
      let st := for_up (end_y - start_y) (fun q st =>
                  let j := start_y + q in
                  let yj := load_vars (varsJ L) A (row_at oj start_y j) 0 0 junk in
                  accumulate op st (loaded_fout f L xi yj pp) (Z.of_nat (col_index oj start_y j))) st in
      slice_loop op f L A bt ry junk xi pp slices st
  end.

(** One row, lines 190-226. *)
Definition range_row (r : reduction) (op : scheme_ops) (f : fm) (L : var_loader) (A : memory)
    (bt : option batching) (ry : list nat) (junk : rarray) (tmp : cells) (pp : rarray)
    (oi : option (list nat)) (start_x start_slice end_slice i : nat) : res cells :=
  let xi := load_vars (varsI L) A (row_at oi start_x i) 0 0 junk in
  do st <- slice_loop op f L A bt ry junk xi pp (seq start_slice (end_slice - start_slice))
             (rinit r, block_init op (first_init op tmp)) ;
  Ok (rfinal r (fst (final_op op st))).

(** Lines 188-227, the rows of a range completed in the order [order]. *)
Fixpoint range_rows (d : nat) (row : nat -> res cells) (order : list nat) (out : cells) : res cells :=
  match order with
  | [] => Ok out
  | i :: order => do v <- row i ; range_rows d row order (write_row d i v out)
  end.

(** Lines 173-228. *)
Fixpoint range_loop (schedule : nat -> list nat) (r : reduction) (op : scheme_ops) (f : fm)
    (L : var_loader) (A : memory) (bt : option batching) (sp : sparsity) (junk : rarray)
    (tmp : cells) (indices : list nat) (out : cells) : res cells :=
  match indices with
  | [] => Ok out
  | range_index :: indices =>
      do start_x <- rd (ranges_x sp) (2 * range_index) ;
      do end_x <- rd (ranges_x sp) (2 * range_index + 1) ;
      do start_slice <- (if range_index <? 1 then Ok 0 else rd (slices_x sp) (range_index - 1)) ;
      do end_slice <- rd (slices_x sp) range_index ;
      do oi <- offsets bt shapes_i start_x 0 ;
      do op_ <- offsets bt shapes_p range_index 0 ;
      let pp := load_vars (varsP L) A (row_param op_) 0 0 junk in
      do out <- range_rows (rdim r)
                  (range_row r op f L A bt (ranges_y sp) junk tmp pp oi start_x start_slice end_slice)
                  (map (fun k => start_x + k) (schedule (end_x - start_x))) out ;
      range_loop schedule r op f L A bt sp junk tmp indices out
  end.

(** Lines 145-153: every row of the output gets the value of an empty reduction. *)
Definition prefill (r : reduction) (true_nx : nat) (out : cells) : cells :=
  for_up true_nx (fun i out => write_row (rdim r) i (rfinal r (rinit r)) out) out.

Definition launch_cpu_ranges (schedule : nat -> list nat) (junk : rarray) (tmp : cells)
    (r : reduction) (s : scheme) (f : fm) (tagI : nat) (A : memory) (bt : option batching)
    (sp : sparsity) (true_nx : nat) (out : cells) : res cells :=
  let L := loader f tagI in
  if table_ok f (table L (fun _ => 0%R) (fun _ => 0%R) (fun _ => 0%R)) then
    do op <- scheme_code r s ;
    range_loop schedule r op f L A bt sp junk tmp (seq 0 (nranges sp)) (prefill r true_nx out)
  else PyErr.

(** ** GpuReduc1D_ranges.py *)

(** Block table: (range, first row, end row), keops_nvrtc.cpp lines 284-301. *)
Fixpoint lookup_table (bs : nat) (rx : list nat) (ranges : list nat) : res (list (nat * nat * nat)) :=
  match ranges with
  | [] => Ok []
  | i :: ranges =>
      do start <- rd rx (2 * i) ;
      do end_ <- rd rx (2 * i + 1) ;
      do rest <- lookup_table bs rx ranges ;
      let len := end_ - start in
      Ok (map (fun t => (i, start + t * bs, start + t * bs + Nat.min bs (len - t * bs)))
              (seq 0 (tiles bs len)) ++ rest)
  end.
Fixpoint nblocks (bs : nat) (rx : list nat) (ranges : list nat) : res nat :=
  match ranges with
  | [] => Ok 0
  | i :: ranges =>
      do start <- rd rx (2 * i) ;
      do end_ <- rd rx (2 * i + 1) ;
      do rest <- nblocks bs rx ranges ;
      Ok (blocks (end_ - start) bs + rest)
  end.

(** Loads of a tile: thread t loads column jstart + t when it is below end_y, lines 139-144. *)
Definition range_copies (L : var_loader) (bd : nat) (oj : option (list nat)) (start_y jstart end_y : nat)
    : list copy :=
  flat_map (fun t =>
    if jstart + t <? end_y
    then load_copies (varsJ L) (row_at oj start_y (jstart + t)) 0 (t * dims (varsJ L))
    else []) (seq 0 bd).

(** State of a block: shared memory and the (acc, tmp) of each thread. *)
Definition block_state := (rarray * (nat -> cells * cells))%type.

(** Lines 135-164.  [live t] is i < end_x for thread t. *)
Definition tile_step (order : nat -> list copy -> list copy) (op : scheme_ops) (f : fm)
    (L : var_loader) (A : memory) (bd : nat) (oj : option (list nat)) (live : nat -> bool)
    (xi : nat -> rarray) (pp : nat -> rarray) (start_y end_y tile : nat) (st : block_state) : block_state :=
  let jstart := start_y + tile * bd in
  let sh := perform A (order jstart (range_copies L bd oj start_y jstart end_y)) (fst st) in
  (sh, fun t =>
     if live t
     then final_op op
            (for_up (Nat.min bd (end_y - jstart)) (fun jrel s =>
               accumulate op s (tile_fout f L (xi t) sh (pp t) jrel)
                 (Z.of_nat (col_index oj start_y (jrel + tile * bd + start_y))))
               (fst (snd st t), block_init op (snd (snd st t))))
     else snd st t).

(** Lines 129-168: adjacent intervals are merged; [segment start_y end_y] is the loop on tiles. *)
Fixpoint merged_loop {St : Type} (ry : list nat) (end_slice : nat) (segment : nat -> nat -> St -> St)
    (indices : list nat) (start_y : nat) (st : St) : res St :=
  match indices with
  | [] => Ok st
  | index :: indices =>
      do flush <- (if end_slice <=? index + 1 then Ok true
                   else do a <- rd ry (2 * index + 2) ;
                        do b <- rd ry (2 * index + 1) ; Ok (negb (a =? b))) ;
      if (flush : bool) then
        do end_y <- rd ry (2 * index + 1) ;
        let st := segment start_y end_y st in
        do start_y <- (if index + 1 <? end_slice then rd ry (2 * index + 2) else Ok start_y) ;
        merged_loop ry end_slice segment indices start_y st
      else merged_loop ry end_slice segment indices start_y st
  end.

(** A block: lines 81-171.  The offsets of the j variables are computed from the number of the
    range (build_offset_tables, keops_nvrtc.cpp lines 128-141). *)
Definition range_block (o : orders) (m : initial) (r : reduction) (op : scheme_ops) (f : fm)
    (tagI : nat) (A : memory) (bt : option batching) (sp : sparsity) (bd b : nat)
    (entry : nat * nat * nat) : res (list store) :=
  let L := loader f tagI in
  let '(range_id, start_x, end_x) := entry in
  let side := fun i_side => match bt with
                            | None => 0
                            | Some b => range_id * (if (tagI =? 0) then (if (i_side : bool) then size_M (bsizes b) else size_N (bsizes b))
                                                    else (if i_side then size_N (bsizes b) else size_M (bsizes b)))
                            end in
  do oi <- offsets bt shapes_i (side true) (start_x - side true) ;
  do oj <- offsets bt shapes_j (side false) 0 ;
  do op_ <- offsets bt shapes_p range_id 0 ;
  do start_slice <- (if range_id <? 1 then Ok 0 else rd (slices_x sp) (range_id - 1)) ;
  do end_slice <- rd (slices_x sp) range_id ;
  let live := fun t => start_x + t <? end_x in
  let pp := fun t => load_vars (varsP L) A (row_param op_) 0 0 (jregs m (start_x + t)) in
  let xi := fun t => load_vars (varsI L) A (row_at oi start_x (start_x + t)) 0 0 (jregs m (start_x + t)) in
  do start_y <- rd (ranges_y sp) (2 * start_slice) ;
  let segment := fun s e st =>
        for_up (tiles bd (e - s)) (tile_step (load_order o b) op f L A bd oj live xi pp s e) st in
  do st <- merged_loop (ranges_y sp) end_slice segment (seq start_slice (end_slice - start_slice)) start_y
             (jshared m b, fun t => (rinit r, first_init op (jtmp m (start_x + t)))) ;
  Ok (flat_map (fun t => if live t
                         then row_stores (rdim r) (start_x + t) (rfinal r (fst (snd st t)))
                         else []) (seq 0 bd)).

(** Launch.  [host]: the ranges are in host memory and copied by range_preprocess_from_host,
    lines 308-314, which reads 2 * nranges integers of slices_x. *)
Definition launch_gpu_ranges (o : orders) (m : initial) (host : bool) (r : reduction) (s : scheme)
    (f : fm) (tagI : nat) (A : memory) (bt : option batching) (sp : sparsity) (bd : nat) (out : cells)
    : res cells :=
  let L := loader f tagI in
  if table_ok f (table L (fun _ => 0%R) (fun _ => 0%R) (fun _ => 0%R)) then
    do op <- scheme_code r s ;
    if bd =? 0 then PyErr
    else if host && (length (slices_x sp) <? 2 * nranges sp) then PyErr
    else
      do n <- nblocks bd (ranges_x sp) (seq 0 (nranges sp)) ;
      do table <- lookup_table bd (ranges_x sp) (seq 0 (nranges sp)) ;
      if n =? 0 then PyErr
      else
        do stores <- mapr (fun b => do e <- rd table b ; range_block o m r op f tagI A bt sp bd b e) (seq 0 n) ;
        Ok (perform_stores (store_order o (concat stores)) out)
  else PyErr.
