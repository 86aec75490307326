(** * Block-sparse and batched sums of k(x_i,y_j) * b_j by chunks of b.

    Models keopscore/keopscore/mapreduce/gpu/GpuReduc1D_ranges_finalchunks.py
    ([do_finalchunk_sub_ranges] lines 20-91, [get_code] lines 103-338).  Constants and sizes of chunks are those
    of FinalChunks.v, the table of blocks, the offsets and the loops over intervals those of RangesConv.v
    and RangesChunks.v.  The number of cells of fout and the block size of the launch are the same
    number bd, as in FinalChunks.v.

    The rows of the output are written by the thread of the row only, if no row is in two blocks; the
    row is part of the state of the thread and is stored at the end.  The private memory of the threads
    without output row is not represented.  Sums are in the real numbers. *)

From Coq Require Import ZArith Reals Arith List Bool.
From Verif Require Import Result Formula XReal Reductions CpuReduc Loader GpuConv RangesConv FinalChunks RangesChunks.
Import ListNotations.

(** State of a block: shared memory; fout and the row of the output for each thread. *)
Definition final_block := (rarray * (nat -> rarray * rarray))%type.

Section FinalTile.

Variables (ord : nat -> list copy -> list copy) (K : final_consts) (L : var_loader) (A : memory) (bd : nat).
(** Thread t has an output row; its copies of the i variables and of the parameters; rows of the j
    variables for column j. *)
Variables (live : nat -> bool) (xi pp : nat -> rarray) (rowj : nat -> Z -> nat).
Variables jstart end_y : nat.

Definition tile_loads (c : nat -> nat -> list copy) : list copy :=
  flat_map (fun t => if jstart + t <? end_y then c (jstart + t) t else []) (seq 0 bd).
Definition final_phase (n : nat) (l : list copy) (sh : rarray) : rarray :=
  perform A (ord (jstart * S (n_chunks K) + n) l) sh.
Definition tile_size : nat := Nat.min bd (end_y - jstart).

(** Chunk k, lines 65-90, all the threads. *)
Definition final_step (k : nat) (st : final_block) : final_block :=
  let sh := final_phase (S k) (tile_loads (fun j t =>
              map (fun v => {| dst := t * dimfinal + v; src := n_pos K;
                               spos := rowj j (n_pos K) * n_dim K + k * dimfinal + v |}) (seq 0 (n_size K k))))
              (fst st) in
  (sh, fun t => if live t
                then (fst (snd st t), final_sub K tile_size k sh (fst (snd st t)) (snd (snd st t)))
                else snd st t).

(** A tile, lines 306-330. *)
Definition range_final_tile (st : final_block) : final_block :=
  let sh := final_phase 0 (tile_loads (fun j t =>
              load_copies (varsJ L) (nth_rows (rowj j) (varsJ L)) 0 (t * dims (varsJ L)))) (fst st) in
  for_up (n_chunks K) final_step
    (sh, fun t =>
       if live t
       then (for_upR tile_size (fun jrel x => rupd x jrel
               (eval (n_fun K)
                  (table_env (table L (xi t) (fun q => sh (jrel * dims (varsJ L) + q)%nat) (pp t))) 0))
               (fst (snd st t)), snd (snd st t))
       else snd st t).

End FinalTile.

(** A block, lines 246-336.  L is the loader of fun_internal, LF the one of the whole formula.  The offsets of
    the parameters are computed by the host and not used: load_vars(dimsp, indsp, param_loc, args),
    line 280. *)
Definition range_block_final (o : orders) (m : initial) (L LF : var_loader)
    (K : final_consts) (tagI : nat) (A : memory) (bt : option batching) (sp : sparsity) (bd b : nat)
    (entry : nat * nat * nat) : res (list store) :=
  let '(range_id, start_x, end_x) := entry in
  let side := fun i_side => match bt with
                            | None => 0
                            | Some b => range_id * (if (tagI =? 0) then (if (i_side : bool) then size_M (bsizes b) else size_N (bsizes b))
                                                    else (if i_side then size_N (bsizes b) else size_M (bsizes b)))
                            end in
  do oi <- offsets bt shapes_i (side true) (start_x - side true) ;
  do oj <- offsets bt shapes_j (side false) 0 ;
  do op_ <- offsets bt shapes_p range_id 0 ;
  do start_slice <- (if range_id <? 1 then Ok 0 else rd (slices_x sp) (range_id - 1)) ;
  do end_slice <- rd (slices_x sp) range_id ;
  let live := fun t => start_x + t <? end_x in
  let regs := fun t => jregs m (start_x + t) in
  let pp := fun t => load_vars (varsP L) A (fun _ => 0) 0 0 (regs t) in
  let xi := fun t => load_vars (varsI L) A (nth_rows (referred (varsI LF) oi start_x (start_x + t)) (varsI L)) 0 0 (regs t) in
  let init := fun t => (regs t, for_upR (n_dim K) (fun k x => rupd x k 0%R) (regs t)) in
  do start_y <- rd (ranges_y sp) (2 * start_slice) ;
  let segment := fun s e st =>
        for_up (tiles bd (e - s)) (fun tile =>
          range_final_tile (load_order o b) K L A bd live xi pp (referred (varsJ LF) oj s) (s + tile * bd) e) st in
  do st <- merged_loop (ranges_y sp) end_slice segment (seq start_slice (end_slice - start_slice)) start_y
             (jshared m b, init) ;
  Ok (flat_map (fun t => if live t
                         then row_stores (n_dim K) (start_x + t) (fun k => Fin (snd (snd st t) k))
                         else []) (seq 0 bd)).

(** indsj_global.index(varfinal.ind): ValueError if varfinal is not a reduced variable. *)
Definition launch_ranges_final (o : orders) (m : initial) (host : bool)
    (s : scheme) (f : fm) (tagI : nat) (A : memory) (bt : option batching) (sp : sparsity)
    (bd : nat) (out : cells) : res cells :=
  do K <- final_constants f s ;
  let L := loader (n_fun K) tagI in
  let LF := loader f tagI in
  if listed (varsJ LF) [n_pos K] && table_ok (n_fun K) (table L (fun _ => 0%R) (fun _ => 0%R) (fun _ => 0%R)) then
    launch_blocks o host sp bd (range_block_final o m L LF K tagI A bt sp bd) out
  else PyErr.
