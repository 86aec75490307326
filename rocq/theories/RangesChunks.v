(** * Block-sparse and batched reductions by chunks.

    Models keopscore/keopscore/mapreduce/gpu/GpuReduc1D_ranges_chunks.py ([do_chunk_sub_ranges] lines 21-183,
    [get_code] lines 200-499) and utils/code_gen_utils.py lines 663-731 ([load_vars], with [indsref]),
    734-810 ([load_vars_chunks], [load_vars_chunks_offsets]); the routine is selected by get_keops_dll.py
    lines 98-110 as in Chunks.v.  The table of blocks and the offsets are those of RangesConv.v.

    The private memory of the threads without output row is not represented.  Half precision is not
    modelled here. *)

From Coq Require Import ZArith Reals Arith List Bool.
From Verif Require Import Result Formula XReal Reductions CpuReduc Loader GpuConv RangesConv Chunks.
Import ListNotations.

(** [indsref.index(i)], for a variable that is in the list. *)
Fixpoint position (vs : list (Z * nat)) (i : Z) : nat :=
  match vs with
  | [] => 0
  | (j, _) :: vs => if Z.eqb i j then 0 else S (position vs i)
  end.

(** A variable out of the list: ValueError.  The list [indsref] is the one of the whole formula. *)
Definition listed (vs : list (Z * nat)) (l : list Z) : bool :=
  forallb (fun i => existsb (fun v => Z.eqb i (fst v)) vs) l.
Definition references_ok (L : var_loader) (K : chunk_consts) : bool :=
  listed (varsI L) (map fst (c_iN K) ++ c_iC K) && listed (varsJ L) (map fst (c_jN K) ++ c_jC K)
  && listed (varsP L) (c_pC K).

(** load_vars_chunks and load_vars_chunks_offsets: the row depends on the variable. *)
Fixpoint load_chunk_at (inds : list Z) (A : memory) (dc org k : nat) (rows : Z -> nat) (a : nat)
    (x : rarray) : rarray :=
  match inds with
  | [] => x
  | i :: inds =>
      load_chunk_at inds A dc org k rows (a + dc)
        (for_upR dc (fun v x => rupd x (a + v) (A i (rows i * org + k * dimchunk + v))) x)
  end.
Fixpoint chunk_copies_at (inds : list Z) (dc org k : nat) (rows : Z -> nat) (a : nat) : list copy :=
  match inds with
  | [] => []
  | i :: inds =>
      map (fun v => {| dst := a + v; src := i; spos := rows i * org + k * dimchunk + v |}) (seq 0 dc)
      ++ chunk_copies_at inds dc org k rows (a + dc)
  end.

(** Rows of the variables of a list [vs], the offsets being those of the list [ref]. *)
Definition referred (ref : list (Z * nat)) (off : option (list nat)) (start i : nat) (a : Z) : nat :=
  row_at off start i (position ref a).
Definition nth_rows (rows : Z -> nat) (vs : list (Z * nat)) (u : nat) : nat := rows (fst (nth u vs (0%Z, 0))).

(** State of a block: shared memory, private memory of the threads. *)
Definition chunk_block := (rarray * (nat -> chunk_state))%type.

(** Lines 151-182 for a thread: chunk k, [n] columns in the tile. *)
Definition chunk_sub_at (K : chunk_consts) (A : memory) (n : nat) (rowi rowp : Z -> nat) (k : nat)
    (sh : rarray) (st : chunk_state) : chunk_state :=
  let dc := chunk_dim K k in
  let d := dim (c_fun K) in
  let xi := load_chunk_at (c_iC K) A dc (c_org K) k rowi (dims (c_iN K)) (sxi st) in
  let pp := load_chunk_at (c_pC K) A dc (c_org K) k rowp 0 (spp st) in
  {| sxi := xi; spp := pp;
     sfout := for_upR n (fun jrel x =>
       rupd x (jrel * d)
         (x (jrel * d)%nat +
          eval (chunk_fun K k)
            (table_env (table (chunk_loader K dc) xi (fun q => sh (jrel * chunk_dimy K + q)%nat) pp)) 0)%R)
       (sfout st);
     sacc := sacc st |}.

Section Tile.

Variables (ord : nat -> list copy -> list copy) (op : scheme_ops) (K : chunk_consts) (A : memory) (bd : nat).
(** Thread t has an output row; rows of the i variables for thread t, of the j variables for
    column j, of the parameters. *)
Variables (live : nat -> bool) (rowi : nat -> Z -> nat) (rowj : nat -> Z -> nat) (rowp : Z -> nat).
Variables jstart end_y : nat.

(** Assignments of a phase: [c j a] are those of the thread that loads column j at position a. *)
Definition loads (c : nat -> nat -> list copy) : list copy :=
  flat_map (fun t => if jstart + t <? end_y then c (jstart + t) (t * chunk_dimy K) else []) (seq 0 bd).
Definition phase (n : nat) (l : list copy) (sh : rarray) : rarray :=
  perform A (ord (jstart * S (c_nchunks K) + n) l) sh.
Definition columns : nat := Nat.min bd (end_y - jstart).

(** Chunk k, all the threads. *)
Definition chunk_step (k : nat) (st : chunk_block) : chunk_block :=
  let sh := phase (S k) (loads (fun j a =>
              chunk_copies_at (c_jC K) (chunk_dim K k) (c_org K) k (rowj j) (a + dims (c_jN K)))) (fst st) in
  (sh, fun t => if live t then chunk_sub_at K A columns (rowi t) rowp k sh (snd st t) else snd st t).

(** A tile, lines 438-488; the index given to the reduction is the position in the tile plus
    tile * blockDim.x, [first]. *)
Definition range_chunk_tile (first : nat) (st : chunk_block) : chunk_block :=
  let d := dim (c_fun K) in
  let sh := phase 0 (loads (fun j a => load_copies (c_jN K) (nth_rows (rowj j) (c_jN K)) 0 a)) (fst st) in
  let init := fun t =>
        if live t
        then {| sxi := sxi (snd st t); spp := spp (snd st t);
                sfout := for_upR columns (fun jrel x => rupd x (jrel * d) 0%R) (sfout (snd st t));
                sacc := (fst (sacc (snd st t)), block_init op (snd (sacc (snd st t)))) |}
        else snd st t in
  let st := for_up (c_nchunks K) chunk_step (sh, init) in
  (fst st, fun t =>
     if live t
     then let s := snd st t in
          {| sxi := sxi s; spp := spp s; sfout := sfout s;
             sacc := final_op op (for_up columns (fun jrel a =>
               accumulate op a (fun k => Fin (eval (c_post K)
                 (table_env (post_table K (sxi s) (fun q => fst st (jrel * chunk_dimy K + q)) (spp s)
                    (fun q => sfout s (jrel * d + q)))) k))
                 (Z.of_nat (jrel + first))) (sacc s)) |}
     else snd st t).

End Tile.

(** A block: lines 371-498.  The parameters that are not chunked are loaded with the offsets of [indices_p] taken
    in the order of their own list (no [indsref]), the chunks of parameters at the beginning of
    param_loc. *)
Definition range_block_chunks (o : orders) (m : initial) (r : reduction) (op : scheme_ops) (L : var_loader)
    (K : chunk_consts) (tagI : nat) (A : memory) (bt : option batching) (sp : sparsity) (bd b : nat)
    (entry : nat * nat * nat) : res (list store) :=
  let '(range_id, start_x, end_x) := entry in
  let side := fun i_side => match bt with
                            | None => 0
                            | Some b => range_id * (if (tagI =? 0) then (if (i_side : bool) then size_M (bsizes b) else size_N (bsizes b))
                                                    else (if i_side then size_N (bsizes b) else size_M (bsizes b)))
                            end in
  do oi <- offsets bt shapes_i (side true) (start_x - side true) ;
  do oj <- offsets bt shapes_j (side false) 0 ;
  do op_ <- offsets bt shapes_p range_id 0 ;
  do start_slice <- (if range_id <? 1 then Ok 0 else rd (slices_x sp) (range_id - 1)) ;
  do end_slice <- rd (slices_x sp) range_id ;
  let live := fun t => start_x + t <? end_x in
  let rowi := fun t => referred (varsI L) oi start_x (start_x + t) in
  let rowp := fun a => row_param op_ (position (varsP L) a) in
  let init := fun t =>
        {| sxi := load_vars (c_iN K) A (nth_rows (rowi t) (c_iN K)) 0 0 (jregs m (start_x + t));
           spp := load_vars (c_pN K) A (row_param op_) 0 0 (jregs m (start_x + t));
           sfout := jregs m (start_x + t);
           sacc := (rinit r, first_init op (jtmp m (start_x + t))) |} in
  do start_y <- rd (ranges_y sp) (2 * start_slice) ;
  let segment := fun s e st =>
        for_up (tiles bd (e - s)) (fun tile =>
          range_chunk_tile (load_order o b) op K A bd live rowi (referred (varsJ L) oj s) rowp
            (s + tile * bd) e (tile * bd)) st in
  do st <- merged_loop (ranges_y sp) end_slice segment (seq start_slice (end_slice - start_slice)) start_y
             (jshared m b, init) ;
  Ok (flat_map (fun t => if live t
                         then row_stores (rdim r) (start_x + t) (rfinal r (fst (sacc (snd st t))))
                         else []) (seq 0 bd)).

(** The blocks of the grid; [host] as in [launch_gpu_ranges]. *)
Definition launch_blocks (o : orders) (host : bool) (sp : sparsity) (bd : nat)
    (block : nat -> nat * nat * nat -> res (list store)) (out : cells) : res cells :=
  if bd =? 0 then PyErr
  else if host && (length (slices_x sp) <? 2 * nranges sp) then PyErr
  else
    do n <- nblocks bd (ranges_x sp) (seq 0 (nranges sp)) ;
    do table <- lookup_table bd (ranges_x sp) (seq 0 (nranges sp)) ;
    if n =? 0 then PyErr
    else
      do stores <- mapr (fun b => do e <- rd table b ; block b e) (seq 0 n) ;
      Ok (perform_stores (store_order o (concat stores)) out).

Definition launch_ranges_chunks (order : list fvar -> list fvar) (o : orders) (m : initial) (host : bool)
    (r : reduction) (s : scheme) (f : fm) (tagI : nat) (A : memory) (bt : option batching) (sp : sparsity)
    (bd : nat) (out : cells) : res cells :=
  do K <- chunk_constants order f tagI ;
  let L := loader f tagI in
  if chunk_tables_ok K && references_ok L K then
    do op <- scheme_code r s ;
    launch_blocks o host sp bd (range_block_chunks o m r op L K tagI A bt sp bd) out
  else PyErr.
