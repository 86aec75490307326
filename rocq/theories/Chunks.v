(** Chunked evaluation for high-dimensional variables.

    Models the chunk methods of keopscore/keopscore/formulas/Chunkable_Op.py lines 6-55,
    Operation.py lines 221-243, VectorizedScalarOp.py lines 45-75, variables/Var.py lines 64-85,
    keopscore/keopscore/config/chunks.py, mapreduce/Chunk_Mode_Constants.py lines 6-133,
    get_keops_dll.py lines 98-110, utils/code_gen_utils.py lines 634-660 (table4) and 734-771
    (load_vars_chunks), mapreduce/gpu/GpuReduc1D_chunks.py lines 20-306.

    The classes deriving from Chunkable_Op are Sum_Impl and Scalprod_Impl.  Chunkable_Op.py
    imports the value of enable_chunk when it is loaded: it is the constant True there. *)

From Coq Require Import ZArith Reals Arith List Bool.
From Verif Require Import Result Formula XReal Reductions CpuReduc Loader GpuConv.
Import ListNotations.

(** ** Formulas *)

(** config/chunks.py lines 20-22. *)
Definition dimchunk : nat := 64.
Definition large (d : nat) : bool :=
  (146 <=? d) || existsb (Nat.eqb d) [99; 100; 102; 120; 133; 138; 139; 140; 141; 142].

(** is_chunkable. *)
Fixpoint is_chunkable (f : fm) : bool :=
  match f with
  | Var _ _ _ => true
  | Un _ f => is_chunkable f
  | Bin _ f g => is_chunkable f && is_chunkable g
  | Ter _ f g h => is_chunkable f && is_chunkable g && is_chunkable h
  | _ => false
  end.

(** Chunkable_Op.use_chunk, lines 20-26. *)
Definition use_chunk (f : fm) : bool :=
  match f with
  | Lin LSum f => is_chunkable f && large (dim f)
  | Bil KScal f g => (is_chunkable f && is_chunkable g) && large (dim f)
  | _ => false
  end.

(** chunked_version.  The other classes return None, on which the constructors of the parents
    fail ([PyErr]). *)
Fixpoint chunked_version (dc : nat) (f : fm) : res fm :=
  match f with
  | Var i _ c => Ok (Var i dc c)
  | Un u f => do f' <- (if Nat.eqb (dim f) 1 then Ok f else chunked_version dc f) ; mk (Un u f')
  | Bin b f g =>
      do f' <- (if Nat.eqb (dim f) 1 then Ok f else chunked_version dc f) ;
      do g' <- (if Nat.eqb (dim g) 1 then Ok g else chunked_version dc g) ;
      mk (Bin b f' g')
  | Ter t f g h =>
      do f' <- (if Nat.eqb (dim f) 1 then Ok f else chunked_version dc f) ;
      do g' <- (if Nat.eqb (dim g) 1 then Ok g else chunked_version dc g) ;
      do h' <- (if Nat.eqb (dim h) 1 then Ok h else chunked_version dc h) ;
      mk (Ter t f' g' h')
  | Lin LSum f => do f' <- chunked_version dc f ; mk (Lin LSum f')
  | Bil KScal f g =>
      do f' <- chunked_version dc f ; do g' <- chunked_version dc g ; mk (Bil KScal f' g')
  | _ => PyErr
  end.

(** chunked_formulas: the chunked version of each node and the dimension it replaces. *)
Definition own_chunk (dc : nat) (f : fm) (d : nat) : res (list (fm * nat)) :=
  if use_chunk f then do v <- chunked_version dc f ; Ok [(v, d)] else Ok [].
Fixpoint chunked_formulas (dc : nat) (f : fm) : res (list (fm * nat)) :=
  match f with
  | Var _ _ _ | Zero _ | Int _ | Rat _ _ => Ok []
  | Lin LSum g => do l <- own_chunk dc f (dim g) ; do r <- chunked_formulas dc g ; Ok (l ++ r)
  | Un _ g | Lin _ g | Sel _ g => chunked_formulas dc g
  | Bil KScal g h =>
      do l <- own_chunk dc f (dim g) ;
      do r <- chunked_formulas dc g ; do s <- chunked_formulas dc h ; Ok (l ++ r ++ s)
  | Bin _ g h | Bil _ g h | Cat g h =>
      do r <- chunked_formulas dc g ; do s <- chunked_formulas dc h ; Ok (r ++ s)
  | Ter _ g h k =>
      do r <- chunked_formulas dc g ; do s <- chunked_formulas dc h ;
      do t <- chunked_formulas dc k ; Ok (r ++ s ++ t)
  end.

(** num_chunked_formulas. *)
Fixpoint num_chunked (f : fm) : nat :=
  match f with
  | Var _ _ _ | Zero _ | Int _ | Rat _ _ => 0
  | Lin LSum g => num_chunked g + Nat.b2n (use_chunk f)
  | Un _ g | Lin _ g | Sel _ g => num_chunked g
  | Bil KScal g h => num_chunked g + num_chunked h + Nat.b2n (use_chunk f)
  | Bin _ g h | Bil _ g h | Cat g h => num_chunked g + num_chunked h
  | Ter _ g h k => num_chunked g + num_chunked h + num_chunked k
  end.

(** post_chunk_formula. *)
Fixpoint post_chunk (ind : Z) (f : fm) : res fm :=
  let next := fun g => (ind + Z.of_nat (num_chunked g))%Z in
  match f with
  | Var _ _ _ | Zero _ | Int _ | Rat _ _ => Ok f
  | Lin LSum g =>
      if use_chunk f then Ok (Var ind 1 3) else do g' <- post_chunk ind g ; mk (Lin LSum g')
  | Bil KScal g h =>
      if use_chunk f then Ok (Var ind 1 3)
      else do g' <- post_chunk ind g ; do h' <- post_chunk ind h ; mk (Bil KScal g' h')
  | Un u g => do g' <- post_chunk ind g ; mk (Un u g')
  | Lin l g => do g' <- post_chunk ind g ; mk (Lin l g')
  | Sel s g => do g' <- post_chunk ind g ; mk (Sel s g')
  | Bin b g h => do g' <- post_chunk ind g ; do h' <- post_chunk (next g) h ; mk (Bin b g' h')
  | Bil b g h => do g' <- post_chunk ind g ; do h' <- post_chunk (next g) h ; mk (Bil b g' h')
  | Cat g h => do g' <- post_chunk ind g ; do h' <- post_chunk (next g) h ; mk (Cat g' h')
  | Ter t g h k =>
      do g' <- post_chunk ind g ; do h' <- post_chunk (next g) h ;
      do k' <- post_chunk (next g + Z.of_nat (num_chunked h))%Z k ; mk (Ter t g' h' k')
  end.

(** chunked_vars and notchunked_vars, sets of variables of category c.  Chunkable_Op returns no
    notchunked variable (lines 16-17).  Other classes do not have these methods, but they are
    called on a chunked formula, whose nodes below the root are variables and vectorized
    operations. *)
Definition cat_vars (f : fm) (c : nat) : list fvar := filter (fun v => Nat.eqb (vcat v) c) (vars f).
Fixpoint chunked_vars (c : nat) (f : fm) : list fvar :=
  match f with
  | Var _ _ _ => cat_vars f c
  | Un _ f => if Nat.eqb (dim f) 1 then [] else chunked_vars c f
  | Bin _ f g => union_vars (if Nat.eqb (dim f) 1 then [] else chunked_vars c f)
                            (if Nat.eqb (dim g) 1 then [] else chunked_vars c g)
  | Ter _ f g h => union_vars (if Nat.eqb (dim f) 1 then [] else chunked_vars c f)
                     (union_vars (if Nat.eqb (dim g) 1 then [] else chunked_vars c g)
                                 (if Nat.eqb (dim h) 1 then [] else chunked_vars c h))
  | Lin LSum f => chunked_vars c f
  | Bil KScal f g => union_vars (chunked_vars c f) (chunked_vars c g)
  | _ => []
  end.
Fixpoint notchunked_vars (c : nat) (f : fm) : list fvar :=
  match f with
  | Un _ f => if Nat.eqb (dim f) 1 then cat_vars f c else notchunked_vars c f
  | Bin _ f g => union_vars (if Nat.eqb (dim f) 1 then cat_vars f c else notchunked_vars c f)
                            (if Nat.eqb (dim g) 1 then cat_vars g c else notchunked_vars c g)
  | Ter _ f g h => union_vars (if Nat.eqb (dim f) 1 then cat_vars f c else notchunked_vars c f)
                     (union_vars (if Nat.eqb (dim g) 1 then cat_vars g c else notchunked_vars c g)
                                 (if Nat.eqb (dim h) 1 then cat_vars h c else notchunked_vars c h))
  | _ => []
  end.

(** ** Chunk_Mode_Constants *)
Record chunk_consts := {
  c_fun : fm;              (* fun_chunked *)
  c_last : fm;             (* fun_lastchunked *)
  c_post : fm;             (* fun_postchunk *)
  c_org : nat;             (* dim_org *)
  c_nchunks : nat;
  c_dimlast : nat;         (* dimlastchunk *)
  c_new : Z;               (* nminargs, position of the new variable *)
  c_iN : list (Z * nat);   (* varsi_notchunked, as (position, dimension) *)
  c_jN : list (Z * nat);
  c_pN : list (Z * nat);
  c_iC : list Z;           (* indsi_chunked *)
  c_jC : list Z;
  c_pC : list Z
}.

(** Var_loader.nminargs: 1 + the largest position. *)
Definition nminargs (f : fm) : Z := fold_right (fun v n => Z.max (vpos v + 1) n) 0%Z (vars f).

(** [order l] is the order in which Python enumerates the set l, unspecified. *)
Definition not_chunked (order : list fvar -> list fvar) (post fc : fm) (c : nat) : list (Z * nat) :=
  map fst (order (union_vars (cat_vars post c) (notchunked_vars c fc))).
Definition chunked_inds (order : list fvar -> list fvar) (fc : fm) (c : nat) : list Z :=
  map vpos (order (chunked_vars c fc)).

(** chunked_formulas(dimchunk)[0] fails on an empty list. *)
Definition head_chunk (l : list (fm * nat)) : res (fm * nat) :=
  match l with p :: _ => Ok p | [] => PyErr end.

Definition chunk_constants (order : list fvar -> list fvar) (f : fm) (tagI : nat) : res chunk_consts :=
  do l <- chunked_formulas dimchunk f ;
  do p <- head_chunk l ;
  let '(fc, org) := p in
  let nchunks := 1 + (org - 1) / dimchunk in
  let dimlast := org - (nchunks - 1) * dimchunk in
  do post <- post_chunk (nminargs f) f ;
  do l' <- chunked_formulas dimlast f ;
  do p' <- head_chunk l' ;
  Ok {| c_fun := fc; c_last := fst p'; c_post := post; c_org := org; c_nchunks := nchunks;
        c_dimlast := dimlast; c_new := nminargs f;
        c_iN := not_chunked order post fc tagI;
        c_jN := not_chunked order post fc (1 - tagI);
        c_pN := not_chunked order post fc 2;
        c_iC := chunked_inds order fc tagI;
        c_jC := chunked_inds order fc (1 - tagI);
        c_pC := chunked_inds order fc 2 |}.

(** chunk_postchunk_mix: a chunked variable is also used in the post-chunk formula. *)
Definition meets (l : list (Z * nat)) (m : list Z) : bool :=
  existsb (fun v => existsb (Z.eqb (fst v)) m) l.
Definition chunk_mix (K : chunk_consts) (tagI : nat) : bool :=
  meets (vars_cat (c_post K) tagI) (c_iC K) || meets (vars_cat (c_post K) (1 - tagI)) (c_jC K)
  || meets (vars_cat (c_post K) 2) (c_pC K).

(** get_keops_dll.py lines 101-110, for GpuReduc1D with get_enable_chunk() true: is the routine by
    chunks selected? *)
Definition chunk_mode (order : list fvar -> list fvar) (f : fm) (tagI : nat) : res bool :=
  do l <- chunked_formulas dimchunk f ;
  if length l =? 1 then do K <- chunk_constants order f tagI ; Ok (negb (chunk_mix K tagI)) else Ok false.

(** ** The kernel *)

(** load_vars_chunks: xloc[a] = args[i][row*dim_org + k*dim_chunk + v]. *)
Fixpoint load_chunk (inds : list Z) (A : memory) (dc org k row a : nat) (x : rarray) : rarray :=
  match inds with
  | [] => x
  | i :: inds =>
      load_chunk inds A dc org k row (a + dc)
        (for_upR dc (fun v x => rupd x (a + v) (A i (row * org + k * dimchunk + v))) x)
  end.
Fixpoint chunk_copies (inds : list Z) (dc org k row a : nat) : list copy :=
  match inds with
  | [] => []
  | i :: inds =>
      map (fun v => {| dst := a + v; src := i; spos := row * org + k * dimchunk + v |}) (seq 0 dc)
      ++ chunk_copies inds dc org k row (a + dc)
  end.

(** Sizes and formula of chunk k: the last one is handled apart. *)
Definition chunk_dim (K : chunk_consts) (k : nat) : nat :=
  if k =? c_nchunks K - 1 then c_dimlast K else dimchunk.
Definition chunk_fun (K : chunk_consts) (k : nat) : fm :=
  if k =? c_nchunks K - 1 then c_last K else c_fun K.

(** dimsx, dimsy, dimsp for chunks of size dc. *)
Definition sized (N : list (Z * nat)) (C : list Z) (dc : nat) : list (Z * nat) :=
  N ++ map (fun i => (i, dc)) C.
Definition chunk_loader (K : chunk_consts) (dc : nat) : var_loader :=
  {| varsI := sized (c_iN K) (c_iC K) dc; varsJ := sized (c_jN K) (c_jC K) dc;
     varsP := sized (c_pN K) (c_pC K) dc |}.
Definition chunk_dimy (K : chunk_consts) : nat := dims (varsJ (chunk_loader K dimchunk)).

(** Loads to shared memory: first the variables that are not chunked, then each chunk. *)
Definition tile_copies (K : chunk_consts) (bd ny tile : nat) : list copy :=
  flat_map (fun t =>
    let j := tile * bd + t in
    if j <? ny then load_copies (c_jN K) (fun _ => j) 0 (t * chunk_dimy K) else []) (seq 0 bd).
Definition tile_chunk_copies (K : chunk_consts) (bd ny tile k : nat) : list copy :=
  flat_map (fun t =>
    let j := tile * bd + t in
    if j <? ny
    then chunk_copies (c_jC K) (chunk_dim K k) (c_org K) k j (t * chunk_dimy K + dims (c_jN K))
    else []) (seq 0 bd).

(** Contents of the shared memory of a block after the loads of chunk k; o is the order of the
    assignments in each phase. *)
Fixpoint after_chunk (o : nat -> list copy -> list copy) (K : chunk_consts) (A : memory)
    (bd ny tile k : nat) (sh : rarray) : rarray :=
  perform A (o (tile * S (c_nchunks K) + S k) (tile_chunk_copies K bd ny tile k))
    (match k with O => sh | S k => after_chunk o K A bd ny tile k sh end).
Definition after_loads (o : nat -> list copy -> list copy) (K : chunk_consts) (A : memory)
    (bd ny tile : nat) (sh : rarray) : rarray :=
  perform A (o (tile * S (c_nchunks K)) (tile_copies K bd ny tile)) sh.
Fixpoint before_tile (o : nat -> list copy -> list copy) (K : chunk_consts) (A : memory)
    (bd ny tile : nat) (junk : rarray) : rarray :=
  match tile with
  | O => junk
  | S t => after_chunk o K A bd ny t (c_nchunks K - 1)
             (after_loads o K A bd ny t (before_tile o K A bd ny t junk))
  end.
Definition chunk_shared (o : nat -> list copy -> list copy) (K : chunk_consts) (A : memory)
    (bd ny tile k : nat) (junk : rarray) : rarray :=
  after_chunk o K A bd ny tile k (after_loads o K A bd ny tile (before_tile o K A bd ny tile junk)).

(** Local memory of a thread: xi, param_loc, fout_chunk and the accumulators.  fout_chunk has
    blocksize_chunks * dimout_chunk cells, and the block size is blocksize_chunks
    (GpuReduc1D_chunks.py lines 131-133, keops_nvrtc.cpp lines 450-457). *)
Record chunk_state := { sxi : rarray; spp : rarray; sfout : rarray; sacc : cells * cells }.

(** do_chunk_sub, lines 20-113, for row i: the chunks of the parameters are loaded at the
    beginning of param_loc. *)
Definition chunk_sub (K : chunk_consts) (A : memory) (bd ny i tile k : nat) (sh : rarray)
    (st : chunk_state) : chunk_state :=
  let dc := chunk_dim K k in
  let d := dim (c_fun K) in
  let xi := load_chunk (c_iC K) A dc (c_org K) k i (dims (c_iN K)) (sxi st) in
  let pp := load_chunk (c_pC K) A dc (c_org K) k 0 0 (spp st) in
  {| sxi := xi; spp := pp;
     sfout := for_upR (Nat.min bd (ny - tile * bd)) (fun jrel x =>
       rupd x (jrel * d)
         (x (jrel * d)%nat +
          eval (chunk_fun K k)
            (table_env (table (chunk_loader K dc) xi (fun q => sh (jrel * chunk_dimy K + q)%nat) pp)) 0)%R)
       (sfout st);
     sacc := sacc st |}.

(** table4: the table for chunks of full size, with the new variable. *)
Definition post_table (K : chunk_consts) (xi yj pp fout : rarray) : table_t :=
  put (table (chunk_loader K dimchunk) xi yj pp) (c_new K) fout.

(** A tile: lines 253-297. *)
Definition chunk_tile (r : reduction) (op : scheme_ops) (K : chunk_consts) (A : memory) (bd ny i : nat)
    (sh : nat -> nat -> rarray) (tile : nat) (st : chunk_state) : chunk_state :=
  let n := Nat.min bd (ny - tile * bd) in
  let d := dim (c_fun K) in
  let st := {| sxi := sxi st; spp := spp st;
               sfout := for_upR n (fun jrel x => rupd x (jrel * d) 0%R) (sfout st);
               sacc := (fst (sacc st), block_init op (snd (sacc st))) |} in
  let st := for_up (c_nchunks K) (fun k => chunk_sub K A bd ny i tile k (sh tile k)) st in
  {| sxi := sxi st; spp := spp st; sfout := sfout st;
     sacc := final_op op (for_up n (fun jrel a =>
       accumulate op a (fun k => Fin (eval (c_post K)
         (table_env (post_table K (sxi st)
            (fun q => sh tile (c_nchunks K - 1) (jrel * chunk_dimy K + q)) (spp st)
            (fun q => sfout st (jrel * d + q)))) k))
         (Z.of_nat (jrel + tile * bd))) (sacc st)) |}.
Definition thread_chunks (r : reduction) (op : scheme_ops) (K : chunk_consts) (A : memory)
    (bd ny i : nat) (sh : nat -> nat -> rarray) (regs : rarray) (tmp : cells) : cells * cells :=
  sacc (for_up (tiles bd ny) (chunk_tile r op K A bd ny i sh)
    {| sxi := load_vars (c_iN K) A (fun _ => i) 0 0 regs;
       spp := load_vars (c_pN K) A (fun _ => 0) 0 0 regs;
       sfout := regs; sacc := (rinit r, first_init op tmp) |}).

Definition stores_chunks (o : orders) (m : initial) (r : reduction) (op : scheme_ops)
    (K : chunk_consts) (A : memory) (nx ny bd : nat) : list store :=
  flat_map (fun i =>
    if i <? nx
    then let b := i / bd in
         let sh := fun tile k => chunk_shared (load_order o b) K A bd ny tile k (jshared m b) in
         row_stores (rdim r) i
           (rfinal r (fst (thread_chunks r op K A bd ny i sh (jregs m i) (jtmp m i))))
    else []) (seq 0 (blocks nx bd * bd)).

(** Every formula evaluated by the kernel finds its variables in its table. *)
Definition chunk_tables_ok (K : chunk_consts) : bool :=
  let z := fun _ : nat => 0%R in
  table_ok (c_fun K) (table (chunk_loader K dimchunk) z z z) &&
  table_ok (c_last K) (table (chunk_loader K (c_dimlast K)) z z z) &&
  table_ok (c_post K) (post_table K z z z z).

Definition launch_chunks (order : list fvar -> list fvar) (o : orders) (m : initial) (r : reduction)
    (s : scheme) (f : fm) (tagI : nat) (A : memory) (nx ny bd : nat) (out : cells) : res cells :=
  do K <- chunk_constants order f tagI ;
  let '(nx, ny) := if Nat.eqb tagI 1 then (ny, nx) else (nx, ny) in
  if chunk_tables_ok K then
    do op <- scheme_code r s ;
    if (bd =? 0) || (blocks nx bd =? 0) then PyErr
    else Ok (perform_stores (store_order o (stores_chunks o m r op K A nx ny bd)) out)
  else PyErr.
