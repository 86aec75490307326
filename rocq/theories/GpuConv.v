(** The dense GPU routines: keopscore/keopscore/mapreduce/gpu/GpuReduc1D.py lines 20-92,
    GpuReduc2D.py lines 20-205, formulas/reductions/sum_schemes.py and the launches of
    binders/nvrtc/keops_nvrtc.cpp lines 441-457 and 507-620.

    Between two barriers the threads of a block act in any order; this is modelled by applying
    the assignments made in the phase in any order, one cell at a time.  Registers are local to
    a thread and a thread is sequential.  Integers are unbounded (the C++ code stores the grid
    and block sizes in 32-bit unsigned integers). *)

From Coq Require Import ZArith Reals Arith List Bool Permutation.
From Verif Require Import Result Formula XReal Reductions CpuReduc Loader.
Import ListNotations.

(** ** Code of a summation scheme: state (acc, tmp) *)
Record scheme_ops := {
  first_init : cells -> cells;                       (* on tmp, once per thread *)
  block_init : cells -> cells;                       (* on tmp, before each tile *)
  accumulate : cells * cells -> cells -> Z -> cells * cells;
  final_op : cells * cells -> cells * cells          (* after each tile *)
}.

(** sum_schemes.py lines 33-98.  Generating the code fails when ReducePair (block_sum) or
    dim_kahan (kahan_scheme) does. *)
Definition scheme_code (r : reduction) (s : scheme) : res scheme_ops :=
  match s with
  | direct_sum => Ok {|
      first_init := fun tmp => tmp;
      block_init := fun tmp => tmp;
      accumulate := fun st fout j => (rshort r (fst st) fout j, snd st);
      final_op := fun st => st |}
  | block_sum => do pair <- rpair r ; Ok {|
      first_init := fun tmp => tmp;
      block_init := fun _ => rinit r;
      accumulate := fun st fout j => (fst st, rshort r (snd st) fout j);
      final_op := fun st => (pair (fst st) (snd st), snd st) |}
  | kahan_scheme => do kahan <- rkahan r ; Ok {|
      first_init := fun _ _ => Fin 0;
      block_init := fun tmp => tmp;
      accumulate := fun st fout _ => kahan (fst st) fout (snd st);
      final_op := fun st => st |}
  end.

(** ** Assignments made in a phase *)

(** load_vars (code_gen_utils.py lines 668-735) as a list of assignments
    xloc[dst] = args[src][spos]. *)
Record copy := { dst : nat; src : Z; spos : nat }.
Fixpoint load_copies (vs : list (Z * nat)) (rows : nat -> nat) (u a : nat) : list copy :=
  match vs with
  | [] => []
  | (i, d) :: vs =>
      map (fun v => {| dst := a + v; src := i; spos := rows u * d + v |}) (seq 0 d)
      ++ load_copies vs rows (S u) (a + d)
  end.
Definition perform (A : memory) (l : list copy) (x : rarray) : rarray :=
  fold_left (fun x c => rupd x (dst c) (A (src c) (spos c))) l x.

Definition store := (nat * xr)%type.
Definition perform_stores (l : list store) (out : cells) : cells :=
  fold_left (fun o w => upd o (fst w) (snd w)) l out.

(** Orders chosen by the hardware: for the loads of a block in a tile, for the output. *)
Record orders := {
  load_order : nat -> nat -> list copy -> list copy;
  store_order : list store -> list store
}.
Definition orders_ok (o : orders) : Prop :=
  (forall b t l, Permutation (load_order o b t l) l) /\ (forall l, Permutation (store_order o l) l).

(** Uninitialised memory: shared memory of a block, registers of a thread. *)
Record initial := { jshared : nat -> rarray; jregs : nat -> rarray; jtmp : nat -> cells }.

(** ** Loads to shared memory *)

(** Thread t, tile [tile] of bd columns: "if (j < ny) load_vars('j', yj + t*dimy, row j)". *)
Definition thread_copies (L : var_loader) (bd ny tile t : nat) : list copy :=
  let j := tile * bd + t in
  if j <? ny then load_copies (varsJ L) (fun _ => j) 0 (t * dims (varsJ L)) else [].
Definition block_copies (L : var_loader) (bd ny tile : nat) : list copy :=
  flat_map (thread_copies L bd ny tile) (seq 0 bd).

(** Content of the shared memory after the loads of tile [tile]. *)
Fixpoint shared (o : nat -> list copy -> list copy) (L : var_loader) (A : memory)
    (bd ny tile : nat) (junk : rarray) : rarray :=
  perform A (o tile (block_copies L bd ny tile))
    (match tile with O => junk | S t => shared o L A bd ny t junk end).

(** Value of the formula for column jrel of the tile: table on (xi, yj + jrel*dimy, param_loc). *)
Definition tile_fout (f : fm) (L : var_loader) (xi sh pp : rarray) (jrel : nat) : cells :=
  fun k => Fin (eval f (table_env (table L xi (fun q => sh (jrel * dims (varsJ L) + q)) pp)) k).

(** Number of iterations of "for (jstart = 0; jstart < ny; jstart += blockDim.x)", and the
    number of blocks nx/bs + (nx%bs==0 ? 0 : 1). *)
Definition blocks (n bs : nat) : nat := n / bs + (if n mod bs =? 0 then 0 else 1).
Definition tiles (bd ny : nat) : nat := (ny + bd - 1) / bd.

(** ** GpuReduc1D *)

(** Final (acc, tmp) of the thread of row i; [sh tile] is the shared memory during the tile. *)
Definition thread_1d (r : reduction) (op : scheme_ops) (f : fm) (L : var_loader) (A : memory)
    (bd ny i : nat) (sh : nat -> rarray) (regs : rarray) (tmp : cells) : cells * cells :=
  let pp := load_vars (varsP L) A (fun _ => 0) 0 0 regs in
  let xi := load_vars (varsI L) A (fun _ => i) 0 0 regs in
  for_up (tiles bd ny) (fun tile st =>
    let st := (fst st, block_init op (snd st)) in
    let st := for_up (Nat.min bd (ny - tile * bd)) (fun jrel st =>
                accumulate op st (tile_fout f L xi (sh tile) pp jrel)
                  (Z.of_nat (jrel + tile * bd))) st in
    final_op op st) (rinit r, first_init op tmp).

Definition row_stores (d i : nat) (v : cells) : list store :=
  map (fun k => (i * d + k, v k)) (seq 0 d).

(** All the threads of the grid: thread t of block b has i = b*bd + t. *)
Definition stores_1d (o : orders) (m : initial) (r : reduction) (op : scheme_ops) (f : fm)
    (L : var_loader) (A : memory) (nx ny bd : nat) : list store :=
  flat_map (fun i =>
    if i <? nx
    then let b := i / bd in
         let sh := fun tile => shared (load_order o b) L A bd ny tile (jshared m b) in
         row_stores (rdim r) i
           (rfinal r (fst (thread_1d r op f L A bd ny i sh (jregs m i) (jtmp m i))))
    else []) (seq 0 (blocks nx bd * bd)).

(** keops_nvrtc.cpp lines 443-457: block size. *)
Definition block_size (cuda_block_size max_threads shared_mem dimY sizeof : nat) : nat :=
  Nat.min cuda_block_size (Nat.min max_threads (shared_mem / Nat.max 1 (dimY * sizeof))).

(** Launch, lines 599-612; nx and ny are exchanged when tagI = 1 (lines 461-465).  Block size 0 divides by zero
    and the process is killed; a grid of size 0 is refused by cuLaunchKernel; both are [PyErr]. *)
Definition launch_1d (o : orders) (m : initial) (r : reduction) (s : scheme) (f : fm)
    (tagI : nat) (A : memory) (nx ny bd : nat) (out : cells) : res cells :=
  let L := loader f tagI in
  let '(nx, ny) := if Nat.eqb tagI 1 then (ny, nx) else (nx, ny) in
  if table_ok f (table L (fun _ => 0%R) (fun _ => 0%R) (fun _ => 0%R)) then
    do op <- scheme_code r s ;
    if (bd =? 0) || (blocks nx bd =? 0) then PyErr
    else Ok (perform_stores (store_order o (stores_1d o m r op f L A nx ny bd)) out)
  else PyErr.

(** ** GpuReduc2D *)

(** Code generation, in the order of the f-string lines 67-205: the schemes other than block_sum
    and direct_sum are refused (lines 55-60); ReducePair of the reduction; then
    sum_scheme.tmp_acc (line 139), an attribute that direct_sum does not have. *)
Definition code_2d (r : reduction) (s : scheme) : res (cells -> cells -> cells) :=
  match s with
  | kahan_scheme => match rkahan r with Ok _ => KErr | _ => PyErr end
  | block_sum => rpair r
  | direct_sum => do _ <- rpair r ; PyErr
  end.

(** Block (bx, by), lines 122-200: acc of the thread of row i for tile by.  accumulate_result is
    called with hack=True: the sum is made in acc. *)
Definition thread_2d (r : reduction) (f : fm) (L : var_loader) (A : memory)
    (bd ny i by_ : nat) (sh : rarray) (regs : rarray) : cells :=
  let pp := load_vars (varsP L) A (fun _ => 0) 0 0 regs in
  let xi := load_vars (varsI L) A (fun _ => i) 0 0 regs in
  for_up (Nat.min bd (ny - by_ * bd)) (fun jrel acc =>
    rshort r acc (tile_fout f L xi sh pp jrel) (Z.of_nat (bd * by_ + jrel))) (rinit r).

(** out[blockIdx.y*dimred*nx + i*dimred + k] = acc[k], lines 196-200. *)
Definition stores_2d (o : orders) (m : initial) (r : reduction) (f : fm) (L : var_loader)
    (A : memory) (nx ny bd : nat) : list store :=
  flat_map (fun by_ =>
    flat_map (fun i =>
      if i <? nx
      then let b := i / bd in
           let sh := perform A (load_order o b by_ (block_copies L bd ny by_)) (jshared m b) in
           map (fun k => (by_ * rdimred r * nx + i * rdimred r + k,
                          thread_2d r f L A bd ny i by_ sh (jregs m i) k)) (seq 0 (rdimred r))
      else []) (seq 0 (blocks nx bd * bd))) (seq 0 (blocks ny bd)).

(** reduce2D, lines 71-117: thread tid merges the sizeY partial accumulators of its row. *)
Definition reduce_2d (r : reduction) (pair : cells -> cells -> cells) (inB : cells)
    (sizeY nx tid : nat) : cells :=
  for_up sizeY (fun y acc => pair acc (fun k => inB ((tid + y * nx) * rdimred r + k))) (rinit r).

(** Lines 509-566 of keops_nvrtc.cpp; the second kernel is launched with enough threads to
    cover nx*dimred. *)
Definition launch_2d (o : orders) (m : initial) (junkB : cells) (r : reduction) (s : scheme)
    (f : fm) (tagI : nat) (A : memory) (nx ny bd : nat) (out : cells) : res cells :=
  let L := loader f tagI in
  let '(nx, ny) := if Nat.eqb tagI 1 then (ny, nx) else (nx, ny) in
  if table_ok f (table L (fun _ => 0%R) (fun _ => 0%R) (fun _ => 0%R)) then
    do pair <- code_2d r s ;
    if (bd =? 0) || (blocks nx bd =? 0) || (blocks ny bd =? 0) then PyErr
    else
      let inB := perform_stores (store_order o (stores_2d o m r f L A nx ny bd)) junkB in
      Ok (perform_stores (store_order o
            (flat_map (fun tid =>
               if tid <? nx
               then row_stores (rdim r) tid (rfinal r (reduce_2d r pair inB (blocks ny bd) nx tid))
               else []) (seq 0 (blocks (nx * rdimred r) bd * bd)))) out)
  else PyErr.
