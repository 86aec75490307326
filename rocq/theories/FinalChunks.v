(** Reductions sum_j k(x_i,y_j) * b_j with a high-dimensional b, by chunks of b:
    keopscore/keopscore/mapreduce/gpu/GpuReduc1D_finalchunks.py and the selection of the mode,
    keopscore/keopscore/config/chunks.py lines 45-65 and get_keops_dll.py lines 94-100.

    Same conventions as GpuConv.v.  Sums are in exact arithmetic, in the real numbers.
    blocksize_chunks (line 123, number of cells of fout) and the block size of the launch
    (keops_nvrtc.cpp lines 450-457) are computed by the same formula: both are bd. *)

From Coq Require Import ZArith Reals Arith List Bool.
From Verif Require Import Result Formula XReal Reductions CpuReduc Loader GpuConv.
Import ListNotations.

Definition dimfinal : nat := 64.

(** use_final_chunks: with the option mult_var_highdim, the mode depends on the dimension of the
    reduction only. *)
Definition use_final (enable mult_var_highdim : bool) (r : reduction) : bool :=
  enable && mult_var_highdim && (146 <? rdim r).

(** Children of a node. *)
Definition children (f : fm) : list fm :=
  match f with
  | Var _ _ _ | Zero _ | Int _ | Rat _ _ => []
  | Un _ g | Lin _ g | Sel _ g => [g]
  | Bin _ g h | Bil _ g h | Cat g h => [g; h]
  | Ter _ g h k => [g; h; k]
  end.

(** Lines 93-123: fun_internal and varfinal.  A missing child is an IndexError; varfinal.ind fails
    if varfinal is not a variable. *)
Record final_consts := { n_fun : fm; n_pos : Z; n_dim : nat }.
Definition final_constants (f : fm) (s : scheme) : res final_consts :=
  match children f with
  | c0 :: c1 :: _ =>
      let '(g, b) := if dim c0 =? 1 then (c0, c1) else (c1, c0) in
      if dim g =? 1 then
        match s with
        | block_sum => match b with
                       | Var i d _ => Ok {| n_fun := g; n_pos := i; n_dim := d |}
                       | _ => PyErr
                       end
        | _ => KErr
        end
      else KErr
  | _ => PyErr
  end.

Definition n_chunks (K : final_consts) : nat := 1 + (n_dim K - 1) / dimfinal.
Definition n_size (K : final_consts) (k : nat) : nat :=
  if k =? n_chunks K - 1 then n_dim K - (n_chunks K - 1) * dimfinal else dimfinal.

(** Loads of chunk k of varfinal: yj[t*64 + v] = arg[ind][j*dim + k*64 + v], lines 36-46. *)
Definition final_copies (K : final_consts) (bd ny tile k : nat) : list copy :=
  flat_map (fun t =>
    let j := tile * bd + t in
    if j <? ny
    then map (fun v => {| dst := t * dimfinal + v; src := n_pos K;
                          spos := j * n_dim K + k * dimfinal + v |}) (seq 0 (n_size K k))
    else []) (seq 0 bd).

(** Shared memory of a block, after the loads of the variables of fun_internal and after those of
    chunk k. *)
Fixpoint final_after (o : nat -> list copy -> list copy) (K : final_consts) (A : memory)
    (bd ny tile k : nat) (sh : rarray) : rarray :=
  perform A (o (tile * S (n_chunks K) + S k) (final_copies K bd ny tile k))
    (match k with O => sh | S k => final_after o K A bd ny tile k sh end).
Definition final_loads (o : nat -> list copy -> list copy) (K : final_consts) (L : var_loader)
    (A : memory) (bd ny tile : nat) (sh : rarray) : rarray :=
  perform A (o (tile * S (n_chunks K)) (block_copies L bd ny tile)) sh.
Fixpoint final_before (o : nat -> list copy -> list copy) (K : final_consts) (L : var_loader)
    (A : memory) (bd ny tile : nat) (junk : rarray) : rarray :=
  match tile with
  | O => junk
  | S t => final_after o K A bd ny t (n_chunks K - 1)
             (final_loads o K L A bd ny t (final_before o K L A bd ny t junk))
  end.
Definition final_shared (o : nat -> list copy -> list copy) (K : final_consts) (L : var_loader)
    (A : memory) (bd ny : nat) (junk : rarray) (tile : nat) : rarray :=
  final_loads o K L A bd ny tile (final_before o K L A bd ny tile junk).
Definition final_shared_chunk (o : nat -> list copy -> list copy) (K : final_consts) (L : var_loader)
    (A : memory) (bd ny : nat) (junk : rarray) (tile k : nat) : rarray :=
  final_after o K A bd ny tile k (final_shared o K L A bd ny junk tile).

(** do_finalchunk_sub, lines 47-67, for the thread of a row: out is the row. *)
Definition final_sub (K : final_consts) (n k : nat) (sh fout out : rarray) : rarray :=
  let acc := for_upR n (fun jrel acc =>
               for_upR (n_size K k) (fun v acc =>
                 rupd acc v (acc v + sh (jrel * dimfinal + v)%nat * fout jrel)%R) acc) (fun _ => 0%R) in
  for_upR (n_size K k) (fun v out =>
    rupd out (k * dimfinal + v) (out (k * dimfinal + v)%nat + acc v)%R) out.

(** The thread of row i, lines 186-236; the local arrays are loaded for the variables of
    fun_internal (loader L), the table is the one of the whole formula (loader LF, line 137). *)
Definition final_thread (K : final_consts) (L LF : var_loader) (A : memory) (bd ny i : nat)
    (sh : nat -> rarray) (shc : nat -> nat -> rarray) (regs row : rarray) : rarray :=
  let pp := load_vars (varsP L) A (fun _ => 0) 0 0 regs in
  let xi := load_vars (varsI L) A (fun _ => i) 0 0 regs in
  let out := for_upR (n_dim K) (fun k x => rupd x k 0%R) row in
  snd (for_up (tiles bd ny) (fun tile st =>
    let n := Nat.min bd (ny - tile * bd) in
    let fout := for_upR n (fun jrel x => rupd x jrel
        (eval (n_fun K) (table_env (table LF xi (fun q => sh tile (jrel * dims (varsJ L) + q)%nat) pp)) 0))
        (fst st) in
    (fout, for_up (n_chunks K) (fun k out => final_sub K n k (shc tile k) fout out) (snd st)))
  (regs, out)).

Definition stores_final (o : orders) (m : initial) (K : final_consts) (L LF : var_loader)
    (A : memory) (nx ny bd : nat) : list store :=
  flat_map (fun i =>
    if i <? nx
    then let b := i / bd in
         row_stores (n_dim K) i (fun k => Fin (final_thread K L LF A bd ny i
           (final_shared (load_order o b) K L A bd ny (jshared m b))
           (final_shared_chunk (load_order o b) K L A bd ny (jshared m b))
           (jregs m i) (jregs m i) k))
    else []) (seq 0 (blocks nx bd * bd)).

Definition launch_final (o : orders) (m : initial) (s : scheme) (f : fm) (tagI : nat)
    (A : memory) (nx ny bd : nat) (out : cells) : res cells :=
  do K <- final_constants f s ;
  let L := loader (n_fun K) tagI in
  let LF := loader f tagI in
  let '(nx, ny) := if Nat.eqb tagI 1 then (ny, nx) else (nx, ny) in
  if table_ok (n_fun K) (table LF (fun _ => 0%R) (fun _ => 0%R) (fun _ => 0%R)) then
    if (bd =? 0) || (blocks nx bd =? 0) then PyErr
    else Ok (perform_stores (store_order o (stores_final o m K L LF A nx ny bd)) out)
  else PyErr.
