(** * The device memory of a launch

    Model of keopscore/binders/nvrtc/keops_nvrtc.cpp (DevicePointer, lines 41-71;
    build_offset_tables, lines 75-149; range_preprocess_from_device, lines 152-248;
    range_preprocess_from_host, lines 250-325; KeOps_module, lines 328-644), of
    include/Ranges.h and of load_args_FromDevice and load_args_FromHost of include/utils_pe.h
    (lines 57-100): every allocation, copy, release and kernel launch of one call, in order.

    The device is a set of live blocks and a memory of bytes.  The driver is an oracle: it tells
    which of its calls fail, where a block is placed, and what a kernel does to the bytes.

    Simplifications.  Contexts, modules and streams are calls that succeed or fail and have no
    other effect.  The contents of a row of the offset table are given (they are modelled in
    RangesConv.v); half precision (switch_to_half2_indexing) changes nx, ny and the sizes, which
    are given here.  What the kernels compute is modelled in the other files. *)

From Coq Require Import ZArith String List Bool.
Import ListNotations.
Open Scope list_scope.
Open Scope Z_scope.

(** ** Memory *)

Definition byte := Z.

(** A pointer of the C++ code: to an array of host memory, or an address of the device. *)
Inductive pointer := Host (l : list byte) | Device (a : Z).

(** A signed long int or a pointer, eight bytes. *)
Definition word (z : Z) : list byte :=
  map (fun k => (z / 256 ^ k) mod 256) [0; 1; 2; 3; 4; 5; 6; 7].
Definition words (l : list Z) : list byte := flat_map word l.
Definition unsigned (l : list byte) : Z := fold_right (fun b r => b + 256 * r) 0 l.
Definition signed (l : list byte) : Z :=
  let u := unsigned l in if u <? 2 ^ 63 then u else u - 2 ^ 64.

(** size_t, int and unsigned int. *)
Definition size_t (z : Z) : Z := z mod 2 ^ 64.
Definition to_int (z : Z) : Z := (z + 2 ^ 31) mod 2 ^ 32 - 2 ^ 31.
Definition to_uint (z : Z) : Z := z mod 2 ^ 32.

Inductive event :=
| Allocated (a n : Z)
| Freed (a : Z)
| Launched (at_time : nat) (name : string) (grid_x grid_y block : Z) (params : list Z)
    (blocks : list (Z * Z)) (memory : Z -> byte).

Record device := { live : list (Z * Z); bytes : Z -> byte; time : nat; events : list event }.

Record driver := {
  fails : nat -> bool;
  place : nat -> list (Z * Z) -> Z -> Z;
  run : nat -> string -> list Z -> (Z -> byte) -> (Z -> byte);
  current : nat -> bool;     (* the context of the module is the current one *)
  kernels : list string;     (* the functions of the module *)
  max_threads : Z;
  shared_mem : Z
}.

Definition read (m : Z -> byte) (a : Z) (n : nat) : list byte :=
  map (fun i => m (a + Z.of_nat i)) (seq 0 n).
Definition write (m : Z -> byte) (a : Z) (l : list byte) : Z -> byte :=
  fun x => if (a <=? x) && (x <? a + Z.of_nat (length l)) then nth (Z.to_nat (x - a)) l 0 else m x.
Definition inside (blocks : list (Z * Z)) (a n : Z) : bool :=
  existsb (fun b => (fst b <=? a) && (a + n <=? fst b + snd b)) blocks.
Fixpoint release (a : Z) (blocks : list (Z * Z)) : option (list (Z * Z)) :=
  match blocks with
  | [] => None
  | b :: blocks =>
      if fst b =? a then Some blocks
      else match release a blocks with Some r => Some (b :: r) | None => None end
  end.

(** ** Programs *)

Inductive outcome (A : Type) := Done (a : A) | Thrown | Exited | Undefined.
Arguments Done {A} a.
Arguments Thrown {A}.
Arguments Exited {A}.
Arguments Undefined {A}.

Definition prog (A : Type) := driver -> device -> outcome A * device.
Definition ret {A} (a : A) : prog A := fun _ d => (Done a, d).
Definition stop {A} (o : outcome A) : prog A := fun _ d => (o, d).
Definition bind {A B} (p : prog A) (k : A -> prog B) : prog B := fun D d =>
  match p D d with
  | (Done a, d) => k a D d
  | (Thrown, d) => (Thrown, d)
  | (Exited, d) => (Exited, d)
  | (Undefined, d) => (Undefined, d)
  end.
Notation "'let!' x ':=' p 'in' k" := (bind p (fun x => k))
  (at level 200, x name, p at level 100, k at level 200).
Notation "p ';;' k" := (bind p (fun _ => k)) (at level 190, right associativity).

(** A call of the driver: it fails when the oracle says so, or when it is a wrong call. *)
Definition call {A} (effect : driver -> device -> option (A * device)) : prog (option A) := fun D d =>
  let d' := {| live := live d; bytes := bytes d; time := S (time d); events := events d |} in
  if fails D (time d) then (Done None, d')
  else match effect D d' with
       | Some (a, d'') => (Done (Some a), d'')
       | None => (Done None, d')
       end.

(** CUDA_SAFE_CALL and CUDA_SAFE_CALL_NO_EXCEPTION, utils_pe.h lines 15-37. *)
Definition safe {A} (p : prog (option A)) : prog A :=
  let! r := p in match r with Some a => ret a | None => stop Thrown end.
Definition safe_exit {A} (p : prog (option A)) : prog A :=
  let! r := p in match r with Some a => ret a | None => stop Exited end.

(** A call without effect on the memory: contexts, modules, synchronisation. *)
Definition plain : prog (option unit) := call (fun _ d => Some (tt, d)).

Definition mem_alloc (n : Z) : prog (option Z) := call (fun D d =>
  if n =? 0 then None
  else let a := place D (time d) (live d) n in
       Some (a, {| live := (a, n) :: live d; bytes := bytes d; time := time d;
                   events := events d ++ [Allocated a n] |})).
Definition mem_free (a : Z) : prog (option unit) := call (fun _ d =>
  match release a (live d) with
  | Some l => Some (tt, {| live := l; bytes := bytes d; time := time d; events := events d ++ [Freed a] |})
  | None => None
  end).

(** cuMemcpyHtoD.  Reading past the end of the host array is undefined. *)
Definition copy_to (dst : Z) (src : pointer) (n : Z) : prog (option unit) :=
  match src with
  | Device _ => stop Undefined
  | Host l =>
      if Z.of_nat (length l) <? n then stop Undefined
      else call (fun _ d =>
        if (n =? 0) || inside (live d) dst n
        then Some (tt, {| live := live d; bytes := write (bytes d) dst (firstn (Z.to_nat n) l);
                          time := time d; events := events d |})
        else None)
  end.
(** cuMemcpyDtoH: the bytes that are copied. *)
Definition copy_from (src : Z) (n : Z) : prog (option (list byte)) := call (fun _ d =>
  if (n =? 0) || inside (live d) src n then Some (read (bytes d) src (Z.to_nat n), d) else None).

Definition get_function (name : string) : prog (option unit) := call (fun D d =>
  if existsb (String.eqb name) (kernels D) then Some (tt, d) else None).
Definition launch (name : string) (grid_x grid_y block : Z) (params : list Z) : prog (option unit) :=
  call (fun D d =>
    if (grid_x =? 0) || (grid_y =? 0) || (block =? 0) then None
    else Some (tt, {| live := live d; bytes := run D (time d) name params (bytes d); time := time d;
                      events := events d ++ [Launched (time d) name grid_x grid_y block params (live d) (bytes d)] |})).

(** ** DevicePointer, lines 41-71 *)

Record device_pointer := { ptr : Z; owned : bool }.
Definition no_pointer : device_pointer := {| ptr := 0; owned := false |}.

Definition allocate (n : Z) : prog device_pointer :=
  let! a := safe (mem_alloc (size_t n)) in ret {| ptr := a; owned := true |}.
Definition copy_from_host (p : device_pointer) (src : pointer) (n : Z) : prog unit :=
  safe (copy_to (ptr p) src (size_t n)).
Definition set_from_device (src : pointer) : prog device_pointer :=
  match src with
  | Device a => ret {| ptr := a; owned := false |}
  | Host _ => stop Undefined
  end.
Definition destroy (p : device_pointer) : prog unit :=
  if owned p && negb (ptr p =? 0) then safe_exit (mem_free (ptr p)) else ret tt.

(** ** The arguments of a launch *)

(** Ranges: the numbers of ranges and the six arrays (castedranges). *)
Record sparse := {
  nranges_x : Z; nranges_y : Z; nredranges_x : Z; nredranges_y : Z;
  ranges_i : pointer; slices_i : pointer; redranges_j : pointer;
  ranges_j : pointer; slices_j : pointer; redranges_i : pointer
}.

(** Batch dimensions: their number, the number of batches, M, N, and the row of the offset table
    of a block, from its range and its first row (sizevars integers). *)
Record batches := {
  nbatchdims : Z; nbatches : Z; batch_M : Z; batch_N : Z;
  sizevars : Z; offset_row : Z -> Z -> list Z
}.

Record request := {
  data_on_device : bool;       (* tagHostDevice == 1 *)
  tag_i : bool; tag_zero : bool; tag_2d : bool;
  rows : Z; columns : Z;       (* SS.nx and SS.ny *)
  dimred : Z; dim_y : Z;
  block_bound : Z; chunks : bool;   (* cuda_block_size and use_chunk_mode *)
  type_size : Z;
  shape_out : list Z; out : pointer;
  args : list pointer; arg_shapes : list (list Z);
  batch : option batches;
  user : option sparse
}.

(** ** Ranges.h, lines 14-90 *)

Definition batch_words (b : batches) (m : Z) : list Z :=
  flat_map (fun k => [Z.of_nat k * m; (Z.of_nat k + 1) * m]) (seq 0 (Z.to_nat (nbatches b))).
Definition batch_slices (b : batches) : list Z :=
  map (fun k => Z.of_nat k + 1) (seq 0 (Z.to_nat (nbatches b))).
Definition batch_sparse (b : batches) : sparse :=
  let ri := Host (words (batch_words b (batch_M b))) in
  let rj := Host (words (batch_words b (batch_N b))) in
  let s := Host (words (batch_slices b)) in
  {| nranges_x := nbatches b; nranges_y := nbatches b; nredranges_x := nbatches b; nredranges_y := nbatches b;
     ranges_i := ri; slices_i := s; redranges_j := rj; ranges_j := rj; slices_j := s; redranges_i := ri |}.

(** The last case leaves the fields of the object unset. *)
Definition ranges_of (q : request) : prog (option sparse) :=
  match batch q, user q with
  | None, None => ret None
  | None, Some u => ret (Some u)
  | Some b, None => ret (Some (batch_sparse b))
  | Some _, Some _ => stop Undefined
  end.

(** ** Preprocessing of the ranges *)

(** One element of a host array of signed long int. *)
Definition element (l : list Z) (i : nat) : prog Z :=
  match nth_error l i with Some z => ret z | None => stop Undefined end.
Fixpoint decode (n : nat) (l : list byte) : list Z :=
  match n with
  | O => []
  | S n => if (Z.of_nat (length l) <? 8) then [] else signed (firstn 8 l) :: decode n (skipn 8 l)
  end.

(** Number of blocks, lines 210-217 and 279-286. *)
Fixpoint count_blocks (bs : Z) (rx : list Z) (ranges : list nat) (acc : Z) : prog Z :=
  match ranges with
  | [] => ret acc
  | i :: ranges =>
      let! e := element rx (2 * i + 1) in
      let! s := element rx (2 * i) in
      if bs =? 0 then stop Undefined
      else
        let len := e - s in
        count_blocks bs rx ranges (acc + Z.quot len bs + (if Z.rem len bs =? 0 then 0 else 1))
  end.

(** The loop on j of lines 226-231 and 295-300; at most len rounds. *)
Fixpoint range_entries (rounds : nat) (bs i s len j : Z) : list (Z * Z * Z) :=
  match rounds with
  | O => []
  | S rounds =>
      if j <? len then (i, s + j, s + j + Z.min bs (len - j)) :: range_entries rounds bs i s len (j + bs)
      else []
  end.
Fixpoint entries (bs : Z) (rx : list Z) (ranges : list nat) : prog (list (Z * Z * Z)) :=
  match ranges with
  | [] => ret []
  | i :: ranges =>
      let! e := element rx (2 * i + 1) in
      let! s := element rx (2 * i) in
      let! rest := entries bs rx ranges in
      ret (range_entries (Z.to_nat (e - s)) bs (Z.of_nat i) s (e - s) 0 ++ rest)
  end.
Definition flat3 (l : list (Z * Z * Z)) : list Z :=
  flat_map (fun p => [fst (fst p); snd (fst p); snd p]) l.

(** The table, in a vector of 3 * nblocks zeros. *)
Definition lookup_vector (nblocks : Z) (l : list (Z * Z * Z)) : prog (list Z) :=
  if nblocks <? 0 then stop Thrown
  else if nblocks <? Z.of_nat (length l) then stop Undefined
  else ret (flat3 l ++ repeat 0 (3 * (Z.to_nat nblocks - length l))).

Fixpoint triples (n : nat) (l : list Z) : list (Z * Z * Z) :=
  match n, l with
  | S n, i :: s :: e :: l => (i, s, e) :: triples n l
  | _, _ => []
  end.

(** build_offset_tables, lines 75-149. *)
Definition build_offset_tables (b : batches) (nblocks : Z) (lookup : list Z) : prog Z :=
  let offsets := flat_map (fun t => offset_row b (fst (fst t)) (snd (fst t))) (triples (Z.to_nat nblocks) lookup) in
  let! a := safe (mem_alloc (size_t (8 * nblocks * sizevars b))) in
  safe (copy_to a (Host (words offsets)) (size_t (8 * nblocks * sizevars b))) ;;
  ret a.
Definition offsets_pointer (b : option batches) (nblocks : Z) (lookup : list Z) : prog device_pointer :=
  match b with
  | None => ret no_pointer
  | Some b => let! a := build_offset_tables b nblocks lookup in ret {| ptr := a; owned := true |}
  end.

(** nblocks and the pointers lookup_d, slices_x_d, ranges_y_d, offsets_d. *)
Record tables := {
  nblocks : Z; lookup_d : device_pointer; slices_d : device_pointer;
  ranges_d : device_pointer; offsets_d : device_pointer
}.

Definition host_words (p : pointer) (n : Z) : prog (list Z) :=
  match p with
  | Host l => ret (decode (Z.to_nat n) l)
  | Device _ => stop Undefined
  end.

(** Lines 152-248.  The first copy is not checked: ranges_x_h keeps its zeros when it fails. *)
Definition range_preprocess_from_device (q : request) (sp : sparse) (bs : Z) : prog tables :=
  let nranges := if tag_i q then nranges_y sp else nranges_x sp in
  let ranges_x := if tag_i q then ranges_j sp else ranges_i sp in
  let slices_x := if tag_i q then slices_j sp else slices_i sp in
  let ranges_y := if tag_i q then redranges_i sp else redranges_j sp in
  let! p :=
    (match batch q with
     | None =>
         match ranges_x with
         | Host _ => stop Undefined
         | Device a =>
             let! r := copy_from a (size_t (8 * 2 * nranges)) in
             let rx := match r with
                       | Some l => decode (Z.to_nat (2 * nranges)) l
                       | None => repeat 0 (Z.to_nat (2 * nranges))
                       end in
             let! s := set_from_device slices_x in
             let! y := set_from_device ranges_y in
             ret (rx, s, y)
         end
     | Some _ =>
         let! rx := host_words ranges_x (2 * nranges) in
         let! s := allocate (8 * nranges) in
         copy_from_host s slices_x (8 * nranges) ;;
         let! y := allocate (8 * 2 * nranges) in
         copy_from_host y ranges_y (8 * 2 * nranges) ;;
         ret (rx, s, y)
     end) in
  let rx := fst (fst p) in
  let ranges := seq 0 (Z.to_nat nranges) in
  let! n := count_blocks bs rx ranges 0 in
  let! l := entries bs rx ranges in
  let! lookup := lookup_vector n l in
  let! t := allocate (8 * 3 * n) in
  copy_from_host t (Host (words lookup)) (8 * 3 * n) ;;
  let! o := offsets_pointer (batch q) n lookup in
  ret {| nblocks := n; lookup_d := t; slices_d := snd (fst p); ranges_d := snd p; offsets_d := o |}.

(** Lines 250-325. *)
Definition range_preprocess_from_host (q : request) (sp : sparse) (bs : Z) : prog tables :=
  let nranges := if tag_i q then nranges_y sp else nranges_x sp in
  let nredranges := if tag_i q then nredranges_x sp else nredranges_y sp in
  let ranges_x := if tag_i q then ranges_j sp else ranges_i sp in
  let slices_x := if tag_i q then slices_j sp else slices_i sp in
  let ranges_y := if tag_i q then redranges_i sp else redranges_j sp in
  let! rx := host_words ranges_x (2 * nranges) in
  let ranges := seq 0 (Z.to_nat nranges) in
  let! n := count_blocks bs rx ranges 0 in
  let! l := entries bs rx ranges in
  let! lookup := lookup_vector n l in
  let! t := allocate (8 * 3 * n) in
  copy_from_host t (Host (words lookup)) (8 * 3 * n) ;;
  let! s := allocate (8 * 2 * nranges) in
  copy_from_host s slices_x (8 * 2 * nranges) ;;
  let! y := allocate (8 * 2 * nredranges) in
  copy_from_host y ranges_y (8 * 2 * nredranges) ;;
  let! o := offsets_pointer (batch q) n lookup in
  ret {| nblocks := n; lookup_d := t; slices_d := s; ranges_d := y; offsets_d := o |}.

(** ** Loading the arguments, utils_pe.h lines 57-100 *)

(** std::accumulate with the initial value 1, an int: the product is an int at each step. *)
Definition int_product (shape : list Z) : Z := fold_left (fun acc s => to_int (acc * s)) shape 1.

Fixpoint addresses (l : list pointer) : prog (list Z) :=
  match l with
  | [] => ret []
  | Device a :: l => let! r := addresses l in ret (a :: r)
  | Host _ :: _ => stop Undefined
  end.

(** arg_d and out_d. *)
Definition load_args_from_device (buffer : Z) (q : request) : prog (Z * Z) :=
  match out q with
  | Host _ => stop Undefined
  | Device out_d =>
      let! l := addresses (args q) in
      safe (copy_to buffer (Host (words l)) (size_t (Z.of_nat (length (args q)) * 8))) ;;
      ret (buffer, out_d)
  end.

Fixpoint load_each (ts dataloc : Z) (l : list (pointer * Z)) : prog (list Z) :=
  match l with
  | [] => ret []
  | (p, n) :: l =>
      safe (copy_to dataloc p (size_t (ts * n))) ;;
      let! rest := load_each ts (dataloc + ts * n) l in
      ret (dataloc :: rest)
  end.
Definition load_args_from_host (q : request) (sizeout : Z) : prog (Z * Z) :=
  let sizes := map int_product (arg_shapes q) in
  let totsize := fold_left Z.add sizes sizeout in
  let nargs := Z.of_nat (length (args q)) in
  let! p_data := safe (mem_alloc (size_t (8 * nargs + type_size q * totsize))) in
  let out_d := p_data + 8 * nargs in
  let! ph := load_each (type_size q) (out_d + type_size q * sizeout) (combine (args q) sizes) in
  safe (copy_to p_data (Host (words ph)) (size_t (nargs * 8))) ;;
  ret (p_data, out_d).

(** ** launch_kernel, lines 390-643 *)

(** Lines 441-458. *)
Definition block_size (D : driver) (q : request) : Z :=
  to_uint (if chunks q
           then Z.min (block_bound q) (Z.min 1024 (49152 / Z.max 1 (dim_y q * type_size q)))
           else Z.min (block_bound q) (Z.min (max_threads D) (shared_mem D / Z.max 1 (dim_y q * type_size q)))).

Definition ceiling (n bs : Z) : Z := to_uint (Z.quot n bs + (if Z.rem n bs =? 0 then 0 else 1)).

(** Lines 509-567. *)
Definition run_2d (q : request) (nx ny bs arg_d out_d : Z) : prog unit :=
  if bs =? 0 then stop Undefined
  else
    let grid_x := ceiling nx bs in
    let grid_y := ceiling ny bs in
    let grid2 := ceiling (nx * dimred q) bs in
    let! outB := safe (mem_alloc (size_t (type_size q * (nx * dimred q * grid_y)))) in
    safe (get_function "GpuConv2DOnDevice") ;;
    safe (launch "GpuConv2DOnDevice" grid_x grid_y bs [nx; ny; outB; arg_d]) ;;
    safe plain ;;
    safe (get_function "reduce2D") ;;
    safe (launch "reduce2D" grid2 1 bs [outB; out_d; grid_y; nx]) ;;
    safe (mem_free outB).

(** Lines 568-595. *)
Definition run_ranges (q : request) (t : tables) (nx ny bs arg_d out_d : Z) : prog unit :=
  let ndims := match batch q with Some b => nbatchdims b | None => 0 end in
  safe (get_function "GpuConv1DOnDevice_ranges") ;;
  safe (launch "GpuConv1DOnDevice_ranges" (to_uint (nblocks t)) 1 bs
          [nx; ny; ndims; ptr (offsets_d t); ptr (lookup_d t); ptr (slices_d t); ptr (ranges_d t); out_d; arg_d]).

(** Lines 596-614. *)
Definition run_1d (nx ny bs arg_d out_d : Z) : prog unit :=
  if bs =? 0 then stop Undefined
  else
    safe (get_function "GpuConv1DOnDevice") ;;
    safe (launch "GpuConv1DOnDevice" (ceiling nx bs) 1 bs [nx; ny; out_d; arg_d]).

(** The array [out] of the host after a copy of [l] on its beginning. *)
Definition store_out (p : pointer) (l : list byte) : prog pointer :=
  match p with
  | Device _ => stop Undefined
  | Host h => if (length h <? length l)%nat then stop Undefined
              else ret (Host (l ++ skipn (length l) h))
  end.

(** SetContext, lines 337-343. *)
Definition set_context : prog unit :=
  safe_exit plain ;;
  (fun D d => if current D (time d) then ret tt D d else safe_exit plain D d) ;;
  safe_exit plain.

Definition launch_kernel (buffer : Z) (q : request) : prog pointer := fun D =>
  (set_context ;;
   let! rr := ranges_of q in
   let bs := block_size D q in
   let nx := if tag_i q then columns q else rows q in
   let ny := if tag_i q then rows q else columns q in
   let! t :=
     (match rr with
      | None => ret None
      | Some sp =>
          let! t := (if data_on_device q then range_preprocess_from_device q sp bs
                     else range_preprocess_from_host q sp bs) in
          ret (Some t)
      end) in
   let sizeout := int_product (shape_out q) in
   let! a := (if data_on_device q then load_args_from_device buffer q
              else load_args_from_host q sizeout) in
   let arg_d := fst a in
   let out_d := snd a in
   (if tag_2d q then run_2d q nx ny bs arg_d out_d
    else match t with
         | Some t => if tag_zero q then run_1d nx ny bs arg_d out_d
                     else run_ranges q t nx ny bs arg_d out_d
         | None => run_1d nx ny bs arg_d out_d
         end) ;;
   safe plain ;;
   let! result :=
     (if data_on_device q then ret (out q)
      else
        let! l := safe (copy_from out_d (size_t (type_size q * sizeout))) in
        let! r := store_out (out q) l in
        safe (mem_free arg_d) ;;
        ret r) in
   (match t with
    | None => ret tt
    | Some t =>
        destroy (lookup_d t) ;;
        destroy (slices_d t) ;;
        destroy (ranges_d t) ;;
        (match batch q with Some _ => destroy (offsets_d t) | None => ret tt end)
    end) ;;
   ret result) D.

(** ** The module, lines 354-388: a buffer of nargs pointers. *)

Definition create (nargs : Z) : prog Z :=
  safe plain ;; safe plain ;; safe plain ;; set_context ;; safe plain ;;
  safe (mem_alloc (size_t (nargs * 8))).
Definition remove (buffer : Z) : prog unit :=
  set_context ;; safe_exit (mem_free buffer) ;; safe_exit plain ;; safe_exit plain.

(** Python keeps the module, calls it, and releases it. *)
Fixpoint launches (buffer : Z) (l : list request) : prog unit :=
  match l with
  | [] => ret tt
  | q :: l => launch_kernel buffer q ;; launches buffer l
  end.
Definition session (nargs : Z) (l : list request) : prog unit :=
  let! buffer := create nargs in launches buffer l ;; remove buffer.
