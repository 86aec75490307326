(** * What a launch must do with the memory of the device

    Stated on the events of a launch: the blocks that are allocated and freed, and the memory
    that each kernel finds. *)

From Coq Require Import ZArith String List Bool.
From Verif Require Import GpuMemory.
Import ListNotations.
Open Scope list_scope.
Open Scope Z_scope.

(** The bytes [l] are at address [a]. *)
Definition holds (m : Z -> byte) (a : Z) (l : list byte) : Prop :=
  forall i x, nth_error l i = Some x -> m (a + Z.of_nat i) = x.

(** The [n] bytes from [a] and the [k] bytes from [b] have no byte in common. *)
Definition apart (a n b k : Z) : Prop := a + n <= b \/ b + k <= a.
Definition separate (blocks : list (Z * Z)) : Prop :=
  ForallOrdPairs (fun b c => apart (fst b) (snd b) (fst c) (snd c)) blocks.
Definition within (blocks : list (Z * Z)) (a n : Z) : Prop :=
  exists b, In b blocks /\ fst b <= a /\ a + n <= fst b + snd b.

(** The driver gives new blocks of the device; the blocks of the device are separate. *)
Definition allocator (D : driver) : Prop := forall t blocks n, 0 < n ->
  0 < place D t blocks n /\ forall b, In b blocks -> apart (place D t blocks n) n (fst b) (snd b).
Definition sane (d : device) : Prop := separate (live d) /\ Forall (fun b => 0 < snd b) (live d).

(** ** What the caller must give *)

Definition product (shape : list Z) : Z := fold_right Z.mul 1 shape.
Definition total (l : list Z) : Z := fold_right Z.add 0 l.

(** Arrays of the host with the sizes of their shapes, below 2^31 elements. *)
Definition host_data (q : request) : Prop :=
  data_on_device q = false /\ batch q = None /\ user q = None
  /\ exists arrays h, args q = map Host arrays /\ out q = Host h
     /\ Forall2 (fun l s => Z.of_nat (length l) = type_size q * product s /\ 0 <= product s < 2 ^ 31)
          arrays (arg_shapes q)
     /\ 0 <= product (shape_out q) < 2 ^ 31 /\ Z.of_nat (length h) = type_size q * product (shape_out q)
     /\ 8 * Z.of_nat (length (args q))
        + type_size q * (product (shape_out q) + total (map product (arg_shapes q))) < 2 ^ 64.

(** Arrays of the device. *)
Definition device_data (q : request) : Prop :=
  data_on_device q = true
  /\ (exists l a, args q = map Device l /\ out q = Device a)
  /\ 8 * Z.of_nat (length (args q)) < 2 ^ 64.

Definition pairs (l : list (Z * Z)) : list Z := flat_map (fun p => [fst p; snd p]) l.
Definition intervals (n m : Z) : list (Z * Z) :=
  map (fun k => (Z.of_nat k * m, (Z.of_nat k + 1) * m)) (seq 0 (Z.to_nat n)).

(** The block-sparse pattern of a request: ranges of rows, ends of slices, ranges of columns. *)
Definition pattern (q : request) (buffer : Z) (d : device) (rx : list (Z * Z)) (sl : list Z) (ry : list (Z * Z))
    : Prop :=
  match batch q, user q with
  | Some b, None =>
      rx = intervals (nbatches b) (if tag_i q then batch_N b else batch_M b)
      /\ sl = map (fun k => Z.of_nat k + 1) (seq 0 (Z.to_nat (nbatches b)))
      /\ ry = intervals (nbatches b) (if tag_i q then batch_M b else batch_N b)
      /\ (forall i s, Z.of_nat (length (offset_row b i s)) = sizevars b) /\ 0 < sizevars b
      /\ 0 < batch_M b /\ 0 < batch_N b
      /\ nbatches b * batch_M b < 2 ^ 32 /\ nbatches b * batch_N b < 2 ^ 32
      /\ 8 * 2 ^ 32 * sizevars b < 2 ^ 64
  | None, Some u =>
      exists ax ash ay,
      (if tag_i q
       then ranges_j u = Device ax /\ slices_j u = Device ash /\ redranges_i u = Device ay
            /\ nranges_y u = Z.of_nat (length rx)
       else ranges_i u = Device ax /\ slices_i u = Device ash /\ redranges_j u = Device ay
            /\ nranges_x u = Z.of_nat (length rx))
      /\ holds (bytes d) ax (words (pairs rx)) /\ within (live d) ax (16 * Z.of_nat (length rx))
      /\ Forall (fun a => exists p n, In (p, n) (live d) /\ p <= fst a /\ fst a + 8 * Z.of_nat (length (snd a)) <= p + n
                                 /\ p <> buffer /\ holds (bytes d) (fst a) (words (snd a)))
           [(ash, sl); (ay, pairs ry)]
  | _, _ => False
  end.

(** Ranges of at least one row in all. *)
Definition proper_ranges (rx : list (Z * Z)) : Prop :=
  Forall (fun p => 0 <= fst p <= snd p /\ snd p < 2 ^ 62) rx
  /\ 0 < total (map (fun p => snd p - fst p) rx) < 2 ^ 32 /\ Z.of_nat (length rx) < 2 ^ 32.

(** Rows of the output and columns of the reduction, for the tag of the reduction. *)
Definition nx_of (q : request) : Z := if tag_i q then columns q else rows q.
Definition ny_of (q : request) : Z := if tag_i q then rows q else columns q.

Definition geometry (D : driver) (q : request) : Prop :=
  0 < type_size q /\ (0 < length (args q))%nat /\ 0 <= dim_y q
  /\ 0 < block_bound q < 2 ^ 32 /\ 0 < max_threads D /\ 0 < shared_mem D
  /\ dim_y q * type_size q <= (if chunks q then 49152 else shared_mem D)
  /\ 0 < nx_of q < 2 ^ 32 /\ 0 < ny_of q < 2 ^ 32 /\ 0 < dimred q /\ nx_of q * dimred q < 2 ^ 32
  /\ type_size q * (nx_of q * dimred q * ny_of q) < 2 ^ 64.

Definition sparse_request (q : request) : bool :=
  match batch q, user q with None, None => false | _, _ => true end.
Definition compiled (D : driver) (q : request) : Prop :=
  (tag_2d q = true -> sparse_request q = false)
  /\ incl (if tag_2d q then ["GpuConv2DOnDevice"; "reduce2D"]
        else if sparse_request q && negb (tag_zero q) then ["GpuConv1DOnDevice_ranges"]
        else ["GpuConv1DOnDevice"])%string (kernels D).

(** ** What a kernel must find *)

(** The rows from [s] to [e] of the range [i], cut in blocks of [b] rows. *)
Inductive cut (b i : Z) : Z -> Z -> list (Z * Z * Z) -> Prop :=
| cut_none s : cut b i s s []
| cut_more s e l : s < e -> cut b i (Z.min (s + b) e) e l -> cut b i s e ((i, s, Z.min (s + b) e) :: l).
Inductive cuts (b : Z) : Z -> list (Z * Z) -> list (Z * Z * Z) -> Prop :=
| cuts_none i : cuts b i [] []
| cuts_more i s e rx l l' : cut b i s e l -> cuts b (i + 1) rx l' -> cuts b i ((s, e) :: rx) (l ++ l').

(** Blocks of [b] threads: what the device allows, and the shared memory of the columns. *)
Definition threads (D : driver) (q : request) (b : Z) : Prop :=
  0 < b <= block_bound q
  /\ (if chunks q then b <= 1024 /\ b * (dim_y q * type_size q) <= 49152
      else b <= max_threads D /\ b * (dim_y q * type_size q) <= shared_mem D).
(** [g] blocks of [b] threads for [n] elements, none without work. *)
Definition covers (g b n : Z) : Prop := (g - 1) * b < n <= g * b.

(** The table of pointers at [arg_d]: the arrays of the device, or copies of those of the host
    apart from the place of the output. *)
Definition arguments (q : request) (blocks : list (Z * Z)) (m : Z -> byte) (arg_d out_d : Z) : Prop :=
  exists l, holds m arg_d (words l) /\ within blocks arg_d (8 * Z.of_nat (length (args q)))
  /\ Forall2 (fun p a => match a with
                         | Device x => p = x
                         | Host h => holds m p h /\ within blocks p (Z.of_nat (length h))
                                     /\ apart p (Z.of_nat (length h)) out_d (type_size q * product (shape_out q))
                                     /\ apart p (Z.of_nat (length h)) arg_d (8 * Z.of_nat (length (args q)))
                         end) l (args q)
  /\ match out q with
     | Device x => out_d = x
     | Host _ => within blocks out_d (type_size q * product (shape_out q))
                 /\ apart out_d (type_size q * product (shape_out q)) arg_d (8 * Z.of_nat (length (args q)))
     end.

(** A kernel of the request [q], launched with the right arguments on the right memory. *)
Definition right_launch (D : driver) (q : request) (rx : list (Z * Z)) (sl : list Z) (ry : list (Z * Z))
    (e : event) : Prop :=
  match e with
  | Launched t name gx gy b params blocks m =>
      separate blocks /\ threads D q b
      /\ ((name = "GpuConv1DOnDevice"%string /\ tag_2d q = false /\ (sparse_request q = false \/ tag_zero q = true)
           /\ gy = 1 /\ covers gx b (nx_of q)
           /\ exists arg_d out_d, params = [nx_of q; ny_of q; out_d; arg_d] /\ arguments q blocks m arg_d out_d)
          \/ (name = "GpuConv1DOnDevice_ranges"%string /\ tag_2d q = false /\ sparse_request q = true /\ tag_zero q = false
              /\ gy = 1
              /\ exists off lk sd yd arg_d out_d table,
                 params = [nx_of q; ny_of q; match batch q with Some b => nbatchdims b | None => 0 end;
                           off; lk; sd; yd; out_d; arg_d]
                 /\ arguments q blocks m arg_d out_d
                 /\ cuts b 0 rx table /\ gx = Z.of_nat (length table)
                 /\ holds m lk (words (flat3 table)) /\ holds m sd (words sl) /\ holds m yd (words (pairs ry))
                 /\ match batch q with
                    | Some bt => holds m off (words (flat_map (fun e => offset_row bt (fst (fst e)) (snd (fst e))) table))
                    | None => True
                    end)
          \/ (name = "GpuConv2DOnDevice"%string /\ tag_2d q = true
              /\ covers gx b (nx_of q) /\ covers gy b (ny_of q)
              /\ exists outB arg_d out_d, params = [nx_of q; ny_of q; outB; arg_d] /\ arguments q blocks m arg_d out_d
                 /\ In (outB, type_size q * (nx_of q * dimred q * gy)) blocks)
          \/ (name = "reduce2D"%string /\ tag_2d q = true /\ gy = 1 /\ covers gx b (nx_of q * dimred q)
              /\ exists outB out_d parts, params = [outB; out_d; parts; nx_of q] /\ covers parts b (ny_of q)
                 /\ In (outB, type_size q * (nx_of q * dimred q * parts)) blocks
                 /\ match out q with
                    | Device x => out_d = x
                    | Host _ => within blocks out_d (type_size q * product (shape_out q))
                    end))
  | _ => True
  end.

(** The blocks that are freed were allocated by the same events. *)
Definition balanced (l : list event) : Prop :=
  forall a, In (Freed a) l -> exists n, In (Allocated a n) l.

(** The kernels that are run: two in the 2D scheme, the second on the memory that the first leaves,
    and with the same partial results; one otherwise. *)
Definition is_launch (e : event) : bool := match e with Launched _ _ _ _ _ _ _ _ => true | _ => false end.
Definition kernels_run (D : driver) (q : request) (l : list event) : Prop :=
  if tag_2d q
  then exists t t' gx gy g' b b' nx ny outB arg_d out_d nx' blocks blocks' m,
       filter is_launch l
       = [Launched t "GpuConv2DOnDevice" gx gy b [nx; ny; outB; arg_d] blocks m;
          Launched t' "reduce2D" g' 1 b' [outB; out_d; gy; nx'] blocks'
            (run D t "GpuConv2DOnDevice" [nx; ny; outB; arg_d] m)]
  else exists e, filter is_launch l = [e].

(** The output of the host is what the last kernel left at its place. *)
Definition result_of (D : driver) (q : request) (l : list event) (r : pointer) : Prop :=
  match r with
  | Device a => out q = Device a
  | Host h => Z.of_nat (length h) = type_size q * product (shape_out q)
      /\ exists l' t name gx gy b params blocks m l'' out_d,
           l = l' ++ Launched t name gx gy b params blocks m :: l''
           /\ Forall (fun e => exists a, e = Freed a) l''
           /\ nth_error params (if tag_2d q then 1 else 2) = Some out_d
           /\ holds (run D t name params m) out_d h
  end.

(** A request that the module of buffer [buffer] accepts on the device [d]. *)
Definition acceptable (D : driver) (buffer : Z) (d : device) (q : request) rx sl ry : Prop :=
  geometry D q /\ compiled D q
  /\ (host_data q
      \/ (device_data q
          /\ In (buffer, 8 * Z.of_nat (length (args q))) (live d)
          /\ if sparse_request q then pattern q buffer d rx sl ry /\ proper_ranges rx else True)).

(** ** A driver and requests for the examples *)

Definition next_place (t : nat) (blocks : list (Z * Z)) (n : Z) : Z :=
  fold_right (fun b m => Z.max (fst b + snd b) m) 1 blocks.
Definition plain_driver (failing : nat -> bool) (kernel : nat -> string -> list Z -> (Z -> byte) -> Z -> byte) : driver :=
  {| fails := failing; place := next_place; run := kernel; current := fun _ => true;
     kernels := ["GpuConv1DOnDevice"; "GpuConv1DOnDevice_ranges"; "GpuConv2DOnDevice"; "reduce2D"]%string;
     max_threads := 1024; shared_mem := 49152 |}.

(** [nx] rows and two columns, of one float. *)
Definition host_request (zeros_i zeros_j h : list byte) (nx : Z) (shape : list Z) : request :=
  {| data_on_device := false; tag_i := false; tag_zero := false; tag_2d := false; rows := nx; columns := 2;
     dimred := product (tl shape); dim_y := 1; block_bound := 192; chunks := false; type_size := 4;
     shape_out := shape; out := Host h; args := [Host zeros_i; Host zeros_j]; arg_shapes := [[nx; 1]; [2; 1]];
     batch := None; user := None |}.

(** A device with the buffer of a module of two arguments, and ranges: the rows 0 to 300 in the slice
    of the columns 0 to 1, the rows 300 to 500 in the slice of the columns 1 to 2. *)
Definition range_device : device :=
  {| live := [(1, 16); (100, 1000)];
     bytes := write (write (write (fun _ => 0) 100 (words [0; 300; 300; 500])) 200 (words [1; 2])) 300 (words [0; 1; 1; 2]);
     time := 0; events := [] |}.
Definition range_request : request :=
  {| data_on_device := true; tag_i := false; tag_zero := false; tag_2d := false; rows := 500; columns := 2;
     dimred := 1; dim_y := 1; block_bound := 192; chunks := false; type_size := 4;
     shape_out := [500; 1]; out := Device 5000; args := [Device 7000; Device 9500]; arg_shapes := [[500; 1]; [2; 1]];
     batch := None;
     user := Some {| nranges_x := 2; nranges_y := 2; nredranges_x := 2; nredranges_y := 2;
                     ranges_i := Device 100; slices_i := Device 200; redranges_j := Device 300;
                     ranges_j := Device 100; slices_j := Device 200; redranges_i := Device 300 |} |}.

(** Two batches of three rows and two columns. *)
Definition two_batches : batches :=
  {| nbatchdims := 1; nbatches := 2; batch_M := 3; batch_N := 2; sizevars := 2;
     offset_row := fun i s => [s; 2 * i] |}.
Definition batch_request : request :=
  {| data_on_device := true; tag_i := false; tag_zero := false; tag_2d := false; rows := 6; columns := 4;
     dimred := 1; dim_y := 1; block_bound := 192; chunks := false; type_size := 4;
     shape_out := [2; 3; 1]; out := Device 5000; args := [Device 7000; Device 9500]; arg_shapes := [[2; 3; 1]; [2; 2; 1]];
     batch := Some two_batches; user := None |}.

Definition empty_device : device := {| live := []; bytes := fun _ => 0; time := 0; events := [] |}.
(** The same batches, on the host. *)
Definition host_batch_request : request :=
  {| data_on_device := false; tag_i := false; tag_zero := false; tag_2d := false; rows := 6; columns := 4;
     dimred := 1; dim_y := 1; block_bound := 192; chunks := false; type_size := 4;
     shape_out := [2; 3; 1]; out := Host (repeat 0 24); args := [Host (repeat 0 24); Host (repeat 0 16)];
     arg_shapes := [[2; 3; 1]; [2; 2; 1]]; batch := Some two_batches; user := None |}.

(** ** A launch as the caller sees it *)

Definition no_failure (D : driver) : Prop := forall t, fails D t = false.

(** The ranges of a request whose data is on the host: arrays of the host; the ends of the slices
    are as many as the ranges. *)
Definition host_ranges (q : request) (rx : list (Z * Z)) (sl : list Z) : Prop :=
  data_on_device q = false /\ proper_ranges rx /\ length sl = length rx
  /\ match batch q, user q with
     | Some b, None => rx = intervals (nbatches b) (if tag_i q then batch_N b else batch_M b)
                       /\ sl = map (fun k => Z.of_nat k + 1) (seq 0 (Z.to_nat (nbatches b)))
     | None, Some u =>
         if tag_i q
         then ranges_j u = Host (words (pairs rx)) /\ slices_j u = Host (words sl) /\ nranges_y u = Z.of_nat (length rx)
         else ranges_i u = Host (words (pairs rx)) /\ slices_i u = Host (words sl) /\ nranges_x u = Z.of_nat (length rx)
     | _, _ => False
     end.

(** A request that does not depend on what is in the device, for a module of [nargs] arguments. *)
Definition lasting (D : driver) (nargs : Z) (q : request) : Prop :=
  exists rx sl ry, forall buffer d, In (buffer, 8 * nargs) (live d) -> acceptable D buffer d q rx sl ry.
