(** * What is expected of the GPU configuration.

    Independent of the model of the code, except for the record of the answers of the machine. *)

From Coq Require Import ZArith List String.
From Verif Require Import GpuConfig.
Import ListNotations.
Open Scope string_scope.
Open Scope Z_scope.

(** The machine has [n] devices that work; device d can have [fst (limits d)] threads in a block and
    [snd (limits d)] bytes of shared memory. *)
Definition usable (m : machine) (n : Z) (limits : Z -> Z * Z) : Prop :=
  library m "cuda" <> None /\ library m "nvrtc" <> None /\ cu_init m = true
  /\ cu_count m = Some n /\ 0 < n
  /\ forall d, 0 <= d < n ->
       exists handle, cu_device m d = Some handle
         /\ cu_attribute m 1 handle = Some (fst (limits d))
         /\ cu_attribute m 8 handle = Some (snd (limits d)).

(** The driver does not count a negative number of devices. *)
Definition counts (m : machine) : Prop := forall n, cu_count m = Some n -> 0 <= n.

(** A block of [b] threads, with [bytes] bytes of shared memory for each, can be launched. *)
Definition accepted (limits : Z * Z) (b bytes : Z) : Prop :=
  1 <= b <= fst limits /\ b * bytes <= snd limits.

(** One thread fits on the device, and the constants of the chunked mode are not above its limits. *)
Definition fits (limits : Z * Z) (r : request) : Prop :=
  1 <= rq_cuda_block_size r /\ 0 <= rq_bytes r /\ 1 <= fst limits /\ 1 <= snd limits
  /\ rq_bytes r <= snd limits
  /\ (rq_chunks r = true -> 1024 <= fst limits /\ 49152 <= snd limits /\ rq_bytes r <= 49152).

(** Only device [d] is loaded. *)
Definition only_device (d : Z) (a : action) : Prop :=
  match a with Load d' => d' = d | Launch _ _ => True end.

(** The launches of a list of actions fit. *)
Definition fitting (limits : Z * Z) (a : action) : Prop :=
  match a with Load _ => True | Launch _ r => fits limits r end.
