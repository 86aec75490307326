(** * C60: the GPU is used exactly when its devices work, and launches respect their limits. *)

From Coq Require Import ZArith List Bool Ascii String.
From Verif Require Import Result Folder GpuConfig GpuConfigSpec C60Proofs.
Import ListNotations.
Open Scope string_scope.
Open Scope Z_scope.

(** CUDA is enabled exactly when the two libraries can be loaded, the driver can be initialised and counts at least
    one device, and every device answers every question; the number of devices is then the one of the driver.
    Otherwise there are no devices and no flags. *)
Theorem C60_detection : forall m s, counts m -> set_use_cuda m = Ok s ->
  (use_cuda s = true <-> exists n L, usable m n L)
  /\ (use_cuda s = false -> n_gpus s = 0 /\ gpu_flags s = "")
  /\ (forall n L, usable m n L -> n_gpus s = n).
Proof. exact detection. Qed.
Print Assumptions C60_detection.

(** What the preprocessor reads in the flags: the limits of each device below 12, and an exception for any other
    number. *)
Theorem C60_flags_partial : forall m n L s, usable m n L -> set_use_cuda m = Ok s ->
  forall d, set_gpu_props (gpu_flags s) d
            = if (0 <=? d) && (d <? n) && (d <? 12) then Ok (L d) else PyErr.
Proof. exact limits_read. Qed.
Print Assumptions C60_flags_partial.

(** A device above the twelfth is counted and cannot be used. *)
Theorem C60_flags_refuted : exists m n L s d, usable m n L /\ set_use_cuda m = Ok s /\ use_cuda s = true
  /\ n_gpus s = n /\ 0 <= d < n /\ set_gpu_props (gpu_flags s) d = PyErr.
Proof. exact thirteen. Qed.
Print Assumptions C60_flags_refuted.

(** After any sessions, in a session that uses one device, every launch has at least one thread in a block and
    respects the limits of the device.  Partial: the earlier sessions with the same build folder saw the same limits
    (refuted otherwise), one device is used (refuted for two), one thread fits, and in chunked mode the device has at
    least the limits 1024 and 49152 that are written in the code. *)
Theorem C60_launches_partial : forall ms m n L flags b d l out,
  counts m -> (forall m', In m' ms -> counts m') -> usable m n L ->
  (forall m', In m' ms -> build_folder m' = build_folder m ->
     forall n' L', usable m' n' L' -> n' = n /\ forall d, 0 <= d < n -> L' d = L d) ->
  import_pykeops m (sessions ms) = (Ok (Some flags), b) ->
  0 <= d < n -> d < 12 -> Forall (only_device d) l -> Forall (fitting (L d)) l ->
  perform_all m flags {| globals := (0, 0); loaded := [] |} l = Ok out ->
  Forall (fun x => fst (fst x) = d /\ accepted (L d) (snd (fst x)) (rq_bytes (snd x))) out.
Proof. exact session_main. Qed.
Print Assumptions C60_launches_partial.

(** The limits are global variables set when a module is loaded, and not when it is launched: after a module for
    another device has been loaded, a launch exceeds the limits of its own device. *)
Theorem C60_devices_refuted : exists m n L s l out, usable m n L /\ set_use_cuda m = Ok s /\
  perform_all m (gpu_flags s) {| globals := (0, 0); loaded := [] |} l = Ok out
  /\ Forall (fun a => match a with Load d => 0 <= d < n | Launch _ r => forall d, 0 <= d < n -> fits (L d) r end) l
  /\ exists d b r, In (d, b, r) out /\ ~ accepted (L d) b (rq_bytes r).
Proof. exact interleaved_limits. Qed.
Print Assumptions C60_devices_refuted.

(** The name of the folder where the binder is kept does not depend on CUDA_VISIBLE_DEVICES (only the folder of
    [cuda_config] does, where nothing is written): with another value of the variable, the binder has the limits of the
    other device. *)
Theorem C60_sessions_refuted : exists m1 m2 n L1 L2 flags b l out,
  usable m1 n L1 /\ usable m2 n L2
  /\ env m1 "CUDA_VISIBLE_DEVICES" <> env m2 "CUDA_VISIBLE_DEVICES"
  /\ cuda_folder m1 <> cuda_folder m2 /\ build_folder m1 = build_folder m2
  /\ import_pykeops m2 (sessions [m1]) = (Ok (Some flags), b)
  /\ perform_all m2 flags {| globals := (0, 0); loaded := [] |} l = Ok out
  /\ Forall (only_device 0) l /\ Forall (fitting (L2 0)) l
  /\ exists d bx r, In (d, bx, r) out /\ ~ accepted (L2 d) bx (rq_bytes r).
Proof. exact stale_binder. Qed.
Print Assumptions C60_sessions_refuted.

(** The folder of [cuda_config] is never created: when the headers are found by the compiler only, setting
    CUDA_VISIBLE_DEVICES makes the import fail. *)
Theorem C60_folder_refuted : exists m m' n L,
  usable m n L /\ usable m' n L /\ env m "CUDA_VISIBLE_DEVICES" = None
  /\ env m' "CUDA_VISIBLE_DEVICES" = Some "0"
  /\ (forall p, is_file m p = is_file m' p) /\ (forall h, compiler_include m h = compiler_include m' h)
  /\ (exists s, import_keopscore m = Ok s /\ use_cuda s = true) /\ import_keopscore m' = PyErr.
Proof. exact missing_folder. Qed.
Print Assumptions C60_folder_refuted.

(** CUDA is enabled without libcudart, and then the import fails on the comparison of the version. *)
Theorem C60_version_refuted : exists m n L s, usable m n L /\ set_use_cuda m = Ok s /\ use_cuda s = true
  /\ import_keopscore m = PyErr.
Proof. exact no_cudart. Qed.
Print Assumptions C60_version_refuted.

(** The older function counts devices that do not answer. *)
Theorem C60_old_refuted : exists m s, (forall n L, ~ usable m n L) /\ set_use_cuda m = Ok s /\ use_cuda s = false
  /\ fst (old_gpu_props m) = 2.
Proof. exact old_silent. Qed.
Print Assumptions C60_old_refuted.

Example C60_flags_case :
  let m := a_machine None 2 mixed (Some 12020) opt_cuda in
  usable m 2 mixed /\ counts m /\
  exists s, set_use_cuda m = Ok s
  /\ gpu_flags s = "-DMAXIDGPU=1 -DMAXTHREADSPERBLOCK0=1024 -DSHAREDMEMPERBLOCK0=49152 -DMAXTHREADSPERBLOCK1=1024 -DSHAREDMEMPERBLOCK1=101376 "
  /\ set_gpu_props (gpu_flags s) 1 = Ok (1024, 101376) /\ set_gpu_props (gpu_flags s) 2 = PyErr
  /\ include_path s = Some "/opt/cuda/include" /\ cuda_version s = Some 12020.
Proof.
  split; [now apply a_usable|]. split; [now apply a_counts|]. eexists. split; [vm_compute; reflexivity|].
  repeat split.
Qed.

Example C60_launches_case :
  let m := a_machine None 2 mixed (Some 12020) opt_cuda in
  let r k := {| rq_cuda_block_size := 192; rq_bytes := k; rq_chunks := false |} in
  let l := [Load 1; Launch 0 (r 400); Load 1; Launch 1 (r 12); Launch 0 (r 50000)] in
  exists flags b out, import_pykeops m (sessions [m; m]) = (Ok (Some flags), b)
  /\ Forall (only_device 1) l /\ Forall (fitting (mixed 1)) l
  /\ perform_all m flags {| globals := (0, 0); loaded := [] |} l = Ok out
  /\ map (fun x => snd (fst x)) out = [192; 192; 2].
Proof.
  do 3 eexists. split; [vm_compute; reflexivity|]. split; [repeat constructor|].
  split; [repeat constructor; cbn; discriminate|]. split; [vm_compute; reflexivity|reflexivity].
Qed.
