(** * C62: the device memory of a launch *)

From Coq Require Import ZArith String List Bool.
From Verif Require Import GpuMemory GpuMemorySpec C62Proofs C62Load C62Launch C62Main.
Import ListNotations.
Open Scope list_scope.
Open Scope Z_scope.

(** Each kernel of an accepted launch finds the right arguments and tables; what is allocated is
    freed, and nothing else; the output is what the last kernel leaves.  An error means that a call
    of the driver failed. *)
Theorem C62_launch_partial : forall D buffer d q rx sl ry, allocator D -> sane d -> acceptable D buffer d q rx sl ry ->
  exists l, let d' := snd (launch_kernel buffer q D d) in
  events d' = events d ++ l /\ Forall (right_launch D q rx sl ry) l /\ balanced l /\ incl (live d) (live d')
  /\ match fst (launch_kernel buffer q D d) with
     | Done r => live d' = live d /\ kernels_run D q l /\ result_of D q l r
     | Thrown | Exited => exists t, (time d <= t < time d')%nat /\ fails D t = true
     | Undefined => False
     end.
Proof. exact launch_all. Qed.
Print Assumptions C62_launch_partial.

(** Arrays of the host; the ranges of 300 and 200 rows of a user, on the device. *)
Example C62_launch_case : forall f k,
  allocator (plain_driver f k) /\ sane range_device
  /\ acceptable (plain_driver f k) 1 range_device range_request [(0, 300); (300, 500)] [1; 2] [(0, 1); (1, 2)]
  /\ acceptable (plain_driver f k) 1 range_device
       (host_request (repeat 1 12) (repeat 2 8) (repeat 0 12) 3 [3; 1]) [] [] [].
Proof.
  intros f k. split; [apply plain_driver_allocates|]. split; [apply (range_case f k)|].
  split; [apply (range_case f k)|]. apply host_case.
Qed.

(** The blocks of 192 rows that the kernel of these ranges finds. *)
Example C62_blocks_case :
  cuts 192 0 [(0, 300); (300, 500)] [(0, 0, 192); (0, 192, 300); (1, 300, 492); (1, 492, 500)].
Proof.
  apply (cuts_more 192 0 0 300 _ [(0, 0, 192); (0, 192, 300)]).
  - apply (cut_more 192 0 0 300); [reflexivity|]. apply (cut_more 192 0 192 300); [reflexivity|]. constructor.
  - apply (cuts_more 192 1 300 500 _ [(1, 300, 492); (1, 492, 500)] []); [|constructor].
    apply (cut_more 192 1 300 500); [reflexivity|]. apply (cut_more 192 1 492 500); [reflexivity|]. constructor.
Qed.

(** A module that is created, called and released leaves the device as it was. *)
Theorem C62_session_partial : forall D nargs l d, allocator D -> sane d -> 0 < nargs < 2 ^ 61 -> Forall (lasting D nargs) l ->
  match session nargs l D d with
  | (Done _, d') => live d' = live d
  | (Undefined, _) => False
  | (_, _) => exists t, fails D t = true
  end.
Proof. exact session_right. Qed.
Print Assumptions C62_session_partial.

(** A call on arrays of the host, and one with two batches on the device. *)
Example C62_session_case : forall f k,
  Forall (lasting (plain_driver f k) 2)
    [host_request (repeat 1 12) (repeat 2 8) (repeat 0 12) 3 [3; 1]; batch_request].
Proof.
  intros f k. constructor; [|constructor; [apply batch_case|constructor]].
  exists [], [], []. intros buffer d _. apply host_case.
Qed.

(** With data on the host, ranges or batches read past the end of the slices. *)
Theorem C62_host_ranges_refuted : forall D buffer d q rx sl, no_failure D -> geometry D q -> host_ranges q rx sl ->
  fst (launch_kernel buffer q D d) = Undefined.
Proof. exact host_ranges_undefined. Qed.
Print Assumptions C62_host_ranges_refuted.

Example C62_host_ranges_case : forall k, no_failure (plain_driver (fun _ => false) k)
  /\ geometry (plain_driver (fun _ => false) k) host_batch_request
  /\ host_ranges host_batch_request [(0, 3); (3, 6)] [1; 2].
Proof. exact host_batch_case. Qed.

(** A call of the driver that fails after the arguments are allocated: they are never freed. *)
Theorem C62_leak_refuted : forall kernel t, (3 <= t <= 10)%nat ->
  let D := plain_driver (Nat.eqb t) kernel in
  let q := host_request (repeat 1 12) (repeat 2 8) (repeat 0 12) 3 [3; 1] in
  fst (launch_kernel 0 q D empty_device) = Thrown
  /\ live (snd (launch_kernel 0 q D empty_device)) = [(1, 48)]
  /\ forall a, ~ In (Freed a) (events (snd (launch_kernel 0 q D empty_device))).
Proof. exact leak_at. Qed.
Print Assumptions C62_leak_refuted.

(** Without rows, no call of the driver fails by itself, but the launch is refused. *)
Theorem C62_empty_refuted : forall kernel,
  let D := plain_driver (fun _ => false) kernel in
  let q := host_request [] (repeat 2 8) [] 0 [0; 1] in
  fst (launch_kernel 0 q D empty_device) = Thrown
  /\ live (snd (launch_kernel 0 q D empty_device)) = [(1, 24)].
Proof. exact empty_throws. Qed.
Print Assumptions C62_empty_refuted.

(** An output of 2^32 elements on the host: the size is computed in an int and is 0; the launch
    succeeds and the output is not written, whatever the kernel computes. *)
Theorem C62_size_refuted : forall kernel h,
  let D := plain_driver (fun _ => false) kernel in
  let q := host_request (repeat 1 16) (repeat 2 8) h 4 [4; 2 ^ 30] in
  fst (launch_kernel 0 q D empty_device) = Done (Host h)
  /\ exists e, filter is_launch (events (snd (launch_kernel 0 q D empty_device))) = [e].
Proof. exact size_lost. Qed.
Print Assumptions C62_size_refuted.
