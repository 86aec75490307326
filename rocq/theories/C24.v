(** * C24: a process killed while it builds a module. *)

From Coq Require Import ZArith List Bool Ascii String Lia.
From Verif Require Import Result Keys Folder FolderSpec C24Proofs C24Writers.
Import ListNotations.
Open Scope string_scope.

(** CPU: the process is killed after any number of operations.  The next
    request gets the right module exactly in three cases: nothing was written;
    the source and the information are complete and the binding is not
    compiled; everything was written.  The statement also describes a second
    process that starts after [n] operations of the first one.  Missing for the
    full claim: the other values of [n], where the claim is false. *)
Theorem C24_cpu_partial :
  forall cut, proper_cut cut -> forall compile_cpp m bin,
  md_gpu m = false -> distinct_files m -> one_line (md_formula m) ->
  compile_cpp (md_code m) (md_binding m) = Some bin ->
  forall d n, absent m d ->
  let a := cost cut (md_code m) in
  let b := cost cut (info_text (md_formula m) (md_meta m)) in
  let c := cost cut (md_binding m) in
  let e := cost cut bin in
  fst (request cut compile_cpp m (killed cut compile_cpp n m d)) = Ok (md_meta m, bin) <->
  n = 0 \/ (a + b <= n /\ n <= a + b + c) \/ a + b + c + e <= n.
Proof. exact cpu_crash. Qed.
Print Assumptions C24_cpu_partial.

(** GPU: the compiled code is the file whose existence is checked. *)
Theorem C24_gpu_partial :
  forall cut, proper_cut cut -> forall compile_cpp m,
  md_gpu m = true -> distinct_files m -> one_line (md_formula m) ->
  forall d n, absent m d ->
  let a := cost cut (md_code m) in
  let b := cost cut (md_target m) in
  let c := cost cut (info_text (md_formula m) (md_meta m)) in
  fst (request cut compile_cpp m (killed cut compile_cpp n m d))
    = Ok (md_meta m, md_target m) <->
  n <= a \/ a + b + c <= n.
Proof. exact gpu_crash. Qed.
Print Assumptions C24_gpu_partial.

(** Killed while the source is written, or just after: every following request
    is an error, as long as the files are not removed. *)
Theorem C24_cpu_refuted :
  forall cut, proper_cut cut -> forall compile_cpp m bin,
  md_gpu m = false -> distinct_files m ->
  compile_cpp (md_code m) (md_binding m) = Some bin ->
  forall d n k, absent m d -> 0 < n -> n <= cost cut (md_code m) ->
  retries (request cut compile_cpp m) k (killed cut compile_cpp n m d) = repeat PyErr k.
Proof. exact cpu_poisoned. Qed.
Print Assumptions C24_cpu_refuted.

Theorem C24_gpu_refuted :
  forall cut, proper_cut cut -> forall compile_cpp m,
  md_gpu m = true -> distinct_files m ->
  forall d n k, absent m d ->
  cost cut (md_code m) < n -> n <= cost cut (md_code m) + cost cut (md_target m) ->
  retries (request cut compile_cpp m) k (killed cut compile_cpp n m d) = repeat PyErr k.
Proof. exact gpu_poisoned. Qed.
Print Assumptions C24_gpu_refuted.

(** Killed before the last digit of the information is written: the next
    request succeeds with a wrong dimension. *)
Theorem C24_information_refuted : forall gpu, exists n b,
  mt_dimy (md_meta (demo_module gpu)) = 12%Z
  /\ fst (request by_characters demo_compile (demo_module gpu)
            (killed by_characters demo_compile n (demo_module gpu) (fun _ => None)))
     = Ok ({| mt_dim := 3; mt_tagI := 0; mt_dimy := 1 |}, b).
Proof.
  intros gpu. destruct (wrong_information gpu) as [n [b H]]. exists n, b.
  split; [reflexivity|exact H].
Qed.
Print Assumptions C24_information_refuted.

(** Killed while a table of the session is saved: the next session cannot
    start.  Hypothesis: a pickle without its end cannot be loaded. *)
Theorem C24_tables_refuted :
  forall cut, proper_cut cut ->
  forall table (empty : table) pickle unpickle,
  (forall t a r, a ++ r = pickle t -> r <> "" -> unpickle a = PyErr) ->
  forall p t d n, 1 < n -> n < cost cut (pickle t) ->
  load_cache table empty unpickle
    (apply_all (firstn n (save_table table pickle cut p t)) d p) = PyErr
  /\ load_cache_partial table empty unpickle
       (apply_all (firstn n (save_table table pickle cut p t)) d p) = PyErr.
Proof. exact table_killed. Qed.
Print Assumptions C24_tables_refuted.

(** Just after the file is emptied, one of the two kinds of tables is read as
    empty and the other one is an error. *)
Theorem C24_empty_tables_refuted :
  forall cut table (empty : table) pickle unpickle,
  (forall t a r, a ++ r = pickle t -> r <> "" -> unpickle a = PyErr) ->
  forall p t d, pickle t <> "" ->
  load_cache table empty unpickle
    (apply_all (firstn 1 (save_table table pickle cut p t)) d p) = Ok empty
  /\ load_cache_partial table empty unpickle
       (apply_all (firstn 1 (save_table table pickle cut p t)) d p) = PyErr.
Proof. exact table_emptied. Qed.
Print Assumptions C24_empty_tables_refuted.

(** Two processes that both find the module missing, in any interleaving of
    their writings: the files are complete when both have finished. *)
Theorem C24_two_writers : forall cut cut' m d l,
  proper_cut cut -> proper_cut cut' -> distinct_files m -> absent m d ->
  interleaved (generation_at cut m) (generation_at cut' m) l ->
  let d' := fold_left apply_at l d in
  d' (md_source m) = Some (md_code m)
  /\ d' (md_info m) = Some (info_text (md_formula m) (md_meta m))
  /\ (md_gpu m = true -> d' (md_low m) = Some (md_target m)).
Proof. exact two_generations. Qed.
Print Assumptions C24_two_writers.

Example C24_case :
  proper_cut by_characters /\ distinct_files (demo_module true)
  /\ distinct_files (demo_module false)
  /\ FolderSpec.one_line (md_formula (demo_module false))
  /\ absent (demo_module false) (fun _ => None)
  /\ demo_compile (md_code (demo_module false)) (md_binding (demo_module false))
     = Some "int CpuConv#include"
  /\ cost by_characters (md_code (demo_module false)) = 12
  /\ fst (request by_characters demo_compile (demo_module false)
            (killed by_characters demo_compile 5 (demo_module false) (fun _ => None))) = PyErr
  /\ fst (request by_characters demo_compile (demo_module false)
            (killed by_characters demo_compile 66 (demo_module false) (fun _ => None)))
     = Ok (md_meta (demo_module false), "int CpuConv#include").
Proof.
  split; [exact by_characters_ok|]. split; [apply demo_names|]. split; [apply demo_names|].
  split; [split; reflexivity|]. split; [intros p _; reflexivity|].
  split; [reflexivity|]. split; [reflexivity|]. split; vm_compute; reflexivity.
Qed.

(** One interleaving: the second process starts when the first one has written
    two characters. *)
Example C24_case_writers :
  let w := write_at "f" ["a"; "b"; "c"] in
  let l := [Open "f"; Put "f" 0 "a"; Put "f" 1 "b"; Open "f"; Put "f" 2 "c";
            Put "f" 0 "a"; Put "f" 1 "b"; Put "f" 2 "c"] in
  interleaved w w l
  /\ fold_left apply_at (firstn 5 l) (fun _ => None) "f"
     = Some (String "000" (String "000" "c"))
  /\ fold_left apply_at l (fun _ => None) "f" = Some "abc".
Proof.
  split; [repeat constructor|]. split; vm_compute; reflexivity.
Qed.
