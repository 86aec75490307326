(** * C23: independence of the history of a session. *)

From Coq Require Import ZArith List Bool Ascii String.
From Verif Require Import Keys KeySpec History HistorySpec C23Proofs.
Import ListNotations.
Open Scope string_scope.

(** Direct calls of [get_keops_dll], after any history: the module found is the
    one for the request and the factorisation option in force.  Missing for the
    full claim: the requests of the history give values for the options about
    chunks, or all leave the defaults (refuted otherwise below); and no two
    hashed texts of the session have the same name (see C22). *)
Theorem C23_direct_partial :
  forall parsed parse printed cpu_class gpu_class code digest lambda_text import_flags request_of,
  (forall s p, class_text (cpu_class s p)) ->
  (forall s a b c p, class_text (gpu_class s a b c p)) ->
  (forall p, printed_text (printed p)) ->
  (forall f a b b', printed (parse f a b) = printed (parse f a b') ->
                    parse f a b = parse f a b') ->
  flags_ok import_flags ->
  forall h r d s',
  let U := requests_of request_of (h ++ [CallDll r]) in
  (forall r, In r U -> admissible r) ->
  (forall r, In r U -> Forall (fun s => has "["%char s = false) (rq_aliases r)) ->
  uniform_options U ->
  collision_free parsed parse cpu_class gpu_class printed digest import_flags U ->
  Forall flags_ok (flags_of h) ->
  get_dll parsed parse printed cpu_class gpu_class code digest import_flags r
    (run parsed parse printed cpu_class gpu_class code digest lambda_text import_flags
       request_of h) = (d, s') ->
  let b := last_factorize h in
  dll_parsed _ d = wanted_parsed parsed parse r b
  /\ dll_class _ d = wanted_class parsed parse cpu_class gpu_class r b
  /\ assoc (dll_name _ d) (st_files _ s')
     = Some (wanted_code parsed parse cpu_class gpu_class code r b).
Proof. exact dll_history. Qed.
Print Assumptions C23_direct_partial.

(** Calls of the front-ends, after a history that does not change the options:
    the module returned has the code for the request.  Missing for the full
    claim: changes of the options (refuted below). *)
Theorem C23_front_ends_partial :
  forall parsed parse printed cpu_class gpu_class code digest lambda_text import_flags request_of,
  (forall s p, class_text (cpu_class s p)) ->
  (forall s a b c p, class_text (gpu_class s a b c p)) ->
  (forall p, printed_text (printed p)) ->
  (forall f a b b', printed (parse f a b) = printed (parse f a b') ->
                    parse f a b = parse f a b') ->
  flags_ok import_flags ->
  forall h l c s',
  let U := requests_of request_of (h ++ [CallLoad l]) in
  let L := loads_of (h ++ [CallLoad l]) in
  (forall r, In r U -> admissible r) ->
  (forall l, In l L -> admissible_load l) ->
  (forall r, In r U -> Forall (fun s => has "["%char s = false) (rq_aliases r)) ->
  uniform_options U ->
  collision_free parsed parse cpu_class gpu_class printed digest import_flags U ->
  no_change h ->
  load_module parsed parse printed cpu_class gpu_class code digest lambda_text import_flags
    request_of l
    (run parsed parse printed cpu_class gpu_class code digest lambda_text import_flags
       request_of h) = (c, s') ->
  dll_parsed _ (cm_dll _ c) = wanted_parsed parsed parse (request_of l) false
  /\ cm_code _ c = wanted_code parsed parse cpu_class gpu_class code (request_of l) false
  /\ cm_flags _ c = import_flags.
Proof. exact load_history. Qed.
Print Assumptions C23_front_ends_partial.

(** The factorisation is switched on after a first call: the front-end keeps
    the module parsed without it. *)
Theorem C23_factorize_refuted :
  forall parsed parse printed cpu_class gpu_class code digest lambda_text import_flags request_of
         l c s',
  admissible (request_of l) ->
  parse (rq_formula (request_of l)) (rq_aliases (request_of l)) true
  <> parse (rq_formula (request_of l)) (rq_aliases (request_of l)) false ->
  let s := run parsed parse printed cpu_class gpu_class code digest lambda_text import_flags
             request_of [CallLoad l; SetFactorize true] in
  load_module parsed parse printed cpu_class gpu_class code digest lambda_text import_flags
    request_of l s = (c, s') ->
  st_factorize _ s = true
  /\ dll_parsed _ (cm_dll _ c) <> wanted_parsed parsed parse (request_of l) true.
Proof. exact stale_factorize. Qed.
Print Assumptions C23_factorize_refuted.

(** The compilation flags are changed after a first call: the next one, by the
    same front-end or another, uses a module compiled with the old flags. *)
Theorem C23_flags_refuted :
  forall parsed parse printed cpu_class gpu_class code digest lambda_text import_flags request_of,
  flags_ok import_flags ->
  forall l l' fl c s',
  fl <> import_flags -> request_of l' = request_of l ->
  admissible (request_of l) -> flags_ok fl ->
  is_gpu (rq_scheme (request_of l)) = false ->
  let s := run parsed parse printed cpu_class gpu_class code digest lambda_text import_flags
             request_of [CallLoad l; SetFlags fl] in
  load_module parsed parse printed cpu_class gpu_class code digest lambda_text import_flags
    request_of l' s = (c, s') ->
  st_flags _ s = fl /\ cm_flags _ c <> fl.
Proof. exact stale_flags. Qed.
Print Assumptions C23_flags_refuted.

(** A request with the default for the chunks gives another module than in a
    new session, if the previous request had switched the chunks off. *)
Theorem C23_defaults_refuted :
  forall parsed parse printed cpu_class gpu_class code digest lambda_text import_flags request_of,
  flags_ok import_flags ->
  forall r d s', admissible r ->
  is_gpu (rq_scheme r) = true -> rq_chunks r = 0%Z ->
  let p := parse (rq_formula r) (rq_aliases r) false in
  let f := option_value true (rq_final r) in
  let h := option_value false (rq_highdim r) in
  gpu_class (rq_scheme r) true f h p <> gpu_class (rq_scheme r) false f h p ->
  let after h := run parsed parse printed cpu_class gpu_class code digest lambda_text import_flags
             request_of h in
  let call := get_dll parsed parse printed cpu_class gpu_class code digest import_flags
                (default_chunks r) in
  call (after [CallDll r]) = (d, s') ->
  dll_class _ d <> wanted_class parsed parse cpu_class gpu_class (default_chunks r) false
  /\ dll_class _ (fst (call (after [])))
     = wanted_class parsed parse cpu_class gpu_class (default_chunks r) false.
Proof. exact stale_chunks. Qed.
Print Assumptions C23_defaults_refuted.

(** A session with two requests, the second one made again after the
    factorisation is switched on: all the hypotheses hold. *)
Example C23_case :
  let h := [CallDll (demo_request 1); CallDll (demo_request 0); SetFactorize true] in
  let U := requests_of demo_request_of (h ++ [CallDll (demo_request 1)]) in
  (forall s p, class_text (demo_cpu s p))
  /\ (forall s a b c p, class_text (demo_gpu s a b c p))
  /\ (forall p, printed_text (demo_printed p))
  /\ (forall f a b b', demo_printed (demo_parse f a b) = demo_printed (demo_parse f a b') ->
                       demo_parse f a b = demo_parse f a b')
  /\ flags_ok " -O3"
  /\ (forall r, In r U -> admissible r)
  /\ (forall r, In r U -> Forall (fun s => has "["%char s = false) (rq_aliases r))
  /\ uniform_options U
  /\ collision_free bool demo_parse demo_cpu demo_gpu demo_printed demo_digest " -O3" U
  /\ Forall flags_ok (flags_of h)
  /\ dll_parsed _ (fst (get_dll bool demo_parse demo_printed demo_cpu demo_gpu demo_code
                          demo_digest " -O3" (demo_request 1)
                          (run bool demo_parse demo_printed demo_cpu demo_gpu demo_code
                             demo_digest "<lambda>" " -O3" demo_request_of h))) = true.
Proof.
  cbv zeta.
  split; [exact demo_cpu_classes|]. split; [exact demo_classes|].
  split; [exact demo_printed_ok|]. split; [exact demo_printing|]. split; [reflexivity|].
  split; [intros r [<-|[<-|[<-|[]]]]; apply demo_admissible; unfold choice; auto|].
  split; [intros r [<-|[<-|[<-|[]]]]; repeat constructor|].
  split; [exact demo_uniform|]. split; [exact demo_free|].
  split; [constructor|]. vm_compute. reflexivity.
Qed.

(** Two front-ends ask for the same module. *)
Example C23_case_front_ends :
  let h := [CallLoad (demo_load Torch); CallDll (demo_request 0)] in
  let l := demo_load Numpy in
  let U := requests_of demo_request_of (h ++ [CallLoad l]) in
  (forall r, In r U -> admissible r)
  /\ (forall l', In l' (loads_of (h ++ [CallLoad l])) -> admissible_load l')
  /\ (forall r, In r U -> Forall (fun s => has "["%char s = false) (rq_aliases r))
  /\ uniform_options U
  /\ collision_free bool demo_parse demo_cpu demo_gpu demo_printed demo_digest " -O3" U
  /\ no_change h
  /\ load_key l "<lambda>" <> load_key (demo_load Torch) "<lambda>".
Proof.
  cbv zeta.
  split; [intros r [<-|[<-|[<-|[]]]]; apply demo_admissible; unfold choice; auto|].
  split; [intros l [<-|[<-|[]]]; apply demo_load_admissible|].
  split; [intros r [<-|[<-|[<-|[]]]]; repeat constructor|].
  split; [exact demo_uniform|]. split; [exact demo_free|].
  split; [intros e [<-|[<-|[]]]; exact I|]. discriminate.
Qed.

(** The hypotheses of the refutations hold for the same formula. *)
Example C23_case_changes :
  demo_parse (rq_formula (demo_request 1)) (rq_aliases (demo_request 1)) true
  <> demo_parse (rq_formula (demo_request 1)) (rq_aliases (demo_request 1)) false
  /\ admissible (demo_cpu_request (demo_load Torch))
  /\ is_gpu (rq_scheme (demo_cpu_request (demo_load Torch))) = false
  /\ flags_ok " -O3 -march=native" /\ " -O3 -march=native" <> " -O3"
  /\ admissible (demo_request 0) /\ is_gpu (rq_scheme (demo_request 0)) = true
  /\ rq_chunks (demo_request 0) = 0%Z
  /\ demo_gpu GpuReduc1D true true false false <> demo_gpu GpuReduc1D false true false false.
Proof.
  split; [discriminate|]. split.
  { split; [exact (proj1 (demo_admissible 1 (or_intror (or_intror eq_refl))))|].
    cbn. unfold choice, tag. auto 20. }
  split; [reflexivity|]. split; [reflexivity|]. split; [discriminate|].
  split; [apply demo_admissible; unfold choice; auto|]. split; [reflexivity|].
  split; [reflexivity|]. discriminate.
Qed.
