(** * What a call should return, from the request and the options in force. *)

From Coq Require Import ZArith List Bool Ascii String.
From Verif Require Import Keys KeySpec History.
Import ListNotations.
Open Scope string_scope.

(** Value of an option: given by the request, or the default. *)
Definition option_value (default : bool) (val : Z) : bool :=
  if (val =? -1)%Z then default else (val =? 1)%Z.

(** The factorisation option in force after a history. *)
Definition last_factorize (h : list event) : bool :=
  fold_left (fun b e => match e with SetFactorize b' => b' | _ => b end) h false.

(** A request with chunks switched off, then the same request with the default. *)
Definition default_chunks (r : request) : request :=
    {| rq_scheme := rq_scheme r; rq_formula := rq_formula r; rq_chunks := -1;
       rq_final := rq_final r; rq_highdim := rq_highdim r; rq_aliases := rq_aliases r;
       rq_nargs := rq_nargs r; rq_dtype := rq_dtype r; rq_acc := rq_acc r; rq_sum := rq_sum r;
       rq_hostdevice := rq_hostdevice r; rq_cpugpu := rq_cpugpu r; rq_1d2d := rq_1d2d r;
       rq_half := rq_half r; rq_fast := rq_fast r; rq_device := rq_device r |}.

Section Spec.
  Variable parsed : Type.
  Variable parse : string -> list string -> bool -> parsed.
  Variable cpu_class : scheme -> parsed -> string.
  Variable gpu_class : scheme -> bool -> bool -> bool -> parsed -> string.
  Variable code : string -> parsed -> request -> string.

  Definition wanted_parsed (r : request) (factorize : bool) : parsed :=
    parse (rq_formula r) (rq_aliases r) factorize.

  (** Chunks are enabled by default, final chunks too, and the product by a
      variable of high dimension is not. *)
  Definition wanted_class (r : request) (factorize : bool) : string :=
    let p := wanted_parsed r factorize in
    if is_gpu (rq_scheme r)
    then gpu_class (rq_scheme r) (option_value true (rq_chunks r))
           (option_value true (rq_final r)) (option_value false (rq_highdim r)) p
    else cpu_class (rq_scheme r) p.

  Definition wanted_code (r : request) (factorize : bool) : string :=
    code (wanted_class r factorize) (wanted_parsed r factorize) (sent r).

  (** Requests made during a history, by direct calls or through a front-end. *)
  Variable request_of : load -> request.

  Definition requests_of (h : list event) : list request :=
    flat_map (fun e => match e with
                       | CallDll r => [r]
                       | CallLoad l => [request_of l]
                       | _ => [] end) h.

  Definition loads_of (h : list event) : list load :=
    flat_map (fun e => match e with CallLoad l => [l] | _ => [] end) h.

  Definition flags_of (h : list event) : list string :=
    flat_map (fun e => match e with SetFlags fl => [fl] | _ => [] end) h.

  (** For each of the three options, the requests of the history all leave the
      default, or all give a value. *)
  Definition uniform (field : request -> Z) (l : list request) : Prop :=
    (forall r, In r l -> is_gpu (rq_scheme r) = true -> field r = (-1)%Z)
    \/ (forall r, In r l -> is_gpu (rq_scheme r) = true -> tag (field r)).

  Definition uniform_options (l : list request) : Prop :=
    uniform rq_chunks l /\ uniform rq_final l /\ uniform rq_highdim l.

  (** Neither of the options is changed. *)
  Definition no_change (h : list event) : Prop :=
    forall e, In e h ->
      match e with SetFactorize _ | SetFlags _ => False | _ => True end.

  (** The names computed for the requests of the history do not collide. *)
  Variable printed : parsed -> string.
  Variable digest : string -> string.
  Variable import_flags : string.

  Definition text_of (r : request) (factorize : bool) : string :=
    module_text (wanted_class r factorize) (printed (wanted_parsed r factorize)) r import_flags.

  Definition collision_free (l : list request) : Prop :=
    (forall r r' b b', In r l -> In r' l ->
       let t := reduction_text (rq_formula r) (rq_aliases r) b in
       let t' := reduction_text (rq_formula r') (rq_aliases r') b' in
       hash_name digest t = hash_name digest t' -> t = t')
    /\ (forall r r' b b', In r l -> In r' l ->
       hash_name digest (text_of r b) = hash_name digest (text_of r' b') ->
       text_of r b = text_of r' b').
End Spec.
