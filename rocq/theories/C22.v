(** * C22: distinct computations never share a compiled module.

    Two levels are distinguished.  In memory, results are found by a key that
    is a text: different requests have different texts ([C22_requests],
    [C22_loads]).  On disk, modules are found by a name that is the
    beginning of a digest of a text.  Different requests have different texts
    ([C22_module_texts_partial]); the name keeps only ten characters of the
    digest, so different requests with the same name exist whatever the digest
    ([C22_names_refuted]), and the same holds for the table of already parsed
    reductions ([C22_parsed_refuted]). *)

From Coq Require Import ZArith List Bool Ascii String.
From Verif Require Import Keys KeySpec C22Proofs.
Import ListNotations.
Open Scope string_scope.

(** Requests of a module: equal keys come from equal requests, made with the
    same compilation flags and the same setting of the factorisation. *)
Theorem C22_requests : forall r r' flags flags' af af',
  admissible r -> admissible r' -> flags_ok flags -> flags_ok flags' ->
  (r, flags, af) <> (r', flags', af') ->
  request_key r flags af <> request_key r' flags' af'.
Proof. exact requests_key_neq. Qed.
Print Assumptions C22_requests.

(** Requests of the front-ends, within one session (the text of the function
    [env_param] is the same for all of them). *)
Theorem C22_loads : forall l l' lambda_text,
  admissible_load l -> admissible_load l' -> l <> l' ->
  load_key l lambda_text <> load_key l' lambda_text.
Proof. exact loads_key_neq. Qed.
Print Assumptions C22_loads.

(** Reductions already parsed: different texts. *)
Theorem C22_parsed_partial : forall f f' a a' af af',
  formula_text f -> formula_text f' -> (f, a, af) <> (f', a', af') ->
  reduction_text f a af <> reduction_text f' a' af'.
Proof. exact reduction_text_neq. Qed.
Print Assumptions C22_parsed_partial.

(** Modules on disk: the hashed text determines everything the generated code
    is made from.  Missing for the full claim: the name is a part of the
    digest of this text.  The options that select a computation by chunks are
    seen only through the class of the scheme. *)
Theorem C22_module_texts_partial : forall cls cls' printed printed' r r' flags,
  class_text cls -> class_text cls' -> printed_text printed -> printed_text printed' ->
  admissible r -> admissible r' ->
  Forall (fun s => has "["%char s = false) (rq_aliases r) ->
  Forall (fun s => has "["%char s = false) (rq_aliases r') ->
  module_text cls printed r flags = module_text cls' printed' r' flags ->
  cls = cls' /\ printed = printed' /\ rq_formula r = rq_formula r'
  /\ rq_aliases r = rq_aliases r' /\ rq_nargs r = rq_nargs r'
  /\ rq_dtype r = rq_dtype r' /\ rq_acc r = rq_acc r' /\ rq_sum r = rq_sum r'
  /\ rq_hostdevice r = rq_hostdevice r' /\ rq_cpugpu r = rq_cpugpu r'
  /\ rq_1d2d r = rq_1d2d r' /\ rq_half r = rq_half r' /\ rq_fast r = rq_fast r'
  /\ rq_device r = rq_device r'.
Proof. exact module_texts_distinct. Qed.
Print Assumptions C22_module_texts_partial.

(** Whatever the digest, two requests with different formulas have the same
    name: the second one would use the module compiled for the first one. *)
Theorem C22_names_refuted : forall digest cls (printed : request -> string) flags,
  exists r r', admissible r /\ admissible r' /\ rq_formula r <> rq_formula r'
    /\ hash_name digest (module_text cls (printed r) r flags)
       = hash_name digest (module_text cls (printed r') r' flags).
Proof. exact names_collide_requests. Qed.
Print Assumptions C22_names_refuted.

Theorem C22_parsed_refuted : forall digest,
  exists f f', formula_text f /\ formula_text f' /\ f <> f'
    /\ hash_name digest (reduction_text f [] false) = hash_name digest (reduction_text f' [] false).
Proof. exact parsed_collide. Qed.
Print Assumptions C22_parsed_refuted.

(** A Gaussian kernel sum, with two accumulator types. *)
Example C22_case :
  admissible (gaussian_request TFloat AFloat) /\ admissible (gaussian_request TFloat ADouble)
  /\ flags_ok " -fPIC -O3"
  /\ request_key (gaussian_request TFloat ADouble) " -fPIC -O3" true
     = "GpuReduc1D_rangesSum_Reduction((Exp(Minus(Sum(Square((x - y))))) * b),0)1-10['x=Var(0,3,0)', 'y=Var(1,3,1)', 'b=Var(2,1,1)']3floatdoubleblock_sum110False10 -fPIC -O3 auto_factorize=True"
  /\ request_key (gaussian_request TFloat ADouble) " -fPIC -O3" true
     <> request_key (gaussian_request TFloat AFloat) " -fPIC -O3" true.
Proof.
  split; [|split; [|split; [|split]]].
  - split; [exact gaussian_text|]. unfold choice, tag; cbn; auto 20.
  - split; [exact gaussian_text|]. unfold choice, tag; cbn; auto 20.
  - reflexivity.
  - reflexivity.
  - discriminate.
Qed.
