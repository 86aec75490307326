(** * Tables of modules and global options over the life of a session.

    Models
    - keopscore/keopscore/utils/Cache.py ([Cache.__call__] lines 30-34,
      [Cache_partial.__call__] lines 84-97 without cache file);
    - keopscore/keopscore/config/chunks.py lines 5-17, 23-31, 59-68 (the global
      options and the functions that set them);
    - keopscore/keopscore/get_keops_dll.py lines 77-137;
    - keopscore/keopscore/formulas/GetReduction.py lines 18-41;
    - keopscore/keopscore/binders/LinkCompile.py lines 15-47, 91-107;
    - pykeops/pykeops/common/keops_io/LoadKeOps.py lines 33-144 and
      LoadKeOps_cpp.py lines 20-47.

    Parameters: the evaluation of the text of a formula ([parse]), its printing
    ([printed]), the class of scheme selected ([cpu_class], [gpu_class]), the
    generated code ([code]), the digest, and the text of the function
    [env_param].

    Simplifications: one session, one build folder; the tables saved on disk at
    exit and read by later sessions are not modelled; [get_keops_dll_impl]
    looks up the same parsed reduction several times, the model once; the
    existence of a generated file and its contents are one table
    ([st_files]); a compiled module is described by the code and the flags it
    was compiled with. *)

From Coq Require Import ZArith List Bool Ascii String.
From Verif Require Import Keys.
Import ListNotations.
Open Scope string_scope.

Fixpoint assoc {A} (k : string) (l : list (string * A)) : option A :=
  match l with
  | [] => None
  | (k', a) :: l' => if string_dec k k' then Some a else assoc k l'
  end.

Definition is_gpu (s : scheme) : bool :=
  match s with CpuReduc | CpuReduc_ranges => false | _ => true end.

(** chunks.py: [set_enable_chunk] and the two similar functions: 1 and 0
    change the global option, any other value leaves it. *)
Definition set_option (old : bool) (val : Z) : bool :=
  if (val =? 1)%Z then true else if (val =? 0)%Z then false else old.

(** The generated code is made from these parts of the request (MapReduce.py
    lines 12-44): the options about chunks and the name of the scheme are not
    sent to the class. *)
Definition sent (r : request) : request :=
  {| rq_scheme := CpuReduc; rq_formula := rq_formula r; rq_chunks := 0; rq_final := 0;
     rq_highdim := 0; rq_aliases := rq_aliases r; rq_nargs := rq_nargs r;
     rq_dtype := rq_dtype r; rq_acc := rq_acc r; rq_sum := rq_sum r;
     rq_hostdevice := rq_hostdevice r; rq_cpugpu := rq_cpugpu r; rq_1d2d := rq_1d2d r;
     rq_half := rq_half r; rq_fast := rq_fast r; rq_device := rq_device r |}.

Section History.
  Variable parsed : Type.
  Variable parse : string -> list string -> bool -> parsed.
  Variable printed : parsed -> string.
  Variable cpu_class : scheme -> parsed -> string.
  Variable gpu_class : scheme -> bool -> bool -> bool -> parsed -> string.
  Variable code : string -> parsed -> request -> string.
  Variable digest : string -> string.
  Variable lambda_text : string.
  (** Flags when LinkCompile.py is imported (line 6). *)
  Variable import_flags : string.
  (** The request made by [LoadKeOps] for a call of a front-end. *)
  Variable request_of : load -> request.

  Record dll := { dll_name : string; dll_class : string; dll_parsed : parsed }.

  (** A compiled module: the code and the flags of the compilation. *)
  Record compiled := { cm_dll : dll; cm_code : string; cm_flags : string }.

  Record state := {
    st_factorize : bool;
    st_flags : string;
    st_chunk : bool;
    st_final : bool;
    st_highdim : bool;
    st_reductions : list (string * parsed);
    st_table : list (string * dll);
    st_files : list (string * string);
    st_loads : list (string * compiled);
    st_modules : list (string * (string * string)) }.

  Definition start : state :=
    {| st_factorize := false; st_flags := import_flags; st_chunk := true;
       st_final := true; st_highdim := false; st_reductions := []; st_table := [];
       st_files := []; st_loads := []; st_modules := [] |}.

  (** GetReduction.py lines 18-41. *)
  Definition get_reduction (f : string) (a : list string) (s : state) : parsed * state :=
    let k := hash_name digest (reduction_text f a (st_factorize s)) in
    match assoc k (st_reductions s) with
    | Some p => (p, s)
    | None =>
        let p := parse f a (st_factorize s) in
        (p, {| st_factorize := st_factorize s; st_flags := st_flags s;
               st_chunk := st_chunk s; st_final := st_final s; st_highdim := st_highdim s;
               st_reductions := (k, p) :: st_reductions s; st_table := st_table s;
               st_files := st_files s; st_loads := st_loads s;
               st_modules := st_modules s |})
    end.

  (** get_keops_dll.py lines 87-89. *)
  Definition set_options (r : request) (s : state) : state :=
    {| st_factorize := st_factorize s; st_flags := st_flags s;
       st_chunk := set_option (st_chunk s) (rq_chunks r);
       st_final := set_option (st_final s) (rq_final r);
       st_highdim := set_option (st_highdim s) (rq_highdim r);
       st_reductions := st_reductions s; st_table := st_table s;
       st_files := st_files s; st_loads := st_loads s; st_modules := st_modules s |}.

  Definition module_name (cls : string) (p : parsed) (r : request) : string :=
    hash_name digest (module_text cls (printed p) r import_flags).

  (** LinkCompile.py lines 93-107: generate the code if the file is missing. *)
  Definition generate (cls : string) (p : parsed) (r : request) (s : state) : dll * state :=
    let n := module_name cls p r in
    let d := {| dll_name := n; dll_class := cls; dll_parsed := p |} in
    match assoc n (st_files s) with
    | Some _ => (d, s)
    | None =>
        (d, {| st_factorize := st_factorize s; st_flags := st_flags s;
               st_chunk := st_chunk s; st_final := st_final s; st_highdim := st_highdim s;
               st_reductions := st_reductions s; st_table := st_table s;
               st_files := (n, code cls p (sent r)) :: st_files s;
               st_loads := st_loads s; st_modules := st_modules s |})
    end.

  (** get_keops_dll.py lines 77-137. *)
  Definition dll_impl (r : request) (s : state) : dll * state :=
    let s := if is_gpu (rq_scheme r) then set_options r s else s in
    let (p, s) := get_reduction (rq_formula r) (rq_aliases r) s in
    let cls := if is_gpu (rq_scheme r)
               then gpu_class (rq_scheme r) (st_chunk s) (st_final s) (st_highdim s) p
               else cpu_class (rq_scheme r) p in
    generate cls p r s.

  (** Cache.py lines 30-34. *)
  Definition get_dll (r : request) (s : state) : dll * state :=
    let k := request_key r (st_flags s) (st_factorize s) in
    match assoc k (st_table s) with
    | Some d => (d, s)
    | None =>
        let (d, s) := dll_impl r s in
        (d, {| st_factorize := st_factorize s; st_flags := st_flags s;
               st_chunk := st_chunk s; st_final := st_final s; st_highdim := st_highdim s;
               st_reductions := st_reductions s; st_table := (k, d) :: st_table s;
               st_files := st_files s; st_loads := st_loads s;
               st_modules := st_modules s |})
    end.

  (** LoadKeOps_cpp.py lines 20-47: compile if the module is missing. *)
  Definition compile (d : dll) (s : state) : compiled * state :=
    match assoc (dll_name d) (st_modules s) with
    | Some (c, fl) => ({| cm_dll := d; cm_code := c; cm_flags := fl |}, s)
    | None =>
        let c := match assoc (dll_name d) (st_files s) with Some c => c | None => "" end in
        ({| cm_dll := d; cm_code := c; cm_flags := st_flags s |},
         {| st_factorize := st_factorize s; st_flags := st_flags s;
            st_chunk := st_chunk s; st_final := st_final s; st_highdim := st_highdim s;
            st_reductions := st_reductions s; st_table := st_table s;
            st_files := st_files s; st_loads := st_loads s;
            st_modules := (dll_name d, (c, st_flags s)) :: st_modules s |})
    end.

  (** Cache.py lines 84-97. *)
  Definition load_module (l : load) (s : state) : compiled * state :=
    let k := load_key l lambda_text in
    match assoc k (st_loads s) with
    | Some c => (c, s)
    | None =>
        let (d, s) := get_dll (request_of l) s in
        let (c, s) := compile d s in
        (c, {| st_factorize := st_factorize s; st_flags := st_flags s;
               st_chunk := st_chunk s; st_final := st_final s; st_highdim := st_highdim s;
               st_reductions := st_reductions s; st_table := st_table s;
               st_files := st_files s; st_loads := (k, c) :: st_loads s;
               st_modules := st_modules s |})
    end.

  (** What may happen during a session.  [Clean] is [pykeops.clean_pykeops]
      (pykeops/pykeops/__init__.py lines 50-65): the build folder is emptied and
      the tables are reset, except the table of parsed reductions. *)
  Inductive event :=
  | SetFactorize (b : bool)
  | SetFlags (fl : string)
  | CallDll (r : request)
  | CallLoad (l : load)
  | Clean.

  Definition step (s : state) (e : event) : state :=
    match e with
    | SetFactorize b =>
        {| st_factorize := b; st_flags := st_flags s;
           st_chunk := st_chunk s; st_final := st_final s; st_highdim := st_highdim s;
           st_reductions := st_reductions s; st_table := st_table s;
           st_files := st_files s; st_loads := st_loads s; st_modules := st_modules s |}
    | SetFlags fl =>
        {| st_factorize := st_factorize s; st_flags := fl;
           st_chunk := st_chunk s; st_final := st_final s; st_highdim := st_highdim s;
           st_reductions := st_reductions s; st_table := st_table s;
           st_files := st_files s; st_loads := st_loads s; st_modules := st_modules s |}
    | CallDll r => snd (get_dll r s)
    | CallLoad l => snd (load_module l s)
    | Clean =>
        {| st_factorize := st_factorize s; st_flags := st_flags s;
           st_chunk := st_chunk s; st_final := st_final s; st_highdim := st_highdim s;
           st_reductions := st_reductions s; st_table := [];
           st_files := []; st_loads := []; st_modules := [] |}
    end.

  Definition run (h : list event) : state := fold_left step h start.
End History.
