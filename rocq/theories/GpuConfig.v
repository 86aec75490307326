(** * Configuration of the GPU: detection, flags of the compiler, limits of the devices.

    Models
    - keopscore/keopscore/config/cuda.py lines 50-62 ([__init__]), 115-151
      ([_cuda_libraries_available], [set_use_cuda]), 170-176 ([set_specific_gpus]), 202-225 (folders),
      249-278 ([get_cuda_version]), 280-341 ([get_cuda_include_path]), 343-354
      ([get_include_file_abspath]), 379-491 ([get_gpu_props]);
    - keopscore/keopscore/config/base_config.py lines 77-85, 95-100, 110-121 (cache folder, build folder);
    - keopscore/keopscore/utils/gpu_utils.py lines 173-258 (the older [get_gpu_props]);
    - keopscore/keopscore/__init__.py lines 30-38 and
      keopscore/keopscore/binders/nvrtc/Gpu_link_compile.py lines 14-46 (import);
    - pykeops/pykeops/__init__.py lines 40-44 and pykeops/pykeops/config.py lines 24-35 (binder);
    - keopscore/keopscore/include/CudaSizes.h lines 23-99 ([SetGpuProps]);
    - keopscore/keopscore/binders/nvrtc/keops_nvrtc.cpp lines 353-379 (constructor of a module) and
      441-458 (block size).

    Simplifications: the libraries, the driver, the compiler and the file system are a record of
    answers, fixed during a session.  A call of the driver answers [None] when its code is not
    CUDA_SUCCESS, and then leaves its output unchanged.  Paths are joined with one slash.  The
    folders of the libraries, the flags of nvrtc and the warnings are left out.  Compiling the binder
    succeeds. *)

From Coq Require Import ZArith List Bool Ascii String.
From Coq Require Import DecimalString DecimalZ.
From Verif Require Import Result Keys Folder.
Import ListNotations.
Open Scope string_scope.

Record machine := {
  env : string -> option string;              (* os.getenv *)
  home_cache : string;                        (* ~/.cache/keops and the version *)
  platform_name : string;                     (* "_".join(uname[:3]) + "_p" + version of Python *)
  library : string -> option string;          (* _try_load_library, lines 64-113 *)
  cudart_version : option Z;                  (* None: libcudart is not found *)
  is_file : string -> bool;
  is_dir : string -> bool;
  compiler_include : string -> option string; (* path that the compiler gives for a header *)
  cu_init : bool;
  cu_count : option Z;
  cu_device : Z -> option Z;
  cu_attribute : Z -> Z -> option Z }.

Definition path_join (a b : string) : string := a ++ String "/" b.

(** [bool] of a variable of the environment: absent or empty is false. *)
Definition set_variable (v : option string) : option string :=
  match v with Some EmptyString => None | _ => v end.

(** [os.path.dirname]: what precedes the last slash, without slashes at its end. *)
Fixpoint head_part (s : string) : option string :=
  match s with
  | EmptyString => None
  | String c s' =>
      match head_part s' with
      | Some h => Some (String c h)
      | None => if (c =? "/")%char then Some (String c "") else None
      end
  end.

Fixpoint rstrip_slash (s : string) : string :=
  match s with
  | EmptyString => ""
  | String c s' =>
      match rstrip_slash s' with
      | EmptyString => if (c =? "/")%char then "" else String c ""
      | t => String c t
      end
  end.

Definition dirname (s : string) : string :=
  match head_part s with
  | None => ""
  | Some h => match rstrip_slash h with EmptyString => h | t => t end
  end.

(** [s.replace(",", "_")]. *)
Fixpoint underscores (s : string) : string :=
  match s with
  | EmptyString => ""
  | String c s' => String (if (c =? ",")%char then "_" else c)%char (underscores s')
  end.

(** ** Folders *)

(** base_config.py lines 77-85 and cuda.py lines 202-210: here the variable may be empty. *)
Definition cache_folder (m : machine) : string :=
  match env m "KEOPS_CACHE_FOLDER" with Some p => p | None => home_cache m end.

(** [config.get_build_folder()], base_config.py lines 95-100 and 110-121: the folder where everything is written.
    It is created. *)
Definition build_folder (m : machine) : string := path_join (cache_folder m) (platform_name m).

(** [cuda_config.get_build_folder()], cuda.py lines 170-176 and 219-225.  It is not created. *)
Definition cuda_folder (m : machine) : string :=
  path_join (cache_folder m)
    (platform_name m
     ++ match set_variable (env m "CUDA_VISIBLE_DEVICES") with
        | Some g => "_CUDA_VISIBLE_DEVICES_" ++ underscores g
        | None => ""
        end).

Definition folder_exists (m : machine) (p : string) : bool :=
  if string_dec p (build_folder m) then true else is_dir m p.

(** ** Detection *)

Record cuda_state := {
  use_cuda : bool;
  n_gpus : Z;
  gpu_flags : string;
  cuda_version : option Z;
  include_path : option string }.

Definition no_cuda (s : cuda_state) : cuda_state :=
  {| use_cuda := false; n_gpus := 0; gpu_flags := ""; cuda_version := cuda_version s;
     include_path := include_path s |}.

Definition libraries_available (m : machine) : bool :=
  match library m "cuda", library m "nvrtc" with Some _, Some _ => true | _, _ => false end.

(** Lines 249-278. *)
Definition get_cuda_version (m : machine) (s : cuda_state) : option Z :=
  if use_cuda s then cudart_version m else None.

(** [out_type="string"]. *)
Definition version_string (v : Z) : string :=
  str_int (v / 1000) ++ "." ++ str_int ((v mod 1000) / 10).

Definition has_headers (m : machine) (p : string) : bool :=
  is_file m (path_join p "cuda.h") && is_file m (path_join p "nvrtc.h").

Definition candidates (m : machine) : list string :=
  let from v := match set_variable (env m v) with Some p => [p] | None => [] end in
  map (fun p => path_join p "include")
    (from "CUDA_PATH" ++ from "CUDA_HOME" ++ from "CONDA_PREFIX" ++ ["/usr/local/cuda"]
     ++ match cudart_version m with
        | Some v => ["/usr/local/cuda-" ++ version_string v]
        | None => []
        end
     ++ ["/opt/cuda"]).

(** Lines 343-354: a temporary file is made in the folder of [cuda_config]. *)
Definition get_include_file_abspath (m : machine) (name : string) : res (option string) :=
  if folder_exists m (cuda_folder m) then Ok (compiler_include m name) else PyErr.

(** Lines 280-341. *)
Definition get_cuda_include_path (m : machine) (s : cuda_state) : res (option string) :=
  if use_cuda s then
    match find (has_headers m) (candidates m) with
    | Some p => Ok (Some p)
    | None =>
        do cuda_h <- get_include_file_abspath m "cuda.h" ;
        do nvrtc_h <- get_include_file_abspath m "nvrtc.h" ;
        Ok match set_variable cuda_h, set_variable nvrtc_h with
           | Some a, Some b => if string_dec (dirname a) (dirname b) then Some (dirname a) else None
           | _, _ => None
           end
    end
  else Ok None.

(** One turn of the loop of lines 446-481. *)
Definition query_device (m : machine) (d : Z) : option (Z * Z) :=
  match cu_device m d with
  | None => None
  | Some device =>
      match cu_attribute m 1 device with
      | None => None
      | Some threads =>
          match cu_attribute m 8 device with
          | None => None
          | Some shared => Some (threads, shared)
          end
      end
  end.

Fixpoint query_devices (m : machine) (ds : list Z) : option (list (Z * (Z * Z))) :=
  match ds with
  | [] => Some []
  | d :: ds =>
      match query_device m d with
      | None => None
      | Some p => match query_devices m ds with None => None | Some l => Some ((d, p) :: l) end
      end
  end.

Definition range (n : Z) : list Z := map Z.of_nat (seq 0 (Z.to_nat n)).

(** Lines 483-489. *)
Definition device_flags (x : Z * (Z * Z)) : string :=
  "-DMAXTHREADSPERBLOCK" ++ str_int (fst x) ++ "=" ++ str_int (fst (snd x)) ++ " "
  ++ "-DSHAREDMEMPERBLOCK" ++ str_int (fst x) ++ "=" ++ str_int (snd (snd x)) ++ " ".

Definition compile_flags (n : Z) (l : list (Z * (Z * Z))) : string :=
  fold_left (fun acc x => acc ++ device_flags x) l ("-DMAXIDGPU=" ++ str_int (n - 1) ++ " ").

(** Lines 379-491. *)
Definition get_gpu_props (m : machine) (s : cuda_state) : cuda_state :=
  if use_cuda s then
    match library m "cuda" with
    | None => no_cuda s
    | Some _ =>
        if cu_init m then
          match cu_count m with
          | None => no_cuda s
          | Some n =>
              if Z.eqb n 0
              then {| use_cuda := true; n_gpus := 0; gpu_flags := ""; cuda_version := cuda_version s;
                      include_path := include_path s |}
              else
                match query_devices m (range n) with
                | None => no_cuda s
                | Some l =>
                    {| use_cuda := true; n_gpus := n; gpu_flags := compile_flags n l;
                       cuda_version := cuda_version s; include_path := include_path s |}
                end
          end
        else no_cuda s
    end
  else no_cuda s.

(** Lines 139-151. *)
Definition set_use_cuda (m : machine) : res cuda_state :=
  let s := {| use_cuda := libraries_available m; n_gpus := 0; gpu_flags := ""; cuda_version := None;
              include_path := None |} in
  let v := get_cuda_version m s in
  do p <- get_cuda_include_path m s ;
  let s := get_gpu_props m {| use_cuda := use_cuda s; n_gpus := 0; gpu_flags := "";
                              cuda_version := v; include_path := p |} in
  Ok (if Z.eqb (n_gpus s) 0 && use_cuda s
      then {| use_cuda := false; n_gpus := n_gpus s; gpu_flags := gpu_flags s;
              cuda_version := cuda_version s; include_path := include_path s |}
      else s).

(** [import keopscore]: with CUDA, Gpu_link_compile.py asks everything again and compares the
    version with 11010, which fails on None. *)
Definition import_keopscore (m : machine) : res cuda_state :=
  do s <- set_use_cuda m ;
  if use_cuda s then
    let v := get_cuda_version m s in
    let s := get_gpu_props m s in
    do p <- get_cuda_include_path m s ;
    match v with
    | None => PyErr
    | Some _ => Ok {| use_cuda := use_cuda s; n_gpus := n_gpus s; gpu_flags := gpu_flags s;
                      cuda_version := v; include_path := p |}
    end
  else Ok s.

(** ** The older function, gpu_utils.py lines 173-258

    [test] is never changed; the result of [safe_call] goes to [result], which is not read. *)

Definition output (before : Z) (answer : option Z) : Z :=
  match answer with Some v => v | None => before end.

Definition old_query (m : machine) (d : Z) : Z * (Z * Z) :=
  let device := output 0 (cu_device m d) in
  let threads := output 0 (cu_attribute m 1 device) in
  (d, (threads, output threads (cu_attribute m 8 device))).

Definition old_gpu_props (m : machine) : Z * string :=
  if cu_init m then
    match cu_count m with
    | None => (0%Z, "")
    | Some n => (n, compile_flags n (map (old_query m) (range n)))
    end
  else (0%Z, "").

(** ** The flags read by the preprocessor *)

Definition definition_of (word : string) : list (string * string) :=
  match word with
  | String "-" (String "D" rest) =>
      match split "=" rest with [name; value] => [(name, value)] | _ => [] end
  | _ => []
  end.

Definition definitions (flags : string) : list (string * string) :=
  flat_map definition_of (split " " flags).

(** The last definition of a name counts. *)
Fixpoint defined (l : list (string * string)) (name : string) : option string :=
  match l with
  | [] => None
  | (k, v) :: l =>
      match defined l name with
      | Some w => Some w
      | None => if string_dec k name then Some v else None
      end
  end.

(** Value of a macro; a text that is not an integer is not modelled (the flags never have one). *)
Definition macro (flags : string) (name : string) : option Z :=
  match defined (definitions flags) name with
  | Some v => match py_eval v with Ok z => Some z | _ => None end
  | None => None
  end.

(** CudaSizes.h lines 57-92: the numbers for which there is a line. *)
Definition lines : list Z := range 12.

Definition slot (flags : string) (k : Z) : option (Z * Z) :=
  match macro flags ("MAXTHREADSPERBLOCK" ++ str_int k), macro flags ("SHAREDMEMPERBLOCK" ++ str_int k) with
  | Some t, Some s => Some (t, s)
  | _, _ => None
  end.

(** [SetGpuProps]: [KErr] if the binder does not compile, [PyErr] for the exception. *)
Definition set_gpu_props (flags : string) (device : Z) : res (Z * Z) :=
  let value name default := match macro flags name with Some v => v | None => default end in
  match macro flags "MAXIDGPU" with
  | None => Ok (value "MAXTHREADSPERBLOCK" 1024%Z, value "SHAREDMEMPERBLOCK" 49152%Z)
  | Some top =>
      match macro flags "MAXTHREADSPERBLOCK", macro flags "SHAREDMEMPERBLOCK" with
      | Some t, Some s => Ok (t, s)
      | _, _ =>
          let kept := filter (fun k => Z.leb k top) lines in
          if forallb (fun k => match slot flags k with Some _ => true | None => false end) kept then
            match find (fun k => Z.eqb device k) kept with
            | Some k => match slot flags k with Some p => Ok p | None => KErr end
            | None => PyErr
            end
          else KErr
      end
  end.

(** ** Modules and launches

    maxThreadsPerBlock and sharedMemPerBlock are global variables of the binder. *)

Record binder_state := { globals : Z * Z; loaded : list Z }.

Record request := {
  rq_cuda_block_size : Z;
  rq_bytes : Z;          (* dimY * sizeof(TYPE) *)
  rq_chunks : bool }.

Inductive action := Load (device : Z) | Launch (module : nat) (r : request).

(** keops_nvrtc.cpp lines 441-458. *)
Definition block_size_x (g : Z * Z) (r : request) : Z :=
  let '(threads, shared) := if rq_chunks r then (1024%Z, 49152%Z) else g in
  Z.min (rq_cuda_block_size r) (Z.min threads (Z.quot shared (Z.max 1 (rq_bytes r)))).

(** One action: the new state, and for a launch its device, the size of its blocks and its request. *)
Definition perform (m : machine) (flags : string) (s : binder_state) (a : action)
    : res (binder_state * list (Z * Z * request)) :=
  match a with
  | Load d =>
      match cu_device m d with
      | None => PyErr
      | Some _ =>
          do p <- set_gpu_props flags d ;
          Ok ({| globals := p; loaded := (loaded s ++ [d])%list |}, [])
      end
  | Launch k r =>
      match nth_error (loaded s) k with
      | None => PyErr
      | Some d => Ok (s, [(d, block_size_x (globals s) r, r)])
      end
  end.

Fixpoint perform_all (m : machine) (flags : string) (s : binder_state) (l : list action)
    : res (list (Z * Z * request)) :=
  match l with
  | [] => Ok []
  | a :: l =>
      do x <- perform m flags s a ;
      do y <- perform_all m flags (fst x) l ;
      Ok (snd x ++ y)%list
  end.

(** ** Sessions

    The binder is compiled if it is not in the build folder. *)

Definition binders := string -> option string.

Definition import_pykeops (m : machine) (b : binders) : res (option string) * binders :=
  match import_keopscore m with
  | Ok s =>
      if use_cuda s then
        match b (build_folder m) with
        | Some flags => (Ok (Some flags), b)
        | None => (Ok (Some (gpu_flags s)),
                   fun p => if string_dec p (build_folder m) then Some (gpu_flags s) else b p)
        end
      else (Ok None, b)
  | KErr => (KErr, b)
  | PyErr => (PyErr, b)
  | OutOfFuel => (OutOfFuel, b)
  end.

Definition sessions (l : list machine) : binders :=
  fold_left (fun b m => snd (import_pykeops m b)) l (fun _ => None).
