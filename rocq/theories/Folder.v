(** * The build folder: files written for one module, and what a request finds.

    Models
    - keopscore/keopscore/binders/LinkCompile.py lines 48-107 ([save_info],
      [read_info], [write_code], [get_dll_and_params]);
    - keopscore/keopscore/binders/cpp/Cpu_link_compile.py lines 7-25;
    - keopscore/keopscore/binders/nvrtc/Gpu_link_compile.py lines 49-96 and
      nvrtc_jit.cpp lines 129-134 (the compiled code is written to a file);
    - pykeops/pykeops/common/keops_io/LoadKeOps_cpp.py lines 19-46
      ([init_phase1], [init_phase2]);
    - keopscore/keopscore/utils/Cache.py lines 20-28, 41-44, 72-79, 106-109 (tables saved when
      the session ends, and read when the next one starts).

    Simplifications: characters are code points 0-255.  [open(f, "w")] creates
    the file or empties it; the text is then written in one or several
    non-empty pieces, and the process may be killed between any two of these
    operations.  The compiler, [pickle] and the way a text is cut are
    parameters.  [KeOps_OS_Run] ignores the errors of the compiler
    (misc_utils.py lines 38-48).  [eval] is modelled on the texts of integers;
    it is an error on other texts, which the code never writes. *)

From Coq Require Import ZArith List Bool Ascii String.
From Coq Require Import DecimalString DecimalZ.
From Verif Require Import Result Keys.
Import ListNotations.
Open Scope string_scope.

(** ** Information file *)

Definition newline : ascii := "010"%char.
Definition return_char : ascii := "013"%char.

(** [s.split(c)] for one character. *)
Fixpoint split (c : ascii) (s : string) : list string :=
  match s with
  | EmptyString => [""]
  | String d s' =>
      if (d =? c)%char then "" :: split c s'
      else match split c s' with
           | h :: t => String d h :: t
           | [] => []
           end
  end.

(** A text file is read with the ends of lines translated. *)
Fixpoint universal (s : string) : string :=
  match s with
  | EmptyString => ""
  | String c s' =>
      if (c =? return_char)%char
      then String newline
             match s' with
             | String d s'' => if (d =? newline)%char then universal s'' else universal s'
             | EmptyString => ""
             end
      else String c (universal s')
  end.

Record meta := { mt_dim : Z; mt_tagI : Z; mt_dimy : Z }.

(** LinkCompile.py lines 48-56. *)
Definition info_text (formula : string) (m : meta) : string :=
  "red_formula=" ++ formula
  ++ String newline ("dim=" ++ str_int (mt_dim m)
  ++ String newline ("tagI=" ++ str_int (mt_tagI m)
  ++ String newline ("dimy=" ++ str_int (mt_dimy m)))).

(** [eval] of the text of an integer. *)
Definition py_eval (s : string) : res Z :=
  match NilZero.int_of_string s with
  | Some i => if string_dec (str_int (Z.of_int i)) s then Ok (Z.of_int i) else PyErr
  | None => PyErr
  end.

(** LinkCompile.py lines 58-82. *)
Definition read_info (content : string) : res meta :=
  match split newline (universal content) with
  | [_; l1; l2; l3] =>
      match split "=" l1, split "=" l2, split "=" l3 with
      | [k1; v1], [k2; v2], [k3; v3] =>
          if string_dec k1 "dim" then
            if string_dec k2 "tagI" then
              if string_dec k3 "dimy" then
                do dim <- py_eval v1 ;
                do tagI <- py_eval v2 ;
                do dimy <- py_eval v3 ;
                Ok {| mt_dim := dim; mt_tagI := tagI; mt_dimy := dimy |}
              else KErr
            else KErr
          else KErr
      | _, _, _ => KErr
      end
  | _ => KErr
  end.

(** ** Files *)

Definition disk := string -> option string.

Inductive op := Create (p : string) | Append (p : string) (s : string).

Definition apply (d : disk) (o : op) : disk :=
  match o with
  | Create p => fun q => if string_dec q p then Some "" else d q
  | Append p s => fun q =>
      if string_dec q p then match d q with Some t => Some (t ++ s) | None => None end
      else d q
  end.

Definition apply_all (l : list op) (d : disk) : disk := fold_left apply l d.

Definition exists_file (d : disk) (p : string) : bool :=
  match d p with Some _ => true | None => false end.

Definition read_file (d : disk) (p : string) : res string :=
  match d p with Some s => Ok s | None => PyErr end.

(** A module: its files and what is written in them. *)
Record module_files := {
  md_gpu : bool;
  md_source : string;      (* .cpp or .cu *)
  md_low : string;         (* low level code, GPU only *)
  md_info : string;        (* .nfo *)
  md_wrapper : string;     (* source of the binding, CPU only *)
  md_dll : string;         (* compiled binding, CPU only *)
  md_code : string;
  md_target : string;      (* what nvrtc produces *)
  md_binding : string;
  md_formula : string;
  md_meta : meta }.

Section Folder.
  (** How the system cuts a text that is written. *)
  Variable cut : string -> list string.
  (** Compiler: the texts of the source and of the binding. *)
  Variable compile_cpp : string -> string -> option string.

  Definition write (p s : string) : list op := Create p :: map (Append p) (cut s).

  Definition file_to_check (m : module_files) : string :=
    if md_gpu m then md_low m else md_source m.

  (** [generate_code] then [save_info]. *)
  Definition generation (m : module_files) : list op :=
    write (md_source m) (md_code m)
    ++ (if md_gpu m then write (md_low m) (md_target m) else [])
    ++ write (md_info m) (info_text (md_formula m) (md_meta m)).

  (** [get_dll_and_params]: the operations done and the information returned. *)
  Definition stage1 (m : module_files) (d : disk) : res (list op * meta) :=
    if exists_file d (file_to_check m)
    then do t <- read_file d (md_info m) ; do i <- read_info t ; Ok ([], i)
    else Ok (generation m, md_meta m).

  (** [init_phase1]: the binding is compiled if it is missing. *)
  Definition stage2 (m : module_files) (d : disk) : list op :=
    if md_gpu m then []
    else if exists_file d (md_dll m) then []
    else
      let w := write (md_wrapper m) (md_binding m) in
      let d := apply_all w d in
      w ++ match d (md_source m), d (md_wrapper m) with
           | Some c, Some b =>
               match compile_cpp c b with
               | Some out => write (md_dll m) out
               | None => []
               end
           | _, _ => []
           end.

  (** The whole list of operations of a request that is not interrupted. *)
  Definition operations (m : module_files) (d : disk) : list op :=
    match stage1 m d with
    | Ok (l, _) => l ++ stage2 m (apply_all l d)
    | _ => []
    end.

  (** The disk after a request killed after [n] operations. *)
  Definition killed (n : nat) (m : module_files) (d : disk) : disk :=
    apply_all (firstn n (operations m d)) d.

  (** A complete request: information for the call, and compiled code that is
      loaded. *)
  Definition request (m : module_files) (d : disk) : res (meta * string) * disk :=
    let after := apply_all (operations m d) d in
    (do li <- stage1 m d ;
     do b <- read_file after (if md_gpu m then md_low m else md_dll m) ;
     Ok (snd li, b),
     after).
End Folder.

(** ** Tables saved at the end of a session *)

Section Tables.
  Variable table : Type.
  Variable empty : table.
  Variable pickle : table -> string.
  Variable unpickle : string -> res table.
  Variable cut : string -> list string.

  (** Cache.py lines 22-25. *)
  Definition load_cache (content : option string) : res table :=
    match content with
    | Some s => if Nat.ltb 0 (String.length s) then unpickle s else Ok empty
    | None => Ok empty
    end.

  (** Cache.py lines 74-79. *)
  Definition load_cache_partial (content : option string) : res table :=
    match content with Some s => unpickle s | None => Ok empty end.

  (** Cache.py lines 41-44 and 106-109. *)
  Definition save_table (p : string) (t : table) : list op :=
    Create p :: map (Append p) (cut (pickle t)).
End Tables.

(** ** Two processes writing the same file

    Each process writes at its own position in the file: if the other process
    empties the file in between, the missing bytes are read as zeros. *)

Inductive op_at := Open (p : string) | Put (p : string) (offset : nat) (s : string).

(** Write [s] at the beginning of [c]. *)
Fixpoint overwrite (c s : string) : string :=
  match s with
  | EmptyString => c
  | String a s' => String a (overwrite (match c with String _ c' => c' | EmptyString => "" end) s')
  end.

Fixpoint put (c : string) (offset : nat) (s : string) : string :=
  match offset with
  | O => overwrite c s
  | S n =>
      match c with
      | EmptyString => String "000" (put "" n s)
      | String a c' => String a (put c' n s)
      end
  end.

Definition apply_at (d : disk) (o : op_at) : disk :=
  match o with
  | Open p => fun q => if string_dec q p then Some "" else d q
  | Put p off s => fun q =>
      if string_dec q p then match d q with Some t => Some (put t off s) | None => None end
      else d q
  end.

(** The pieces of a text, written one after the other. *)
Fixpoint puts (p : string) (offset : nat) (pieces : list string) : list op_at :=
  match pieces with
  | [] => []
  | s :: l => Put p offset s :: puts p (offset + String.length s) l
  end.

Definition write_at (p : string) (pieces : list string) : list op_at :=
  Open p :: puts p 0 pieces.

(** The first stage of a process that found the module missing; the process
    cuts the texts in its own way. *)
Definition generation_at (cut : string -> list string) (m : module_files) : list op_at :=
  write_at (md_source m) (cut (md_code m))
  ++ (if md_gpu m then write_at (md_low m) (cut (md_target m)) else [])
  ++ write_at (md_info m) (cut (info_text (md_formula m) (md_meta m))).

(** Interleavings of two lists of operations. *)
Inductive interleaved {A} : list A -> list A -> list A -> Prop :=
| Both_done : interleaved [] [] []
| First_moves : forall x a b l, interleaved a b l -> interleaved (x :: a) b (x :: l)
| Second_moves : forall x a b l, interleaved a b l -> interleaved a (x :: b) (x :: l).
