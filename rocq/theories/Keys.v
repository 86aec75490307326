(** * Cache keys and names of compiled modules.

    Models
    - keopscore/keopscore/utils/Cache.py lines 30-34 ([Cache.__call__]) and
      lines 84-86 ([Cache_partial.__call__]): the key is the concatenation,
      without separator, of the texts of all arguments and of a text
      describing the environment;
    - keopscore/keopscore/utils/code_gen_utils.py lines 11-14
      ([get_hash_name]);
    - keopscore/keopscore/binders/LinkCompile.py lines 15-35 (name of the
      generated file);
    - pykeops/pykeops/common/keops_io/LoadKeOps.py lines 66-103 and 127-144
      (the arguments sent to [get_keops_dll]).

    Simplifications: a Python string is a Coq [string] whose characters are
    read as the code points 0-255; the text of a Python value is modelled for
    the four kinds of values that occur in keys: integers, booleans, strings
    and lists of strings, and dictionaries from strings to integers or
    strings.  SHA-256 and the printing of a formula are parameters. *)

From Coq Require Import ZArith List Bool Ascii String Lia.
From Coq Require Import DecimalString DecimalZ.
Import ListNotations.
Open Scope string_scope.

(** ** Texts of Python values *)

Definition quote : ascii := "039"%char.
Definition dquote : ascii := "034"%char.
Definition backslash : ascii := "092"%char.

Definition one (c : ascii) : string := String c EmptyString.

Fixpoint has (c : ascii) (s : string) : bool :=
  match s with
  | EmptyString => false
  | String d s' => (d =? c)%char || has c s'
  end.

(** Decimal text of an integer. *)
Definition str_int (z : Z) : string := NilZero.string_of_int (Z.to_int z).

Definition str_bool (b : bool) : string := if b then "True" else "False".

(** One hexadecimal digit, in lower case. *)
Definition hex_digit (n : nat) : ascii :=
  if Nat.ltb n 10 then ascii_of_nat (48 + n) else ascii_of_nat (87 + n).

(** Code points below 256 that Python's [repr] writes as they are. *)
Definition printable (c : ascii) : bool :=
  let n := nat_of_ascii c in
  (Nat.leb 32 n && Nat.ltb n 127) || (Nat.leb 161 n && negb (Nat.eqb n 173)).

(** One character of [repr(s)] when [q] is the surrounding quote. *)
Definition repr_char (q c : ascii) : string :=
  if ((c =? q) || (c =? backslash))%char then String backslash (one c)
  else if (c =? "009")%char then String backslash (one "t")
  else if (c =? "010")%char then String backslash (one "n")
  else if (c =? "013")%char then String backslash (one "r")
  else if printable c then one c
  else String backslash (String "x"
         (String (hex_digit (nat_of_ascii c / 16))
            (one (hex_digit (nat_of_ascii c mod 16))))).

Fixpoint repr_body (q : ascii) (s : string) : string :=
  match s with
  | EmptyString => one q
  | String c s' => repr_char q c ++ repr_body q s'
  end.

(** [repr(s)]: simple quotes, unless [s] contains a simple quote and no
    double quote. *)
Definition repr_quote (s : string) : ascii :=
  if has quote s && negb (has dquote s) then dquote else quote.

Definition py_repr (s : string) : string :=
  String (repr_quote s) (repr_body (repr_quote s) s).

(** [str] of a list of strings. *)
Fixpoint list_tail (l : list string) : string :=
  match l with
  | [] => "]"
  | s :: l' => ", " ++ py_repr s ++ list_tail l'
  end.

Definition str_list (l : list string) : string :=
  match l with
  | [] => "[]"
  | s :: l' => "[" ++ py_repr s ++ list_tail l'
  end.

(** Values of the dictionary of options. *)
Inductive flag := FInt (z : Z) | FStr (s : string).

Definition flag_repr (f : flag) : string :=
  match f with FInt z => str_int z | FStr s => py_repr s end.

Fixpoint dict_tail (l : list (string * flag)) : string :=
  match l with
  | [] => "}"
  | (k, v) :: l' => ", " ++ py_repr k ++ ": " ++ flag_repr v ++ dict_tail l'
  end.

Definition str_dict (l : list (string * flag)) : string :=
  match l with
  | [] => "{}"
  | (k, v) :: l' => "{" ++ py_repr k ++ ": " ++ flag_repr v ++ dict_tail l'
  end.

Inductive pyval :=
| PyInt (z : Z)
| PyBool (b : bool)
| PyStr (s : string)
| PyList (l : list string)
| PyDict (l : list (string * flag)).

Definition py_str (v : pyval) : string :=
  match v with
  | PyInt z => str_int z
  | PyBool b => str_bool b
  | PyStr s => s
  | PyList l => str_list l
  | PyDict l => str_dict l
  end.

(** The texts of the arguments, one after the other. *)
Fixpoint join (args : list pyval) : string :=
  match args with
  | [] => ""
  | a :: l => py_str a ++ join l
  end.

(** Cache.py line 31: the arguments, then the environment. *)
Definition cache_key (args : list pyval) (env : string) : string := join args ++ env.

(** Cache.py lines 8-12: [env_param()]. *)
Definition env_param (cpp_flags : string) (auto_factorize : bool) : string :=
  cpp_flags ++ " auto_factorize=" ++ str_bool auto_factorize.

(** ** Requests *)

(** The arguments of [get_keops_dll] (get_keops_dll.py lines 4-19, in the
    order of the call at LoadKeOps.py lines 127-144). *)
Inductive scheme := CpuReduc | CpuReduc_ranges | GpuReduc1D | GpuReduc2D
                  | GpuReduc1D_ranges | GpuReduc2D_ranges.

Definition scheme_id (s : scheme) : string :=
  match s with
  | CpuReduc => "CpuReduc"
  | CpuReduc_ranges => "CpuReduc_ranges"
  | GpuReduc1D => "GpuReduc1D"
  | GpuReduc2D => "GpuReduc2D"
  | GpuReduc1D_ranges => "GpuReduc1D_ranges"
  | GpuReduc2D_ranges => "GpuReduc2D_ranges"
  end.

(** LoadKeOps.py lines 96-103. *)
Definition scheme_of (tagCPUGPU tag1D2D : Z) (use_ranges : bool) : scheme :=
  if (tagCPUGPU =? 0)%Z then if use_ranges then CpuReduc_ranges else CpuReduc
  else if (tag1D2D =? 0)%Z
       then if use_ranges then GpuReduc1D_ranges else GpuReduc1D
       else if use_ranges then GpuReduc2D_ranges else GpuReduc2D.

(** C types of the data and of the accumulator (LoadKeOps.py lines 81-95,
    parse_type.py lines 226-240). *)
Inductive ctype := TFloat | TDouble | THalf2.
Inductive acctype := AFloat | ADouble | AHalf2 | AFloat2.
Inductive sumkind := DirectSum | BlockSum | KahanScheme.

Definition ctype_str (t : ctype) : string :=
  match t with TFloat => "float" | TDouble => "double" | THalf2 => "half2" end.
Definition acctype_str (t : acctype) : string :=
  match t with
  | AFloat => "float" | ADouble => "double" | AHalf2 => "half2" | AFloat2 => "float2"
  end.
Definition sumkind_str (s : sumkind) : string :=
  match s with
  | DirectSum => "direct_sum" | BlockSum => "block_sum" | KahanScheme => "kahan_scheme"
  end.

Record request := {
  rq_scheme : scheme;
  rq_formula : string;
  rq_chunks : Z;
  rq_final : Z;
  rq_highdim : Z;
  rq_aliases : list string;
  rq_nargs : Z;
  rq_dtype : ctype;
  rq_acc : acctype;
  rq_sum : sumkind;
  rq_hostdevice : Z;
  rq_cpugpu : Z;
  rq_1d2d : Z;
  rq_half : bool;
  rq_fast : Z;
  rq_device : Z }.

Definition request_args (r : request) : list pyval :=
  [PyStr (scheme_id (rq_scheme r)); PyStr (rq_formula r);
   PyInt (rq_chunks r); PyInt (rq_final r); PyInt (rq_highdim r);
   PyList (rq_aliases r); PyInt (rq_nargs r);
   PyStr (ctype_str (rq_dtype r)); PyStr (acctype_str (rq_acc r));
   PyStr (sumkind_str (rq_sum r));
   PyInt (rq_hostdevice r); PyInt (rq_cpugpu r); PyInt (rq_1d2d r);
   PyBool (rq_half r); PyInt (rq_fast r); PyInt (rq_device r)].

(** Key of a request in the table of [get_keops_dll]. *)
Definition request_key (r : request) (cpp_flags : string) (af : bool) : string :=
  cache_key (request_args r) (env_param cpp_flags af).

(** The arguments of [LoadKeOps] (LoadKeOps.py lines 33-45): the call made by
    the numpy and torch front-ends. *)
Inductive ptype := P32 | P64 | P16.
Definition ptype_str (t : ptype) : string :=
  match t with P32 => "float32" | P64 => "float64" | P16 => "float16" end.
Inductive language := Torch | Numpy.
Definition language_str (l : language) : string :=
  match l with Torch => "torch" | Numpy => "numpy" end.

(** Dictionary of options, in the order of insertion (parse_type.py lines
    195-205, then generic_red.py line 74 of the torch front-end or line 271
    of the numpy one). *)
Record options := {
  op_acc : string;
  op_sum : sumkind;
  op_fast : Z;
  op_chunks : Z;
  op_highdim : Z }.

Definition options_dict (o : options) : list (string * flag) :=
  [("dtype_acc", FStr (op_acc o)); ("sum_scheme", FStr (sumkind_str (op_sum o)));
   ("use_fast_math", FInt (op_fast o)); ("enable_chunks", FInt (op_chunks o));
   ("multVar_highdim", FInt (op_highdim o))].

Record load := {
  ld_cpugpu : Z;
  ld_1d2d : Z;
  ld_hostdevice : Z;
  ld_ranges : bool;
  ld_device : Z;
  ld_formula : string;
  ld_aliases : list string;
  ld_nargs : Z;
  ld_dtype : ptype;
  ld_lang : language;
  ld_options : options }.

Definition load_args (l : load) : list pyval :=
  [PyInt (ld_cpugpu l); PyInt (ld_1d2d l); PyInt (ld_hostdevice l);
   PyBool (ld_ranges l); PyInt (ld_device l); PyStr (ld_formula l);
   PyList (ld_aliases l); PyInt (ld_nargs l); PyStr (ptype_str (ld_dtype l));
   PyStr (language_str (ld_lang l)); PyDict (options_dict (ld_options l))].

(** Cache.py line 85: here the environment is the text of the function
    [env_param] itself, not of its value; [lambda_text] is that text (it
    contains an address that changes from one session to the next). *)
Definition load_key (l : load) (lambda_text : string) : string :=
  cache_key (load_args l) lambda_text.

(** ** Names of generated files *)

(** LinkCompile.py lines 19-35: text that is hashed.  [cls] is the text of the
    class of the map-reduce scheme and [printed] the text of the reduction. *)
Definition module_text (cls printed : string) (r : request) (cpp_flags : string)
  : string :=
  cache_key
    [PyStr cls; PyStr printed; PyStr (rq_formula r); PyList (rq_aliases r);
     PyInt (rq_nargs r); PyStr (ctype_str (rq_dtype r));
     PyStr (acctype_str (rq_acc r)); PyStr (sumkind_str (rq_sum r));
     PyInt (rq_hostdevice r); PyInt (rq_cpugpu r); PyInt (rq_1d2d r);
     PyBool (rq_half r); PyInt (rq_fast r); PyInt (rq_device r)]
    cpp_flags.

(** code_gen_utils.py lines 11-14: the first ten characters of the
    hexadecimal digest. *)
Definition hash_name (digest : string -> string) (text : string) : string :=
  substring 0 10 (digest text).

(** GetReduction.py lines 18-22: text that is hashed to look up an already
    parsed reduction. *)
Definition reduction_text (formula : string) (aliases : list string) (af : bool) : string :=
  cache_key [PyStr formula; PyList aliases; PyBool af] "".
