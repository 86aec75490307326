(** Options on their way from the front-ends to the engine:
    - pykeops/pykeops/common/get_options.py: choice of the backend;
    - pykeops/pykeops/torch/generic/generic_red.py lines 46-67 (set_device), 73-76 (flag of the
      final-chunks mode), 168-214 (options of the gradients), 345-376 (options of jvp);
    - pykeops/pykeops/numpy/generic/generic_red.py lines 164-167, pykeops/pykeops/torch/operations.py
      lines 30-32, pykeops/pykeops/numpy/operations.py lines 157-160: the same flag elsewhere;
    - keopscore/keopscore/get_keops_dll.py lines 94-101 and config/chunks.py lines 45-75: use of
      the flag.

    A ValueError or a TypeError raised by these functions is KErr, any other exception is PyErr. *)

From Coq Require Import ZArith List Bool String Ascii.
From Verif Require Import Result Formula Reductions FinalChunks Folder.
Import ListNotations.
Open Scope string_scope.

(** ** Backend *)

(** Keys of a Python dictionary. *)
Inductive key := KStr (s : string) | KInt (n : nat).
Definition key_eqb (a b : key) : bool :=
  match a, b with
  | KStr s, KStr t => String.eqb s t
  | KInt n, KInt m => Nat.eqb n m
  | _, _ => false
  end.
Fixpoint lookup (k : key) (d : list (key * nat)) : res nat :=
  match d with
  | [] => PyErr
  | (k', v) :: d' => if key_eqb k k' then Ok v else lookup k d'
  end.

(** get_options.py lines 17-19. *)
Definition dev : list (key * nat) := [(KStr "CPU", 0); (KStr "GPU", 1)]%nat.
Definition grid : list (key * nat) := [(KStr "1D", 0); (KStr "2D", 1)]%nat.
Definition memtype : list (key * nat) := [(KStr "host", 0); (KStr "device", 1)]%nat.

(** Lines 21-31. *)
Definition possible_options_list : list string :=
  ["auto"; "CPU"; "GPU"; "GPU_1D"; "GPU_1D_device"; "GPU_1D_host"; "GPU_2D"; "GPU_2D_device";
   "GPU_2D_host"].

(** An argument: an array of numpy; a tensor of torch (a Tensor or a Parameter), on the host or on
    the device of some index; anything else. *)
Inductive argument := Numpy | Torch (device : option nat) | Other.
Definition is_numpy (a : argument) : bool := match a with Numpy => true | _ => false end.
Definition is_torch (a : argument) : bool := match a with Torch _ => true | _ => false end.
(** is_on_device, torch/utils.py lines 10-11. *)
Definition is_cuda (a : argument) : bool := match a with Torch (Some _) => true | _ => false end.

(** Lines 92-125. *)
Definition find_mem (torch_found : bool) (vars : list argument) : res nat :=
  if forallb is_numpy vars then Ok 0
  else if torch_found then
    if forallb is_torch vars then
      let on := map is_cuda vars in
      if forallb (fun b => b) on then Ok 1
      else if negb (existsb (fun b => b) on) then Ok 0
      else KErr
    else KErr
  else KErr.

(** Lines 127-129. *)
Definition find_grid : nat := 0.

(** Lines 33-83; a name with four parts or more returns None. *)
Definition define_tag_backend (gpu_available torch_found : bool) (backend : string)
  (vars : list argument) : res (nat * nat * nat) :=
  if negb (existsb (String.eqb backend) possible_options_list) then KErr
  else if String.eqb backend "auto" then
    do m <- find_mem torch_found vars ; Ok ((if gpu_available then 1 else 0)%nat, find_grid, m)
  else
    match split "_" backend with
    | [d] => do a <- lookup (KStr d) dev ; do m <- find_mem torch_found vars ; Ok (a, find_grid, m)
    | [d; g] => do a <- lookup (KStr d) dev ; do b <- lookup (KStr g) grid ;
                do m <- find_mem torch_found vars ; Ok (a, b, m)
    | [d; g; t] => do a <- lookup (KStr d) dev ; do b <- lookup (KStr g) grid ;
                   do m <- lookup (KStr t) memtype ; Ok (a, b, m)
    | _ => PyErr
    end.

(** Lines 85-87, the branch str=True of get_tag_backend: the tags are looked up again in the
    dictionaries. *)
Definition define_backend (gpu_available torch_found : bool) (backend : string)
  (vars : list argument) : res (nat * nat * nat) :=
  do t <- define_tag_backend gpu_available torch_found backend vars ;
  let '(a, b, m) := t in
  do x <- lookup (KInt a) dev ; do y <- lookup (KInt b) grid ; do z <- lookup (KInt m) memtype ;
  Ok (x, y, z).

(** ** Device *)

(** generic_red.py lines 46-67; an argument is the index of its device, None for the host.
    [tagCPUGPU == 1 & tagHostDevice == 1] is a chain of comparisons with [1 & tagHostDevice].
    An index 0 is false in the tests of lines 56 and 62.  default_device_id is
    pykeops/__init__.py line 38. *)
Definition default_device_id : Z := 0.
Definition index_eqb (a b : option nat) : bool :=
  match a, b with
  | Some n, Some m => Nat.eqb n m
  | None, None => true
  | _, _ => false
  end.
Definition index_true (a : option nat) : bool :=
  match a with Some (S _) => true | _ => false end.
Definition index_of (a : option nat) : Z := match a with Some n => Z.of_nat n | None => 0 end.
Definition set_device (tagCPUGPU tagHostDevice : nat) (request : Z) (args : list (option nat))
  : res Z :=
  match args with
  | [] => PyErr
  | a :: rest =>
      let both := Nat.land 1 tagHostDevice in
      if (Nat.eqb tagCPUGPU both && Nat.eqb both 1)
         && negb (forallb (fun b => index_eqb b a) rest)
      then KErr
      else if (request =? -1)%Z then
        if index_true a then Ok (index_of a)
        else Ok (if Nat.eqb tagCPUGPU 1 then default_device_id else (-1)%Z)
      else if index_true a && negb (index_of a =? request)%Z then KErr
      else Ok request
  end.

(** ** The flag of the final-chunks mode *)

(** Values of the argument rec_multVar_highdim: None, a boolean, or the position of a variable. *)
Inductive pyval := VNone | VBool (b : bool) | VInt (n : Z).
Definition truth (v : pyval) : bool :=
  match v with VNone => false | VBool b => b | VInt n => negb (n =? 0)%Z end.
(** isinstance(v, int): bool is a subclass of int. *)
Definition is_int_instance (v : pyval) : bool := match v with VNone => false | _ => true end.

(** torch, lines 73-76. *)
Definition torch_flag (v : pyval) : bool := is_int_instance v || truth v.
(** numpy, lines 164-167; the solvers use the same test. *)
Definition numpy_flag (v : pyval) : bool := truth v.

(** Defaults: torch Genred line 436, numpy Genred line 66; KernelSolve torch/operations.py line
    221, numpy/operations.py line 59. *)
Definition torch_default : pyval := VBool false.
Definition numpy_default : pyval := VBool false.
Definition solve_default : pyval := VNone.

(** get_keops_dll.py lines 94-101: on the GPU, except for the 2D scheme; LoadKeOps.py line 78
    passes -1 for enable_finalchunks, which leaves it true. *)
Definition final_selected (gpu : bool) (tag1D2D : nat) (use_ranges : bool) (flag : bool)
  (r : reduction) : bool :=
  gpu && use_final true flag r && negb (Nat.eqb tag1D2D 1 && negb use_ranges).

(** ** Gradients *)

(** Lines 198-207: options of the gradient with respect to the variable at position pos, and the
    new value of params.rec_multVar_highdim; the comparison of None with an integer is false. *)
Definition gradient_option (rec : pyval) (pos nargs : Z) : pyval :=
  match rec with
  | VInt p => if (p =? pos)%Z then VInt nargs else VNone
  | VBool _ | VNone => VNone
  end.

(** The loop of lines 168-214: the arguments are given by their positions and whether a gradient is
    required.  params is changed in place and copied into params_g, so that every iteration sees
    the value left by the previous one.  Result: the option of every gradient that is computed and
    the final value. *)
Fixpoint backward_options (rec : pyval) (nargs : Z) (args : list (Z * bool))
  : list (Z * pyval) * pyval :=
  match args with
  | [] => ([], rec)
  | (pos, needed) :: rest =>
      if needed then
        let rec' := gradient_option rec pos nargs in
        let '(l, r) := backward_options rec' nargs rest in
        ((pos, rec') :: l, r)
      else backward_options rec nargs rest
  end.

(** Lines 345-376 (jvp): here only the copy params_d is changed. *)
Definition jvp_options (rec : pyval) (nargs : Z) (args : list (Z * bool)) : list (Z * pyval) :=
  flat_map (fun a => let '(pos, given) := a in
                     if given : bool then [(pos, gradient_option rec pos nargs)] else []) args.
