(** * Linear systems given by symbolic tensors.

    Models pykeops/pykeops/common/lazy_tensor.py, [solve] (lines 779-898) and the part of
    [__call__] (lines 900-957) that concerns it, and the reading of the position of the unknown in
    [KernelSolve.__init__], pykeops/pykeops/torch/operations.py lines 321-330 and
    pykeops/pykeops/numpy/operations.py lines 165-174.

    Simplifications: real tensors; the options of the call (regularisation, backend, ranges) are not
    represented; indices of symbolic variables are not negative. *)

From Coq Require Import ZArith List Bool Ascii String.
From Verif Require Import Result Keys KeySpec Broadcast Aliases LazyTensors.
Import ListNotations.
Open Scope string_scope.

(** The second member: a symbolic tensor, or an array of some type, identity and shape. *)
Inductive second_member := SLazy (o : lazy) | SArray (dt : string) (id : Z) (sh : list Z).

(** Lines 841-844. *)
Definition second (other : second_member) : res lazy :=
  match other with
  | SLazy o => Ok o
  | SArray dt id sh => lt_array dt id sh (Some 0%Z)
  end.

(** operations.py lines 321-330, without aliases: [int] of what follows [Var(], up to the first
    comma; an error for any other text, as the names of the aliases begin with [Var(]; [None] has
    no beginning. *)
Definition varinv_position (alias : option string) : res Z :=
  match alias with
  | None => PyErr
  | Some s =>
      match strip_prefix "Var(" s with
      | Some r =>
          match take_while digit r with
          | (n, String "," _) => py_int n
          | _ => PyErr
          end
      | None => PyErr
      end
  end.

(** The call of [KernelSolve]: formula, position of the unknown, axis, arguments, position of the
    variable of high dimension. *)
Record solve_call := {
  k_formula : string; k_position : Z; k_axis : Z; k_args : list tensor; k_highdim : option Z
}.

(** What [solve] returns when it does not call: [s_position] is the position of the unknown that
    [KernelSolve] has read, [None] if it is not created yet. *)
Record solver := {
  s_tensor : lazy; s_other : lazy; s_axis : Z; s_position : option Z; s_highdim : option Z
}.

(** [fixvariables] of a symbolic tensor. *)
Definition fixed (l : lazy) (hd : option Z) : res (lazy * option Z) :=
  do r <- fixvariables (nbatchdims l) true (symbolic l) (variables l) (formula l) "" hd ;
  let '(f, _, new, hd') := r in
  Ok ({| formula := f; variables := new; symbolic := symbolic l; ndim := ndim l; axis := axis l;
         ni := ni l; nj := nj l; batchdims := batchdims l; dtype := dtype l; ranges := ranges l;
         rec_highdim := None |}, hd').

(** Lines 846-891. *)
Definition prepare (l : lazy) (other : second_member) (var : option lazy) : res solver :=
  do o <- second other ;
  if match symbolic o, symbolic l with [], _ :: _ => true | _, _ => false end then KErr
  else
    match axis o with
    | None => PyErr
    | Some b =>
        let ax := (1 - b)%Z in
        do q <- match var with
                | None =>
                    let i := new_variable_index (symbolic l) in
                    let v := lt_symbolic i (ndim o) ax in
                    do r <- binary l v "*" true None DSameOr1 None false ;
                    Ok (i, v, r)
                | Some v =>
                    match symbolic v with
                    | (i, _, _) :: _ => Ok (i, v, init l (formula l) (ndim l))
                    | [] => PyErr
                    end
                end ;
        let '(i, v, r) := q in
        let alias := py_replace "VarSymb" "Var" (formula v) in
        let hd := if (100 <? ndim o)%Z then Some i else None in
        match dtype r with
        | Some _ =>
            do g <- fixed r hd ;
            do p <- varinv_position (Some alias) ;
            Ok {| s_tensor := fst g; s_other := o; s_axis := ax; s_position := Some p;
                  s_highdim := snd g |}
        | None =>
            Ok {| s_tensor := r; s_other := o; s_axis := ax; s_position := None; s_highdim := hd |}
        end
    end.

(** Lines 900-957.  When [KernelSolve] is not created yet, its type is the one of the first argument and
    the alias of the unknown is the second formula, [None] after [fixvariables]. *)
Definition apply_solver (s : solver) (given : list tensor) : res solve_call :=
  do t <- match s_position s with
          | Some p => Ok (s_tensor s, s_highdim s, p)
          | None =>
              match given with
              | [] => PyErr
              | _ =>
                  do g <- fixed (s_tensor s) (s_highdim s) ;
                  do p <- varinv_position None ;
                  Ok (fst g, snd g, p)
              end
          end ;
  let '(l, hd, p) := t in
  do given <- match symbolic (s_other s) with
              | [] =>
                  match given with
                  | [] => match variables (s_other s) with v :: _ => Ok [v] | [] => PyErr end
                  | _ => KErr
                  end
              | _ => Ok given
              end ;
  Ok {| k_formula := formula l; k_position := p; k_axis := s_axis s;
        k_args := (given ++ variables l)%list; k_highdim := hd |}.

Inductive solved := Solution (c : solve_call) | Callable (s : solver).

(** Lines 779-898. *)
Definition solve (l : lazy) (other : second_member) (var : option lazy) (call : bool) : res solved :=
  do s <- prepare l other var ;
  match call, symbolic (s_other s), dtype (s_tensor s) with
  | true, [], Some _ => do c <- apply_solver s [] ; Ok (Solution c)
  | _, _, _ => Ok (Callable s)
  end.
