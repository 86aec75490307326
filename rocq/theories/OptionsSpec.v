(** What the options mean, independently of the functions that handle them. *)

From Coq Require Import ZArith List Bool String.
From Verif Require Import Result Formula Options.
Import ListNotations.
Open Scope string_scope.

(** The names of get_options.py: device, scheme and memory, None when the name leaves the choice
    open. *)
Inductive names : string -> option bool -> option nat -> option bool -> Prop :=
| name_auto : names "auto" None None None
| name_cpu : names "CPU" (Some false) None None
| name_gpu : names "GPU" (Some true) None None
| name_gpu1 : names "GPU_1D" (Some true) (Some 1%nat) None
| name_gpu2 : names "GPU_2D" (Some true) (Some 2%nat) None
| name_gpu1d : names "GPU_1D_device" (Some true) (Some 1%nat) (Some true)
| name_gpu1h : names "GPU_1D_host" (Some true) (Some 1%nat) (Some false)
| name_gpu2d : names "GPU_2D_device" (Some true) (Some 2%nat) (Some true)
| name_gpu2h : names "GPU_2D_host" (Some true) (Some 2%nat) (Some false).

(** The arrays are all of the same kind and in the same memory ([true]: the device). *)
Definition kept_in (device : bool) (vars : list argument) : Prop :=
  if device then vars <> [] /\ Forall (fun a => exists n, a = Torch (Some n)) vars
  else Forall (fun a => a = Numpy) vars \/ Forall (fun a => a = Torch None) vars.

Definition tag (b : bool) : nat := if b then 1 else 0.

(** The user asks for the mode by giving True or the position of the variable. *)
Definition asked (v : pyval) : Prop := v = VBool true \/ exists n, v = VInt n.

(** The operations of a formula: no branch, no clamp, no modulo. *)
Fixpoint plain (f : fm) : Prop :=
  match f with
  | Var _ _ _ | Zero _ | Int _ | Rat _ _ => True
  | Un _ g | Lin _ g | Sel _ g => plain g
  | Bin _ g h | Bil _ g h | Cat g h => plain g /\ plain h
  | Ter _ _ _ _ => False
  end.

(** A scalar formula whose product with a vector is not rewritten: neither a constant, nor an
    opposite, nor a product whose first factor is a constant, nor a repetition. *)
Definition bare (g : fm) : Prop :=
  match g with
  | Zero _ | Un UMinus _ | Lin (LSumT _) _ => False
  | Int z => z <> 1%Z /\ z <> (-1)%Z
  | Bin BMult (Int _) _ | Bin BMult (Rat _ _) _ => False
  | _ => True
  end.
