(** Specification of the evaluation by chunks. *)

From Coq Require Import ZArith Reals Arith List Permutation.
From Verif Require Import Result Formula KernelSum Loader.
Import ListNotations.

(** Chunk k of the variables that are not scalar: components 64*k, 64*k+1, ... *)
Definition chunk_of (decl : declaration) (k : nat) (e : env) : env :=
  fun i q => if Nat.eqb (fst (decl i)) 1 then e i q else e i (64 * k + q)%nat.

(** One more variable. *)
Definition with_value (e : env) (new : Z) (v : R) : env :=
  fun i q => if Z.eqb i new then v else e i q.

(** Enumerations of a set. *)
Definition enumerates (order : list fvar -> list fvar) : Prop :=
  forall l, Permutation (order l) l.

(** g is a sub-formula of f. *)
Inductive part (g : fm) : fm -> Prop :=
| PHere : part g g
| PUn u f : part g f -> part g (Un u f)
| PLin l f : part g f -> part g (Lin l f)
| PSel s f : part g f -> part g (Sel s f)
| PBin1 b f h : part g f -> part g (Bin b f h)
| PBin2 b f h : part g h -> part g (Bin b f h)
| PBil1 b f h : part g f -> part g (Bil b f h)
| PBil2 b f h : part g h -> part g (Bil b f h)
| PCat1 f h : part g f -> part g (Cat f h)
| PCat2 f h : part g h -> part g (Cat f h)
| PTer1 t f h k : part g f -> part g (Ter t f h k)
| PTer2 t f h k : part g h -> part g (Ter t f h k)
| PTer3 t f h k : part g k -> part g (Ter t f h k).
