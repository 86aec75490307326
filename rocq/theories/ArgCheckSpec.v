(** Specification of calls: consistent arguments, addresses inside the arrays, symbolic tensors. *)

From Coq Require Import ZArith Arith Permutation String List.
From Verif Require Import Result Formula KernelSum Loader CpuConvSpec RangesSpec ArgCheck LazyTensors.
Import ListNotations.

Definition entries (sh : list nat) : nat := fold_right Nat.mul 1 sh.

(** An address inside the array of an argument. *)
Definition inside_array (shapes : list (list nat)) (ad : address) : Prop :=
  exists p sh, fst ad = Z.of_nat p /\ nth_error shapes p = Some sh /\ snd ad < entries sh.

(** Two memories with the same arrays. *)
Definition same_arrays (shapes : list (list nat)) (A B : memory) : Prop :=
  forall ad, inside_array shapes ad -> A (fst ad) (snd ad) = B (fst ad) (snd ad).

(** The documentation of Genred: M rows for the i variables, N rows for the j variables, and the declared
    dimensions, after batch dimensions that are compatible with [full]. *)
Definition expected (al : alias) (M N : nat) : list nat :=
  match a_cat al with O => [M; a_dim al] | 1 => [N; a_dim al] | _ => [a_dim al] end.
Record consistent (aliases : list alias) (shapes : list (list nat)) (full : list nat) (M N : nat) : Prop := {
  co_positions : Permutation (map a_pos aliases) (seq 0 (List.length aliases));
  co_count : List.length shapes = List.length aliases;
  co_categories : forall al, In al aliases -> a_cat al <= 2;
  co_shapes : forall al, In al aliases -> exists s, compatible s full /\
    nth_error shapes (a_pos al) = Some (s ++ expected al M N)%list;
  co_full : forall q, q < List.length full -> nth q full 0 = 1 \/
    1 <= nth q full 0 /\ exists sh, In sh shapes /\ nth q sh 0 = nth q full 0;
  co_rows : M = 1 \/ exists al, In al aliases /\ a_cat al = 0;
  co_cols : N = 1 \/ exists al, In al aliases /\ a_cat al = 1;
  co_some : exists al, In al aliases /\ a_cat al <= 1
}.

(** The formula is written with the variables that are declared. *)
Definition uses (aliases : list alias) (decl : declaration) (f : fm) : Prop :=
  forall a d c, In (a, d, c) (vars f) -> exists al, In al aliases /\
    a = Z.of_nat (a_pos al) /\ d = a_dim al /\ c = a_cat al /\ decl a = (d, c).

(** Number of rows of a variable that are read. *)
Definition rows_read (c nx ny : nat) : nat := match c with O => nx | 1 => ny | _ => 1 end.

(** Construction of symbolic tensors from arrays. *)
Inductive ltree :=
| LSymbolic (ind dim cat : Z)
| LInt (n : Z)
| LFloats (id n : Z)
| LArray (dt : string) (id : Z) (sh : list Z) (ax : option Z)
| LUn (op : string) (d : option Z) (a b : option string) (e : ltree)
| LBin (op : string) (is_op : bool) (d : option Z) (dc : dimcheck) (opt : option (extra * bool)) (rv : bool)
       (e f : ltree)
| LTer (op : string) (d : option Z) (dc : dimcheck) (opt : option extra) (e f g : ltree).

Fixpoint construct (e : ltree) : res lazy :=
  match e with
  | LSymbolic i d c => Ok (lt_symbolic i d c)
  | LInt n => Ok (lt_int n)
  | LFloats i n => Ok (lt_floats i n)
  | LArray dt i sh ax => lt_array dt i sh ax
  | LUn op d a b e => do x <- construct e ; Ok (unary x op d a b)
  | LBin op o d dc opt rv e f => do x <- construct e ; do y <- construct f ; binary x y op o d dc opt rv
  | LTer op d dc opt e f g =>
      do x <- construct e ; do y <- construct f ; do z <- construct g ; ternary x y z op d dc opt
  end.

(** The symbolic tensors made of the arrays of an expression. *)
Fixpoint arrays (e : ltree) : list (res lazy) :=
  match e with
  | LSymbolic _ _ _ | LInt _ | LFloats _ _ => []
  | LArray dt i sh ax => [lt_array dt i sh ax]
  | LUn _ _ _ _ e => arrays e
  | LBin _ _ _ _ _ _ e f => arrays e ++ arrays f
  | LTer _ _ _ _ e f g => arrays e ++ arrays f ++ arrays g
  end%list.
