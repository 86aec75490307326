(** Specification of torch.vmap: the call is repeated on the slices of the mapped arguments. *)

From Coq Require Import ZArith Reals Arith List.
From Verif Require Import Result Formula Reductions KernelSum KernelSumSpec CpuReduc Loader CpuConvSpec RangesSpec
  ArgCheck ArgCheckSpec Vmap.
Import ListNotations.

(** The slice number b of a tensor along its dimension d: the index b is inserted at position d. *)
Definition slice (d : option nat) (b : nat) (x : tensor) : tensor :=
  match d with
  | None => x
  | Some d => Tensor (firstn d (t_size x) ++ skipn (S d) (t_size x))
                     (fun idx => t_at x (firstn d idx ++ b :: skipn d idx))
  end.
Definition slices (in_dims : list (option nat)) (b : nat) (args : list tensor) : list tensor :=
  map (fun p => slice (fst p) b (snd p)) (combine in_dims args).

(** B slices: each mapped argument has size B along its mapped dimension, and some argument is mapped. *)
Definition mapped (in_dims : list (option nat)) (args : list tensor) (B : nat) : Prop :=
  Forall2 (fun d x => match d with None => True | Some d => nth_error (t_size x) d = Some B end) in_dims args /\
  exists d, In (Some d) in_dims.

(** The mapped dimensions are among the first two. *)
Definition leading (in_dims : list (option nat)) : Prop := forall d, In (Some d) in_dims -> d <= 1.

(** The variables of the formula at the batch index bs and the rows i and j, arguments broadcast. *)
Definition tensor_point (decl : declaration) (args : list tensor) (bs : list nat) (i j : nat) : env :=
  fun a k => match nth_error args (Z.to_nat a) with
             | Some x => t_at x (clip (firstn (length bs) (t_size x)) bs ++
                                 match snd (decl a) with O => [i; k] | 1 => [j; k] | _ => [k] end)
             | None => 0%R
             end.
(** The values that are reduced in the output row x. *)
Definition tensor_terms (decl : declaration) (args : list tensor) (f : fm) (tagI : nat) (bs : list nat) (x n : nat)
    : list (Z * (nat -> R)) :=
  map (fun m => (Z.of_nat m,
                 eval f (match tagI with
                         | O => tensor_point decl args bs x m
                         | _ => tensor_point decl args bs m x
                         end))) (seq 0 n).

(** A call that can be repeated: the slices are consistent arguments of the call, with common batch sizes [full],
    M rows and N columns. *)
Record mappable (g : genred) (in_dims : list (option nat)) (args : list tensor) (full : list nat) (B M N : nat)
    (decl : declaration) : Prop := {
  mp_slices : mapped in_dims args B;
  mp_count : 1 <= B;
  mp_consistent : consistent (g_aliases g) (map t_size (slices in_dims 0 args)) full M N;
  mp_declared : declared decl (g_formula g);
  mp_wf : wf (g_formula g);
  mp_categories : categories decl;
  mp_tag : g_tag g <= 1;
  mp_uses : uses (g_aliases g) decl (g_formula g);
  mp_used : forall al, In al (g_aliases g) -> In (Z.of_nat (a_pos al), a_dim al, a_cat al) (vars (g_formula g));
  mp_reduction : reduction_of (dim (g_formula g)) (g_red g);
  mp_scheme : available (g_red g) (g_sch g);
  mp_rows : 1 <= M;
  mp_columns : 1 <= N;
  mp_size : forall x, In x args -> (Z.of_nat (entries (t_size x)) <= 2 ^ 31)%Z;
  mp_dims : forall al, In al (g_aliases g) -> 1 <= a_dim al
}.

(** The sum over j of a variable of dimension d; the sum of a parameter; the sum of x_i + y_j. *)
Definition sum_of (f : fm) (aliases : list alias) : genred :=
  {| g_aliases := aliases; g_formula := f; g_tag := 0; g_red := Sum_Red (dim f); g_sch := direct_sum |}.
Definition of_variable (d : nat) : genred := sum_of (Var 0 d 0) [{| a_cat := 0; a_dim := d; a_pos := 0 |}].
Definition of_parameter (d : nat) : genred := sum_of (Var 0 d 2) [{| a_cat := 2; a_dim := d; a_pos := 0 |}].
Definition of_pair : genred := sum_of (Bin BAdd (Var 0 1 0) (Var 1 1 1))
  [{| a_cat := 0; a_dim := 1; a_pos := 0 |}; {| a_cat := 1; a_dim := 1; a_pos := 1 |}].
