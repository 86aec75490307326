(** C47 -- the code generated for a formula computes its value. *)

From Coq Require Import ZArith Reals List String.
From Verif Require Import Result Formula Keys XReal CodeGen CSem CodeGenSpec C47Main C47Gen C47Cases.
Import ListNotations.
Local Open Scope nat_scope.

(** [rho] gives the values of the indices of the loops of the kernel.  Generation succeeds; the code runs without undefined behaviour (no access outside an array, none to a cell
    that is not initialised, no operation outside its domain), writes the value of the formula in the output and
    changes nothing else.  Partial: exact reals, and the operations of Formula.v. *)
Theorem C47_code_computes_formula_partial : forall rho f e table g m out,
  wf f -> safe e f -> adim out = dim f -> allocated rho m (aptr out) (dim f) -> names_new g m ->
  loaded rho e f table m (aptr out) ->
  exists s g' m', call f out table g = Ok (s, g') /\ exec rho s m = Some m'
    /\ stored rho m m' (aptr out) (dim f) (eval f e).
Proof. exact @generated_code_correct. Qed.
Print Assumptions C47_code_computes_formula_partial.

(** Generation depends on the dimensions only: it succeeds for every well-formed formula whose variables are in
    the table with their dimensions. *)
Theorem C47_generation : forall f table out g, wf f -> adim out = dim f ->
  (forall i d, occurs i d f -> (0 <= i)%Z /\ exists a, nth_error table (Z.to_nat i) = Some (Some a) /\ adim a = d) ->
  exists s g', call f out table g = Ok (s, g').
Proof. exact code_generated. Qed.
Print Assumptions C47_generation.

(** No name is declared twice in the code, and every declared name is a new one. *)
Theorem C47_names_declared_once : forall f out table g s g', call f out table g = Ok (s, g') ->
  NoDup (declared s)
  /\ forall x, In x (declared s) -> exists t c, x = (t ++ "_" ++ str_int (Z.of_nat c))%string /\ g t <= c < g' t.
Proof. exact names_declared_once. Qed.
Print Assumptions C47_names_declared_once.

(** The fixed names of the engine are never made by [new_c_varname]. *)
Theorem C47_engine_names : forall x,
  In x ["i"; "j"; "nx"; "ny"; "xi"; "yj"; "yjrel"; "param_loc"; "acc"; "acctmp"; "fout"; "out"; "args"; "tmp"]%string ->
  forall t c, x <> name t c.
Proof. exact engine_not_name. Qed.
Print Assumptions C47_engine_names.

(** Without the condition on the index of OneHot, the code writes outside the output. *)
Theorem C47_onehot_refuted : exists rho f e table g m out,
  wf f /\ adim out = dim f /\ allocated rho m (aptr out) (dim f) /\ names_new g m
  /\ loaded rho e f table m (aptr out)
  /\ exists s g', call f out table g = Ok (s, g') /\ exec rho s m = None.
Proof. exact onehot_far. Qed.
Print Assumptions C47_onehot_refuted.

(** exp(-|x-y|^2) at x = (1,2), y = (3,5). *)
Example C47_case : forall rho,
  wf gauss /\ safe point2 gauss /\ allocated rho memory2 (PName "fout") (dim gauss)
  /\ names_new (fun _ => 0) memory2 /\ loaded rho point2 gauss table2 memory2 (PName "fout")
  /\ exists s g' m', call gauss (Array (PName "fout") 1) table2 (fun _ => 0) = Ok (s, g')
     /\ exec rho s memory2 = Some m' /\ read rho m' (PName "fout") 0 = Some (Fin (exp (-13))).
Proof. exact gauss_case. Qed.

Example C47_names_case :
  match call gauss (Array (PName "fout") 1) table2 (fun _ => 0) with Ok (s, _) => declared s | _ => [] end
  = ["out_minus_0"; "out_sum_0"; "out_square_0"; "out_subtract_0"; "k_0"; "k_1"; "k_2"; "k_3"; "k_4"; "k_5"]%string.
Proof. vm_compute. reflexivity. Qed.
