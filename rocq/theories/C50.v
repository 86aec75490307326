(** C50: linear systems given by symbolic tensors. *)

From Coq Require Import ZArith List Bool Ascii String.
From Verif Require Import Result LazyTensors LazySpec LazySolve C27Proofs C50Proofs.
Import ListNotations.
Open Scope string_scope.

(** A symbolic tensor with data and a second member with data: the call of [KernelSolve] has the formula
    [K * u], where the unknown [u] is the variable 0, of the dimension of the second member, indexed by
    the other axis, which is the axis of the sum; the second member is passed at the position of
    the unknown; the other arguments are the tensors of [K], each one once.  The value of the
    formula on the arguments, with any [x] at the position of the unknown, is the product of the
    value of [K] by [x].
    Partial: the expression of the symbolic tensor is given (see C27_built), no identity is one
    of the new positions (identities are addresses), the second member is not an
    expression, and the call itself is in C49. *)
Theorem C50_data_partial : forall l e dt other o a v rest,
  carries l e -> dtype l = Some dt -> symbolic l = [] ->
  second other = Ok o -> symbolic o = [] -> variables o = v :: rest ->
  axis o = Some a -> a = 0%Z \/ a = 1%Z -> (0 <= ndim o)%Z ->
  ndim l = ndim o \/ ndim l = 1%Z \/ ndim o = 1%Z ->
  (forall v, In v (variables l) -> ~ (0 <= t_id v <= Z.of_nat (List.length (variables l)))%Z) ->
  exists sel s,
    incl sel (variables l) /\ NoDup (map t_id sel)
    /\ (forall i, In i (map t_id sel) <-> In i (map fst (tensors e)))
    /\ (forall k v, nth_error sel k = Some v -> s (t_id v) = (1 + Z.of_nat k)%Z)
    /\ solve l other None true
       = Ok (Solution
           {| k_formula := text (rename s (EBin "(" e " * " (ESym 0 (ndim o) (1 - a)) ")"));
              k_position := 0; k_axis := 1 - a;
              k_args := v :: map (with_batch (nbatchdims l) (tensors e)) sel;
              k_highdim := if (100 <? ndim o)%Z then Some 0%Z else None |})
    /\ forall (V A : Type) (m : meaning V) (read : option A -> Z -> Z -> V) (mem : Z -> A) x sym sym',
         value m (fun p => read (argument (x :: map (fun v => mem (t_id v)) sel) p)) sym
           (rename s (EBin "(" e " * " (ESym 0 (ndim o) (1 - a)) ")"))
         = m_bin m "(" " * " ")" (value m (fun i => read (Some (mem i))) sym' e)
             (read (Some x) (ndim o) (1 - a)%Z).
Proof. exact solve_data. Qed.
Print Assumptions C50_data_partial.

Example C50_data_case : (exists l, ex_kernel = Ok l /\ carries l ex_kernel_expr
    /\ dtype l = Some "float32" /\ symbolic l = [])
  /\ exists l, ex_kernel = Ok l
  /\ solve l (SArray "float32" 990 [10; 2]%Z) None true
     = Ok (Solution {| k_formula := "(Exp(Minus(SqNorm2((Var(1,3,0) - Var(2,3,1))))) * Var(0,2,1))";
                       k_position := 0; k_axis := 1;
                       k_args := [array_at 990 [10; 2]%Z; array_at 900 [10; 3]%Z; array_at 950 [10; 3]%Z];
                       k_highdim := None |}).
Proof. exact (conj ex_carries ex_solve). Qed.

(** An array of shape [[n; d]] as second member is indexed by the rows of the kernel, so the unknown, of
    dimension [d], is indexed by the columns and the sum is over the columns. *)
Theorem C50_array_partial : forall l e dt dt' id n d,
  carries l e -> dtype l = Some dt -> symbolic l = [] -> (0 <= d)%Z ->
  ndim l = d \/ ndim l = 1%Z \/ d = 1%Z ->
  (forall v, In v (variables l) -> ~ (0 <= t_id v <= Z.of_nat (List.length (variables l)))%Z) ->
  exists sel s,
    incl sel (variables l) /\ NoDup (map t_id sel)
    /\ (forall i, In i (map t_id sel) <-> In i (map fst (tensors e)))
    /\ (forall k v, nth_error sel k = Some v -> s (t_id v) = (1 + Z.of_nat k)%Z)
    /\ solve l (SArray dt' id [n; d]) None true
       = Ok (Solution
           {| k_formula := text (rename s (EBin "(" e " * " (ESym 0 d 1) ")"));
              k_position := 0; k_axis := 1;
              k_args := array_at id [n; d] :: map (with_batch (nbatchdims l) (tensors e)) sel;
              k_highdim := if (100 <? d)%Z then Some 0%Z else None |}).
Proof. exact solve_array. Qed.
Print Assumptions C50_array_partial.

(** With [call=False] the same call is made later, when the returned object is called without argument; with
    arguments it raises an error (C50_data_case has a call that succeeds). *)
Theorem C50_later : forall l other var c, solve l other var true = Ok (Solution c) ->
  exists p, solve l other var false = Ok (Callable p) /\ apply_solver p [] = Ok c
    /\ forall x xs, apply_solver p (x :: xs) = KErr.
Proof. exact solve_deferred. Qed.
Print Assumptions C50_later.

(** A symbolic second member: the result can be called; the unknown comes after the symbolic variables
    of [K], at the position [n], where the argument of the second member is given. *)
Theorem C50_symbolic_partial : forall l e dt o a call,
  carries l e -> dtype l = Some dt -> symbolic o <> [] ->
  axis o = Some a -> a = 0%Z \/ a = 1%Z -> (0 <= ndim o)%Z ->
  ndim l = ndim o \/ ndim l = 1%Z \/ ndim o = 1%Z ->
  (0 <= new_variable_index (symbolic l))%Z ->
  (forall v, In v (variables l) ->
     ~ (new_variable_index (symbolic l) <= t_id v
        <= new_variable_index (symbolic l) + Z.of_nat (List.length (variables l)))%Z) ->
  let n := new_variable_index (symbolic l) in
  exists p sel s,
    solve l (SLazy o) None call = Ok (Callable p)
    /\ incl sel (variables l) /\ NoDup (map t_id sel)
    /\ (forall i, In i (map t_id sel) <-> In i (map fst (tensors e)))
    /\ (forall k v, nth_error sel k = Some v -> s (t_id v) = (n + 1 + Z.of_nat k)%Z)
    /\ (forall given, apply_solver p given
       = Ok {| k_formula := text (rename s (EBin "(" e " * " (ESym n (ndim o) (1 - a)) ")"));
               k_position := n; k_axis := 1 - a;
               k_args := (given ++ map (with_batch (nbatchdims l) (tensors e)) sel)%list;
               k_highdim := if (100 <? ndim o)%Z then Some n else None |})
    /\ forall (V A : Type) (m : meaning V) (read : option A -> Z -> Z -> V) (mem : Z -> A)
              (given : list A) x sym,
         Z.of_nat (List.length given) = n ->
         value m (fun p => read (argument (given ++ x :: map (fun v => mem (t_id v)) sel)%list p)) sym
           (rename s (EBin "(" e " * " (ESym n (ndim o) (1 - a)) ")"))
         = m_bin m "(" " * " ")"
             (value m (fun i => read (Some (mem i)))
                (fun p => read (argument (given ++ [x])%list p)) e)
             (read (Some x) (ndim o) (1 - a)%Z).
Proof. exact solve_symbolic. Qed.
Print Assumptions C50_symbolic_partial.

Example C50_symbolic_case : exists l p, ex_kernel = Ok l
  /\ solve l (SLazy (lt_symbolic 0 2 0)) None true = Ok (Callable p)
  /\ apply_solver p [array_at 990 [10; 2]%Z]
     = Ok {| k_formula := "(Exp(Minus(SqNorm2((Var(1,3,0) - Var(2,3,1))))) * Var(0,2,1))";
             k_position := 0; k_axis := 1;
             k_args := [array_at 990 [10; 2]%Z; array_at 900 [10; 3]%Z; array_at 950 [10; 3]%Z];
             k_highdim := None |}.
Proof. exact ex_symbolic. Qed.

(** An unknown that is a symbolic variable of the formula, and a symbolic second member: the formula is
    the given one, and the unknown is at its index. *)
Theorem C50_unknown_partial : forall l e dt o a i d c call,
  carries l e -> dtype l = Some dt -> symbolic o <> [] ->
  axis o = Some a -> (0 <= i)%Z -> category c ->
  (forall v, In v (variables l) ->
     ~ (new_variable_index (symbolic l) <= t_id v
        < new_variable_index (symbolic l) + Z.of_nat (List.length (variables l)))%Z) ->
  (forall v, In v (variables l) -> t_id v <> i) ->
  let n := new_variable_index (symbolic l) in
  exists p sel s,
    solve l (SLazy o) (Some (lt_symbolic i d c)) call = Ok (Callable p)
    /\ incl sel (variables l) /\ NoDup (map t_id sel)
    /\ (forall i, In i (map t_id sel) <-> In i (map fst (tensors e)))
    /\ (forall k v, nth_error sel k = Some v -> s (t_id v) = (n + Z.of_nat k)%Z)
    /\ (forall given, apply_solver p given
       = Ok {| k_formula := text (rename s e); k_position := i; k_axis := 1 - a;
               k_args := (given ++ map (with_batch (nbatchdims l) (tensors e)) sel)%list;
               k_highdim := if (100 <? ndim o)%Z then Some i else None |})
    /\ forall (V A : Type) (m : meaning V) (read : option A -> Z -> Z -> V) (mem : Z -> A)
              (given : list A) sym,
         Z.of_nat (List.length given) = n ->
         value m (fun p => read (argument (given ++ map (fun v => mem (t_id v)) sel)%list p)) sym
           (rename s e)
         = value m (fun i => read (Some (mem i))) (fun p => read (argument given p)) e.
Proof. exact solve_unknown. Qed.
Print Assumptions C50_unknown_partial.

Example C50_unknown_case : exists l r p, ex_kernel = Ok l /\ ex_linear l = Ok r
  /\ solve r (SLazy (lt_symbolic 0 2 0)) (Some (lt_symbolic 0 2 1)) true = Ok (Callable p)
  /\ apply_solver p [array_at 990 [10; 2]%Z]
     = Ok {| k_formula := "(Exp(Minus(SqNorm2((Var(1,3,0) - Var(2,3,1))))) * Var(0,2,1))";
             k_position := 0; k_axis := 1;
             k_args := [array_at 990 [10; 2]%Z; array_at 900 [10; 3]%Z; array_at 950 [10; 3]%Z];
             k_highdim := None |}
  /\ solve r (SArray "float32" 990 [10; 2]%Z) (Some (lt_symbolic 0 2 1)) true = KErr.
Proof. exact ex_unknown. Qed.

(** The documentation of [var] says that the solution is returned when the formula has no other symbolic
    variable than the unknown.  With a second member that has data, which is the
    only case where [solve] calls, the formula is always refused, as it contains the unknown
    (C50_unknown_case has such a formula). *)
Theorem C50_unknown_data_refuted : forall l other o v call,
  second other = Ok o -> symbolic o = [] -> symbolic l <> [] ->
  solve l other (Some v) call = KErr.
Proof. exact unknown_refused. Qed.
Print Assumptions C50_unknown_data_refuted.

(** Without any data, [solve] returns an object that can never be called with success: the alias of the
    unknown is lost. *)
Theorem C50_deferred_refuted : forall l other var call r,
  dtype l = None -> solve l other var call = Ok r ->
  exists p, r = Callable p /\ forall given c, apply_solver p given <> Ok c.
Proof. exact deferred_fails. Qed.
Print Assumptions C50_deferred_refuted.

Example C50_deferred_case : exists d p,
  binary (lt_symbolic 0 3 0) (lt_symbolic 1 3 1) "-" true None DSameOr1 None false = Ok d
  /\ dtype d = None
  /\ solve (unary d "SqNorm2" (Some 1%Z) None None) (SLazy (lt_symbolic 2 2 0)) None true
     = Ok (Callable p)
  /\ formula (s_tensor p) = "(SqNorm2((VarSymb(0,3,0) - VarSymb(1,3,1))) * VarSymb(2,2,1))"
  /\ apply_solver p [array_at 900 [10; 3]%Z; array_at 950 [10; 3]%Z; array_at 990 [10; 2]%Z] = PyErr.
Proof. exact ex_deferred. Qed.
