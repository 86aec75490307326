(** * Expressions, their texts and their values.

    An expression is made of variables given by the identity of a tensor ([EVar]), symbolic
    variables given by a position ([ESym]), constants and operations.  The text of an
    operation is the concatenation of the texts of its arguments and of some separators. *)

From Coq Require Import ZArith List Bool Ascii String.
From Verif Require Import Keys LazyTensors.
Import ListNotations.
Open Scope string_scope.

Inductive expr :=
| EVar (id dim cat : Z)
| ESym (ind dim cat : Z)
| ECst (a : string)
| EUn (a : string) (e : expr) (b : string)
| EBin (a : string) (e : expr) (b : string) (f : expr) (c : string)
| ETer (a : string) (e : expr) (b : string) (f : expr) (c : string) (g : expr) (d : string).

Definition numbered (kw : string) (a b c : Z) : string :=
  kw ++ "(" ++ str_int a ++ "," ++ str_int b ++ "," ++ str_int c ++ ")".

Fixpoint text (e : expr) : string :=
  match e with
  | EVar a b c => numbered "Var" a b c
  | ESym a b c => numbered "VarSymb" a b c
  | ECst a => a
  | EUn a e b => a ++ text e ++ b
  | EBin a e b f c => a ++ text e ++ b ++ text f ++ c
  | ETer a e b f c g d => a ++ text e ++ b ++ text f ++ c ++ text g ++ d
  end.

(** The separators do not contain the letters Var, and do not end with the first of them. *)
Definition separator (s : string) : Prop :=
  (forall a b, s <> a ++ "Var" ++ b) /\ (forall a, s <> a ++ "V") /\ (forall a, s <> a ++ "Va").

Definition category (c : Z) : Prop := c = 0%Z \/ c = 1%Z \/ c = 2%Z.

Fixpoint well_formed (e : expr) : Prop :=
  match e with
  | EVar a b c => (0 <= a)%Z /\ (0 <= b)%Z /\ category c
  | ESym a b c => (0 <= b)%Z /\ category c
  | ECst a => separator a
  | EUn a e b => separator a /\ separator b /\ well_formed e
  | EBin a e b f c => separator a /\ separator b /\ separator c /\ well_formed e /\ well_formed f
  | ETer a e b f c g d =>
      separator a /\ separator b /\ separator c /\ separator d
      /\ well_formed e /\ well_formed f /\ well_formed g
  end.

(** The tensors and the symbolic variables of an expression, from left to right. *)
Fixpoint tensors (e : expr) : list (Z * Z) :=
  match e with
  | EVar a _ c => [(a, c)]
  | ESym _ _ _ | ECst _ => []
  | EUn _ e _ => tensors e
  | EBin _ e _ f _ => tensors e ++ tensors f
  | ETer _ e _ f _ g _ => tensors e ++ tensors f ++ tensors g
  end%list.

Fixpoint symbols (e : expr) : list Z :=
  match e with
  | EVar _ _ _ | ECst _ => []
  | ESym a _ _ => [a]
  | EUn _ e _ => symbols e
  | EBin _ e _ f _ => symbols e ++ symbols f
  | ETer _ e _ f _ g _ => symbols e ++ symbols f ++ symbols g
  end%list.

(** Simultaneous renaming of the tensors; symbolic variables become variables. *)
Fixpoint rename (s : Z -> Z) (e : expr) : expr :=
  match e with
  | EVar a b c => EVar (s a) b c
  | ESym a b c => EVar a b c
  | ECst a => ECst a
  | EUn a e b => EUn a (rename s e) b
  | EBin a e b f c => EBin a (rename s e) b (rename s f) c
  | ETer a e b f c g d => ETer a (rename s e) b (rename s f) c (rename s g) d
  end.

(** Value of an expression, for any meaning of the operations and any values of the variables. *)
Record meaning (V : Type) := {
  m_cst : string -> V;
  m_un : string -> string -> V -> V;
  m_bin : string -> string -> string -> V -> V -> V;
  m_ter : string -> string -> string -> string -> V -> V -> V -> V
}.
Arguments m_cst {V}. Arguments m_un {V}. Arguments m_bin {V}. Arguments m_ter {V}.

Fixpoint value {V} (m : meaning V) (var sym : Z -> Z -> Z -> V) (e : expr) : V :=
  match e with
  | EVar a b c => var a b c
  | ESym a b c => sym a b c
  | ECst a => m_cst m a
  | EUn a e b => m_un m a b (value m var sym e)
  | EBin a e b f c => m_bin m a b c (value m var sym e) (value m var sym f)
  | ETer a e b f c g d =>
      m_ter m a b c d (value m var sym e) (value m var sym f) (value m var sym g)
  end.

(** The argument at a position. *)
Definition argument {A} (l : list A) (p : Z) : option A :=
  if (p <? 0)%Z then None else nth_error l (Z.to_nat p).

(** A formula and an optional second one. *)
Definition text2 (e2 : option expr) : string := match e2 with Some e => text e | None => "" end.
Definition all_tensors (e : expr) (e2 : option expr) : list (Z * Z) :=
  (tensors e ++ match e2 with Some f => tensors f | None => [] end)%list.
Definition all_symbols (e : expr) (e2 : option expr) : list Z :=
  (symbols e ++ match e2 with Some f => symbols f | None => [] end)%list.

(** What is passed for a tensor whose uses are given: with dimensions of size one in front so that
    there are [nb] batch dimensions, and then one dimension for a parameter or two for a variable. *)
Definition with_batch (nb : Z) (uses : list (Z * Z)) (v : tensor) : tensor :=
  {| t_id := t_id v;
     t_data :=
       let sh := match t_data v with Array sh => sh | Floats n => [n] end in
       match find (fun u => (fst u =? t_id v)%Z) uses with
       | Some (_, c) =>
           Array (repeat 1%Z (Z.to_nat (nb + (if (c =? 2)%Z then 1 else 2)
                                        - Z.of_nat (List.length sh))) ++ sh)%list
       | None => Array sh
       end |}.

(** A symbolic tensor carries an expression all of whose variables it knows. *)
Definition carries (l : lazy) (e : expr) : Prop :=
  formula l = text e /\ well_formed e
  /\ (forall u, In u (tensors e) -> In (fst u) (map t_id (variables l)))
  /\ (forall i, In i (symbols e) -> In i (map (fun s => fst (fst s)) (symbolic l))).

(** Symbolic tensors obtained from constructors and operations. *)
Inductive built : lazy -> Prop :=
| B_symbolic : forall ind dim cat, (0 <= dim)%Z -> category cat -> built (lt_symbolic ind dim cat)
| B_int : forall n, built (lt_int n)
| B_floats : forall id n, (0 <= id)%Z -> (0 <= n)%Z -> built (lt_floats id n)
| B_array : forall dt id sh ax l, (0 <= id)%Z -> Forall (Z.le 0) sh ->
    lt_array dt id sh ax = Result.Ok l -> built l
| B_unary : forall l op d a b, built l -> separator op ->
    (forall t, a = Some t -> separator t) -> (forall t, b = Some t -> separator t) ->
    built (unary l op d a b)
| B_binary : forall l o op is_op d dc opt rv r, built l -> built o -> separator op ->
    (forall x b, opt = Some (x, b) -> exists t, x = EText t /\ separator t) ->
    binary l o op is_op d dc opt rv = Result.Ok r -> built r
| B_binary_with : forall l o op is_op d dc x b rv r, built l -> built o -> separator op ->
    built x -> incl (variables x) (variables l ++ variables o) ->
    incl (symbolic x) (symbolic l ++ symbolic o) ->
    binary l o op is_op d dc (Some (ELazy x, b)) rv = Result.Ok r -> built r
| B_ternary : forall l o1 o2 op d dc opt r, built l -> built o1 -> built o2 -> separator op ->
    (forall x, opt = Some x -> exists t, x = EText t /\ separator t) ->
    ternary l o1 o2 op d dc opt = Result.Ok r -> built r.
