(** Specification of the formulas with named arguments. *)

From Coq Require Import ZArith List Bool Ascii String.
From Verif Require Import Result Keys Formula FormulaSpec Build LazyTensors Methods MethodsSpec AliasSpec PyRead PyReadSpec
  RedText GenericOps.
Import ListNotations.
Open Scope string_scope.

(** The name [n] is given to the argument with this category, dimension and position. *)
Definition name_of (d : declaration) : option string := match d with Named n _ _ _ => Some n | _ => None end.
Definition declares (ds : list declaration) (n : string) (v : Z * Z * Z) : Prop :=
  exists i d, nth_error ds i = Some d /\ name_of d = Some n /\ triple (Z.of_nat i) d = v.
Definition is_declared (ds : list declaration) (n : string) : Prop := exists d, In d ds /\ name_of d = Some n.
(** Each name is given once; the arguments have at least one coordinate. *)
Definition once (ds : list declaration) : Prop :=
  forall i j d d' n, nth_error ds i = Some d -> nth_error ds j = Some d' ->
    name_of d = Some n -> name_of d' = Some n -> i = j.
Definition dimension (d : declaration) : Z :=
  match d with Named _ _ _ m | Unnamed _ _ m | Positional _ m _ => m end.
Definition kept (d : declaration) : Z := match d with Named _ k _ _ | Unnamed k _ _ => AliasSpec.category k | Positional _ _ c => c end.

(** What an expression with names means: names are the declared arguments, the opposite, integer powers, numbers beside
    operators, functions that are not hidden by a declared name. *)
Inductive stands (ds : list declaration) : py -> term -> Prop :=
| st_name : forall n p d c, declares ds n (c, d, p) -> stands ds (PName n) (TVar p d c)
| st_var : forall p d c, ~ is_declared ds "Var" -> stands ds (tree (TVar p d c)) (TVar p d c)
| st_int : forall n, ~ is_declared ds "IntCst" -> stands ds (tree (TInt n)) (TInt n)
| st_1 : forall op e t ps, ~ is_declared ds op -> stands ds e t ->
    stands ds (PCall (PName op) (e :: map literal ps)) (T1 op t ps)
| st_2 : forall op a t b u ps, ~ is_declared ds op -> stands ds a t -> stands ds b u ->
    stands ds (PCall (PName op) (a :: b :: map literal ps)) (T2 op t u ps)
| st_3 : forall op a t b u c v, ~ is_declared ds op -> stands ds a t -> stands ds b u -> stands ds c v ->
    stands ds (PCall (PName op) [a; b; c]) (T3 op t u v)
| st_op : forall op s a t b u, symbol op = Some s -> ordering s = false -> stands ds a t -> stands ds b u ->
    stands ds (PBin s a b) (TOp op t u)
| st_order : forall op s a t b u, symbol op = Some s -> ordering s = true -> stands ds a t -> stands ds b u ->
    stands ds (PCmp a [(s, b)]) (TOp op t u)
| st_left : forall op s n b u, symbol op = Some s -> ordering s = false -> op <> "|" -> (op = "/" -> n <> 1%Z) ->
    stands ds b u -> stands ds (PBin s (literal n) b) (TOp op (TInt n) u)
| st_right : forall op s a t n, symbol op = Some s -> ordering s = false -> op <> "|" ->
    stands ds a t -> stands ds (PBin s a (literal n)) (TOp op t (TInt n))
| st_order_left : forall op s n b u, symbol op = Some s -> ordering s = true ->
    stands ds b u -> stands ds (PCmp (literal n) [(s, b)]) (TOp op (TInt n) u)
| st_order_right : forall op s a t n, symbol op = Some s -> ordering s = true ->
    stands ds a t -> stands ds (PCmp a [(s, literal n)]) (TOp op t (TInt n))
| st_inverse : forall e t, stands ds e t -> stands ds (PBin SSlash (literal 1) e) (T1 "Inv" t [])
| st_neg : forall e t, stands ds e t -> stands ds (PNeg e) (T1 "Minus" t [])
| st_square : forall e t, stands ds e t -> stands ds (PPow e (literal 2)) (T1 "Square" t [])
| st_pow : forall e t k, k <> 2%Z -> stands ds e t -> stands ds (PPow e (literal k)) (T1 "Pow" t [k]).

(** What the engine makes of the text [x] of a reduction when it is told [l]: the class [cls] with the formula that the
    simplifications give for [phi], indexed by the category [c], [d] values, and [k]; when [one] is set, only for a formula
    [F] of dimension 1. *)
Definition engine_makes (l : list string) (x : string) (k : option Z) (one : bool) (c : Z) (F : fm)
  (cls : string) (phi : fm) (d : Z) : Prop :=
  exists e a, reads x e /\ dictionary l a
    /\ (forall o k', reduction_in a e = Ok (o, k') ->
         k' = k /\ ro_id o = cls /\ build phi = Ok (ro_formula o) /\ equivalent phi (ro_formula o)
         /\ ro_tag o = c /\ ro_dim o = d /\ (one = true -> dim F = 1%nat))
    /\ (forall h, build phi = Ok h -> (one = true -> dim F = 1%nat) ->
         exists o, reduction_in a e = Ok (o, k) /\ ro_formula o = h).

(** The four operations: the class, what is reduced, the number of values for each index, whether the formula has
    dimension 1; [m] is the declared dimension of the output. *)
Inductive operation (F : fm) (m : Z) : (string -> string -> res string) -> option Z -> bool -> string -> fm -> Z -> Prop :=
| op_sum : operation F m generic_sum None false "Sum_Reduction" F (Z.of_nat (dim F))
| op_argmin : operation F m generic_argmin None false "ArgMin_Reduction" F (Z.of_nat (dim F))
| op_logsumexp : operation F m generic_logsumexp None true "Max_SumShiftExpWeight_Reduction" (Cat F (Int 1)) 2
| op_argkmin : m <> 0%Z ->
    operation F m generic_argkmin (Some m) false "ArgKMin_Reduction" F (m * Z.of_nat (dim F)).
