(** What factorised formulas mean: [Fact f g v] is [f] where [v] has the value of [g]. *)

From Coq Require Import ZArith List.
From Verif Require Import Factor.
Import ListNotations.

Section Spec.
Variables (op val : Type) (osem : op -> list val -> val).

Definition bind (env : Z -> val) (i : Z) (x : val) : Z -> val :=
  fun j => if Z.eqb j i then x else env j.

Fixpoint value (t : tree op) (env : Z -> val) : val :=
  match t with
  | Leaf _ v => env (vind v)
  | Node _ o l => osem o (map (fun c => value c env) l)
  | Fact _ f g v => value f (bind env (vind v) (value g env))
  end.

(** A formula without factorised parts. *)
Fixpoint plain (t : tree op) : Prop :=
  match t with
  | Leaf _ _ => True
  | Node _ _ l => fold_right (fun c P => plain c /\ P) True l
  | Fact _ _ _ _ => False
  end.

(** The indices of all variables are positions of the table. *)
Definition inputs (n : nat) (t : tree op) : Prop :=
  forall v, In v (vars op t) -> (0 <= vind v < Z.of_nat n)%Z.

(** The table as an environment. *)
Definition from_table (d : val) (table : list val) : Z -> val :=
  fun i => if Z.ltb i 0 then d else nth (Z.to_nat i) table d.

(** Number of nodes. *)
Fixpoint nodes (t : tree op) : nat :=
  match t with
  | Leaf _ _ => 1
  | Node _ _ l => S (list_sum (map nodes l))
  | Fact _ f g _ => S (nodes f + nodes g)
  end.
End Spec.

(** What users can get: factorisations, one after the other, of a formula without factorised parts. *)
Inductive factored (op : Type) (op_eq_dec : forall a b : op, {a = b} + {a <> b})
    (odim : op -> list nat -> nat) (light : op -> bool) (t0 : tree op) : tree op -> Prop :=
| factored_self : factored op op_eq_dec odim light t0 t0
| factored_step : forall t g, factored op op_eq_dec odim light t0 t ->
    factored op op_eq_dec odim light t0 (factorize op op_eq_dec odim light t g).

(** Sub-formulas. *)
Inductive below (op : Type) (s : tree op) : tree op -> Prop :=
| below_self : below op s s
| below_node : forall o l c, In c l -> below op s c -> below op s (Node op o l)
| below_fact1 : forall f g v, below op s f -> below op s (Fact op f g v)
| below_fact2 : forall f g v, below op s g -> below op s (Fact op f g v).
