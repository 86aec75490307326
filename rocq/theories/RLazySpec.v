(** Specification of the symbolic tensors of the R interface. *)

From Coq Require Import ZArith List Bool Ascii String.
From Verif Require Import Result Keys KeySpec Aliases AliasSpec Formula Methods MethodsSpec PyReadSpec RKeops RKeopsSpec RLazy.
Import ListNotations.
Local Open Scope nat_scope.
Open Scope string_scope.

(** The matrices and vectors of a program: address, index, value. *)
Definition leaf := (string * rindex * rvalue)%type.
Fixpoint leaves (e : program) : list leaf :=
  match e with
  | XTensor a x v => [(a, x, v)]
  | XInt _ => []
  | X1 _ _ _ e => leaves e
  | X2 _ _ _ e f | XScal e f => (leaves e ++ leaves f)%list
  | X3 _ _ _ e f g => (leaves e ++ leaves f ++ leaves g)%list
  end.

(** Addresses: 0x and hexadecimal digits. *)
Definition hexadecimal (c : ascii) : bool := digit c || existsb (Ascii.eqb c) ["a"; "b"; "c"; "d"; "e"; "f"]%char.
Definition is_address (a : string) : Prop := exists h, a = "0x" ++ h /\ every hexadecimal h = true.

(** There is one object at an address; objects are not empty. *)
Definition one_object (l : list leaf) : Prop :=
  forall a x v x' v', In (a, x, v) l -> In (a, x', v') l -> v = v'.
Definition coordinates (v : rvalue) : nat := match v with Vector n _ => n | Matrix _ m _ => m end.
Definition objects (e : program) : Prop :=
  one_object (leaves e) /\ forall a x v, In (a, x, v) (leaves e) -> is_address a /\ 1 <= coordinates v.

(** Names of operations: not those of addresses, of arguments, of reductions. *)
Definition operation_name (s : string) : Prop :=
  identifier s /\ contains "A0x" s = false /\ contains "_Reduction" s = false /\ (forall k, s <> "V" ++ str_int k /\ s <> "OptV" ++ str_int k).
Fixpoint operations (e : program) : Prop :=
  match e with
  | XTensor _ _ _ | XInt _ => True
  | X1 op _ _ e => operation_name op /\ operations e
  | X2 op _ _ e f => operation_name op /\ operations e /\ operations f
  | XScal e f => operations e /\ operations f
  | X3 op _ _ e f g => operation_name op /\ operations e /\ operations f /\ operations g
  end.

(** The text of a program, for given names of matrices and vectors. *)
Fixpoint shown (name : string -> rindex -> string) (e : program) : string :=
  match e with
  | XTensor a x _ => name a x
  | XInt n => "IntCst(" ++ str_int n ++ ")"
  | X1 op opts _ e => op ++ "(" ++ shown name e ++ String.concat "" (map (fun k => "," ++ str_int k) opts) ++ ")"
  | X2 op _ _ e f => op ++ "(" ++ shown name e ++ "," ++ shown name f ++ ")"
  | XScal e f => "(" ++ shown name e ++ "|" ++ shown name f ++ ")"
  | X3 op _ _ e f g => op ++ "(" ++ shown name e ++ "," ++ shown name f ++ "," ++ shown name g ++ ")"
  end.

(** The operations that are also written between their arguments. *)
Definition arithmetic (op : string) : option string :=
  if String.eqb op "Add" then Some "+" else if String.eqb op "Subtract" then Some "-"
  else if String.eqb op "Mult" then Some "*" else if String.eqb op "Divide" then Some "/" else None.

(** What a program means: matrices and vectors are variables at given places. *)
Definition kind_of (x : rindex) : kind := match x with Ri => KVi | Rj => KVj | RNA => KPm end.
Fixpoint term_of (place : string -> rindex -> nat) (e : program) : term :=
  match e with
  | XTensor a x v => TVar (Z.of_nat (place a x)) (Z.of_nat (coordinates v)) (category (kind_of x))
  | XInt n => TInt n
  | X1 op opts _ e => T1 op (term_of place e) opts
  | X2 op _ _ e f =>
      match arithmetic op with
      | Some s => TOp s (term_of place e) (term_of place f)
      | None => T2 op (term_of place e) (term_of place f) []
      end
  | XScal e f => TOp "|" (term_of place e) (term_of place f)
  | X3 op _ _ e f g => T3 op (term_of place e) (term_of place f) (term_of place g)
  end.

(** Each matrix or vector of the program has one place in [l], one for each index, and there is nothing else in [l]. *)
Definition placed (e : program) (place : string -> rindex -> nat) (l : list rvalue) : Prop :=
  (forall a x v, In (a, x, v) (leaves e) -> nth_error l (place a x) = Some v) /\
  (forall a x v a' x' v', In (a, x, v) (leaves e) -> In (a', x', v') (leaves e) -> place a x = place a' x' -> a = a' /\ x = x') /\
  (forall k, k < List.length l -> exists a x v, In (a, x, v) (leaves e) /\ place a x = k).

(** The declaration of the argument at place [k]. *)
Definition declared_at (is_opt : bool) (e : program) (place : string -> rindex -> nat) (ss : list string) : Prop :=
  forall a x v, In (a, x, v) (leaves e) ->
    nth_error ss (place a x) =
      Some (text (Named ((if is_opt then "OptV" else "V") ++ str_int (Z.of_nat (place a x))) (kind_of x) None (Z.of_nat (coordinates v)))).

(** The usual operations, with the checks and the dimensions of the methods of lazytensor_operations.R. *)
Definition announces (e : program) (d : Z) : Prop := exists z, run e = Ok z /\ z_dim z = d.
Definition usual1 (op : string) (opts : list Z) (d : option Z) (e : program) : Prop :=
  opts = [] /\ (MethodsSpec.unop_of op <> None \/ op = "Normalize") /\ d = None \/
  opts = [] /\ In op ["Sum"; "SqNorm2"; "Norm2"] /\ d = Some 1%Z \/
  (exists k, op = "Pow" /\ opts = [k] /\ d = None) \/
  (exists a b, op = "ClampInt" /\ opts = [a; b] /\ d = None) \/
  (exists k n, op = "Elem" /\ opts = [k] /\ d = Some 1%Z /\ announces e n /\ (0 <= k < n)%Z) \/
  (exists k m n, op = "Extract" /\ opts = [k; m] /\ d = Some m /\ announces e n /\ (0 <= k < n)%Z /\ (0 < m <= n - k)%Z) \/
  (exists m, op = "OneHot" /\ opts = [m] /\ d = Some m /\ announces e 1 /\ (0 < m)%Z).
Definition usual2 (op : string) (c : option dim_check) (d : option Z) (e f : program) : Prop :=
  c = Some SameOr1 /\ (arithmetic op <> None \/ op = "Powf") /\ d = None \/
  c = Some Same /\ op = "Atan2" /\ d = None \/
  c = Some SameOr1 /\ op = "SqDist" /\ d = Some 1%Z \/
  (exists m n, c = None /\ op = "WeightedSqNorm" /\ announces e m /\ announces f n /\ (m = 1 \/ m = n \/ m = n * n)%Z /\ d = Some 1%Z) \/
  (exists m n, c = None /\ op = "TensorProd" /\ announces e m /\ announces f n /\ d = Some (m * n)%Z) \/
  (exists m, c = Some SameOr1 /\ op = "MatVecMult" /\ announces e m /\ (announces f m /\ d = Some 1%Z \/ announces f 1 /\ d = Some m)) \/
  (exists m, c = Some SameOr1 /\ op = "VecMatMult" /\ announces f m /\ (announces e m /\ d = Some 1%Z \/ announces e 1 /\ d = Some m)).
Fixpoint usual (e : program) : Prop :=
  match e with
  | XTensor _ _ _ | XInt _ => True
  | X1 op opts d e => usual1 op opts d e /\ usual e
  | X2 op c d e f => usual2 op c d e f /\ usual e /\ usual f
  | XScal e f => usual e /\ usual f
  | X3 op c d e f g => In op ["IfElse"; "Clamp"; "Mod"] /\ c = SameOr1 /\ d = None /\ usual e /\ usual f /\ usual g
  end.

(** Reducing over i is axis 0, over j axis 1; the result has the other index. *)
Definition axis_of (x : rindex) : Z := match x with Rj => 1 | _ => 0 end%Z.

(** The reductions: third argument, the number kept by the engine, whether the formula has dimension 1, class, what is
    reduced and the number of values. *)
Inductive r_reduction (F : fm) : string -> reduction_arg -> option Z -> bool -> string -> fm -> Z -> Prop :=
| rr_one op : In op ["Sum"; "Min"; "Max"; "ArgMin"; "ArgMax"] ->
    r_reduction F op NoArg None false (op ++ "_Reduction") F (Z.of_nat (dim F))
| rr_two op : In op ["Min_ArgMin"; "Max_ArgMax"] ->
    r_reduction F op NoArg None false (op ++ "_Reduction") F (2 * Z.of_nat (dim F))
| rr_lse : r_reduction F "LogSumExp" NoArg None true "Max_SumShiftExpWeight_Reduction" (Cat F (Int 1)) 2
| rr_k op k : In op ["KMin"; "ArgKMin"] -> (0 < k)%Z ->
    r_reduction F op (IntArg k) (Some k) false (op ++ "_Reduction") F (k * Z.of_nat (dim F))
| rr_kk k : (0 < k)%Z ->
    r_reduction F "KMin_ArgKMin" (IntArg k) (Some k) false "KMin_ArgKMin_Reduction" F (2 * k * Z.of_nat (dim F)).
(** What is weighted by exponentials. *)
Definition weighted_by (op : string) (G K : fm) : Prop :=
  op = "LogSumExpWeight" /\ K = G \/ op = "SumSoftMaxWeight" /\ K = Cat (Int 1) G.
