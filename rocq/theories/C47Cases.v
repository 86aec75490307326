(** Concrete cases for C47. *)

From Coq Require Import ZArith Reals List Bool String Ascii Lia Lra Arith.
From Verif Require Import Result Formula Keys XReal CodeGen CSem CodeGenSpec C22Proofs C47Proofs C47Ops C47Main.
Import ListNotations.
Local Open Scope list_scope.
Local Open Scope nat_scope.

(** The names of MapReduce.py and of the schemes. *)
Definition engine_names : list string :=
  ["i"; "j"; "nx"; "ny"; "xi"; "yj"; "yjrel"; "param_loc"; "acc"; "acctmp"; "fout"; "out"; "args"; "tmp"]%string.

Lemma engine_not_name : forall x, In x engine_names -> forall t n, x <> name t n.
Proof.
  intros x I.
  repeat (destruct I as [<-|I];
    [match goal with |- forall t n, ?s <> _ =>
       let r := eval cbv in (substring 0 (String.length s - 1) s) in
       let c := eval cbv in (String.get (String.length s - 1) s) in
       match c with Some ?c => change s with (r ++ String c "")%string; apply (not_name r c); reflexivity end end|]).
  destruct I.
Qed.

Lemma new_engine : forall (m : mem), (forall x, In x (map fst m) -> In x engine_names) ->
  names_new (fun _ => 0) m.
Proof.
  intros m H t c _. destruct (get _ m) eqn:E; [|reflexivity]. exfalso.
  apply get_In in E. apply (in_map fst) in E. apply (engine_not_name _ (H _ E) t c). reflexivity.
Qed.

(** exp(-|x-y|^2) at x = (1,2), y = (3,5): the memory has xi, yj and fout. *)
Definition gauss : fm :=
  Un UExp (Un UMinus (Lin LSum (Un USquare (Bin BSub (Var 0 2 0) (Var 1 2 1))))).
Definition point2 : env := fun i k =>
  (if (i =? 0)%Z then match k with 0 => 1 | _ => 2 end else match k with 0 => 3 | _ => 5 end)%R.
Definition memory2 : mem :=
  [("fout", OArr [None]); ("xi", OArr [Some (Fin 1); Some (Fin 2)]); ("yj", OArr [Some (Fin 3); Some (Fin 5)])]%string.
Definition table2 : list (option c_array) :=
  [Some (Array (PAdd (PName "xi") 0) 2); Some (Array (PAdd (PName "yj") 0) 2)].

Lemma gauss_case : forall rho,
  wf gauss /\ safe point2 gauss /\ allocated rho memory2 (PName "fout") (dim gauss)
  /\ names_new (fun _ => 0) memory2 /\ loaded rho point2 gauss table2 memory2 (PName "fout")
  /\ exists s g' m', call gauss (Array (PName "fout") 1) table2 (fun _ => 0) = Ok (s, g')
     /\ exec rho s memory2 = Some m' /\ read rho m' (PName "fout") 0 = Some (Fin (exp (-13))).
Proof.
  intros rho. assert (W : wf gauss) by (cbn; tauto).
  assert (S : safe point2 gauss) by (unfold safe; cbn; tauto).
  assert (A : allocated rho memory2 (PName "fout") (dim gauss)) by (exists [None]; split; [reflexivity|cbn; lia]).
  assert (Nn : names_new (fun _ => 0) memory2).
  { apply new_engine. intros x [<-|[<-|[<-|[]]]]; cbn; tauto. }
  assert (L : loaded rho point2 gauss table2 memory2 (PName "fout")).
  { intros i d Oc. cbn [gauss occurs] in Oc. destruct Oc as [[-> ->]|[-> ->]].
    - split; [lia|]. exists (Array (PAdd (PName "xi") 0) 2). split; [reflexivity|]. split; [reflexivity|].
      split; [discriminate|]. intros k K. destruct k as [|[|k]]; [reflexivity|reflexivity|lia].
    - split; [lia|]. exists (Array (PAdd (PName "yj") 0) 2). split; [reflexivity|]. split; [reflexivity|].
      split; [discriminate|]. intros k K. destruct k as [|[|k]]; [reflexivity|reflexivity|lia]. }
  split; [exact W|]. split; [exact S|]. split; [exact A|]. split; [exact Nn|]. split; [exact L|].
  destruct (@generated_code_correct rho gauss point2 table2 (fun _ => 0) memory2 (Array (PName "fout") 1)
              W S eq_refl A Nn L) as (s & g' & m' & E & X & St).
  exists s, g', m'. split; [exact E|]. split; [exact X|].
  destruct St as (_ & _ & c & c' & _ & E' & _ & V & _). cbn [aptr base off] in *.
  unfold read. cbn [base off]. rewrite E', (V 0) by (cbn; lia). do 2 f_equal.
  cbn -[exp]. f_equal. ring.
Qed.

(** OneHot of 5 in dimension 3. *)
Definition far : fm := Sel (SOneHot 3) (Var 0 1 0).
Definition point5 : env := fun _ _ => 5%R.
Definition memory5 : mem := [("fout", OArr [None; None; None]); ("xi", OArr [Some (Fin 5)])]%string.
Definition table5 : list (option c_array) := [Some (Array (PName "xi") 1)].

Lemma trunc5 : Rtrunc (5 + / 2) = 5%Z.
Proof.
  unfold Rtrunc. destruct (Rlt_dec _ 0); [lra|]. destruct (base_Int_part (5 + / 2)) as [H1 H2].
  assert (A : (IZR (Int_part (5 + / 2)) < IZR 6)%R) by lra.
  assert (B : (IZR 4 < IZR (Int_part (5 + / 2)))%R) by lra.
  apply lt_IZR in A, B. lia.
Qed.

Lemma onehot_far : exists rho f e table g m out,
  wf f /\ adim out = dim f /\ allocated rho m (aptr out) (dim f) /\ names_new g m
  /\ loaded rho e f table m (aptr out)
  /\ exists s g', call f out table g = Ok (s, g') /\ exec rho s m = None.
Proof.
  exists (fun _ => 0), far, point5, table5, (fun _ => 0), memory5, (Array (PName "fout") 3).
  split; [cbn; tauto|]. split; [reflexivity|].
  split; [exists [None; None; None]; split; [reflexivity|cbn; lia]|].
  split; [apply new_engine; intros x [<-|[<-|[]]]; cbn; tauto|].
  split.
  { intros i d [-> ->]. split; [lia|]. exists (Array (PName "xi") 1). split; [reflexivity|]. split; [reflexivity|].
    split; [discriminate|]. intros k K. replace k with 0 by lia. reflexivity. }
  eexists _, _. split; [reflexivity|].
  cbn -[Rtrunc Rplus Rdiv IZR]. replace (5 + 1 / 2)%R with (5 + / 2)%R by lra. rewrite trunc5. reflexivity.
Qed.
