(** Code is generated for every well-formed formula. *)

From Coq Require Import ZArith List Bool String Lia Arith.
From Verif Require Import Result Formula SimplifyProofs CodeGen CSem CodeGenSpec C47Ops C47Main.
Import ListNotations.
Local Open Scope list_scope.
Local Open Scope nat_scope.

Definition entries (table : list (option c_array)) (f : fm) : Prop :=
  forall i d, occurs i d f -> exists a, table_get table i = Ok a /\ adim a = d.
Definition generates (f : fm) : Prop :=
  forall table out g, adim out = dim f -> entries table f -> exists c, call f out table g = Ok c.

Lemma child_generates : forall f table g, generates f -> entries table f ->
  exists a s g', child table f (fun o => call f o table) g = Ok (a, s, g') /\ adim a = dim f.
Proof.
  intros f table g G T.
  destruct f; cbn [child].
  1: { destruct (T i d) as (a & E & D); [now split|]. rewrite E. cbn [rbind]. now exists a, SSkip, g. }
  all: match goal with |- exists a s g', rbind ?c _ = _ /\ _ => destruct c as [[st g']| | |] eqn:E end;
    [cbn [rbind]; eexists _, _, _; split; [reflexivity|reflexivity]
    |exfalso..].
  all: match type of E with call ?f ?o ?t ?g = _ => destruct (G t o g eq_refl T) as (c & E'); rewrite E' in E; discriminate end.
Qed.

Lemma apply_generates : forall body out args g D, adim out = D \/ adim out = 1 ->
  Forall (fun a => adim a = D \/ adim a = 1) args -> In D (adim out :: map adim args) -> 1 <= D ->
  exists c, VectApply body out args g = Ok c.
Proof.
  intros body out args g D O F I P. unfold VectApply, VectApplyV. rewrite map_map. cbn [CodeGen.vdim].
  change (map (fun x => adim x) args) with (map adim args).
  destruct (vect_dims (adim out :: map adim args) D ltac:(lia)) as [_ E].
  { intros d [<-|J]; [tauto|]. apply in_map_iff in J as (a & <- & J). rewrite Forall_forall in F. destruct (F a J); auto. }
  { exact I. }
  rewrite E. eexists. reflexivity.
Qed.

Ltac kid f G T := 
  match goal with |- context [child ?t f _ ?g] =>
    let a := fresh "a" in let s := fresh "s" in let g' := fresh "g" in let E := fresh "E" in let D := fresh "D" in
    destruct (child_generates f t g G T) as (a & s & g' & E & D); rewrite E; cbn [rbind]; clear E end.
Ltac apply_vect Dm := match goal with |- context [VectApply ?b ?o ?l ?g] =>
    let c := fresh "c" in let E := fresh "E" in
    destruct (apply_generates b o l g Dm) as (c & E);
      [| | | |rewrite E; cbn [rbind]; eexists; reflexivity] end.

Theorem call_generates : forall f, wf f -> generates f.
Proof.
  induction f; intros W table out g0 Ho T; cbn [call].
  - destruct (T i d) as (a & E & D); [now split|]. rewrite E. cbn [rbind]. eexists. reflexivity.
  - eexists. reflexivity.
  - eexists. reflexivity.
  - eexists. reflexivity.
  - destruct W as [_ W]. assert (P := dim_pos _ W). kid f (IHf W) T. cbn [dim] in Ho.
    apply_vect (dim f); auto. left. now symmetry.
  - destruct W as (K & W1 & W2). assert (P1 := dim_pos _ W1). assert (P2 := dim_pos _ W2).
    kid f1 (IHf1 W1) (fun i d o => T i d (or_introl o)). kid f2 (IHf2 W2) (fun i d o => T i d (or_intror o)).
    cbn [dim] in Ho. cbn [node_ok] in K. unfold vcompat2 in K.
    assert (C : dim f1 = dim f2 \/ dim f1 = 1 \/ dim f2 = 1).
    { apply orb_prop in K as [K|K]; apply Nat.eqb_eq in K; lia. }
    apply_vect (max (dim f1) (dim f2)); [lia| | |lia].
    + repeat (apply Forall_cons; [lia|]); apply Forall_nil.
    + cbn [map In]. lia.
  - destruct W as (K & W1 & W2 & W3). assert (P1 := dim_pos _ W1). assert (P2 := dim_pos _ W2). assert (P3 := dim_pos _ W3).
    kid f1 (IHf1 W1) (fun i d o => T i d (or_introl o)).
    kid f2 (IHf2 W2) (fun i d o => T i d (or_intror (or_introl o))).
    kid f3 (IHf3 W3) (fun i d o => T i d (or_intror (or_intror o))).
    cbn [dim] in Ho. cbn [node_ok] in K. unfold vcompat3 in K.
    apply andb_prop in K as [K K3]. apply andb_prop in K as [K1 K2].
    apply orb_prop in K1. apply orb_prop in K2. apply orb_prop in K3. rewrite !Nat.eqb_eq in *.
    apply_vect (max (max (dim f1) (dim f2)) (dim f3)); [lia| | |lia].
    + repeat (apply Forall_cons; [lia|]); apply Forall_nil.
    + cbn [map In]. lia.
  - destruct W as (K & W). assert (P := dim_pos _ W). kid f (IHf W) T.
    destruct l; cbn [lin_op node_ok dim] in *; try (eexists; reflexivity).
    + unfold seq2. apply_vect (dim f); cbn [map In]; auto.
    + unfold split3. apply Nat.leb_le in K. rewrite Ho, D. replace (s0 + dim f + (d - s0 - dim f) =? d) with true; [cbn; eexists; reflexivity|].
      symmetry. apply Nat.eqb_eq. lia.
  - destruct W as (K & W1 & W2). assert (P1 := dim_pos _ W1). assert (P2 := dim_pos _ W2).
    kid f1 (IHf1 W1) (fun i d o => T i d (or_introl o)). kid f2 (IHf2 W2) (fun i d o => T i d (or_intror o)).
    destruct b; cbn [bil_op node_ok dim] in *; try (eexists; reflexivity).
    apply Nat.eqb_eq in K. unfold seq2. apply_vect (dim f1); cbn [map In]; auto.
    repeat (apply Forall_cons; [lia|]); apply Forall_nil.
  - destruct W as (K & W1 & W2).
    kid f1 (IHf1 W1) (fun i d o => T i d (or_introl o)). kid f2 (IHf2 W2) (fun i d o => T i d (or_intror o)).
    unfold cat_op, split2. cbn [dim] in Ho. rewrite Ho, D, D0, Nat.eqb_refl. cbn. eexists. reflexivity.
  - destruct W as (K & W). kid f (IHf W) T. destruct s; cbn; eexists; reflexivity.
Qed.

Theorem code_generated : forall f table out g, wf f -> adim out = dim f ->
  (forall i d, occurs i d f -> (0 <= i)%Z /\ exists a, nth_error table (Z.to_nat i) = Some (Some a) /\ adim a = d) ->
  exists s g', call f out table g = Ok (s, g').
Proof.
  intros f table out g W D T. destruct (call_generates f W table out g D) as ([s g'] & E); [|now exists s, g'].
  intros i d Oc. destruct (T i d Oc) as (P & a & N & Da). exists a. split; [now apply tab_get|exact Da].
Qed.
