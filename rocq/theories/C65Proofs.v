(** Proofs for C65: reductions of programs. *)

From Coq Require Import ZArith List Bool Ascii String Lia.
From Verif Require Import Result BackText Keys KeySpec Folder Aliases AliasSpec Formula Simplify SimplifyProofs Build Methods MethodsSpec PyRead PyReadSpec PyReadProofs C22Proofs C26Proofs
  C55Proofs C55More C56Proofs C57Proofs C01Proofs RedText GenericOps GenericOpsSpec GenericRead C61Proofs RKeops RKeopsSpec C64Proofs C64Grad RLazy RLazySpec C65Names C65Args C65Read ReadLast.
Import ListNotations.
Local Open Scope nat_scope.
Open Scope string_scope.

Definition vname (is_opt : bool) (k : nat) : string := (if is_opt then "OptV" else "V") ++ str_int (Z.of_nat k).

Lemma vname_ok : forall o k, is_name (vname o k) /\ has "_" (vname o k) = false.
Proof.
  intros o k. destruct (str_int_digits (Z.of_nat k) ltac:(lia)) as [D _].
  assert (E : every (fun c => name_letter c || digit c) (str_int (Z.of_nat k)) = true).
  { revert D. generalize (str_int (Z.of_nat k)). induction s as [|c s IH]; intros D; [reflexivity|]. cbn [every] in *.
    apply andb_true_iff in D. destruct D as [D1 D2]. rewrite D1, orb_true_r. now apply IH. }
  split; [|unfold vname; rewrite has_app, str_int_has by (reflexivity || discriminate); destruct o; reflexivity].
  unfold vname. destruct o; eexists _, _; (split; [reflexivity|split; [reflexivity|]]); exact E.
Qed.
Lemma str_int_inj : forall a b, str_int (Z.of_nat a) = str_int (Z.of_nat b) -> a = b.
Proof.
  intros a b E. destruct (digits_filled (Z.of_nat a) ltac:(lia)) as [_ A]. destruct (digits_filled (Z.of_nat b) ltac:(lia)) as [_ B].
  rewrite E in A. lia.
Qed.
Lemma app_left : forall a b c : string, a ++ b = a ++ c -> b = c.
Proof. induction a as [|x a IH]; intros b c E; [exact E|]. cbn [append] in E. injection E as E. auto. Qed.
Lemma vname_inj : forall o a b, vname o a = vname o b -> a = b.
Proof. intros o a b E. apply app_left in E. now apply str_int_inj. Qed.

(** ** Declarations *)

Fixpoint decls (o : bool) (k : nat) (l : list leaf) : list declaration :=
  match l with
  | [] => []
  | q :: l => Named (vname o k) (kind_of (ind q)) None (Z.of_nat (coordinates (val q))) :: decls o (S k) l
  end.
Lemma decls_nth : forall o l k n, nth_error (decls o k l) n =
  option_map (fun q => Named (vname o (k + n)) (kind_of (ind q)) None (Z.of_nat (coordinates (val q)))) (nth_error l n).
Proof.
  intros o. induction l as [|q l IH]; intros k n; [destruct n; reflexivity|]. destruct n as [|n]; cbn [decls nth_error option_map].
  - now rewrite Nat.add_0_r.
  - rewrite IH. now rewrite Nat.add_succ_comm.
Qed.
Lemma decls_length : forall o l k, List.length (decls o k l) = List.length l.
Proof. intros o. induction l as [|q l IH]; intros k; [reflexivity|]. cbn [decls List.length]. now rewrite IH. Qed.
Lemma vname_neq : forall a b, vname false a <> vname true b.
Proof.
  intros a b E. unfold vname in E. destruct (str_int_digits (Z.of_nat a) ltac:(lia)) as [D _]. cbn [append] in E.
  discriminate.
Qed.
Lemma some_inj : forall (A : Type) (x y : A), Some x = Some y -> x = y.
Proof. congruence. Qed.
Lemma decls_once : forall l m, once (decls false 0 l ++ decls true 0 m).
Proof.
  intros l m i j d d' n I J A B.
  assert (Q : forall i d, nth_error (decls false 0 l ++ decls true 0 m) i = Some d ->
    i < List.length l /\ name_of d = Some (vname false i) \/ List.length l <= i /\ name_of d = Some (vname true (i - List.length l))).
  { clear. intros i d H. destruct (Nat.lt_ge_cases i (List.length l)) as [L|L].
    - left. split; [exact L|]. rewrite nth_error_app1, decls_nth in H by now rewrite decls_length. destruct (nth_error l i); [|discriminate].
      cbn in H. injection H as <-. reflexivity.
    - right. split; [exact L|]. rewrite nth_error_app2, decls_nth, decls_length in H by now rewrite decls_length.
      destruct (nth_error m _); [|discriminate]. cbn in H. injection H as <-. reflexivity. }
  destruct (Q i d I) as [[L1 E1]|[L1 E1]], (Q j d' J) as [[L2 E2]|[L2 E2]]; rewrite E1 in A; rewrite E2 in B;
    assert (X := eq_trans B (eq_sym A)); clear A B; apply some_inj in X.
  - symmetry. exact (vname_inj _ _ _ X).
  - symmetry in X. now apply vname_neq in X.
  - now apply vname_neq in X.
  - apply vname_inj in X. lia.
Qed.
Lemma decls_in : forall o l k d, In d (decls o k l) ->
  exists q n, In q l /\ d = Named (vname o n) (kind_of (ind q)) None (Z.of_nat (coordinates (val q))).
Proof.
  intros o. induction l as [|q l IH]; intros k d H; [contradiction|]. destruct H as [<-|H]; [exists q, k; split; [now left|reflexivity]|].
  destruct (IH _ _ H) as (p & n & P & E). exists p, n. split; [now right|exact E].
Qed.
Lemma decls_declared : forall l m s, is_declared (decls false 0 l ++ decls true 0 m) s -> exists o k, s = vname o k.
Proof.
  intros l m s (d & I & N). apply in_app_or in I. destruct I as [I|I]; apply decls_in in I; destruct I as (q & k & _ & ->); cbn [name_of] in N;
    apply some_inj in N; [exists false, k|exists true, k]; now symmetry.
Qed.
Lemma decls_dims : forall o l k, Forall (fun q : leaf => 1 <= coordinates (val q)) l -> Forall (fun d => 1 <= dimension d)%Z (decls o k l).
Proof.
  intros o l k C. apply Forall_forall. intros d I. apply decls_in in I. destruct I as (q & n & I & ->). cbn [dimension].
  rewrite Forall_forall in C. specialize (C q I). lia.
Qed.

Lemma spaced_same : forall s, spaced s s.
Proof. induction s; constructor; auto. Qed.

Lemma args_decls : forall o l k n, k + List.length l <= n ->
  Forall (fun q : leaf => 1 <= coordinates (val q)) l -> Forall2 (fun s d => valid d /\ spaced s (text d)) (args_at o n k l) (decls o k l).
Proof.
  intros o. induction l as [|q l IH]; intros k n L H; [constructor|].
  cbn [List.length] in L. inversion H; subst. cbn [args_at decls].
  assert (X : arg_at o n k q = text (Named (vname o k) (kind_of (ind q)) None (Z.of_nat (coordinates (val q))))).
  { unfold arg_at. rewrite (proj2 (Nat.ltb_lt k n)) by lia. reflexivity. }
  constructor; [|apply IH; [lia|assumption]].
  rewrite X. split; [|apply spaced_same]. cbn [valid]. split; [apply vname_ok|]. cbn. lia.
Qed.

(** ** Values *)

Section Values.
  Variable ds : list declaration.
  Hypothesis O : once ds.
  Hypothesis V : Forall valid ds.
  Hypothesis D : Forall (fun d => 1 <= dimension d)%Z ds.
  Let names := found (table 0 ds).
  Variable place : string -> rindex -> nat.
  Variable nm : string -> rindex -> string.

  Lemma lift_is : forall r v, lift r = Ok v -> exists f, v = VF f.
  Proof. clear. intros [f| | |] v H; try discriminate. injection H as <-. eauto. Qed.

  Definition same_value (a b : py) : Prop := evaluate names a = evaluate names b /\ forall v, evaluate names a = Ok v -> exists f, v = VF f.

  Lemma same_call : forall op l l', ev_list names l = ev_list names l' -> same_value (PCall (PName op) l) (PCall (PName op) l').
  Proof.
    intros op l l' E. unfold same_value. rewrite !ev_call, E. split; [reflexivity|].
    intros v H. apply rbind_ok in H. destruct H as (w & _ & H). now apply call_is in H.
  Qed.

  Lemma same_arith : forall op s y a b t u, arithmetic op = Some s -> symbol s = Some y -> same_value a t -> same_value b u ->
    same_value (PCall (PName op) [a; b]) (PBin y t u) /\ ordering y = false.
  Proof.
    intros op s y a b t u A S [Ea Fa] [Eb Fb].
    assert (Q : ordering y = false /\ forall f g, call op [VF f; VF g] = binary_op y (VF f) (VF g)).
    { unfold arithmetic in A. repeat match type of A with
      | (if String.eqb op ?x then _ else _) = _ => destruct (String.eqb_spec op x) as [->|]; [injection A as <-; injection S as <-; split; reflexivity|]
      end. discriminate. }
    destruct Q as [Q1 Q2]. split; [|exact Q1]. unfold same_value. rewrite ev_call, !ev_list_cons, ev_bin, <- Ea, <- Eb.
    destruct (evaluate names a) as [x| | |] eqn:X; cbn [rbind]; try (split; [reflexivity|discriminate]).
    destruct (Fa x eq_refl) as [f ->].
    destruct (evaluate names b) as [w| | |] eqn:W; cbn [rbind]; try (split; [reflexivity|discriminate]).
    destruct (Fb w eq_refl) as [g ->]. cbn [ev_list rbind]. rewrite Q2. split; [reflexivity|].
    intros v H. rewrite <- Q2 in H. now apply call_is in H.
  Qed.

  Lemma value_same : forall e, (forall a x v, In (a, x, v) (leaves e) ->
      declares ds (nm a x) (category (kind_of x), Z.of_nat (coordinates v), Z.of_nat (place a x))) ->
    same_value (ptree nm e) (tree (term_of place e)).
  Proof.
    induction e as [a x v|n|op opts d e IH|op c d e IHe f IHf|e IHe f IHf|op c d e IHe f IHf g IHg]; intros L; cbn [leaves ptree term_of] in *.
    - assert (H := L a x v (or_introl eq_refl)). destruct (declared_var ds V D _ _ _ _ H) as [A B].
      unfold same_value. change (tree (TVar ?p ?d ?c)) with (ReadSaved.vtree p d c). rewrite ReadSaved.value_var by auto.
      cbn [evaluate]. unfold names. rewrite (found_declared ds _ _ _ _ O H). split; [reflexivity|]. intros w E. injection E as <-. eauto.
    - now apply same_call.
    - destruct (IH L) as [E _]. cbn [tree]. apply same_call. now rewrite !ev_list_cons, E.
    - destruct (IHe (fun a x v H => L a x v (in_or_app _ _ _ (or_introl H)))) as [E F].
      destruct (IHf (fun a x v H => L a x v (in_or_app _ _ _ (or_intror H)))) as [E' F'].
      destruct (arithmetic op) as [s|] eqn:A.
      + cbn [tree]. assert (S : exists y, symbol s = Some y).
        { unfold arithmetic in A. repeat match type of A with
          | (if String.eqb op ?x then _ else _) = _ => destruct (String.eqb op x); [injection A as <-; eexists; reflexivity|]
          end. discriminate. }
        destruct S as (y & S). rewrite S. destruct (same_arith op s y _ _ _ _ A S (conj E F) (conj E' F')) as [R ->]. exact R.
      + cbn [tree map]. apply same_call. now rewrite !ev_list_cons, E, E'.
    - destruct (IHe (fun a x v H => L a x v (in_or_app _ _ _ (or_introl H)))) as [E F].
      destruct (IHf (fun a x v H => L a x v (in_or_app _ _ _ (or_intror H)))) as [E' F'].
      change (tree (TOp "|" (term_of place e) (term_of place f))) with (PBin SBar (tree (term_of place e)) (tree (term_of place f))).
      unfold same_value. rewrite !ev_bin, <- E, <- E'. split; [reflexivity|]. intros v H.
      apply rbind_ok in H. destruct H as (x & X & H). apply rbind_ok in H. destruct H as (y & Y & H).
      destruct (F x X) as [f0 ->]. destruct (F' y Y) as [g0 ->]. cbn [binary_op] in H. now apply lift_is in H.
    - assert (HE := fun a x v H => L a x v (in_or_app _ _ _ (or_introl H))).
      assert (HF := fun a x v H => L a x v (in_or_app _ _ _ (or_intror (in_or_app _ _ _ (or_introl H))))).
      assert (HG := fun a x v H => L a x v (in_or_app _ _ _ (or_intror (in_or_app _ _ _ (or_intror H))))).
      destruct (IHe HE) as [E _]. destruct (IHf HF) as [E' _]. destruct (IHg HG) as [E'' _].
      cbn [tree]. apply same_call. now rewrite !ev_list_cons, E, E', E''.
  Qed.

  Lemma called_ok : (forall s, is_declared ds s -> exists o k, s = vname o k) ->
    forall e, operations e -> forall s, In s (called (ptree nm e)) -> ~ is_declared ds s.
  Proof.
    intros DV. assert (N : forall op, operation_name op -> ~ is_declared ds op).
    { intros op (_ & _ & _ & H) I. destruct (DV op I) as ([|] & k & ->); destruct (H (Z.of_nat k)) as [X Y]; [now apply Y|now apply X]. }
    assert (NI : ~ is_declared ds "IntCst"). { intros I. destruct (DV _ I) as ([|] & k & E); discriminate. }
    induction e as [a x v|n|op opts d e IH|op c d e IHe f IHf|e IHe f IHf|op c d e IHe f IHf g IHg]; intros W s I;
      cbn [operations ptree called flat_map] in *; rewrite ?app_nil_r, ?literal_called, ?literals_called, ?app_nil_r in I; cbn [app] in I.
    - contradiction.
    - destruct I as [<-|[]]. exact NI.
    - destruct W as [WO W]. destruct I as [<-|I]; [now apply N|]. now apply IH.
    - destruct W as (WO & We & Wf). destruct I as [<-|I]; [now apply N|]. apply in_app_or in I. destruct I; [apply IHe|apply IHf]; auto.
    - destruct W as (We & Wf). apply in_app_or in I. destruct I; [apply IHe|apply IHf]; auto.
    - destruct W as (WO & We & Wf & Wg). destruct I as [<-|I]; [now apply N|]. rewrite !in_app_iff in I.
      destruct I as [I|[I|I]]; [apply IHe|apply IHf|apply IHg]; auto.
  Qed.

  (** What is made of what is read. *)
  Section Read.
    Variables (f : string) (e : py) (F : fm).
    Hypothesis R : reads f e.
    Hypothesis A : agrees (evaluate names e) (build F).
    Hypothesis W : wf F.
    Hypothesis CA : forall s, In s (called e) -> ~ is_declared ds s.

    Lemma unhidden : forall name l, (forall s, In s (flat_map called l) -> ~ is_declared ds s) -> ~ is_declared ds name ->
      reduction_in (table 0 ds) (PCall (PName name) (e :: l)) = get_reduction (found (table 0 ds)) None (PCall (PName name) (e :: l)).
    Proof.
      intros name l CL N. unfold reduction_in. destruct (existsb _ (called _)) eqn:X; auto. apply existsb_exists in X.
      destruct X as (s & I & X). cbn [called] in I. cbn [flat_map] in I. cbn [app] in I.
      rewrite found_undeclared in X; [discriminate|]. destruct I as [<-|I]; [exact N|]. apply in_app_or in I. destruct I; auto.
    Qed.
    Lemma unhidden_numbers : forall name zs, ~ is_declared ds name ->
      reduction_in (table 0 ds) (PCall (PName name) (e :: map literal zs)) =
      get_reduction (found (table 0 ds)) None (PCall (PName name) (e :: map literal zs)).
    Proof. intros name zs N. apply unhidden; [|exact N]. intros s I. rewrite literals_called in I. contradiction. Qed.

    Lemma made_two : forall name c d dr, identifier name -> ~ is_declared ds name -> is_lse name = false ->
      (forall g, zdim g = Z.of_nat (dim F) -> make2 name g c = Ok (simple name g c d dr)) ->
      engine_makes (meanings 0 ds) (name ++ "(" ++ f ++ "," ++ str_int c ++ ")") None false c F name F d.
    Proof.
      intros name c d dr I N L MK. exists (PCall (PName name) (e :: map literal [c])), (table 0 ds).
      split. { exact (args_read name f e c [] I R). }
      split; [now apply table_ok|]. rewrite unhidden_numbers by exact N.
      cbn [get_reduction]. rewrite C57Proofs.eval_all, ev_list_cons, ev_literals.
      destruct (agrees_inv _ _ A) as [(x & E & B)|[B NV]].
      - fold names. rewrite E. cbn [rbind map construct]. rewrite L.
        assert (DX : zdim x = Z.of_nat (dim F)). { unfold zdim. f_equal. apply (build_value F x W B). }
        rewrite (MK x DX). cbn [rbind]. split.
        + intros o k' H. injection H as <- <-. cbn. assert (Q := build_value F x W B). repeat (split; [auto; fail|]). discriminate.
        + intros h H _. eexists. split; [reflexivity|]. cbn. congruence.
      - fold names. split.
        + intros o k' H. destruct (evaluate names e) as [v| | |]; [destruct (NV v eq_refl)|discriminate..].
        + intros h H. now rewrite H in B.
    Qed.
    Lemma made_number : forall name k c d dr, identifier name -> ~ is_declared ds name ->
      (forall g, zdim g = Z.of_nat (dim F) -> make3 name g k c = Ok (simple name g c d dr, k)) ->
      engine_makes (meanings 0 ds) (name ++ "(" ++ f ++ "," ++ str_int k ++ "," ++ str_int c ++ ")") (Some k) false c F name F d.
    Proof.
      intros name k c d dr I N MK. exists (PCall (PName name) (e :: map literal [k; c])), (table 0 ds).
      split. { exact (args_read name f e k [c] I R). }
      split; [now apply table_ok|]. rewrite unhidden_numbers by exact N.
      cbn [get_reduction]. rewrite C57Proofs.eval_all, ev_list_cons, ev_literals.
      destruct (agrees_inv _ _ A) as [(x & E & B)|[B NV]].
      - fold names. rewrite E. cbn [rbind map construct].
        assert (DX : zdim x = Z.of_nat (dim F)). { unfold zdim. f_equal. apply (build_value F x W B). }
        rewrite (MK x DX). cbn [rbind fst snd]. split.
        + intros o k' H. injection H as <- <-. cbn. assert (Q := build_value F x W B). repeat (split; [auto; fail|]). discriminate.
        + intros h H _. eexists. split; [reflexivity|]. cbn. congruence.
      - fold names. split.
        + intros o k' H. destruct (evaluate names e) as [v| | |]; [destruct (NV v eq_refl)|discriminate..].
        + intros h H. now rewrite H in B.
    Qed.

    (** With a second formula. *)
    Lemma made_weight : forall x e2 G c, wf G -> agrees (evaluate names e2) (build G) ->
      (forall s, In s (called e2) -> ~ is_declared ds s) -> ~ is_declared ds "Max_SumShiftExpWeight_Reduction" ->
      reads x (PCall (PName "Max_SumShiftExpWeight_Reduction") [e; literal c; e2]) ->
      engine_makes (meanings 0 ds) x None true c F "Max_SumShiftExpWeight_Reduction" (Cat F G) (Z.of_nat (dim F + dim G)).
    Proof.
      intros x e2 G c WG A2 CA2 N RX. eexists _, (table 0 ds). split; [exact RX|]. split; [now apply table_ok|].
      rewrite unhidden; [|intros s I; cbn [flat_map] in I; rewrite literal_called, app_nil_r in I; now apply CA2|exact N].
      cbn [get_reduction]. rewrite C57Proofs.eval_all, !ev_list_cons, eval_literal. fold names.
      destruct (agrees_inv _ _ A) as [(y & E & B)|[B NV]].
      - rewrite E. cbn [rbind]. destruct (agrees_inv _ _ A2) as [(y2 & E2 & B2)|[B2 NV2]].
        + rewrite E2. cbn [rbind ev_list construct].
          assert (DX := proj1 (proj2 (build_value F y W B))). assert (DG := proj1 (proj2 (build_value G y2 WG B2))).
          unfold make_lse. change (existsb _ _) with true. cbn iota. cbn [build]. rewrite B, B2. cbn [rbind]. split.
          * intros o k' H. destruct (Nat.eqb_spec (dim y) 1) as [O1|]; [cbn [negb] in H|discriminate].
            destruct (mk (Cat y y2)) as [h| | |] eqn:K; try discriminate. cbn [rbind] in H. injection H as <- <-.
            cbn [simple ro_id ro_formula ro_tag ro_dim]. repeat (split; [reflexivity|]). split.
            { apply build_value; [cbn [wf]; auto|]. cbn [build]. rewrite B, B2. exact K. }
            split; [reflexivity|]. split; [unfold zdim; lia|intros _; congruence].
          * intros h H O1. rewrite DX, (O1 eq_refl). cbn [Nat.eqb negb]. rewrite H. cbn [rbind]. eexists. split; reflexivity.
        + split.
          * intros o k' H. destruct (evaluate names e2) as [v| | |]; [destruct (NV2 v eq_refl)|discriminate..].
          * intros h H. cbn [build] in H. apply rbind_ok in H. destruct H as (z & _ & H). apply rbind_ok in H. destruct H as (z2 & H & _).
            now rewrite H in B2.
      - split.
        + intros o k' H. destruct (evaluate names e) as [v| | |]; [destruct (NV v eq_refl)|discriminate..].
        + intros h H. cbn [build] in H. apply rbind_ok in H. destruct H as (z & H & _). now rewrite H in B.
    Qed.
    Lemma made_lse : forall c, ~ is_declared ds "Max_SumShiftExp_Reduction" ->
      engine_makes (meanings 0 ds) ("Max_SumShiftExp_Reduction" ++ "(" ++ f ++ "," ++ str_int c ++ ")") None true c F
        "Max_SumShiftExpWeight_Reduction" (Cat F (Int 1)) 2.
    Proof.
      intros c N. exists (PCall (PName "Max_SumShiftExp_Reduction") (e :: map literal [c])), (table 0 ds).
      split. { apply (args_read "Max_SumShiftExp_Reduction" f e c []); [ident|exact R]. }
      split; [now apply table_ok|]. rewrite unhidden_numbers by exact N.
      cbn [get_reduction]. rewrite C57Proofs.eval_all, ev_list_cons, ev_literals. fold names.
      destruct (agrees_inv _ _ A) as [(x & E & B)|[B NV]].
      - rewrite E. cbn [rbind map construct]. change (is_lse "Max_SumShiftExp_Reduction") with true. cbn iota.
        assert (DX := proj1 (proj2 (build_value F x W B))).
        unfold make_lse. change (existsb _ _) with true. cbn iota. cbn [build]. rewrite B. cbn [rbind].
        change (IntCst 1) with (Int 1). split.
        + intros o k' H. destruct (Nat.eqb_spec (dim x) 1) as [O1|]; [cbn [negb] in H|discriminate].
          destruct (mk (Cat x (Int 1))) as [h| | |] eqn:K; try discriminate. cbn [rbind] in H. injection H as <- <-.
          cbn [simple ro_id ro_formula ro_tag ro_dim]. repeat (split; [reflexivity|]). split.
          { apply build_value; [cbn [wf]; auto|]. cbn [build]. rewrite B. exact K. }
          repeat split; auto; [unfold zdim; cbn [dim]; lia|intros _; congruence].
        + intros h H O1. rewrite DX, (O1 eq_refl). cbn [Nat.eqb negb]. rewrite H. cbn [rbind].
          eexists. split; reflexivity.
      - split.
        + intros o k' H. destruct (evaluate names e) as [v| | |]; [destruct (NV v eq_refl)|discriminate..].
        + intros h H. cbn [build] in H. apply rbind_ok in H. destruct H as (x & H & _). now rewrite H in B.
    Qed.
  End Read.
End Values.

(** ** Texts *)

Definition name_in (o : bool) (place : string -> rindex -> nat) (a : string) (x : rindex) : string :=
  (if o then "OptV" else "V") ++ str_int (Z.of_nat (place a x)).

Lemma fixed_text : forall is_opt e z, objects e -> operations e -> run e = Ok z ->
  exists place ss, placed e place (z_data z) /\ fix_variables is_opt z = Ok (shown (name_in is_opt place) e, ss) /\
    declared_at is_opt e place ss /\ List.length ss = List.length (z_data z).
Proof.
  intros is_opt e z OB OP H. destruct (run_holds e z H) as (ls & HO).
  exists (place_in ls), (args_at is_opt (List.length ls) 0 ls).
  split; [now apply are_placed|]. split; [now apply fixed|]. split; [now apply (fixed_declared e z ls HO OB)|].
  rewrite args_at_length, (h_data _ _ _ HO), map_length. reflexivity.
Qed.

Lemma index_axis : forall x t, index_to_int x = Ok t -> t = axis_of x /\ (0 <= t)%Z.
Proof. intros [| |] t H; injection H as <- || discriminate; split; reflexivity || lia. Qed.
Lemma kernel_parts : forall T ss o, keops_kernel T ss = Ok o -> o_formula o = T /\ o_args o = ss /\ ss <> [].
Proof.
  intros T ss o H. unfold keops_kernel in H. destruct ss as [|s ss]; [discriminate|]. destruct (variable_in _); [discriminate|].
  apply rbind_inv in H. destruct H as (l & _ & H). destruct (_ || _); [|discriminate]. injection H as <-. repeat split. discriminate.
Qed.

Lemma direct : forall T d, written T d -> get_pykeops_formula T = Ok d.
Proof. intros T d W. apply (r_kernel T T d W). apply no_spaces_same. exact (written_space T d W). Qed.

Lemma plain_described : forall e z op index o, objects e -> operations e -> run e = Ok z -> reduction_name op ->
  preprocess_reduction z op index NoArg = Ok o ->
  exists place, placed e place (z_data z) /\ declared_at false e place (o_args o) /\ List.length (o_args o) = List.length (z_data z) /\
    get_pykeops_formula (o_formula o) =
      Ok {| d_op := op; d_main := shown (name_in false place) e; d_axis := Some (axis_of index); d_opt := NoOption |}.
Proof.
  intros e z op index o OB OP H RN PR. destruct (fixed_text false e z OB OP H) as (place & ss & P & F & DA & L). exists place.
  unfold preprocess_reduction in PR. apply rbind_inv in PR. destruct PR as (t & T & PR). destruct (index_axis _ _ T) as [-> T0].
  rewrite F in PR. cbn [rbind] in PR. destruct (kernel_parts _ _ _ PR) as (OF & OA & _). rewrite OF, OA.
  split; [exact P|]. split; [exact DA|]. split; [exact L|]. apply direct. apply W_plain; [exact RN| |exact T0].
  apply shown_part; [|exact OP]. intros a x. apply (vname_ok false).
Qed.
Lemma number_described : forall e z op index k o, objects e -> operations e -> run e = Ok z -> reduction_name op ->
  op <> "LogSumExpWeight" -> op <> "SumSoftMaxWeight" -> (0 <= k)%Z ->
  preprocess_reduction z op index (IntArg k) = Ok o ->
  exists place, placed e place (z_data z) /\ declared_at false e place (o_args o) /\ List.length (o_args o) = List.length (z_data z) /\
    get_pykeops_formula (o_formula o) =
      Ok {| d_op := op; d_main := shown (name_in false place) e; d_axis := Some (axis_of index); d_opt := Number (Some k) |}.
Proof.
  intros e z op index k o OB OP H RN N1 N2 K PR. destruct (fixed_text false e z OB OP H) as (place & ss & P & F & DA & L). exists place.
  unfold preprocess_reduction in PR. apply rbind_inv in PR. destruct PR as (t & T & PR). destruct (index_axis _ _ T) as [-> T0].
  rewrite F in PR. cbn [rbind] in PR. destruct (kernel_parts _ _ _ PR) as (OF & OA & _). rewrite OF, OA.
  split; [exact P|]. split; [exact DA|]. split; [exact L|]. apply direct. apply W_number; auto.
  apply shown_part; [|exact OP]. intros a x. apply (vname_ok false).
Qed.
Lemma weight_described : forall e z w y op index o, objects e -> operations e -> run e = Ok z ->
  objects w -> operations w -> run w = Ok y -> op = "LogSumExpWeight" \/ op = "SumSoftMaxWeight" ->
  preprocess_reduction z op index (TensorArg y) = Ok o ->
  exists place place' ss ss', placed e place (z_data z) /\ placed w place' (z_data y) /\
    declared_at false e place ss /\ declared_at true w place' ss' /\ o_args o = (ss ++ ss')%list /\
    List.length ss = List.length (z_data z) /\ List.length ss' = List.length (z_data y) /\
    get_pykeops_formula (o_formula o) =
      Ok {| d_op := op; d_main := shown (name_in false place) e; d_axis := Some (axis_of index);
            d_opt := Weight (shown (name_in true place') w) |}.
Proof.
  intros e z w y op index o OB OP H OB' OP' H' RN PR. destruct (fixed_text false e z OB OP H) as (place & ss & P & F & DA & L).
  destruct (fixed_text true w y OB' OP' H') as (place' & ss' & P' & F' & DA' & L'). exists place, place', ss, ss'.
  unfold preprocess_reduction in PR. apply rbind_inv in PR. destruct PR as (t & T & PR). destruct (index_axis _ _ T) as [-> T0].
  rewrite F in PR. cbn [rbind] in PR. rewrite F' in PR. cbn [rbind fst snd] in PR.
  destruct (kernel_parts _ _ _ PR) as (OF & OA & _). rewrite OF, OA.
  repeat (split; [assumption || reflexivity|]). apply direct. apply W_weight; auto; apply shown_part; auto; intros a x; [apply (vname_ok false)|apply (vname_ok true)].
Qed.

(** ** Data *)

Lemma as_points : forall v, points "col" v (as_matrix v).
Proof. intros [n f|n m f]; cbn; [auto|left; auto]. Qed.
Lemma unnamed_no : forall l, has_names (unnamed l) = false.
Proof. induction l; [reflexivity|]. cbn. exact IHl. Qed.
Lemma unnamed_snd : forall l, map snd (unnamed l) = l.
Proof. induction l as [|v l IH]; [reflexivity|]. cbn. f_equal. exact IH. Qed.
Lemma unnamed_data : forall o l m, operator_data o (unnamed l) "col" = Ok m -> m = map as_matrix l.
Proof.
  intros o l m H. unfold operator_data in H. destruct (Nat.eqb _ _); [|discriminate]. rewrite unnamed_no, unnamed_snd in H.
  cbn in H. now injection H.
Qed.
Lemma placed_points : forall e place l, placed e place l -> forall a x v, In (a, x, v) (leaves e) ->
  exists m, nth_error (map as_matrix l) (place a x) = Some m /\ points "col" v m.
Proof.
  intros e place l (P & _) a x v I. exists (as_matrix v). split; [|apply as_points].
  rewrite nth_error_map, (P a x v I). reflexivity.
Qed.

(** ** Reductions *)

Lemma axis_cat : forall x, axis2cat (axis_of x) = Ok (1 - axis_of x)%Z.
Proof. intros [| |]; reflexivity. Qed.
Lemma axis_range : forall x, (0 <= axis_of x)%Z.
Proof. intros [| |]; cbn; lia. Qed.

(** The program and its declarations, for a list of all declarations that has them at [n]. *)
Lemma program_value : forall ds o e z ls n, holds e z ls -> objects e -> operations e -> once ds -> Forall valid ds ->
  Forall (fun d => 1 <= dimension d)%Z ds -> (forall s, is_declared ds s -> exists o k, s = vname o k) ->
  (forall k d, nth_error (decls o 0 ls) k = Some d -> nth_error ds (n + k) = Some d) ->
  forall F, as_formula (term_of (fun a x => n + place_in ls a x) e) = Some F -> wf F ->
    engine_term (term_of (fun a x => n + place_in ls a x) e) ->
  let nm := fun a x => vname o (place_in ls a x) in
  reads (shown nm e) (ptree nm e) /\ agrees (evaluate (found (table 0 ds)) (ptree nm e)) (build F) /\
  (forall s, In s (called (ptree nm e)) -> ~ is_declared ds s).
Proof.
  intros ds o e z ls n HO OB OP ON V D DV AT F AF W ET nm.
  split. { apply shown_read; [|exact OP]. intros a x. apply name_identifier, (vname_ok o). }
  split; [|now apply called_ok].
  assert (VS : same_value ds (ptree nm e) (tree (term_of (fun a x => n + place_in ls a x) e))).
  { apply value_same; auto. intros a x v I.
    assert (PI : nth_error ls (place_in ls a x) = Some (a, x, v)) by exact (place_is e z ls HO OB (a, x, v) I).
    exists (n + place_in ls a x), (Named (nm a x) (kind_of x) None (Z.of_nat (coordinates v))).
    split; [apply AT; rewrite decls_nth, PI; reflexivity|]. cbn. repeat split; reflexivity. }
  destruct VS as [-> _]. now apply eval_tree.
Qed.

Lemma reduction_parts : forall z op index opt o l, reduction z op index opt = Ok (o, l) ->
  preprocess_reduction z op index opt = Ok o /\
  l = map as_matrix (z_data z ++ match opt with TensorArg w => z_data w | _ => [] end).
Proof.
  intros z op index opt o l R. unfold reduction in R. apply rbind_inv in R. destruct R as (o' & PR & R).
  apply rbind_inv in R. destruct R as (l' & OD & R). injection R as -> ->. apply unnamed_data in OD. auto.
Qed.

Lemma holds_dims : forall e z ls, holds e z ls -> objects e -> Forall (fun q : leaf => 1 <= coordinates (val q)) ls.
Proof. intros e z ls HO OB. apply Forall_forall. intros q I. apply (leaf_of e OB). now apply (h_in _ _ _ HO). Qed.
Lemma valid_of : forall ss ds, Forall2 (fun s d => valid d /\ spaced s (text d)) ss ds -> Forall valid ds.
Proof. intros ss ds AD. induction AD as [|s d ss ds [V _] _ IH]; constructor; auto. Qed.

Lemma reduction_made : forall e z op index opt o l, objects e -> operations e -> run e = Ok z -> reduction z op index opt = Ok (o, l) ->
  exists place, placed e place (z_data z) /\
    forall F k one cls phi d, as_formula (term_of place e) = Some F -> wf F -> engine_term (term_of place e) ->
    r_reduction F op opt k one cls phi d ->
    l = map as_matrix (z_data z) /\
    exists p al, operator_text o = Ok p /\ engine_aliases 0 None None (p_aliases p) = Ok al /\
      engine_makes al (p_formula p) k one (1 - axis_of index) F cls phi d.
Proof.
  intros e z op index opt o l OB OP H R. destruct (reduction_parts _ _ _ _ _ _ R) as [PR EL].
  destruct (run_holds e z H) as (ls & HO). exists (place_in ls). split; [now apply are_placed|].
  intros F k one cls phi d AF W ET RR.
  assert (FX := fixed e z ls HO OB false OP).
  unfold preprocess_reduction in PR. apply rbind_inv in PR. destruct PR as (t & T & PR). destruct (index_axis _ _ T) as [-> T0].
  rewrite FX in PR. cbn [rbind] in PR.
  set (nm := fun a x => vname false (place_in ls a x)) in *.
  change (fun a x => tag_name false (place_in ls a x)) with nm in *.
  assert (SP : part (shown nm e)). { apply shown_part; [|exact OP]. intros a x. apply (vname_ok false). }
  assert (C1 := holds_dims e z ls HO OB).
  assert (AD := args_decls false ls 0 (List.length ls) ltac:(lia) C1).
  assert (V := valid_of _ _ AD). assert (D := decls_dims false ls 0 C1).
  assert (ON := decls_once ls []). cbn [decls] in ON. rewrite app_nil_r in ON.
  assert (DV : forall s, is_declared (decls false 0 ls) s -> exists o k, s = vname o k).
  { intros s. assert (Q := decls_declared ls [] s). cbn [decls] in Q. rewrite app_nil_r in Q. exact Q. }
  destruct (program_value (decls false 0 ls) false e z ls 0 HO OB OP ON V D DV (fun _ _ X => X) F AF W ET) as (RE & AG & CA). fold nm in RE, AG, CA.
  assert (ND : forall s, has "R" s = true -> ~ is_declared (decls false 0 ls) s).
  { intros s HR I. apply DV in I. destruct I as ([|] & n & ->); unfold vname in HR; rewrite has_app, str_int_has in HR by (reflexivity || discriminate); discriminate. }
  assert (FIN : forall dd tt, o_args o = args_at false (List.length ls) 0 ls -> get_pykeops_formula (o_formula o) = Ok dd ->
    genred_text dd = Ok tt -> engine_makes (meanings 0 (decls false 0 ls)) tt k one (1 - axis_of index) F cls phi d ->
    exists p al, operator_text o = Ok p /\ engine_aliases 0 None None (p_aliases p) = Ok al /\
      engine_makes al (p_formula p) k one (1 - axis_of index) F cls phi d).
  { intros dd tt OA G TT EM. exists {| p_formula := tt; p_aliases := o_args o; p_highdim := FNone |}, (meanings 0 (decls false 0 ls)).
    split. { unfold operator_text. rewrite G. cbn [rbind]. rewrite TT. reflexivity. }
    cbn [p_aliases p_formula]. rewrite OA. split; [now apply engine_text|exact EM]. }
  destruct RR as [op I|op I| |op n I P|n P].
  - rewrite app_nil_r in EL. split; [exact EL|]. destruct (kernel_parts _ _ _ PR) as (OF & OA & _).
    destruct I as [<-|[<-|[<-|[<-|[<-|[]]]]]];
    (eapply FIN; [exact OA|rewrite OF; apply direct, W_plain; [repeat split; discriminate|exact SP|exact T0]
      |unfold genred_text; cbn [d_axis d_opt d_op d_main]; unfold red_text; rewrite axis_cat; reflexivity|]).
    + assert (Q := made_two (decls false 0 ls) V D _ _ F RE AG W CA "Sum_Reduction" (1 - axis_of index) (Z.of_nat (dim F)) (Z.of_nat (dim F))).
      specialize (Q ltac:(ident) (ND "Sum_Reduction" eq_refl) eq_refl).
      specialize (Q ltac:(intros g DG; unfold make2; rewrite DG; reflexivity)). exact Q.
    + assert (Q := made_two (decls false 0 ls) V D _ _ F RE AG W CA "Min_Reduction" (1 - axis_of index) (Z.of_nat (dim F)) (Z.of_nat (dim F))).
      specialize (Q ltac:(ident) (ND "Min_Reduction" eq_refl) eq_refl).
      specialize (Q ltac:(intros g DG; unfold make2; rewrite DG; reflexivity)). exact Q.
    + assert (Q := made_two (decls false 0 ls) V D _ _ F RE AG W CA "Max_Reduction" (1 - axis_of index) (Z.of_nat (dim F)) (Z.of_nat (dim F))).
      specialize (Q ltac:(ident) (ND "Max_Reduction" eq_refl) eq_refl).
      specialize (Q ltac:(intros g DG; unfold make2; rewrite DG; reflexivity)). exact Q.
    + assert (Q := made_two (decls false 0 ls) V D _ _ F RE AG W CA "ArgMin_Reduction" (1 - axis_of index) (Z.of_nat (dim F)) (2 * Z.of_nat (dim F))).
      specialize (Q ltac:(ident) (ND "ArgMin_Reduction" eq_refl) eq_refl).
      specialize (Q ltac:(intros g DG; unfold make2; rewrite DG; reflexivity)). exact Q.
    + assert (Q := made_two (decls false 0 ls) V D _ _ F RE AG W CA "ArgMax_Reduction" (1 - axis_of index) (Z.of_nat (dim F)) (2 * Z.of_nat (dim F))).
      specialize (Q ltac:(ident) (ND "ArgMax_Reduction" eq_refl) eq_refl).
      specialize (Q ltac:(intros g DG; unfold make2; rewrite DG; reflexivity)). exact Q.
  - rewrite app_nil_r in EL. split; [exact EL|]. destruct (kernel_parts _ _ _ PR) as (OF & OA & _).
    destruct I as [<-|[<-|[]]];
    (eapply FIN; [exact OA|rewrite OF; apply direct, W_plain; [repeat split; discriminate|exact SP|exact T0]
      |unfold genred_text; cbn [d_axis d_opt d_op d_main]; unfold red_text; rewrite axis_cat; reflexivity|]).
    + assert (Q := made_two (decls false 0 ls) V D _ _ F RE AG W CA "Min_ArgMin_Reduction" (1 - axis_of index) (2 * Z.of_nat (dim F)) (2 * Z.of_nat (dim F))).
      specialize (Q ltac:(ident) (ND "Min_ArgMin_Reduction" eq_refl) eq_refl).
      specialize (Q ltac:(intros g DG; unfold make2; rewrite DG; reflexivity)). exact Q.
    + assert (Q := made_two (decls false 0 ls) V D _ _ F RE AG W CA "Max_ArgMax_Reduction" (1 - axis_of index) (2 * Z.of_nat (dim F)) (2 * Z.of_nat (dim F))).
      specialize (Q ltac:(ident) (ND "Max_ArgMax_Reduction" eq_refl) eq_refl).
      specialize (Q ltac:(intros g DG; unfold make2; rewrite DG; reflexivity)). exact Q.
  - rewrite app_nil_r in EL. split; [exact EL|]. destruct (kernel_parts _ _ _ PR) as (OF & OA & _).
    eapply FIN; [exact OA|rewrite OF; apply direct, W_plain; [repeat split; discriminate|exact SP|exact T0]
      |unfold genred_text; cbn [d_axis d_opt d_op d_main]; unfold red_text; rewrite axis_cat; reflexivity|].
    apply (made_lse (decls false 0 ls) V D _ _ F RE AG W CA). apply ND; reflexivity.
  - rewrite app_nil_r in EL. split; [exact EL|]. destruct (kernel_parts _ _ _ PR) as (OF & OA & _).
    assert (Z0 : (n =? 0)%Z = false) by (apply Z.eqb_neq; lia).
    destruct I as [<-|[<-|[]]];
    (eapply FIN; [exact OA|rewrite OF; apply direct, W_number; [repeat split; discriminate|discriminate|discriminate|exact SP|lia|exact T0]
      |unfold genred_text; cbn [d_axis d_opt d_op d_main]; unfold red_text; rewrite axis_cat, Z0; reflexivity|]).
    + assert (Q := made_number (decls false 0 ls) V D _ _ F RE AG W CA "KMin_Reduction" n (1 - axis_of index) (n * Z.of_nat (dim F)) (2 * n * Z.of_nat (dim F))).
      specialize (Q ltac:(ident) (ND "KMin_Reduction" eq_refl)).
      specialize (Q ltac:(intros g DG; unfold make3; rewrite DG; reflexivity)).
      cbn [append]. rewrite ?app_assoc_s. exact Q.
    + assert (Q := made_number (decls false 0 ls) V D _ _ F RE AG W CA "ArgKMin_Reduction" n (1 - axis_of index) (n * Z.of_nat (dim F)) (2 * n * Z.of_nat (dim F))).
      specialize (Q ltac:(ident) (ND "ArgKMin_Reduction" eq_refl)).
      specialize (Q ltac:(intros g DG; unfold make3; rewrite DG; reflexivity)).
      cbn [append]. rewrite ?app_assoc_s. exact Q.
  - rewrite app_nil_r in EL. split; [exact EL|]. destruct (kernel_parts _ _ _ PR) as (OF & OA & _).
    assert (Z0 : (n =? 0)%Z = false) by (apply Z.eqb_neq; lia).
    eapply FIN; [exact OA|rewrite OF; apply direct, W_number; [repeat split; discriminate|discriminate|discriminate|exact SP|lia|exact T0]
      |unfold genred_text; cbn [d_axis d_opt d_op d_main]; unfold red_text; rewrite axis_cat, Z0; reflexivity|].
    assert (Q := made_number (decls false 0 ls) V D _ _ F RE AG W CA "KMin_ArgKMin_Reduction" n (1 - axis_of index) (2 * n * Z.of_nat (dim F)) (2 * n * Z.of_nat (dim F))).
      specialize (Q ltac:(ident) (ND "KMin_ArgKMin_Reduction" eq_refl)).
      specialize (Q ltac:(intros g DG; unfold make3; rewrite DG; reflexivity)).
    cbn [append]. rewrite ?app_assoc_s. exact Q.
Qed.

Theorem reduction_claim : forall e z op index opt o l, objects e -> operations e -> run e = Ok z -> reduction z op index opt = Ok (o, l) ->
  exists place, placed e place (z_data z) /\
    forall F k one cls phi d, as_formula (term_of place e) = Some F -> wf F -> engine_term (term_of place e) ->
    r_reduction F op opt k one cls phi d ->
    (forall a x v, In (a, x, v) (leaves e) -> exists m, nth_error l (place a x) = Some m /\ points "col" v m) /\
    exists p al, operator_text o = Ok p /\ engine_aliases 0 None None (p_aliases p) = Ok al /\
      engine_makes al (p_formula p) k one (1 - axis_of index) F cls phi d.
Proof.
  intros e z op index opt o l OB OP H R. destruct (reduction_made e z op index opt o l OB OP H R) as (place & P & X). exists place.
  split; [exact P|]. intros F k one cls phi d AF W ET RR. destruct (X F k one cls phi d AF W ET RR) as [-> Y].
  split; [now apply placed_points|exact Y].
Qed.

(** ** Weights *)

Lemma weighted_claim : forall e z w y op index o l, objects e -> operations e -> run e = Ok z -> objects w -> operations w -> run w = Ok y ->
  reduction z op index (TensorArg y) = Ok (o, l) ->
  exists place place', placed e place (z_data z) /\ placed w place' (z_data y) /\
    (forall a x v, In (a, x, v) (leaves e) -> exists m, nth_error l (place a x) = Some m /\ points "col" v m) /\
    (forall a x v, In (a, x, v) (leaves w) -> exists m, nth_error l (List.length (z_data z) + place' a x) = Some m /\ points "col" v m) /\
    forall F G K, as_formula (term_of place e) = Some F -> wf F -> engine_term (term_of place e) ->
    let after := fun a x => List.length (z_data z) + place' a x in
    as_formula (term_of after w) = Some G -> wf G -> engine_term (term_of after w) -> weighted_by op G K ->
    exists p al, operator_text o = Ok p /\ engine_aliases 0 None None (p_aliases p) = Ok al /\
      engine_makes al (p_formula p) None true (1 - axis_of index) F "Max_SumShiftExpWeight_Reduction" (Cat F K) (Z.of_nat (dim F + dim K)).
Proof.
  intros e z w y op index o l OB OP H OB' OP' H' R. destruct (reduction_parts _ _ _ _ _ _ R) as [PR EL].
  destruct (run_holds e z H) as (ls & HO). destruct (run_holds w y H') as (ls' & HO').
  assert (PL := are_placed e z ls HO OB). assert (PL' := are_placed w y ls' HO' OB').
  assert (NL : List.length (z_data z) = List.length ls) by now rewrite (h_data _ _ _ HO), map_length.
  exists (place_in ls), (place_in ls'). split; [exact PL|]. split; [exact PL'|]. split; [|split].
  { intros a x v I. destruct (placed_points e _ _ PL a x v I) as (m & N & P). exists m. split; [|exact P].
    rewrite EL, map_app, nth_error_app1; [exact N|]. apply nth_error_Some. now rewrite N. }
  { intros a x v I. destruct (placed_points w _ _ PL' a x v I) as (m & N & P). exists m. split; [|exact P].
    rewrite EL, map_app, nth_error_app2; rewrite map_length; [|lia].
    replace (_ + _ - _) with (place_in ls' a x) by lia. exact N. }
  intros F G K AF W ET after AG' W' ET' WB. unfold after in *. clear after. rewrite NL in *.
  assert (FX := fixed e z ls HO OB false OP). assert (FX' := fixed w y ls' HO' OB' true OP').
  unfold preprocess_reduction in PR. apply rbind_inv in PR. destruct PR as (t & T & PR). destruct (index_axis _ _ T) as [-> T0].
  rewrite FX in PR. cbn [rbind] in PR. rewrite FX' in PR. cbn [rbind fst snd] in PR.
  set (nm := fun a x => vname false (place_in ls a x)) in *. set (nm' := fun a x => vname true (place_in ls' a x)) in *.
  change (fun a x => tag_name false (place_in ls a x)) with nm in *. change (fun a x => tag_name true (place_in ls' a x)) with nm' in *.
  assert (SP : part (shown nm e)). { apply shown_part; [|exact OP]. intros a x. apply (vname_ok false). }
  assert (SP' : part (shown nm' w)). { apply shown_part; [|exact OP']. intros a x. apply (vname_ok true). }
  assert (C1 := holds_dims e z ls HO OB). assert (C2 := holds_dims w y ls' HO' OB').
  assert (AD := Forall2_app (args_decls false ls 0 (List.length ls) ltac:(lia) C1) (args_decls true ls' 0 (List.length ls') ltac:(lia) C2)).
  assert (V := valid_of _ _ AD). assert (D := proj2 (Forall_app _ _ _) (conj (decls_dims false ls 0 C1) (decls_dims true ls' 0 C2))).
  assert (ON := decls_once ls ls'). assert (DV := decls_declared ls ls').
  set (ds := (decls false 0 ls ++ decls true 0 ls')%list) in *.
  destruct (program_value ds false e z ls 0 HO OB OP ON V D DV) with (F := F) as (RE & AG & CA); [|exact AF|exact W|exact ET|].
  { intros k d N. unfold ds. cbn [plus]. rewrite nth_error_app1; [exact N|]. apply nth_error_Some. now rewrite N. }
  destruct (program_value ds true w y ls' (List.length ls) HO' OB' OP' ON V D DV) with (F := G) as (RE' & AGG & CA'); [|exact AG'|exact W'|exact ET'|].
  { intros k d N. unfold ds. rewrite nth_error_app2; rewrite decls_length; [|lia]. replace (_ + k - _) with k by lia. exact N. }
  fold nm in RE, AG, CA. fold nm' in RE', AGG, CA'.
  assert (ND : forall s, has "S" s = true \/ has "C" s = true -> ~ is_declared ds s).
  { intros s HR I. apply DV in I. destruct I as ([|] & n & ->); unfold vname in HR; destruct HR as [HR|HR];
      rewrite has_app, str_int_has in HR by (reflexivity || discriminate); discriminate. }
  destruct (kernel_parts _ _ _ PR) as (OF & OA & _).
  assert (G0 : get_pykeops_formula (o_formula o) =
    Ok {| d_op := op; d_main := shown nm e; d_axis := Some (axis_of index); d_opt := Weight (shown nm' w) |}).
  { rewrite OF. apply direct. apply W_weight; auto. destruct WB as [[-> _]|[-> _]]; auto. }
  assert (NE : String.eqb (shown nm' w) "" = false).
  { destruct (String.eqb_spec (shown nm' w) "") as [E|]; [|reflexivity]. exfalso.
    destruct w as [a x v|n|op1 opts d e1|op1 c d e1 e2|e1 e2|op1 c d e1 e2 e3]; cbn [shown] in E; try discriminate; destruct op1; discriminate. }
  assert (I1 : identifier "Max_SumShiftExpWeight_Reduction") by ident.
  assert (FIN : forall g e2, reads g e2 -> agrees (evaluate (found (table 0 ds)) e2) (build K) -> wf K ->
    (forall s, In s (called e2) -> ~ is_declared ds s) ->
    red_text op (shown nm e) None (axis_of index) (shown nm' w) =
      Ok ("Max_SumShiftExpWeight_Reduction" ++ "(" ++ shown nm e ++ "," ++ str_int (1 - axis_of index) ++ "," ++ g ++ ")") ->
    exists p al, operator_text o = Ok p /\ engine_aliases 0 None None (p_aliases p) = Ok al /\
      engine_makes al (p_formula p) None true (1 - axis_of index) F "Max_SumShiftExpWeight_Reduction" (Cat F K) (Z.of_nat (dim F + dim K))).
  { intros g e2 RG AK WK CK RT.
    eexists {| p_formula := _; p_aliases := o_args o; p_highdim := FNone |}, (meanings 0 ds).
    split. { unfold operator_text. rewrite G0. cbn [rbind]. unfold genred_text. cbn [d_axis d_opt d_op d_main]. rewrite RT. reflexivity. }
    cbn [p_aliases p_formula]. rewrite OA. split; [now apply engine_text|].
    apply (made_weight ds V D _ F AG W CA _ e2 K _ WK AK CK); [apply ND; left; reflexivity|]. now apply two_read. }
  destruct WB as [[-> ->]|[-> ->]].
  - apply (FIN _ _ RE' AGG W' CA'). unfold red_text. rewrite NE, axis_cat. reflexivity.
  - apply (FIN _ _ (concat_read _ _ RE') (one_and _ _ _ AGG)); [cbn [wf]; auto| |].
    + intros s I. cbn [called flat_map app] in I. rewrite app_nil_r in I.
      destruct I as [<-|[<-|I]]; [apply ND; right; reflexivity|apply ND; right; reflexivity|now apply CA'].
    + unfold red_text. rewrite NE, axis_cat. reflexivity.
Qed.

(** ** Dimensions *)

Lemma max_z : forall a b, Z.of_nat (Nat.max a b) = Z.max (Z.of_nat a) (Z.of_nat b).
Proof. intros. lia. Qed.

Lemma announced : forall e z d, run e = Ok z -> announces e d -> z_dim z = d.
Proof. intros e z d R (z' & R' & D). congruence. Qed.
Lemma unop_ok : forall op u F, unop_of op = Some u -> node_ok (Un u F) = true.
Proof. reflexivity. Qed.
Lemma compat2 : forall a b, 1 <= a -> 1 <= b -> check2 SameOr1 (Z.of_nat a) (Z.of_nat b) = true -> vcompat2 a b = true.
Proof.
  intros a b P1 P2 CK. unfold vcompat2. cbn [check2] in CK.
  repeat (apply orb_true_iff in CK; destruct CK as [CK|CK]); apply Z.eqb_eq in CK; apply orb_true_iff; rewrite !Nat.eqb_eq; lia.
Qed.
Lemma compat3 : forall a b c, 1 <= a -> 1 <= b -> 1 <= c -> check3 SameOr1 (Z.of_nat a) (Z.of_nat b) (Z.of_nat c) = true -> vcompat3 a b c = true.
Proof.
  intros a b c P1 P2 P3 CK. unfold check3 in CK. cbn [unique_dims existsb] in CK. rewrite !orb_false_r in CK.
  unfold vcompat3. rewrite !andb_true_iff, !orb_true_iff, !Nat.eqb_eq.
  repeat match type of CK with context [Z.eqb ?x ?y] => destruct (Z.eqb_spec x y) end; cbn in CK; try discriminate; lia.
Qed.

Lemma usual1_formula : forall op opts d e z F, usual1 op opts d e -> run e = Ok z -> wf F -> Z.of_nat (dim F) = z_dim z ->
  exists G, formula1 op opts F = Some G /\ wf G /\ Z.of_nat (dim G) = match d with Some d => d | None => z_dim z end /\
    (op = "Elem" \/ op = "OneHot" \/ op = "Extract" -> Forall (fun p => 0 <= p)%Z opts).
Proof.
  intros op opts d e z F U X W DF. assert (P := dim_pos F W).
  destruct U as [(-> & N & ->)|[(-> & I & ->)|[(k & -> & -> & ->)|[(a & b & -> & -> & ->)|[(k & n & -> & -> & -> & A & B)|
    [(k & m & n & -> & -> & -> & A & B & C)|(m & -> & -> & -> & A & B)]]]]]].
  - destruct (unop_of op) as [u|] eqn:UE.
    + exists (Un u F). cbn [formula1]. rewrite UE. repeat (split; [reflexivity || exact DF || (split; [reflexivity|exact W])|]). constructor.
    + destruct N as [N| ->]; [congruence|]. eexists. split; [reflexivity|]. split; [|split; [|constructor]].
      * cbn [wf node_ok sqnorm dim]. split; [|repeat split; exact W]. unfold vcompat2. apply orb_true_iff. right. apply Nat.eqb_eq. lia.
      * cbn [dim sqnorm]. rewrite <- DF. lia.
  - destruct I as [<-|[<-|[<-|[]]]]; eexists; (split; [reflexivity|]); cbn [wf node_ok sqnorm]; rewrite ?Nat.eqb_refl;
      (split; [repeat split; exact W|]); (split; [reflexivity|]); constructor.
  - eexists. split; [reflexivity|]. split; [split; [reflexivity|exact W]|]. split; [exact DF|]. intros [H|[H|H]]; discriminate.
  - eexists. split; [reflexivity|]. split; [split; [reflexivity|exact W]|]. split; [exact DF|]. intros [H|[H|H]]; discriminate.
  - rewrite (announced _ _ _ X A) in DF. eexists. split; [reflexivity|]. split; [split; [|exact W]|split; [reflexivity|]].
    + cbn [node_ok]. apply Nat.ltb_lt. lia.
    + intros _. repeat constructor. lia.
  - rewrite (announced _ _ _ X A) in DF. eexists. split; [reflexivity|]. split; [split; [|exact W]|split].
    + cbn [node_ok]. apply andb_true_intro. split; apply Nat.leb_le; lia.
    + cbn [dim]. lia.
    + intros _. repeat constructor; lia.
  - rewrite (announced _ _ _ X A) in DF. eexists. split; [reflexivity|]. split; [split; [|exact W]|split].
    + cbn [node_ok]. apply andb_true_intro. split; [apply Nat.eqb_eq|apply Nat.leb_le]; lia.
    + cbn [dim]. lia.
    + intros _. repeat constructor; lia.
Qed.

Lemma usual2_formula : forall op c d e f x y F G, usual2 op c d e f -> run e = Ok x -> run f = Ok y ->
  wf F -> wf G -> Z.of_nat (dim F) = z_dim x -> Z.of_nat (dim G) = z_dim y ->
  match c with Some c => check2 c (z_dim x) (z_dim y) | None => true end = true ->
  exists K, match arithmetic op with Some s => formula_op s F G | None => formula2 op [] F G end = Some K /\ wf K /\
    Z.of_nat (dim K) = match d with Some d => d | None => Z.max (z_dim x) (z_dim y) end.
Proof.
  intros op c d e f x y F G U X Y W W' DF DG CK. assert (P1 := dim_pos F W). assert (P2 := dim_pos G W').
  destruct U as [(-> & N & ->)|[(-> & -> & ->)|[(-> & -> & ->)|[(m & n & -> & -> & A & B & C & ->)|[(m & n & -> & -> & A & B & ->)|[(m & -> & -> & A & B)|(m & -> & -> & A & B)]]]]]].
  - assert (VC : vcompat2 (dim F) (dim G) = true) by (apply compat2; auto; now rewrite DF, DG).
    assert (B : exists b, match arithmetic op with Some s => formula_op s F G | None => formula2 op [] F G end = Some (Bin b F G)).
    { destruct N as [A| ->]; [|eexists; reflexivity]. destruct (arithmetic op) as [s|] eqn:E; [clear A|congruence].
      unfold arithmetic in E. repeat match type of E with
        | (if String.eqb op ?x then _ else _) = _ => destruct (String.eqb op x); [injection E as <-; eexists; reflexivity|]
        end. discriminate. }
    destruct B as (b & ->). exists (Bin b F G). split; [reflexivity|]. split; [repeat split; auto|]. cbn [dim]. rewrite <- DF, <- DG. lia.
  - cbn [check2] in CK. apply Z.eqb_eq in CK. eexists. split; [reflexivity|]. split.
    + split; [|auto]. cbn [node_ok]. unfold vcompat2. apply orb_true_iff. left. apply Nat.eqb_eq. lia.
    + cbn [dim]. lia.
  - assert (VC : vcompat2 (dim F) (dim G) = true) by (apply compat2; auto; now rewrite DF, DG).
    eexists. split; [reflexivity|]. split; [cbn [wf sqnorm node_ok]; repeat split; auto|reflexivity].
  - rewrite (announced _ _ _ X A) in DF. rewrite (announced _ _ _ Y B) in DG. cbn [arithmetic String.eqb]. change (arithmetic "WeightedSqNorm") with (@None string).
    cbn [formula2]. change (formula2 "WeightedSqNorm" [] F G) with
      (Some (if Nat.eqb (dim F) 1 then Bin BMult F (sqnorm G)
             else if Nat.eqb (dim F) (dim G) then Lin LSum (Bin BMult F (Un USquare G))
             else Lin LSum (Bin BMult F (Bil KTensorProd G G)))).
    eexists. split; [reflexivity|].
    destruct (Nat.eqb_spec (dim F) 1) as [E|E]; [|destruct (Nat.eqb_spec (dim F) (dim G)) as [E'|E']]; cbn [wf node_ok sqnorm dim]; unfold vcompat2.
    + rewrite E. repeat split; auto.
    + rewrite E', Nat.eqb_refl. repeat split; auto.
    + replace (dim F) with (dim G * dim G) by (destruct C as [C|[C|C]]; nia). rewrite Nat.eqb_refl. repeat split; auto.
  - rewrite (announced _ _ _ X A) in DF. rewrite (announced _ _ _ Y B) in DG. eexists. split; [reflexivity|].
    split; [repeat split; auto|]. cbn [dim]. lia.
  - rewrite (announced _ _ _ X A) in DF. destruct B as [[B ->]|[B ->]]; rewrite (announced _ _ _ Y B) in DG; eexists; (split; [reflexivity|]);
      cbn [wf node_ok dim]; assert (E : dim G = dim F \/ dim G = 1) by lia.
    + replace (dim G) with (dim F) by lia. rewrite Nat.mod_same, Nat.div_same by lia. repeat split; auto.
    + replace (dim G) with 1 by lia. rewrite Nat.mod_1_r, Nat.div_1_r. repeat split; auto.
  - rewrite (announced _ _ _ Y A) in DG. destruct B as [[B ->]|[B ->]]; rewrite (announced _ _ _ X B) in DF; eexists; (split; [reflexivity|]);
      cbn [wf node_ok dim].
    + replace (dim F) with (dim G) by lia. rewrite Nat.mod_same, Nat.div_same by lia. repeat split; auto.
    + replace (dim F) with 1 by lia. rewrite Nat.mod_1_r, Nat.div_1_r. repeat split; auto.
Qed.

Lemma usual_formula : forall e z place, objects e -> usual e -> run e = Ok z ->
  exists F, as_formula (term_of place e) = Some F /\ wf F /\ Z.of_nat (dim F) = z_dim z /\ engine_term (term_of place e).
Proof.
  intros e z place [_ OB]. revert z. induction e as [a x v|n|op opts d e IH|op c d e IHe f IHf|e IHe f IHf|op c d e IHe f IHf g IHg];
    intros z U H; cbn [leaves usual run term_of] in *.
  - destruct (OB a x v (or_introl eq_refl)) as [_ C]. eexists. split; [reflexivity|].
    split; [split; [cbn [node_ok]; apply Nat.leb_le; lia|exact I]|]. split; [|split; [lia|destruct x; cbn; lia]].
    cbn [dim]. rewrite Nat2Z.id. unfold new_tensor in H. destruct v, x; try discriminate H; injection H as <-; reflexivity.
  - injection H as <-. eexists. split; [reflexivity|]. repeat split.
  - destruct U as (U & Ue). apply rbind_inv in H. destruct H as (x & X & H). injection H as <-.
    destruct (IH OB x Ue X) as (F & AF & W & DF & ET). cbn [as_formula]. rewrite AF. cbn [z_dim unaryop].
    destruct (usual1_formula _ _ _ _ _ _ U X W DF) as (G & FG & WG & DG & Q). exists G. split; [exact FG|]. split; [exact WG|]. split; [exact DG|]. split; [exact Q|exact ET].
  - destruct U as (U & Ue & Uf). apply rbind_inv in H. destruct H as (x & X & H). apply rbind_inv in H. destruct H as (y & Y & H).
    destruct (IHe (fun a x v I => OB a x v (in_or_app _ _ _ (or_introl I))) x Ue X) as (F & AF & W & DF & ET).
    destruct (IHf (fun a x v I => OB a x v (in_or_app _ _ _ (or_intror I))) y Uf Y) as (G & AG & W' & DG & ET').
    unfold binaryop in H. destruct (match c with Some _ => _ | None => _ end) eqn:CK; [|discriminate]. injection H as <-. cbn [z_dim merged].
    destruct (usual2_formula _ _ _ _ _ _ _ _ _ U X Y W W' DF DG CK) as (K & FK & WK & DK). exists K.
    split; [|split; [exact WK|split; [exact DK|destruct (arithmetic op); split; assumption]]].
    destruct (arithmetic op); cbn [as_formula]; rewrite AF, AG; exact FK.
  - destruct U as (Ue & Uf). apply rbind_inv in H. destruct H as (x & X & H). apply rbind_inv in H. destruct H as (y & Y & H).
    destruct (IHe (fun a x v I => OB a x v (in_or_app _ _ _ (or_introl I))) x Ue X) as (F & AF & W & DF & ET).
    destruct (IHf (fun a x v I => OB a x v (in_or_app _ _ _ (or_intror I))) y Uf Y) as (G & AG & W' & DG & ET').
    unfold scalar_product in H. apply rbind_inv in H. destruct H as (r & B & H). injection H as <-.
    unfold binaryop in B. destruct (check2 _ _ _) eqn:CK; [|discriminate]. injection B as <-. cbn [z_dim merged].
    cbn [as_formula]. rewrite AF, AG. eexists. split; [reflexivity|]. split; [|split; [reflexivity|split; auto]].
    cbn [check2] in CK. apply Z.eqb_eq in CK. cbn [wf node_ok]. split; [apply Nat.eqb_eq; lia|auto].
  - destruct U as (N & -> & -> & Ue & Uf & Ug). apply rbind_inv in H. destruct H as (x & X & H). apply rbind_inv in H. destruct H as (y & Y & H).
    apply rbind_inv in H. destruct H as (w & Z & H).
    destruct (IHe (fun a x v I => OB a x v (in_or_app _ _ _ (or_introl I))) x Ue X) as (F & AF & W & DF & ET).
    destruct (IHf (fun a x v I => OB a x v (in_or_app _ _ _ (or_intror (in_or_app _ _ _ (or_introl I))))) y Uf Y) as (G & AG & W' & DG & ET').
    destruct (IHg (fun a x v I => OB a x v (in_or_app _ _ _ (or_intror (in_or_app _ _ _ (or_intror I))))) w Ug Z) as (K & AK & W'' & DK & ET'').
    unfold ternaryop in H. destruct (check3 _ _ _ _) eqn:CK; [|discriminate]. injection H as <-. cbn [z_dim merged].
    assert (VC : vcompat3 (dim F) (dim G) (dim K) = true) by (apply compat3; try (now apply dim_pos); now rewrite DF, DG, DK).
    assert (T : exists t, formula3 op F G K = Some (Ter t F G K)) by (destruct N as [<-|[<-|[<-|[]]]]; eexists; reflexivity).
    destruct T as (t & T). exists (Ter t F G K). cbn [as_formula]. rewrite AF, AG, AK. split; [exact T|].
    split; [repeat split; auto|]. split; [|repeat split; auto]. cbn [dim]. lia.
Qed.

Theorem usual_claim : forall e z op index opt o l, objects e -> operations e -> usual e -> run e = Ok z ->
  reduction z op index opt = Ok (o, l) ->
  exists place F, as_formula (term_of place e) = Some F /\ wf F /\ Z.of_nat (dim F) = z_dim z /\
    forall k one cls phi d, r_reduction F op opt k one cls phi d ->
    (forall a x v, In (a, x, v) (leaves e) -> exists m, nth_error l (place a x) = Some m /\ points "col" v m) /\
    exists p al, operator_text o = Ok p /\ engine_aliases 0 None None (p_aliases p) = Ok al /\
      engine_makes al (p_formula p) k one (1 - axis_of index) F cls phi d.
Proof.
  intros e z op index opt o l OB OP U H R. destruct (reduction_claim e z op index opt o l OB OP H R) as (place & P & X).
  destruct (usual_formula e z place OB U H) as (F & AF & W & DF & ET). exists place, F. repeat (split; [assumption|]).
  intros k one cls phi d RR. exact (X F k one cls phi d AF W ET RR).
Qed.
Theorem usual_weighted : forall e z w y op index o l, objects e -> operations e -> usual e -> run e = Ok z ->
  objects w -> operations w -> usual w -> run w = Ok y -> reduction z op index (TensorArg y) = Ok (o, l) ->
  exists place place' F G,
    (forall a x v, In (a, x, v) (leaves e) -> exists m, nth_error l (place a x) = Some m /\ points "col" v m) /\
    (forall a x v, In (a, x, v) (leaves w) -> exists m, nth_error l (List.length (z_data z) + place' a x) = Some m /\ points "col" v m) /\
    as_formula (term_of place e) = Some F /\ wf F /\ Z.of_nat (dim F) = z_dim z /\
    as_formula (term_of (fun a x => List.length (z_data z) + place' a x) w) = Some G /\ wf G /\ Z.of_nat (dim G) = z_dim y /\
    forall K, weighted_by op G K ->
    exists p al, operator_text o = Ok p /\ engine_aliases 0 None None (p_aliases p) = Ok al /\
      engine_makes al (p_formula p) None true (1 - axis_of index) F "Max_SumShiftExpWeight_Reduction" (Cat F K) (Z.of_nat (dim F + dim K)).
Proof.
  intros e z w y op index o l OB OP U H OB' OP' U' H' R.
  destruct (weighted_claim e z w y op index o l OB OP H OB' OP' H' R) as (place & place' & _ & _ & N & N' & X).
  destruct (usual_formula e z place OB U H) as (F & AF & W & DF & ET).
  destruct (usual_formula w y (fun a x => List.length (z_data z) + place' a x) OB' U' H') as (G & AG & WG & DG & EG).
  exists place, place', F, G. repeat (split; [assumption|]). intros K WB. exact (X F G K AF W ET AG WG EG WB).
Qed.
