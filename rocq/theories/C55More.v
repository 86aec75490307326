(** * The value of an expression read by Python is the formula built by the engine. *)

From Coq Require Import ZArith Lia List Bool Ascii String.
From Verif Require Import Result Keys KeySpec Aliases AliasSpec C22Proofs C26Proofs Formula FormulaSpec Simplify Build
  C01Proofs LazyTensors Methods MethodsSpec LazySpec C42Proofs C42More PyRead PyReadSpec PyReadProofs C55Proofs.
Import ListNotations.
Open Scope string_scope.

Definition agrees (r : res pv) (b : res fm) : Prop :=
  match r, b with
  | Ok (VF h), Ok h' => h = h'
  | Ok _, _ => False
  | _, Ok _ => False
  | _, _ => True
  end.

Lemma agrees_lift : forall b, agrees (lift b) b.
Proof. intros [h| | |]; cbn; auto. Qed.

Lemma agrees_bind : forall r b k k', agrees r b -> (forall h, b = Ok h -> agrees (k (VF h)) (k' h)) ->
  agrees (do v <- r ; k v) (do h <- b ; k' h).
Proof.
  intros [[h| | | |]| | |] [h'| | |] k k' A H; cbn in *; try contradiction; auto. subst h'. now apply H.
Qed.

Lemma agrees_iff : forall r b, agrees r b -> forall h, r = Ok (VF h) <-> b = Ok h.
Proof.
  intros [[f| | | |]| | |] [g| | |] A h; cbn in A; try contradiction; subst; split; intros E; try discriminate; congruence.
Qed.

Lemma eval_literal : forall names z, evaluate names (literal z) = Ok (VZ z).
Proof.
  intros names z. unfold literal. destruct (z <? 0)%Z; [|reflexivity].
  cbn. now rewrite Z.opp_involutive.
Qed.

Section Names.
  Variable names : string -> option pv.
  Notation ev := (evaluate names).
  Definition ev_list :=
    (fix go (l : list py) : res (list pv) :=
       match l with
       | [] => Ok []
       | a :: l => do x <- ev a ; do r <- go l ; Ok (x :: r)
       end).
  Lemma ev_literals : forall l, ev_list (map literal l) = Ok (map VZ l).
  Proof.
    induction l as [|z l IH]; [reflexivity|]. cbn [map ev_list]. rewrite eval_literal. cbn [rbind].
    fold ev_list. now rewrite IH.
  Qed.
  Lemma ev_call : forall op l, ev (PCall (PName op) l) = do v <- ev_list l ; call op v.
  Proof. reflexivity. Qed.
  Lemma ev_list_cons : forall a l, ev_list (a :: l) = do x <- ev a ; do r <- ev_list l ; Ok (x :: r).
  Proof. reflexivity. Qed.

  Lemma rbind_assoc : forall A B C (r : res A) (k : A -> res B) (k' : B -> res C),
    (do y <- (do x <- r ; k x) ; k' y) = do x <- r ; do y <- k x ; k' y.
  Proof. intros A B C [a| | |] k k'; reflexivity. Qed.

  Lemma agrees_eq : forall r b b', b = b' -> agrees r b' -> agrees r b.
  Proof. intros r b b' ->. auto. Qed.
  Lemma agrees_eql : forall r r' b, r = r' -> agrees r' b -> agrees r b.
  Proof. intros r r' b ->. auto. Qed.

  Ltac byname op H :=
    repeat match type of H with (if ?b then _ else _) = _ => destruct b eqn:? end; try discriminate H;
    match goal with E : String.eqb op _ = true |- _ => apply String.eqb_eq in E; subst op end; injection H as <-.

  Lemma call_unary : forall op u f, unop_of op = Some u -> call1 op f = build_un u f.
  Proof. intros op u f H. unfold unop_of in H. byname op H; reflexivity. Qed.

  Lemma call_formula1 : forall op ps f g x,
    (op = "Elem" \/ op = "OneHot" \/ op = "Extract" -> Forall (fun p => 0 <= p)%Z ps) ->
    formula1 op ps f = Some g -> build f = Ok x -> agrees (call op (VF x :: map VZ ps)) (build g).
  Proof.
    intros op ps f g x P F B.
    destruct ps as [|a [|b [|c ps]]]; cbn [formula1] in F; try discriminate.
    - cbn [map call]. destruct (unop_of op) as [u|] eqn:U.
      + injection F as <-. cbn [build]. rewrite B. cbn [rbind]. rewrite (call_unary op u x U). apply agrees_lift.
      + byname op F; cbn [build sqnorm]; rewrite ?B; cbn [rbind]; rewrite ?rbind_assoc; try apply agrees_lift.
        * apply (agrees_eq _ _ (Normalize x)); [|exact (agrees_lift (Normalize x))].
          unfold Normalize, SqNorm2. cbn [build_un build_lin build_bin]. rewrite ?rbind_assoc.
          destruct (Square x) as [y| | |]; cbn [rbind]; auto.
    - cbn [map call]. byname op F; cbn [build]; rewrite B; cbn [rbind].
      + exact (agrees_lift (Pow x a)).
      + assert (A : (0 <= a)%Z) by (specialize (P (or_introl eq_refl)); now inversion P).
        unfold call1_int, nonneg. cbn [String.eqb Ascii.eqb Bool.eqb].
        destruct (Z.ltb_spec a 0); [lia|]. apply agrees_lift.
      + assert (A : (0 <= a)%Z) by (specialize (P (or_intror (or_introl eq_refl))); now inversion P).
        unfold call1_int, nonneg. cbn [String.eqb Ascii.eqb Bool.eqb].
        destruct (Z.ltb_spec a 0); [lia|]. apply agrees_lift.
    - cbn [map call]. byname op F; cbn [build]; rewrite B; cbn [rbind].
      + exact (agrees_lift (build_un (UClampInt a b) x)).
      + assert (A : (0 <= a)%Z /\ (0 <= b)%Z).
        { specialize (P (or_intror (or_intror eq_refl))). inversion P as [|? ? ? Q]. inversion Q. auto. }
        destruct A as [A1 A2]. unfold call1_ints, nonneg. cbn [String.eqb Ascii.eqb Bool.eqb].
        destruct (Z.ltb_spec a 0); [lia|]. destruct (Z.ltb_spec b 0); [lia|]. apply agrees_lift.
  Qed.

  Lemma call_formula2 : forall op f f' g x y, formula2 op [] f f' = Some g -> build f = Ok x -> build f' = Ok y ->
    dim x = dim f -> dim y = dim f' -> agrees (call op [VF x; VF y]) (build g).
  Proof.
    intros op f f' g x y F B B' D D'. cbn [formula2] in F. cbn [call].
    byname op F; cbn [build sqnorm]; rewrite ?B, ?B'; cbn [rbind]; rewrite ?rbind_assoc; try apply agrees_lift.
    apply (agrees_eq _ _ (WeightedSqNorm x y)); [|exact (agrees_lift (WeightedSqNorm x y))].
    unfold WeightedSqNorm. rewrite D, D'.
    destruct (Nat.eqb (dim f) 1); [|destruct (Nat.eqb (dim f) (dim f'))];
      cbn [build sqnorm]; rewrite ?B, ?B'; cbn [rbind]; unfold SqNorm2; rewrite ?rbind_assoc; try reflexivity.
  Qed.

  Lemma agrees_two : forall r r' b b' k k', agrees r b -> agrees r' b' ->
    (forall x y, b = Ok x -> b' = Ok y -> agrees (k (VF x) (VF y)) (k' x y)) ->
    agrees (do v <- r ; do w <- r' ; k v w) (do x <- b ; do y <- b' ; k' x y).
  Proof.
    intros r r' b b' k k' A A' H. apply agrees_bind; auto. intros x E. apply agrees_bind; auto.
  Qed.

  (** The second operand first. *)
  Lemma agrees_swap : forall r r' b b' k k', agrees r b -> agrees r' b' ->
    (forall x y, b = Ok x -> b' = Ok y -> agrees (k (VF x) (VF y)) (k' y x)) ->
    agrees (do v <- r ; do w <- r' ; k v w) (do y <- b' ; do x <- b ; k' y x).
  Proof.
    intros r r' b b' k k' A A' H. unfold agrees in A, A'.
    destruct r as [[h| | | |]| | |]; destruct b as [x| | |]; try contradiction;
    destruct r' as [[h'| | | |]| | |]; destruct b' as [y| | |]; try contradiction; cbn; auto.
    subst. now apply H.
  Qed.

  Definition made_ok (b : res fm) : bool := match b with Ok _ => true | _ => false end.
  Ltac nope B := destruct B as [? | | |]; reflexivity.
  Lemma formula1_fails : forall op ps f g, formula1 op ps f = Some g -> made_ok (build f) = false ->
    made_ok (build g) = false.
  Proof.
    intros op ps f g F B. assert (Q : exists k, build g = do x <- build f ; k x).
    { destruct ps as [|a [|b [|c ps]]]; cbn [formula1] in F; try discriminate.
      - destruct (unop_of op) as [u|]; [injection F as <-; eexists; reflexivity|].
        byname op F; cbn [build sqnorm]; rewrite ?rbind_assoc; eexists; reflexivity.
      - byname op F; eexists; reflexivity.
      - byname op F; eexists; reflexivity. }
    destruct Q as [k ->]. destruct (build f); [discriminate|reflexivity..].
  Qed.
  Lemma made_bind2 : forall (b b' : res fm) k, made_ok b = false \/ made_ok b' = false ->
    made_ok (do x <- b ; do y <- b' ; k x y) = false.
  Proof. intros [x| | |] [y| | |] k [H|H]; try discriminate; reflexivity. Qed.
  Lemma made_bind3 : forall (b b' b'' : res fm) k, made_ok b = false \/ made_ok b' = false \/ made_ok b'' = false ->
    made_ok (do x <- b ; do y <- b' ; do z <- b'' ; k x y z) = false.
  Proof. intros [x| | |] [y| | |] [z| | |] k [H|[H|H]]; try discriminate; reflexivity. Qed.

  Lemma formula2_fails : forall op f f' g, formula2 op [] f f' = Some g ->
    made_ok (build f) = false \/ made_ok (build f') = false -> made_ok (build g) = false.
  Proof.
    intros op f f' g F B. assert (Q : exists k, build g = do x <- build f ; do y <- build f' ; k x y).
    { cbn [formula2] in F. byname op F.
      all: try (destruct (Nat.eqb (dim f) 1); [|destruct (Nat.eqb (dim f) (dim f'))]).
      all: cbn [build sqnorm]; destruct (build f) as [x| | |]; destruct (build f') as [y| | |]; cbn [rbind];
        try (exists (fun _ _ => PyErr); reflexivity); eexists (fun _ _ => _); reflexivity. }
    destruct Q as [k ->]. now apply made_bind2.
  Qed.
  Lemma formula3_fails : forall op f f' f'' g, formula3 op f f' f'' = Some g ->
    made_ok (build f) = false \/ made_ok (build f') = false \/ made_ok (build f'') = false -> made_ok (build g) = false.
  Proof.
    intros op f f' f'' g F B. unfold formula3 in F. byname op F; cbn [build]; now apply made_bind3.
  Qed.
  Lemma formula_op_fails : forall op f f' g, formula_op op f f' = Some g ->
    made_ok (build f) = false \/ made_ok (build f') = false -> made_ok (build g) = false.
  Proof.
    intros op f f' g F B. unfold formula_op in F. byname op F; cbn [build]; apply made_bind2; tauto.
  Qed.
  Lemma call_formula3 : forall op f f' f'' g x y z, formula3 op f f' f'' = Some g -> build f = Ok x ->
    build f' = Ok y -> build f'' = Ok z -> agrees (call op [VF x; VF y; VF z]) (build g).
  Proof.
    intros op f f' f'' g x y z F B B' B''. unfold formula3 in F.
    byname op F; cbn [build]; rewrite B, B', B''; cbn [rbind]; exact (agrees_lift (mk _)).
  Qed.
  Definition operate (s : sym) (x y : pv) : res pv := if ordering s then compare_op s x y else binary_op s x y.
  Lemma operator_formula : forall op s f f' g x y, symbol op = Some s -> formula_op op f f' = Some g ->
    build f = Ok x -> build f' = Ok y -> agrees (operate s (VF x) (VF y)) (build g).
  Proof.
    intros op s f f' g x y S F B B'. unfold formula_op in F.
    byname op F; injection S as <-; cbn [build]; rewrite B, B'; cbn [rbind]; exact (agrees_lift _).
  Qed.
  Lemma formula_op_symbol : forall op f f' g, formula_op op f f' = Some g -> exists s, symbol op = Some s.
  Proof. intros op f f' g F. unfold formula_op in F. byname op F; eexists; reflexivity. Qed.

  Lemma ev_operator : forall op s t u, symbol op = Some s ->
    ev (tree (TOp op t u)) = do x <- ev (tree t) ; do y <- ev (tree u) ; operate s x y.
  Proof.
    intros op s t u S. cbn [tree]. rewrite S. unfold operate. destruct (ordering s); [|reflexivity].
    cbn [evaluate]. destruct (ev (tree t)) as [x| | |]; [|reflexivity..]. cbn [rbind].
    destruct (ev (tree u)) as [y| | |]; [|reflexivity..]. cbn [rbind].
    destruct (compare_op s x y); reflexivity.
  Qed.

  Lemma agrees_fails : forall r b, made_ok b = false -> (forall v, r <> Ok v) -> agrees r b.
  Proof.
    intros [v| | |] [h| | |] M N; try discriminate M; cbn; auto. all: destruct (N v eq_refl).
  Qed.
  Lemma agrees_inv : forall r b, agrees r b ->
    (exists h, r = Ok (VF h) /\ b = Ok h) \/ (made_ok b = false /\ forall v, r <> Ok v).
  Proof.
    intros [[h| | | |]| | |] [h'| | |] A; cbn in A; try contradiction; subst; [left; eauto|..];
      right; split; auto; discriminate.
  Qed.

  Lemma eval_tree : forall t f, engine_term t -> as_formula t = Some f -> wf f -> agrees (ev (tree t)) (build f).
  Proof.
    induction t as [i d c|i d c|n|op t IH ps|op t IHt u IHu|op t IHt u IHu ps|op t IHt u IHu ps|op t IHt u IHu v IHv];
      intros f E F W; cbn [engine_term as_formula] in *; try contradiction; try discriminate.
    - cbn [tree]. injection F as <-. rewrite ev_call.
      change [literal i; literal d; literal c] with (map literal [i; d; c]). rewrite ev_literals. cbn [rbind map].
      destruct E as [Ed Ec]. unfold call, integers, ocons, option_map, call_ints, nonneg.
      cbn [String.eqb Ascii.eqb Bool.eqb].
      destruct (Z.ltb_spec d 0); [lia|]. destruct (Z.ltb_spec c 0); [lia|]. apply agrees_lift.
    - cbn [tree]. injection F as <-. rewrite ev_call.
      change [literal n] with (map literal [n]). rewrite ev_literals. cbn [rbind map]. reflexivity.
    - destruct E as [P E]. destruct (as_formula t) as [g|] eqn:A; [|discriminate]. cbn [tree].
      assert (Wg : wf g).
      { clear -F W. destruct ps as [|a [|b [|c ps]]]; cbn [formula1] in F; try discriminate.
        - destruct (unop_of op); [injection F as <-; apply W|].
          byname op F; cbn [sqnorm wf] in W; intuition.
        - byname op F; cbn [wf] in W; intuition.
        - byname op F; cbn [wf] in W; intuition. }
      specialize (IH g E eq_refl Wg). rewrite ev_call, ev_list_cons, ev_literals. rewrite rbind_assoc.
      destruct (agrees_inv _ _ IH) as [(x & -> & B)|[B N]]; cbn [rbind].
      + now apply (call_formula1 op ps g f x).
      + apply agrees_fails; [now apply (formula1_fails op ps g)|].
        destruct (ev (tree t)); [destruct (N a eq_refl)|discriminate..].
    - destruct (as_formula t) as [g|] eqn:A; [|discriminate]. destruct (as_formula u) as [g'|] eqn:A'; [|discriminate].
      destruct E as [E E'].
      assert (Wg : wf g /\ wf g'). { clear -F W. unfold formula_op in F. byname op F; cbn [wf] in W; intuition. }
      destruct Wg as [Wg Wg']. specialize (IHt g E eq_refl Wg). specialize (IHu g' E' eq_refl Wg').
      destruct (formula_op_symbol _ _ _ _ F) as [s S]. rewrite (ev_operator op s t u S).
      destruct (agrees_inv _ _ IHt) as [(x & -> & B)|[B N]]; cbn [rbind].
      + destruct (agrees_inv _ _ IHu) as [(y & -> & B')|[B' N']]; cbn [rbind].
        * now apply (operator_formula op s g g').
        * apply agrees_fails; [apply (formula_op_fails op g g'); auto|].
          destruct (ev (tree u)) as [a| | |]; [destruct (N' a eq_refl)|discriminate..].
      + apply agrees_fails; [apply (formula_op_fails op g g'); auto|].
        destruct (ev (tree t)) as [a| | |]; [destruct (N a eq_refl)|discriminate..].
    - destruct (as_formula t) as [g|] eqn:A; [|discriminate]. destruct (as_formula u) as [g'|] eqn:A'; [|discriminate].
      destruct E as [E E']. destruct ps as [|p ps]; [|discriminate]. cbn [tree map].
      assert (Wg : wf g /\ wf g').
      { clear -F W. cbn [formula2] in F. byname op F.
        all: try (destruct (Nat.eqb (dim g) 1); [|destruct (Nat.eqb (dim g) (dim g'))]).
        all: cbn [wf sqnorm] in W; intuition. }
      destruct Wg as [Wg Wg']. specialize (IHt g E eq_refl Wg). specialize (IHu g' E' eq_refl Wg').
      rewrite ev_call, !ev_list_cons.
      destruct (agrees_inv _ _ IHt) as [(x & -> & B)|[B N]]; cbn [rbind].
      + destruct (agrees_inv _ _ IHu) as [(y & -> & B')|[B' N']]; cbn [rbind ev_list].
        * apply (call_formula2 op g g'); auto.
          -- apply (build_value g x Wg B).
          -- apply (build_value g' y Wg' B').
        * apply agrees_fails; [apply (formula2_fails op g g'); auto|].
          destruct (ev (tree u)) as [a| | |]; [destruct (N' a eq_refl)|discriminate..].
      + apply agrees_fails; [apply (formula2_fails op g g'); auto|].
        destruct (ev (tree t)) as [a| | |]; [destruct (N a eq_refl)|discriminate..].
    - destruct (as_formula t) as [g|] eqn:A; [|discriminate]. destruct (as_formula u) as [g'|] eqn:A'; [|discriminate].
      destruct (as_formula v) as [g''|] eqn:A''; [|discriminate].
      destruct E as (E & E' & E''). cbn [tree].
      assert (Wg : wf g /\ wf g' /\ wf g''). { clear -F W. unfold formula3 in F. byname op F; cbn [wf] in W; intuition. }
      destruct Wg as (Wg & Wg' & Wg''). specialize (IHt g E eq_refl Wg). specialize (IHu g' E' eq_refl Wg').
      specialize (IHv g'' E'' eq_refl Wg''). rewrite ev_call, !ev_list_cons.
      destruct (agrees_inv _ _ IHt) as [(x & -> & B)|[B N]]; cbn [rbind].
      + destruct (agrees_inv _ _ IHu) as [(y & -> & B')|[B' N']]; cbn [rbind].
        * destruct (agrees_inv _ _ IHv) as [(z & -> & B'')|[B'' N'']]; cbn [rbind ev_list].
          -- now apply (call_formula3 op g g' g'').
          -- apply agrees_fails; [apply (formula3_fails op g g' g''); auto|].
             destruct (ev (tree v)) as [a| | |]; [destruct (N'' a eq_refl)|discriminate..].
        * apply agrees_fails; [apply (formula3_fails op g g' g''); auto|].
          destruct (ev (tree u)) as [a| | |]; [destruct (N' a eq_refl)|discriminate..].
      + apply agrees_fails; [apply (formula3_fails op g g' g''); auto|].
        destruct (ev (tree t)) as [a| | |]; [destruct (N a eq_refl)|discriminate..].
  Qed.
End Names.

Lemma read_value : forall names t f, engine_term t -> as_formula t = Some f -> wf f ->
  forall h, evaluate names (tree t) = Ok (VF h) <-> build f = Ok h.
Proof. intros names t f E F W. apply agrees_iff. now apply eval_tree. Qed.

(** ** The texts of symbolic tensors *)

Lemma made_well_named : forall l t, made l t -> well_named t.
Proof.
  intros l t H. induction H; cbn [well_named];
    repeat match goal with |- _ /\ _ => split end; auto; try ident.
  - destruct m; ident.
  - destruct (k =? 2)%Z; split; auto; ident.
  - destruct m; ident.
  - destruct m; discriminate.
  - destruct m; discriminate.
  - discriminate.
  - discriminate.
  - destruct m; ident.
  - destruct m; ident.
Qed.

Lemma numbered_named : forall s t, well_named t -> well_named (numbered_term s t).
Proof. intros s. induction t; cbn [well_named numbered_term]; tauto. Qed.

Lemma made_read : forall l t, made l t -> reads (formula l) (tree t).
Proof.
  intros l t H. destruct (announced l t 0 H) as [-> _]. apply written_read. now apply (made_well_named l).
Qed.

Lemma text_written : forall t, text (as_expr t) = written t.
Proof.
  induction t; cbn [as_expr text written]; unfold numbered, after; rewrite ?map_map;
    rewrite ?app_assoc_s; cbn [append]; rewrite ?app_assoc_s; try congruence; try reflexivity.
Qed.

Lemma rename_expr : forall s t, rename s (as_expr t) = as_expr (numbered_term s t).
Proof. intros s. induction t; cbn [as_expr rename numbered_term]; congruence. Qed.

Lemma numbered_read : forall s l t, made l t ->
  text (as_expr t) = formula l /\ reads (text (rename s (as_expr t))) (tree (numbered_term s t)).
Proof.
  intros s l t H. destruct (announced l t 0 H) as [-> _]. rewrite rename_expr, !text_written. split; auto.
  apply written_read, numbered_named. now apply (made_well_named l).
Qed.

(** The whole way. *)
Lemma read_equivalent : forall s l t f names, made l t -> engine_term (numbered_term s t) ->
  as_formula (numbered_term s t) = Some f -> wf f ->
  exists e, reads (text (rename s (as_expr t))) e
  /\ (forall h, evaluate names e = Ok (VF h) <-> build f = Ok h)
  /\ (forall h, evaluate names e = Ok (VF h) -> equivalent f h).
Proof.
  intros s l t f names M E F W. exists (tree (numbered_term s t)). split; [now apply (numbered_read s l t)|].
  assert (R := read_value names _ f E F W). split; auto.
  intros h H. apply build_value; auto. now apply R.
Qed.

Definition example_term : term :=
  TOp "-" (TVar 900 3 0) (TOp "*" (T1 "Pow" (TVar 950 3 1) [-3]%Z) (TOp "<" (TSym 0 1 2) (TInt (-2)))).

(** Method by method. *)
Lemma array_axis : forall dt id sh ax l c, lt_array dt id sh ax = Ok l -> axis l = Some c -> category c.
Proof.
  intros dt id sh ax l c E A. unfold lt_array in E.
  apply rbind_ok in E. destruct E as ([[sh1 ax1] batch] & _ & E).
  apply rbind_ok in E. destruct E as (d & _ & E).
  destruct (Nat.leb 2 (List.length sh1) && _)%bool.
  - destruct ax1 as [a|]; [|discriminate].
    destruct ((a =? 0)%Z || (a =? 1)%Z)%bool eqn:B; [|discriminate].
    apply rbind_ok in E. destruct E as (n & _ & E). injection E as <-. cbn in A. injection A as <-.
    apply orb_true_iff in B. rewrite !Z.eqb_eq in B. unfold category. tauto.
  - destruct ax1 as [a|]; [destruct (a =? 2)%Z; [|discriminate]|]; injection E as <-; cbn in A; injection A as <-;
      right; right; reflexivity.
Qed.
Lemma category_ok : forall c, category c -> (0 <= c)%Z.
Proof. intros c [-> | [-> | ->]]; lia. Qed.

Ltac forms := repeat match goal with IH : forall s, _ /\ as_formula (numbered_term s ?x) = Some _ |- _ =>
    let E := fresh "E" in let F := fresh "F" in pose proof (fun s => proj1 (IH s)) as E; pose proof (fun s => proj2 (IH s)) as F;
    clear IH end.
Ltac form := cbn [numbered_term engine_term as_formula];
  repeat match goal with F : forall s, as_formula _ = Some _ |- _ => rewrite F; clear F end.

Lemma computes_made : forall l f, computes l f ->
  exists t, made l t /\ forall s, engine_term (numbered_term s t) /\ as_formula (numbered_term s t) = Some (f s).
Proof.
  intros l f H. induction H;
    repeat match goal with IH : exists t, _ |- _ => destruct IH as (? & ? & ?) end; forms.
  - eexists. split; [apply made_symbolic; assumption|]. apply category_ok in H0. cbn. repeat split; lia.
  - eexists. split; [apply made_int|]. cbn. auto.
  - eexists. split; [apply made_floats; assumption|]. cbn. repeat split; lia.
  - eexists. split; [eapply made_array; eauto|]. apply (array_axis _ _ _ _ _ _ H), category_ok in H2.
    cbn. repeat split; auto.
    subst d. clear -H0. induction H0 as [|a sh A F IH]; [cbn; lia|]. destruct sh; cbn in *; lia.
  - eexists. split; [apply made_map; eassumption|]. intros s. form.
    split; [split; auto; destruct m; intros [?|[?|?]]; discriminate|]. destruct m; try reflexivity. congruence.
  - eexists. split; [apply (made_pow 2); eassumption|]. intros s. cbn [Z.eqb Pos.eqb]. form.
    split; [split; auto|reflexivity].
  - eexists. split; [apply made_pow; eassumption|]. intros s. destruct (Z.eqb_spec k 2); [congruence|].
    form. split; [split; auto|reflexivity]. intros [?|[?|?]]; discriminate.
  - eexists. split; [apply made_clamp_int; eassumption|]. intros s. form.
    split; [split; auto|reflexivity]. intros [?|[?|?]]; discriminate.
  - eexists. split; [apply made_scal; eassumption|]. intros s. form.
    split; [split; auto|]. destruct m; reflexivity.
  - eexists. split; [eapply made_elem; eassumption|]. intros s. form.
    split; [split; auto|reflexivity]. intros _. constructor; auto.
    unfold m_elem in H0. destruct (Z.ltb_spec i 0); [discriminate|auto].
  - eexists. split; [eapply made_extract; eassumption|]. intros s. form.
    split; [split; auto|reflexivity]. intros _. unfold m_extract in H0. destruct (Z.ltb_spec i 0); [discriminate|].
    cbn [orb] in H0. destruct (ndim l <=? i)%Z; [discriminate|]. destruct (Z.ltb_spec d 1); [discriminate|].
    repeat constructor; lia.
  - eexists. split; [eapply made_slice; eassumption|]. intros s. form.
    split; [split; auto|reflexivity]. intros _. unfold m_slice, m_extract in H0. destruct (Z.ltb_spec a 0); [discriminate|].
    cbn [orb] in H0. destruct (ndim l <=? a)%Z; [discriminate|]. destruct (Z.ltb_spec (b - a) 1); [discriminate|].
    repeat constructor; lia.
  - eexists. split; [eapply made_one_hot; eassumption|]. intros s. form.
    split; [split; auto|reflexivity].
  - eexists. split; [(eapply made_arith; [| |eassumption]); eassumption|]. intros s. form. split; auto. destruct m; reflexivity.
  - eexists. split; [(eapply made_arith_rev; [| |eassumption]); eassumption|]. intros s. form. split; auto. destruct m; reflexivity.
  - eexists. split; [(eapply made_or; [| |eassumption]); eassumption|]. intros s. form. auto.
  - eexists. split; [(eapply made_or_rev; [| |eassumption]); eassumption|]. intros s. form. auto.
  - eexists. split; [(eapply made_fun2; [| |eassumption]); eassumption|]. intros s. form. split; auto. destruct m; reflexivity.
  - eexists. split; [(eapply made_powf; [| |eassumption]); eassumption|]. intros s. form. auto.
  - eexists. split; [(eapply made_sqdist; [| |eassumption]); eassumption|]. intros s. form. auto.
  - eexists. split; [(eapply made_weightedsqnorm; [| |eassumption]); eassumption|]. intros s. form. auto.
  - eexists. split; [(eapply made_concat; [| |eassumption]); eassumption|]. intros s. form. auto.
  - eexists. split; [(eapply made_matvec; [| |eassumption]); eassumption|]. intros s. form. auto.
  - eexists. split; [(eapply made_vecmat; [| |eassumption]); eassumption|]. intros s. form. auto.
  - eexists. split; [(eapply made_tensorprod; [| |eassumption]); eassumption|]. intros s. form. auto.
  - eexists. split; [(eapply made_fun3; [| | |eassumption]); eassumption|]. intros s. form. split; auto. destruct m; reflexivity.
Qed.

Lemma methods_meaning : forall l f, computes l f -> (forall s, wf (f s)) ->
  exists x, text x = formula l
  /\ forall s names, exists e, reads (text (rename s x)) e
     /\ (forall h, evaluate names e = Ok (VF h) <-> build (f s) = Ok h)
     /\ (forall h, evaluate names e = Ok (VF h) -> equivalent (f s) h).
Proof.
  intros l f C W. destruct (computes_made l f C) as (t & M & F). exists (as_expr t).
  split; [now apply (numbered_read (fun i => i) l t)|].
  intros s names. destruct (F s) as [E A]. exact (read_equivalent s l t (f s) names M E A (W s)).
Qed.
