(** Proofs about factorisation. *)

From Coq Require Import ZArith List Bool Arith Lia.
From Verif Require Import Result Formula Factor FactorFm FactorSpec.
Import ListNotations.

Section Proofs.
Variable op : Type.
Variable op_eq_dec : forall a b : op, {a = b} + {a <> b}.
Variable odim : op -> list nat -> nat.
Variable light : op -> bool.
Variable val : Type.
Variable osem : op -> list val -> val.

Notation tree := (tree op).
Notation Leaf := (Leaf op).
Notation Node := (Node op).
Notation Fact := (Fact op).
Notation vars := (vars op).
Notation tree_eqb := (tree_eqb op op_eq_dec).
Notation replace_count := (replace_count op op_eq_dec).
Notation replace := (replace op op_eq_dec).
Notation dim_of := (dim_of op odim).
Notation factorize_ := (factorize_ op).
Notation factorize := (factorize op op_eq_dec odim light).
Notation rec_search := (rec_search op op_eq_dec odim light).
Notation auto_factorize := (auto_factorize op op_eq_dec odim light).
Notation call := (call op op_eq_dec val osem).
Notation value := (value op val osem).
Notation plain := (plain op).
Notation nodes := (nodes op).
Notation temp_vars := (temp_vars op).

Lemma tree_rect' : forall P : tree -> Prop,
  (forall v, P (Leaf v)) ->
  (forall o l, Forall P l -> P (Node o l)) ->
  (forall f g v, P f -> P g -> P (Fact f g v)) ->
  forall t, P t.
Proof.
  intros P H1 H2 H3. fix IH 1. intros [v|o l|f g v].
  - apply H1.
  - apply H2. induction l as [|c l IHl]; constructor; auto.
  - apply H3; apply IH.
Qed.

Lemma tree_eqb_eq : forall s t, tree_eqb s t = true <-> s = t.
Proof.
  induction s as [u|o l IH|f g v IHf IHg] using tree_rect'; intros [u'|o' l'|f' g' v'];
    cbn [Factor.tree_eqb]; try (split; [discriminate|congruence]).
  - destruct (var_eq_dec u u'); split; congruence.
  - destruct (op_eq_dec o o') as [->|n]; cbn [andb]; [|split; [discriminate|congruence]].
    match goal with |- ?X l l' = true <-> _ => set (all := X) end.
    assert (E : all l l' = true <-> l = l').
    { revert l'. induction IH as [|c l Hc _ IHl]; intros [|c' l'];
        cbn; try (split; [discriminate|congruence]).
      - tauto.
      - rewrite andb_true_iff. fold all. rewrite IHl, Hc. split; [intros [-> ->]; auto|].
        intros E; inversion E; auto. }
    rewrite E. split; [intros ->; auto|]. intros H; inversion H; auto.
  - rewrite !andb_true_iff, IHf, IHg. destruct (var_eq_dec v v') as [->|n].
    + split; [intros [[-> ->] _]; auto|]. intros H; inversion H; auto.
    + split; [intros [_ H]; discriminate|congruence].
Qed.
Lemma tree_eqb_refl : forall t, tree_eqb t t = true.
Proof. intros. now apply tree_eqb_eq. Qed.
Lemma tree_eqb_neq : forall s t, tree_eqb s t = false <-> s <> t.
Proof.
  intros. split.
  - intros H E. subst. rewrite tree_eqb_refl in H. discriminate.
  - intros H. destruct (tree_eqb s t) eqn:E; auto. apply tree_eqb_eq in E. contradiction.
Qed.

(** One step of [replace_count]. *)
Lemma replace_same : forall t new, replace_count t t new = (new, 1).
Proof. intros. destruct t; cbn -[Factor.tree_eqb]; now rewrite tree_eqb_refl. Qed.
Lemma replace_leaf : forall v old new, Leaf v <> old -> replace_count (Leaf v) old new = (Leaf v, 0).
Proof. intros v old new H. apply tree_eqb_neq in H. cbn -[Factor.tree_eqb]. now rewrite H. Qed.
Lemma replace_node : forall o l old new, Node o l <> old ->
  replace_count (Node o l) old new =
  (Node o (map (fun c => fst (replace_count c old new)) l),
   list_sum (map (fun c => snd (replace_count c old new)) l)).
Proof.
  intros o l old new H. apply tree_eqb_neq in H. cbn -[Factor.tree_eqb]. rewrite H.
  now rewrite !map_map.
Qed.
Lemma replace_fact : forall f g v old new, Fact f g v <> old ->
  replace_count (Fact f g v) old new =
  (Fact (fst (replace_count f old new)) (fst (replace_count g old new)) v,
   snd (replace_count f old new) + snd (replace_count g old new)).
Proof. intros f g v old new H. apply tree_eqb_neq in H. cbn -[Factor.tree_eqb]. now rewrite H. Qed.

Lemma tree_dec : forall s t : tree, {s = t} + {s <> t}.
Proof.
  intros s t. destruct (tree_eqb s t) eqn:E; [left; now apply tree_eqb_eq|right; now apply tree_eqb_neq].
Qed.

(** Dimensions do not change. *)
Lemma replace_dim : forall old new, dim_of new = dim_of old ->
  forall t, dim_of (replace t old new) = dim_of t.
Proof.
  intros old new H t. unfold Factor.replace.
  induction t as [u|o l IH|f g v IHf IHg] using tree_rect'.
  - destruct (tree_dec (Leaf u) old) as [E|E].
    + subst. rewrite replace_same. exact H.
    + now rewrite replace_leaf.
  - destruct (tree_dec (Node o l) old) as [E|E].
    + subst old. now rewrite replace_same.
    + rewrite replace_node by auto. cbn [fst Factor.dim_of]. f_equal. rewrite map_map.
      apply map_ext_Forall. exact IH.
  - destruct (tree_dec (Fact f g v) old) as [E|E].
    + subst old. now rewrite replace_same.
    + rewrite replace_fact by auto. cbn [fst Factor.dim_of]. exact IHf.
Qed.

Lemma list_sum_0 : forall l, list_sum l = 0 -> Forall (fun n => n = 0) l.
Proof.
  unfold list_sum. induction l as [|a l IH]; simpl; intros H; constructor; [lia|]. apply IH. lia.
Qed.

Lemma map_id_Forall : forall (A : Type) (f : A -> A) l, Forall (fun c => f c = c) l -> map f l = l.
Proof. induction 1; simpl; congruence. Qed.

(** Nothing is replaced: nothing changes. *)
Lemma replace_none : forall old new t, snd (replace_count t old new) = 0 ->
  fst (replace_count t old new) = t.
Proof.
  intros old new. induction t as [u|o l IH|f g v IHf IHg] using tree_rect'; intros H.
  - destruct (tree_dec (Leaf u) old) as [E|E].
    + subst. rewrite replace_same in H. discriminate.
    + now rewrite replace_leaf.
  - destruct (tree_dec (Node o l) old) as [E|E].
    + subst old. rewrite replace_same in H. discriminate.
    + rewrite replace_node in * by auto. cbn [fst snd] in *. f_equal. apply map_id_Forall.
      apply list_sum_0 in H. rewrite Forall_map in H.
      rewrite Forall_forall in *. intros c Hc. apply IH; auto.
  - destruct (tree_dec (Fact f g v) old) as [E|E].
    + subst old. rewrite replace_same in H. discriminate.
    + rewrite replace_fact in * by auto. cbn [fst snd] in *. rewrite IHf, IHg by lia. reflexivity.
Qed.

Lemma list_sum_In : forall (A : Type) (f : A -> nat) l, 0 < list_sum (map f l) ->
  exists c, In c l /\ 0 < f c.
Proof.
  unfold list_sum. induction l as [|a l IH]; simpl; intros H; [lia|].
  destruct (Nat.eq_dec (f a) 0).
  - destruct IH as (c & I & Hc); [lia|]. eauto.
  - exists a. split; auto. lia.
Qed.

(** An occurrence brings its variables. *)
Lemma occurs_vars : forall old new t, 0 < snd (replace_count t old new) ->
  forall x, In x (vars old) -> In x (vars t).
Proof.
  intros old new. induction t as [u|o l IH|f g v IHf IHg] using tree_rect'; intros H x Hx.
  - destruct (tree_dec (Leaf u) old) as [E|E]; [now subst old|].
    rewrite replace_leaf in H by auto. simpl in H. lia.
  - destruct (tree_dec (Node o l) old) as [E|E]; [now subst old|].
    rewrite replace_node in H by auto. cbn [snd] in H.
    apply list_sum_In in H. destruct H as (c & Hc & P). cbn [Factor.vars]. apply in_flat_map.
    exists c. split; auto. rewrite Forall_forall in IH. now apply IH.
  - destruct (tree_dec (Fact f g v) old) as [E|E]; [now subst old|].
    rewrite replace_fact in H by auto. cbn [snd] in H. cbn [Factor.vars]. apply in_app_iff.
    destruct (Nat.eq_dec (snd (replace_count f old new)) 0); [right; apply IHg|left; apply IHf]; auto; lia.
Qed.

(** Variables after a replacement. *)
Lemma replace_vars : forall old v t x, In x (vars (replace t old (Leaf v))) -> In x (vars t) \/ x = v.
Proof.
  intros old v. unfold Factor.replace.
  induction t as [u|o l IH|f g w IHf IHg] using tree_rect'; intros x.
  - destruct (tree_dec (Leaf u) old) as [E|E].
    + subst old. rewrite replace_same. simpl. intuition.
    + rewrite replace_leaf by auto. auto.
  - destruct (tree_dec (Node o l) old) as [E|E].
    + subst old. rewrite replace_same. simpl. intuition.
    + rewrite replace_node by auto. cbn [fst Factor.vars]. rewrite !in_flat_map.
      intros (c & Hc & Hx). apply in_map_iff in Hc. destruct Hc as (c' & <- & Hc').
      rewrite Forall_forall in IH. destruct (IH c' Hc' x Hx); eauto.
  - destruct (tree_dec (Fact f g w) old) as [E|E].
    + subst old. rewrite replace_same. simpl. intuition.
    + rewrite replace_fact by auto. cbn [fst Factor.vars]. rewrite !in_app_iff.
      intros [H|H]; [destruct (IHf x H)|destruct (IHg x H)]; auto.
Qed.

Lemma replace_keeps : forall old new t x, In x (vars t) -> In x (vars (replace t old new)) \/ In x (vars old).
Proof.
  intros old new. unfold Factor.replace.
  induction t as [u|o l IH|f g w IHf IHg] using tree_rect'; intros x.
  - destruct (tree_dec (Leaf u) old) as [E|E].
    + subst old. auto.
    + rewrite replace_leaf by auto. auto.
  - destruct (tree_dec (Node o l) old) as [E|E].
    + subst old. auto.
    + rewrite replace_node by auto. cbn [fst Factor.vars]. rewrite !in_flat_map.
      intros (c & Hc & Hx). rewrite Forall_forall in IH. destruct (IH c Hc x Hx) as [H|H]; auto.
      left. exists (fst (replace_count c old new)). split; auto. apply in_map_iff. eauto.
  - destruct (tree_dec (Fact f g w) old) as [E|E].
    + subst old. auto.
    + rewrite replace_fact by auto. cbn [fst Factor.vars]. rewrite !in_app_iff.
      intros [H|H]; [destruct (IHf x H)|destruct (IHg x H)]; auto.
Qed.

(** ** Values *)

Lemma value_ext : forall t env env', (forall x, In x (vars t) -> env (vind x) = env' (vind x)) ->
  value t env = value t env'.
Proof.
  induction t as [u|o l IH|f g w IHf IHg] using tree_rect'; intros env env' H; cbn [FactorSpec.value].
  - apply H. now left.
  - f_equal. apply map_ext_in. intros c Hc. rewrite Forall_forall in IH. apply IH; auto.
    intros x Hx. apply H. cbn. apply in_flat_map. eauto.
  - apply IHf. intros x Hx. unfold bind. rewrite (IHg env env').
    + destruct (Z.eqb (vind x) (vind w)); auto. apply H. cbn. apply in_app_iff. auto.
    + intros y Hy. apply H. cbn. apply in_app_iff. auto.
Qed.

Lemma plain_node : forall o l, plain (Node o l) <-> Forall plain l.
Proof.
  intros o l. induction l as [|c l IH]; cbn in *.
  - split; auto.
  - split.
    + intros [H1 H2]. constructor; auto. now apply IH.
    + intros H. inversion H; subst. split; auto. now apply IH.
Qed.

(** Replacing a sub-formula by a new variable that has its value. *)
Lemma value_replace : forall g v t env env', plain t ->
  (forall x, In x (vars t) -> vind x <> vind v) ->
  (forall x, In x (vars t) -> env' (vind x) = env (vind x)) ->
  env' (vind v) = value g env ->
  value (replace t g (Leaf v)) env' = value t env.
Proof.
  intros g v t env env' P N E Hv. unfold Factor.replace.
  induction t as [u|o l IH|f h w IHf IHg] using tree_rect'; [| |destruct P].
  - destruct (tree_dec (Leaf u) g) as [D|D].
    + subst g. rewrite replace_same. cbn. exact Hv.
    + rewrite replace_leaf by auto. cbn. apply E. now left.
  - destruct (tree_dec (Node o l) g) as [D|D].
    + rewrite D, replace_same. cbn. exact Hv.
    + rewrite replace_node by auto. cbn [fst FactorSpec.value]. f_equal. rewrite map_map.
      apply map_ext_in. intros c Hc. rewrite Forall_forall in IH. apply plain_node in P.
      rewrite Forall_forall in P. apply IH; auto.
      * intros x Hx. apply N. cbn. apply in_flat_map. eauto.
      * intros x Hx. apply E. cbn. apply in_flat_map. eauto.
Qed.

(** ** Chains of definitions: f0 with (vn = gn) ... with (v1 = g1), the outermost first. *)
Fixpoint build (f0 : tree) (cs : list (tree * var)) : tree :=
  match cs with [] => f0 | (g, v) :: cs => Fact (build f0 cs) g v end.

(** [known]: what the definitions may use. *)
Fixpoint chain (known : list var) (f0 : tree) (cs : list (tree * var)) : Prop :=
  match cs with
  | [] => plain f0 /\ forall x, In x (vars f0) -> (0 <= vind x)%Z \/ In x known
  | (g, v) :: cs =>
      plain g /\ (forall x, In x (vars g) -> (0 <= vind x)%Z \/ In x known)
      /\ (vind v < 0)%Z /\ (forall x, In x known -> vind x <> vind v)
      /\ In v (vars (build f0 cs))
      /\ chain (v :: known) f0 cs
  end.

Definition chained (t : tree) : Prop := exists f0 cs, t = build f0 cs /\ chain [] f0 cs.

Lemma chain_plain : forall cs known f0, chain known f0 cs -> plain f0.
Proof.
  induction cs as [|[g v] cs IH]; cbn; intros known f0 H.
  - tauto.
  - destruct H as (_ & _ & _ & _ & _ & H). eauto.
Qed.

Lemma plain_chained : forall t, plain t -> (forall x, In x (vars t) -> (0 <= vind x)%Z) -> chained t.
Proof. intros t P N. exists t, []. split; auto. cbn. auto. Qed.

Definition rep (g : tree) (v : var) (t : tree) : tree := fst (replace_count t g (Leaf v)).
Definition rcs (g : tree) (v : var) (cs : list (tree * var)) : list (tree * var) :=
  map (fun c => (rep g v (fst c), snd c)) cs.
Definition aliases (cs : list (tree * var)) : list var := map snd cs.
Definition count (g t : tree) : nat := snd (replace_count t g g).

Lemma count_new : forall g new t, snd (replace_count t g new) = count g t.
Proof.
  intros g new. unfold count. induction t as [u|o l IH|f h w IHf IHg] using tree_rect'.
  - destruct (tree_dec (Leaf u) g) as [E|E].
    + subst g. now rewrite !replace_same.
    + now rewrite !replace_leaf.
  - destruct (tree_dec (Node o l) g) as [E|E].
    + subst g. now rewrite !replace_same.
    + rewrite !replace_node by auto. cbn [snd]. f_equal. apply map_ext_Forall. exact IH.
  - destruct (tree_dec (Fact f h w) g) as [E|E].
    + subst g. now rewrite !replace_same.
    + rewrite !replace_fact by auto. cbn [snd]. now rewrite IHf, IHg.
Qed.

Lemma fact_not_plain : forall f g v h, plain h -> Fact f g v <> h.
Proof. intros f g v h P E. subst h. exact P. Qed.

Lemma rep_build : forall g v, plain g -> forall cs f0,
  rep g v (build f0 cs) = build (rep g v f0) (rcs g v cs).
Proof.
  intros g v P. induction cs as [|[h w] cs IH]; intros f0; cbn [build rcs map fst snd]; auto.
  unfold rep at 1. rewrite replace_fact by now apply fact_not_plain. cbn [fst]. f_equal. apply IH.
Qed.

Lemma count_build : forall g, plain g -> forall f0 h w cs,
  count g (build f0 ((h, w) :: cs)) = count g (build f0 cs) + count g h.
Proof.
  intros g P f0 h w cs. unfold count. cbn [build]. rewrite replace_fact by now apply fact_not_plain.
  reflexivity.
Qed.

Lemma rep_plain : forall g v t, plain t -> plain (rep g v t).
Proof.
  intros g v. unfold rep. induction t as [u|o l IH|f h w IHf IHg] using tree_rect'; intros P.
  - destruct (tree_dec (Leaf u) g) as [E|E].
    + subst g. now rewrite replace_same.
    + now rewrite replace_leaf.
  - destruct (tree_dec (Node o l) g) as [E|E].
    + subst g. now rewrite replace_same.
    + rewrite replace_node by auto. cbn [fst]. apply plain_node. apply plain_node in P.
      rewrite Forall_map. rewrite Forall_forall in *. intros c Hc. auto.
  - destruct P.
Qed.

(** A replacement introduces the variable. *)
Lemma rep_new : forall g v t, 0 < count g t -> In v (vars (rep g v t)).
Proof.
  intros g v t H. rewrite <- (count_new g (Leaf v)) in H. revert H. unfold rep.
  induction t as [u|o l IH|f h w IHf IHg] using tree_rect'; intros H.
  - destruct (tree_dec (Leaf u) g) as [E|E].
    + subst g. rewrite replace_same. now left.
    + rewrite replace_leaf in H by auto. cbn in H. lia.
  - destruct (tree_dec (Node o l) g) as [E|E].
    + subst g. rewrite replace_same. now left.
    + rewrite replace_node in * by auto. cbn [fst snd] in *. apply list_sum_In in H.
      destruct H as (c & Hc & P). cbn. apply in_flat_map. eexists. split.
      * apply in_map_iff. eauto.
      * rewrite Forall_forall in IH. auto.
  - destruct (tree_dec (Fact f h w) g) as [E|E].
    + subst g. rewrite replace_same. now left.
    + rewrite replace_fact in * by auto. cbn [fst snd] in *. cbn. apply in_app_iff.
      destruct (Nat.eq_dec (snd (replace_count f g (Leaf v))) 0); [right; apply IHg|left; apply IHf]; lia.
Qed.

Lemma chain_same : forall cs known known' f0, (forall x, In x known <-> In x known') ->
  chain known f0 cs -> chain known' f0 cs.
Proof.
  induction cs as [|[g v] cs IH]; cbn; intros known known' f0 E H.
  - destruct H as [P H]. split; auto. intros x Hx. destruct (H x Hx); auto. right. now apply E.
  - destruct H as (P & H1 & H2 & H3 & H4 & H5). repeat split; auto.
    + intros x Hx. destruct (H1 x Hx); auto. right. now apply E.
    + intros x Hx. apply H3. now apply E.
    + apply (IH (v :: known)); auto. intros x. cbn. rewrite E. tauto.
Qed.

Lemma chain_aliases : forall cs known f0, chain known f0 cs -> forall w, In w (aliases cs) ->
  (vind w < 0)%Z /\ (forall x, In x known -> vind x <> vind w) /\ In w (vars (build f0 cs)).
Proof.
  induction cs as [|[g v] cs IH]; cbn [chain aliases map build Factor.vars In snd]; intros known f0 H w Hw; [tauto|].
  destruct H as (P & H1 & H2 & H3 & H4 & H5). destruct Hw as [E|Hw].
  - subst w. repeat split; auto. apply in_app_iff. auto.
  - destruct (IH _ _ H5 w Hw) as (A & B & C). repeat split; auto.
    + intros x Hx. apply B. now right.
    + apply in_app_iff. auto.
Qed.

Lemma chain_vars : forall cs known f0, chain known f0 cs -> forall x, In x (vars (build f0 cs)) ->
  (0 <= vind x)%Z \/ In x known \/ In x (aliases cs).
Proof.
  induction cs as [|[g v] cs IH]; cbn [chain aliases map build Factor.vars In snd]; intros known f0 H x Hx.
  - destruct H as [_ H]. destruct (H x Hx); auto.
  - destruct H as (P & H1 & H2 & H3 & H4 & H5). apply in_app_iff in Hx. destruct Hx as [Hx|Hx].
    + destruct (IH _ _ H5 x Hx) as [?|[[?|?]|?]]; auto.
    + destruct (H1 x Hx); auto.
Qed.

(** Values of chains after a replacement. *)
Lemma value_build_replace : forall g v cs known f0 E E', plain g -> chain known f0 cs ->
  (forall x w, In x (vars g) -> In w (aliases cs) -> vind x <> vind w) ->
  (forall x, In x (vars (build f0 cs)) -> vind x <> vind v) ->
  (forall x, In x (vars (build f0 cs)) -> E' (vind x) = E (vind x)) ->
  E' (vind v) = value g E ->
  value (build (rep g v f0) (rcs g v cs)) E' = value (build f0 cs) E.
Proof.
  intros g v. induction cs as [|[h w] cs IH]; intros known f0 E E' P C A F EE Hv;
    cbn [build rcs map fst snd FactorSpec.value].
  - apply value_replace; auto. now apply chain_plain in C.
  - cbn [chain] in C. destruct C as (Ph & H1 & H2 & H3 & H4 & H5).
    assert (Fh : forall x, In x (vars h) -> vind x <> vind v).
    { intros x Hx. apply F. cbn. apply in_app_iff. auto. }
    assert (Eh : forall x, In x (vars h) -> E' (vind x) = E (vind x)).
    { intros x Hx. apply EE. cbn. apply in_app_iff. auto. }
    assert (Vh : value (rep g v h) E' = value h E) by (apply value_replace; auto).
    rewrite Vh. apply (IH (w :: known)); auto.
    + intros x u Hx Hu. apply A; auto. cbn. auto.
    + intros x Hx. apply F. cbn. apply in_app_iff. auto.
    + intros x Hx. unfold bind. destruct (Z.eqb (vind x) (vind w)); auto.
      apply EE. cbn. apply in_app_iff. auto.
    + assert (Nw : vind w <> vind v).
      { apply F. cbn. apply in_app_iff. auto. }
      unfold bind at 1. destruct (Z.eqb_spec (vind v) (vind w)); [congruence|].
      rewrite Hv. apply value_ext. intros x Hx. unfold bind.
      destruct (Z.eqb_spec (vind x) (vind w)) as [e|]; auto. destruct (A x w Hx); cbn; auto.
Qed.

(** Chains after a replacement by a variable. *)
Lemma chain_replace : forall g v cs known f0, plain g -> (vind v < 0)%Z -> chain known f0 cs ->
  (forall w, In w (aliases cs) -> ~ In w (vars g) /\ vind w <> vind v) ->
  chain (v :: known) (rep g v f0) (rcs g v cs).
Proof.
  intros g v. induction cs as [|[h w] cs IH]; intros known f0 P N C A; cbn [chain rcs map fst snd] in *.
  - destruct C as [P0 C]. split; [now apply rep_plain|]. intros x Hx.
    apply replace_vars in Hx. destruct Hx as [Hx|Hx]; [destruct (C x Hx); cbn; auto|cbn; auto].
  - destruct C as (Ph & H1 & H2 & H3 & H4 & H5). destruct (A w) as [A1 A2]; [cbn; auto|].
    repeat split.
    + now apply rep_plain.
    + intros x Hx. apply replace_vars in Hx. destruct Hx as [Hx|Hx]; [destruct (H1 x Hx); cbn; auto|cbn; auto].
    + exact H2.
    + intros x [Hx|Hx]; [subst; congruence|auto].
    + fold (rcs g v cs). rewrite <- rep_build by auto.
      destruct (replace_keeps g (Leaf v) _ _ H4) as [K|K]; [exact K|contradiction].
    + apply (chain_same _ (v :: w :: known)).
      * intros x. cbn. tauto.
      * apply IH; auto. intros u Hu. apply A. cbn. auto.
Qed.

(** Nodes that may be factorised. *)
Fixpoint heavy (t : tree) : nat :=
  match t with
  | Factor.Leaf _ _ => 0
  | Factor.Node _ o l => (if light o then 0 else 1) + list_sum (map heavy l)
  | Factor.Fact _ f g _ => heavy f + heavy g
  end.

Lemma heavy_rep : forall g v t, heavy (rep g v t) + count g t * heavy g = heavy t.
Proof.
  intros g v t. rewrite <- (count_new g (Leaf v)). unfold rep.
  induction t as [u|o l IH|f h w IHf IHg] using tree_rect'.
  - destruct (tree_dec (Leaf u) g) as [E|E].
    + subst g. now rewrite replace_same.
    + now rewrite replace_leaf.
  - destruct (tree_dec (Node o l) g) as [E|E].
    + subst g. rewrite replace_same. cbn [fst snd heavy]. lia.
    + rewrite replace_node by auto. cbn [fst snd heavy]. rewrite map_map. clear E.
      induction IH as [|c l Hc _ IHl]; cbn; [lia|].
      unfold list_sum in *. cbn in *. lia.
  - destruct (tree_dec (Fact f h w) g) as [E|E].
    + subst g. rewrite replace_same. cbn [fst snd heavy]. lia.
    + rewrite replace_fact by auto. cbn [fst snd heavy]. lia.
Qed.

Lemma temp_build : forall cs f0, plain f0 -> forall x, In x (temp_vars (build f0 cs)) <-> In x (aliases cs).
Proof.
  induction cs as [|[h w] cs IH]; intros f0 P x; cbn [build Factor.temp_vars aliases map snd].
  - destruct f0; cbn in *; tauto.
  - rewrite in_app_iff, IH by auto. cbn. unfold aliases. tauto.
Qed.

Lemma var_in_spec : forall v l, var_in v l = true <-> In v l.
Proof.
  intros v l. unfold var_in. rewrite existsb_exists. split.
  - intros (x & Hx & H). destruct (var_eq_dec x v); congruence.
  - intros H. exists v. split; auto. destruct (var_eq_dec v v); congruence.
Qed.

Lemma factorize_plain : forall t g v, plain t -> factorize_ t g v = Fact t g v.
Proof. intros t g v P. destruct t; auto. destruct P. Qed.

(** Inserting the definition. *)
Lemma insert_ok : forall g v cs known f0, plain g -> (vind v < 0)%Z -> chain known f0 cs ->
  (forall x, In x (vars g) -> (0 <= vind x)%Z \/ In x known \/ In x (aliases cs)) ->
  (forall x, In x known \/ In x (aliases cs) -> vind x <> vind v) ->
  0 < count g (build f0 cs) ->
  exists f1 cs1, factorize_ (build (rep g v f0) (rcs g v cs)) g v = build f1 cs1
  /\ chain known f1 cs1
  /\ (forall env, value (build f1 cs1) env = value (build f0 cs) env)
  /\ (forall x, In x (vars (build f0 cs)) -> In x (vars (build f1 cs1)))
  /\ (forall x, In x (vars (build f1 cs1)) -> In x (vars (build f0 cs)) \/ x = v)
  /\ heavy (build f1 cs1) + count g (build f0 cs) * heavy g = heavy (build f0 cs) + heavy g.
Proof.
  intros g v. induction cs as [|[h w] cs IH]; intros known f0 P N C G F Hc.
  - (* the core *)
    cbn [build rcs map]. assert (P0 := chain_plain _ _ _ C).
    rewrite factorize_plain by now apply rep_plain.
    exists (rep g v f0), [(g, v)]. split; [reflexivity|].
    cbn [build] in *. cbn [chain] in C. destruct C as [_ C]. repeat split.
    + exact P.
    + intros x Hx. destruct (G x Hx) as [?|[?|[]]]; auto.
    + exact N.
    + intros x Hx. apply F. auto.
    + now apply rep_new.
    + now apply rep_plain.
    + intros x Hx. apply replace_vars in Hx. destruct Hx as [Hx|Hx]; [destruct (C x Hx); cbn; auto|cbn; auto].
    + intros env. cbn [FactorSpec.value]. apply value_replace; auto.
      * intros x Hx. destruct (C x Hx) as [?|K]; [lia|]. apply F. auto.
      * intros x Hx. unfold bind. destruct (Z.eqb_spec (vind x) (vind v)) as [e|]; auto.
        destruct (C x Hx) as [?|K]; [lia|]. destruct (F x); auto.
      * unfold bind. now rewrite Z.eqb_refl.
    + intros x Hx. cbn. apply in_app_iff. destruct (replace_keeps g (Leaf v) _ _ Hx); auto.
    + intros x Hx. cbn in Hx. apply in_app_iff in Hx. destruct Hx as [Hx|Hx].
      * apply replace_vars in Hx. exact Hx.
      * left. eapply occurs_vars; eauto.
    + cbn [heavy]. pose proof (heavy_rep g v f0). lia.
  - cbn [build rcs map fst snd Factor.factorize_].
    fold (rcs g v cs).
    assert (P0 : plain f0) by now apply chain_plain in C.
    destruct (existsb (fun u => var_in u (vars g)) (temp_vars (Fact (build (rep g v f0) (rcs g v cs)) (rep g v h) w))) eqn:X.
    + (* go inside *)
      apply existsb_exists in X. destruct X as (u & Hu & Hg). apply var_in_spec in Hg.
      assert (Ha : In u (aliases ((h, w) :: cs))).
      { change (Fact (build (rep g v f0) (rcs g v cs)) (rep g v h) w)
          with (build (rep g v f0) ((rep g v h, w) :: rcs g v cs)) in Hu.
        apply temp_build in Hu; [|now apply rep_plain].
        unfold aliases, rcs in *. cbn [map snd] in *. rewrite map_map in Hu. exact Hu. }
      assert (Hh : count g h = 0).
      { destruct (Nat.eq_dec (count g h) 0); auto. exfalso.
        assert (Iu : In u (vars h)) by (apply (occurs_vars g g h); [unfold count in *; lia|exact Hg]).
        destruct (chain_aliases _ _ _ C u Ha) as (A1 & A2 & _).
        cbn [chain] in C. destruct C as (_ & H1 & _).
        destruct (H1 u Iu) as [?|K]; [lia|]. now apply (A2 u K). }
      assert (Eh : rep g v h = h).
      { unfold rep. apply replace_none. now rewrite count_new. }
      rewrite Eh. cbn [chain] in C. destruct C as (Ph & H1 & H2 & H3 & H4 & H5).
      rewrite count_build in Hc by auto.
      destruct (IH (w :: known) f0) as (f1 & cs1 & E1 & C1 & V1 & K1 & S1 & M1); auto.
      * intros x Hx. destruct (G x Hx) as [?|[?|K]]; cbn; auto. cbn in K. tauto.
      * intros x Hx. apply F. cbn in *. tauto.
      * lia.
      * exists f1, ((h, w) :: cs1). rewrite E1. split; [reflexivity|]. cbn [build chain].
        repeat split; auto.
        -- intros env. cbn [FactorSpec.value]. apply V1.
        -- intros x. cbn [Factor.vars]. rewrite !in_app_iff. intros [?|?]; auto.
        -- intros x. cbn [Factor.vars]. rewrite !in_app_iff. intros [K|?]; auto.
           destruct (S1 x K); auto.
        -- cbn [heavy]. pose proof (count_build g P f0 h w cs) as CB. cbn [build] in CB. rewrite CB.
           rewrite Hh, Nat.add_0_r. lia.
    + (* here *)
      assert (NA : forall u, In u (aliases ((h, w) :: cs)) -> ~ In u (vars g)).
      { intros u Hu Hg. revert X. apply not_false_iff_true. apply existsb_exists. exists u. split.
        - change (Fact (build (rep g v f0) (rcs g v cs)) (rep g v h) w)
            with (build (rep g v f0) ((rep g v h, w) :: rcs g v cs)).
          apply temp_build; [now apply rep_plain|].
          unfold aliases, rcs in *. cbn [map snd] in *. rewrite map_map. exact Hu.
        - now apply var_in_spec. }
      exists (rep g v f0), ((g, v) :: rcs g v ((h, w) :: cs)). split; [reflexivity|].
      assert (Gk : forall x, In x (vars g) -> (0 <= vind x)%Z \/ In x known).
      { intros x Hx. destruct (G x Hx) as [?|[?|K]]; auto. now destruct (NA x K). }
      assert (Fv : forall x, In x (vars (build f0 ((h, w) :: cs))) -> vind x <> vind v).
      { intros x Hx. destruct (chain_vars _ _ _ C x Hx) as [?|K]; [lia|]. now apply F. }
      assert (CR : chain (v :: known) (rep g v f0) (rcs g v ((h, w) :: cs))).
      { apply chain_replace; auto. }
      assert (RB := rep_build g v P ((h, w) :: cs) f0).
      split; [|change (build (rep g v f0) ((g, v) :: rcs g v ((h, w) :: cs)))
        with (Fact (build (rep g v f0) (rcs g v ((h, w) :: cs))) g v); rewrite <- RB; split; [|split; [|split]]].
      * assert (In v (vars (build (rep g v f0) (rcs g v ((h, w) :: cs))))) by (rewrite <- RB; now apply rep_new).
        assert (forall x, In x known -> vind x <> vind v) by auto.
        exact (conj P (conj Gk (conj N (conj H0 (conj H CR))))).
      * intros env. cbn [FactorSpec.value]. rewrite (rep_build g v P ((h, w) :: cs) f0).
        apply (value_build_replace g v ((h, w) :: cs) known f0); auto.
        -- intros x u Hx Hu. destruct (Gk x Hx) as [Hn|Hk].
           ++ destruct (chain_aliases _ _ _ C u Hu) as (A1 & _). lia.
           ++ destruct (chain_aliases _ _ _ C u Hu) as (_ & A2 & _). auto.
        -- intros x Hx. unfold bind. destruct (Z.eqb_spec (vind x) (vind v)); auto. now destruct (Fv x Hx).
        -- unfold bind. now rewrite Z.eqb_refl.
      * intros x Hx. cbn [Factor.vars]. apply in_app_iff. destruct (replace_keeps g (Leaf v) _ _ Hx); auto.
      * intros x Hx. cbn [Factor.vars] in Hx. apply in_app_iff in Hx. destruct Hx as [Hx|Hx].
        -- apply replace_vars in Hx. exact Hx.
        -- left. apply (occurs_vars g g); auto.
      * cbn [heavy]. pose proof (heavy_rep g v (build f0 ((h, w) :: cs))) as HR. cbn [build heavy] in *. lia.
Qed.

Lemma fold_min : forall l i, (fold_left Z.min l i <= i)%Z /\ forall x, In x l -> (fold_left Z.min l i <= x)%Z.
Proof.
  induction l as [|a l IH]; intros i; cbn.
  - split; [lia|tauto].
  - destruct (IH (Z.min i a)) as [A B]. split; [lia|]. intros x [E|Hx]; [subst; lia|auto].
Qed.

Lemma new_index_fresh : forall t, (new_index op t < 0)%Z /\
  forall x, In x (vars t) -> vind x <> new_index op t.
Proof.
  intros t. unfold new_index.
  destruct (map vind (vars t)) as [|i l] eqn:E.
  - cbn. split; [lia|]. intros x Hx. apply (in_map vind) in Hx. rewrite E in Hx. destruct Hx.
  - assert (M : forall x, In x (vars t) -> (fold_left Z.min l i <= vind x)%Z).
    { intros x Hx. apply (in_map vind) in Hx. rewrite E in Hx. destruct (fold_min l i) as [A B].
      destruct Hx as [<-|Hx]; auto. }
    destruct (Z.leb_spec 0 (fold_left Z.min l i)); (split; [lia|]); intros x Hx; specialize (M x Hx); lia.
Qed.

Lemma plain_dec : forall t, plain t \/ ~ plain t.
Proof.
  induction t as [u|o l IH|f h w IHf IHg] using tree_rect'.
  - left. exact I.
  - rewrite plain_node. induction IH as [|c l [Hc|Hc] _ IHl].
    + left. constructor.
    + destruct IHl as [K|K]; [left; now constructor|right]. intros H. inversion H. contradiction.
    + right. intros H. inversion H. contradiction.
  - right. cbn. tauto.
Qed.

Lemma count_in_plain : forall g t, ~ plain g -> plain t -> count g t = 0.
Proof.
  intros g t N. unfold count. induction t as [u|o l IH|f h w IHf IHg] using tree_rect'; intros P.
  - rewrite replace_leaf; auto. intros E. subst g. now apply N.
  - rewrite replace_node; [|intros E; subst g; contradiction]. cbn [snd]. apply plain_node in P.
    induction IH as [|c l Hc _ IHl]; auto. inversion P; subst. cbn. rewrite Hc by auto.
    unfold list_sum in IHl. apply IHl; auto.
  - destruct P.
Qed.

Lemma count_chain : forall g cs known f0, ~ plain g -> chain known f0 cs -> count g (build f0 cs) <= 1.
Proof.
  intros g. induction cs as [|[h w] cs IH]; intros known f0 N C; cbn [build chain] in *.
  - destruct C as [P _]. rewrite count_in_plain by auto. lia.
  - destruct C as (Ph & _ & _ & _ & _ & C). specialize (IH _ _ N C).
    unfold count in *. destruct (tree_dec (Fact (build f0 cs) h w) g) as [E|E].
    + rewrite E, replace_same. cbn. lia.
    + rewrite replace_fact by auto. cbn [snd]. fold (count g h). rewrite (count_in_plain g h) by auto. lia.
Qed.

Lemma factorize_ok : forall t g, chained t ->
  chained (factorize t g)
  /\ (forall env, value (factorize t g) env = value t env)
  /\ (forall x, In x (vars (factorize t g)) -> In x (vars t) \/ (vind x < 0)%Z)
  /\ (factorize t g <> t -> heavy (factorize t g) < heavy t).
Proof.
  intros t g (f0 & cs & E & C). subst t. unfold Factor.factorize.
  destruct (is_light op light g) eqn:L.
  { assert (chained (build f0 cs)) by (exists f0, cs; auto). intuition. }
  set (v := {| vind := new_index op (build f0 cs); vdim := dim_of g; vcat := 3 |}).
  rewrite count_new. destruct (Nat.ltb_spec 1 (count g (build f0 cs))) as [H|H].
  2:{ assert (chained (build f0 cs)) by (exists f0, cs; auto). intuition. }
  destruct (new_index_fresh (build f0 cs)) as [N1 N2].
  assert (P : plain g).
  { destruct (plain_dec g) as [P|P]; auto. pose proof (count_chain g cs [] f0 P C). lia. }
  destruct (insert_ok g v cs [] f0) as (f1 & cs1 & E1 & C1 & V1 & K1 & S1 & M1); auto.
  - intros x Hx. apply (chain_vars _ _ _ C). apply (occurs_vars g g); auto. unfold count in H. lia.
  - intros x [[]|Hx]. apply N2. apply (chain_aliases _ _ _ C x Hx).
  - lia.
  - fold (rep g v (build f0 cs)). rewrite rep_build by auto. rewrite E1. split; [|split; [|split]].
    + exists f1, cs1. auto.
    + exact V1.
    + intros x Hx. destruct (S1 x Hx) as [?|?]; auto. subst x. right. exact N1.
    + intros _. assert (1 <= heavy g).
      { destruct g as [|o l|]; cbn in L, P |- *; try discriminate; try contradiction. rewrite L. lia. }
      nia.
Qed.

Lemma rec_search_spec : forall t g, rec_search t g = t \/ exists g', rec_search t g = factorize t g'.
Proof.
  intros t. induction g as [u|o l IH|f h w IHf IHg] using tree_rect'; cbn [Factor.rec_search].
  - destruct (negb _); eauto.
  - destruct (negb _); [eauto|].
    induction IH as [|c l Hc _ IHl]; [auto|]. destruct (negb _); auto.
  - destruct (negb _); [eauto|]. destruct (negb (tree_eqb (rec_search t f) t)); auto.
    destruct (negb _); auto.
Qed.

Lemma auto_ok : forall fuel t, chained t -> heavy t < fuel ->
  exists t', auto_factorize fuel t = Ok t' /\ chained t'
  /\ (forall env, value t' env = value t env)
  /\ (forall x, In x (vars t') -> In x (vars t) \/ (vind x < 0)%Z)
  /\ rec_search t' t' = t'.
Proof.
  induction fuel as [|fuel IH]; intros t C H; [lia|]. cbn [Factor.auto_factorize].
  destruct (tree_eqb (rec_search t t) t) eqn:E; cbn [negb].
  - exists t. apply tree_eqb_eq in E. repeat split; auto.
  - apply tree_eqb_neq in E. destruct (rec_search_spec t t) as [K|[g K]]; [contradiction|].
    rewrite K in *. destruct (factorize_ok t g C) as (C1 & V1 & S1 & M1).
    destruct (IH (factorize t g) C1) as (t' & E' & C' & V' & S' & R').
    { specialize (M1 E). lia. }
    exists t'. repeat split; auto.
    + intros env. now rewrite V', V1.
    + intros x Hx. destruct (S' x Hx) as [Hx'|?]; auto.
Qed.

(** ** Evaluation on a table *)

Lemma py_get_ok : forall d table i, (0 <= i < Z.of_nat (List.length table))%Z ->
  py_get val table i = Ok (from_table val d table i).
Proof.
  intros d table i H. unfold py_get, from_table.
  destruct (Z.ltb_spec i 0); [lia|]. destruct (Z.leb_spec 0 i); [|lia].
  destruct (Z.ltb_spec i (Z.of_nat (List.length table))); [|lia]. cbn [andb].
  destruct (nth_error table (Z.to_nat i)) as [x|] eqn:E.
  - now rewrite (nth_error_nth _ _ d E).
  - apply nth_error_None in E. lia.
Qed.

Lemma call_plain : forall d fuel t table, plain t -> nodes t <= fuel -> inputs op (List.length table) t ->
  call fuel t table = Ok (value t (from_table val d table), table).
Proof.
  intros d. induction fuel as [|fuel IH]; intros t table P F I.
  - destruct t; cbn in F; lia.
  - destruct t as [u|o l|f h w]; [| |destruct P]; cbn [Factor.call FactorSpec.value].
    + rewrite (py_get_ok d) by (apply I; now left). reflexivity.
    + apply plain_node in P. cbn [FactorSpec.nodes] in F.
      assert (F' : list_sum (map nodes l) <= fuel) by lia. clear F.
      assert (I' : forall c, In c l -> inputs op (List.length table) c).
      { intros c Hc x Hx. apply I. cbn. apply in_flat_map. eauto. }
      clear I.
      match goal with |- context [?X l table] => set (args := X) end.
      assert (A : args l table = Ok (map (fun c => value c (from_table val d table)) l, table)).
      { induction l as [|c l IHl]; auto. cbn. inversion P; subst. unfold list_sum in F'. cbn in F'.
        rewrite IH; [|auto|lia|apply I'; now left]. cbn [rbind snd].
        fold args. rewrite IHl; [reflexivity|auto|unfold list_sum; lia|]. intros; apply I'; now right. }
      rewrite A. reflexivity.
Qed.

Lemma rename_vars : forall w new t x, In x (vars (rep (Leaf w) new t)) ->
  (In x (vars t) /\ x <> w) \/ x = new.
Proof.
  intros w new. unfold rep. induction t as [u|o l IH|f h z IHf IHg] using tree_rect'; intros x.
  - destruct (tree_dec (Leaf u) (Leaf w)) as [E|E].
    + rewrite E, replace_same. cbn. intuition.
    + rewrite replace_leaf by auto. cbn. intros [H|[]]. left. subst. split; auto. congruence.
  - rewrite replace_node by discriminate. cbn [fst Factor.vars]. rewrite !in_flat_map.
    intros (c & Hc & Hx). apply in_map_iff in Hc. destruct Hc as (c' & <- & Hc').
    rewrite Forall_forall in IH. destruct (IH c' Hc' x Hx) as [[? ?]|?]; eauto.
  - rewrite replace_fact by discriminate. cbn [fst Factor.vars]. rewrite !in_app_iff.
    intros [H|H]; [destruct (IHf x H) as [[? ?]|?]|destruct (IHg x H) as [[? ?]|?]]; auto.
Qed.

Lemma chain_rename : forall w new cs known f0, (0 <= vind new)%Z ->
  chain (w :: known) f0 cs -> chain known (rep (Leaf w) new f0) (rcs (Leaf w) new cs).
Proof.
  intros w new. induction cs as [|[h u] cs IH]; intros known f0 N C; cbn [chain rcs map fst snd] in *.
  - destruct C as [P C]. split; [now apply rep_plain|]. intros x Hx. apply rename_vars in Hx.
    destruct Hx as [[Hx Hw]|Hx]; [|subst; auto]. destruct (C x Hx) as [?|[?|?]]; auto. congruence.
  - destruct C as (P & H1 & H2 & H3 & H4 & H5). repeat split; auto.
    + now apply rep_plain.
    + intros x Hx. apply rename_vars in Hx.
      destruct Hx as [[Hx Hw]|Hx]; [|subst; auto]. destruct (H1 x Hx) as [?|[?|?]]; auto. congruence.
    + intros x Hx. apply H3. now right.
    + fold (rcs (Leaf w) new cs). rewrite <- rep_build by exact I.
      destruct (replace_keeps (Leaf w) (Leaf new) _ _ H4) as [K|K]; [exact K|].
      destruct K as [K|[]]. subst u. exfalso. apply (H3 w); [now left|reflexivity].
    + apply IH; auto. apply (chain_same _ (u :: w :: known)); auto. cbn. tauto.
Qed.

Lemma nodes_rename : forall w new t, nodes (rep (Leaf w) (new) t) = nodes t.
Proof.
  intros w new. unfold rep. induction t as [u|o l IH|f h z IHf IHg] using tree_rect'.
  - destruct (tree_dec (Leaf u) (Leaf w)) as [E|E].
    + now rewrite E, replace_same.
    + now rewrite replace_leaf.
  - rewrite replace_node by discriminate. cbn [fst FactorSpec.nodes]. do 2 f_equal. rewrite map_map.
    apply map_ext_Forall. exact IH.
  - rewrite replace_fact by discriminate. cbn [fst FactorSpec.nodes]. now rewrite IHf, IHg.
Qed.

Lemma call_chain : forall d n cs f0 fuel table, List.length cs = n -> chain [] f0 cs ->
  nodes (build f0 cs) <= fuel ->
  (forall x, In x (vars (build f0 cs)) -> (vind x < Z.of_nat (List.length table))%Z) ->
  exists extra, call fuel (build f0 cs) table
    = Ok (value (build f0 cs) (from_table val d table), table ++ extra).
Proof.
  intros d. induction n as [|n IH]; intros cs f0 fuel table L C F I; destruct cs as [|[g w] cs]; try discriminate.
  - cbn [build chain] in *. destruct C as [P C]. exists []. rewrite app_nil_r. apply call_plain; auto.
    intros x Hx. specialize (I x Hx). destruct (C x Hx) as [?|[]]. lia.
  - cbn [build chain] in *. destruct C as (P & H1 & H2 & H3 & H4 & H5).
    cbn [FactorSpec.nodes] in F. destruct fuel as [|fuel]; [lia|]. cbn [Factor.call FactorSpec.value].
    rewrite (call_plain d); auto; [|lia|].
    2:{ intros x Hx. destruct (H1 x Hx) as [?|[]]. split; auto. apply I. cbn. apply in_app_iff. auto. }
    cbn [rbind fst snd]. rewrite app_length. cbn [List.length].
    set (gv := value g (from_table val d table)).
    set (new := {| vind := _; vdim := vdim w; vcat := vcat w |}).
    assert (Nn : vind new = Z.of_nat (List.length table)) by (cbn [vind new]; lia).
    change (Factor.replace op op_eq_dec (build f0 cs) (Leaf w) (Leaf new)) with (rep (Leaf w) new (build f0 cs)).
    assert (NR := nodes_rename w new (build f0 cs)).
    assert (VR := rename_vars w new (build f0 cs)).
    rewrite rep_build in * by exact Logic.I.
    injection L as L.
    destruct (IH (rcs (Leaf w) new cs) (rep (Leaf w) new f0) fuel (table ++ [gv])) as (extra & E).
    + unfold rcs. rewrite map_length. exact L.
    + apply chain_rename; auto. lia.
    + rewrite NR. lia.
    + intros x Hx. rewrite app_length. cbn [List.length]. destruct (VR x Hx) as [[Hx' _]|Hx'].
      * assert (vind x < Z.of_nat (List.length table))%Z by (apply I; cbn; apply in_app_iff; auto). lia.
      * subst x. lia.
    + exists ([gv] ++ extra). rewrite E. rewrite <- app_assoc. do 2 f_equal.
      set (E0 := bind val (from_table val d table) (vind w) gv).
      transitivity (value (build (rep (Leaf w) new f0) (rcs (Leaf w) new cs)) (bind val E0 (vind new) gv)).
      * apply value_ext. intros x Hx. destruct (VR x Hx) as [[Hx' Hw]|Hx'].
        -- assert (Hl : (vind x < Z.of_nat (List.length table))%Z) by (apply I; cbn; apply in_app_iff; auto).
           assert (Dw : vind x <> vind w).
           { destruct (chain_vars _ _ _ H5 x Hx') as [K|[[K|[]]|K]]; [lia|congruence|].
             destruct (chain_aliases _ _ _ H5 x K) as (_ & A & _). intros e. apply (A w); [now left|auto]. }
           unfold E0, bind. destruct (Z.eqb_spec (vind x) (vind new)); [lia|].
           destruct (Z.eqb_spec (vind x) (vind w)); [contradiction|].
           unfold from_table. destruct (Z.ltb_spec (vind x) 0); auto. rewrite app_nth1; auto. lia.
        -- subst x. unfold bind. rewrite Z.eqb_refl. unfold from_table. rewrite Nn.
           destruct (Z.ltb_spec (Z.of_nat (List.length table)) 0); [lia|].
           rewrite Nat2Z.id, app_nth2, Nat.sub_diag by lia. reflexivity.
      * apply (value_build_replace (Leaf w) new cs [w] f0); auto; try exact Logic.I.
        -- intros x u [Hx|[]] Hu. subst x. destruct (chain_aliases _ _ _ H5 u Hu) as (_ & A & _). apply A. now left.
        -- intros x Hx. assert (vind x < Z.of_nat (List.length table))%Z by (apply I; cbn; apply in_app_iff; auto). lia.
        -- intros x Hx. assert (vind x < Z.of_nat (List.length table))%Z by (apply I; cbn; apply in_app_iff; auto).
           unfold bind at 1. destruct (Z.eqb_spec (vind x) (vind new)); [lia|auto].
        -- cbn [FactorSpec.value]. unfold E0, bind. now rewrite !Z.eqb_refl.
Qed.

Lemma chained_call : forall d t fuel table, chained t -> nodes t <= fuel ->
  (forall x, In x (vars t) -> (vind x < Z.of_nat (List.length table))%Z) ->
  exists extra, call fuel t table = Ok (value t (from_table val d table), table ++ extra).
Proof. intros d t fuel table (f0 & cs & -> & C) F I. eapply call_chain; eauto. Qed.

Lemma factored_ok : forall t0 t, plain t0 -> (forall x, In x (vars t0) -> (0 <= vind x)%Z) ->
  factored op op_eq_dec odim light t0 t ->
  chained t /\ (forall env, value t env = value t0 env)
  /\ (forall x, In x (vars t) -> In x (vars t0) \/ (vind x < 0)%Z).
Proof.
  intros t0 t P N H. induction H as [|t g H (C & Vt & S)].
  - repeat split; auto. now apply plain_chained.
  - destruct (factorize_ok t g C) as (C1 & V1 & S1 & _). repeat split; auto.
    + intros env. now rewrite V1, Vt.
    + intros x Hx. destruct (S1 x Hx); auto.
Qed.

Theorem factored_value : forall d t0 t table, plain t0 -> inputs op (List.length table) t0 ->
  factored op op_eq_dec odim light t0 t ->
  (forall env, value t env = value t0 env)
  /\ forall fuel, nodes t <= fuel ->
     exists extra, call fuel t table = Ok (value t0 (from_table val d table), table ++ extra).
Proof.
  intros d t0 t table P I H.
  destruct (factored_ok t0 t P (fun x Hx => proj1 (I x Hx)) H) as (C & Vt & S). split; auto.
  intros fuel F. rewrite <- Vt. apply chained_call; auto.
  intros x Hx. destruct (S x Hx) as [K|K]; [apply I in K|]; lia.
Qed.

Lemma heavy_nodes : forall t, heavy t <= nodes t.
Proof.
  induction t as [u|o l IH|f h w IHf IHg] using tree_rect'; cbn [heavy FactorSpec.nodes]; try lia.
  enough (list_sum (map heavy l) <= list_sum (map nodes l)) by (destruct (light o); lia).
  induction IH as [|c l Hc _ IHl]; auto. unfold list_sum in *. cbn. lia.
Qed.

Lemma auto_factored : forall t0 fuel t t', factored op op_eq_dec odim light t0 t ->
  auto_factorize fuel t = Ok t' -> factored op op_eq_dec odim light t0 t'.
Proof.
  intros t0. induction fuel as [|fuel IH]; intros t t' H; cbn [Factor.auto_factorize]; [discriminate|].
  destruct (rec_search_spec t t) as [K|[g K]].
  - rewrite K. destruct (negb _); [apply IH; auto|]. intros E. now injection E as <-.
  - destruct (negb _); [apply IH; rewrite K; now constructor|]. intros E. now injection E as <-.
Qed.

(** The search has gone through all sub-formulas. *)
Lemma rec_search_none : forall t g, rec_search t g = t -> forall s, below op s g -> factorize t s = t.
Proof.
  intros t. induction g as [u|o l IH|f h w IHf IHg] using tree_rect'; cbn [Factor.rec_search]; intros H s B.
  - inversion B; subst. destruct (tree_eqb (factorize t (Leaf u)) t) eqn:E; cbn [negb] in H; auto.
  - destruct (tree_eqb (factorize t (Node o l)) t) eqn:E; cbn [negb] in H.
    + apply tree_eqb_eq in E. inversion B; subst; auto. clear E B.
      induction IH as [|c' l Hc _ IHl]; [contradiction|].
      destruct (tree_eqb (rec_search t c') t) eqn:E'; cbn [negb] in H.
      * apply tree_eqb_eq in E'. destruct H2 as [->|H2]; auto.
      * exfalso. apply tree_eqb_neq in E'. contradiction.
    + exfalso. apply tree_eqb_neq in E. contradiction.
  - destruct (tree_eqb (factorize t (Fact f h w)) t) eqn:E; cbn [negb] in H.
    2:{ exfalso. apply tree_eqb_neq in E. contradiction. }
    apply tree_eqb_eq in E.
    destruct (tree_eqb (rec_search t f) t) eqn:E1; cbn [negb] in H.
    2:{ exfalso. apply tree_eqb_neq in E1. contradiction. }
    apply tree_eqb_eq in E1.
    destruct (tree_eqb (rec_search t h) t) eqn:E2; cbn [negb] in H.
    2:{ exfalso. apply tree_eqb_neq in E2. contradiction. }
    apply tree_eqb_eq in E2.
    inversion B; subst; auto.
Qed.

Lemma factorize__fact : forall t g v, exists a b c, factorize_ t g v = Fact a b c.
Proof. intros t g v. destruct t; cbn; eauto. destruct (existsb _ _); eauto. Qed.

(** Substitution of the definition of the outermost alias. *)
Lemma subst_plain : forall v g t env, plain t -> (forall x, In x (vars t) -> vind x = vind v -> x = v) ->
  value (fst (replace_count t (Leaf v) g)) env = value t (bind val env (vind v) (value g env)).
Proof.
  intros v g t env. induction t as [u|o l IH|f h w IHf IHg] using tree_rect'; intros P N; [| |destruct P].
  - cbn [FactorSpec.value]. unfold bind. destruct (tree_dec (Leaf u) (Leaf v)) as [E|E].
    + rewrite E, replace_same. injection E as ->. now rewrite Z.eqb_refl.
    + rewrite replace_leaf by auto. cbn. destruct (Z.eqb_spec (vind u) (vind v)) as [e|e]; auto.
      exfalso. apply E. f_equal. apply N; cbn; auto.
  - rewrite replace_node by discriminate. cbn [fst FactorSpec.value]. f_equal. rewrite map_map.
    apply map_ext_in. intros c Hc. rewrite Forall_forall in IH. apply plain_node in P.
    rewrite Forall_forall in P. apply IH; auto. intros x Hx. apply N. cbn. apply in_flat_map. eauto.
Qed.

Lemma subst_chain : forall v g cs known f0 env, (vind v < 0)%Z -> In v known ->
  (forall x, In x known -> vind x = vind v -> x = v) ->
  (forall x, In x (vars g) -> (0 <= vind x)%Z) -> chain known f0 cs ->
  value (fst (replace_count (build f0 cs) (Leaf v) g)) env
  = value (build f0 cs) (bind val env (vind v) (value g env)).
Proof.
  intros v g. induction cs as [|[h w] cs IH]; intros known f0 env Nv Kv U G C; cbn [build chain] in *.
  - destruct C as [P C]. apply subst_plain; auto. intros x Hx e. destruct (C x Hx); [lia|auto].
  - destruct C as (Ph & H1 & H2 & H3 & H4 & H5).
    rewrite replace_fact by discriminate. cbn [fst FactorSpec.value].
    assert (D : vind v <> vind w) by auto.
    assert (U' : forall x, In x (w :: known) -> vind x = vind v -> x = v)
      by (intros x [<-|Hx]; [congruence|auto]).
    rewrite (IH (w :: known)) by (auto; right; auto).
    assert (U2 : forall x, In x (vars h) -> vind x = vind v -> x = v)
      by (intros x Hx e; destruct (H1 x Hx); [lia|auto]).
    rewrite (subst_plain v g h) by auto.
    set (H := value h _).
    assert (Gw : value g (bind val env (vind w) H) = value g env).
    { apply value_ext. intros y Hy. unfold bind. destruct (Z.eqb_spec (vind y) (vind w)) as [e'|e']; auto.
      specialize (G y Hy). lia. }
    rewrite Gw. apply value_ext. intros x Hx. unfold bind.
    destruct (Z.eqb_spec (vind x) (vind v)) as [e|e]; destruct (Z.eqb_spec (vind x) (vind w)); congruence.
Qed.

Theorem unfactored_value : forall t0 t env, plain t0 -> (forall x, In x (vars t0) -> (0 <= vind x)%Z) ->
  factored op op_eq_dec odim light t0 t -> value (unfactored op op_eq_dec t) env = value t0 env.
Proof.
  intros t0 t env P N H. destruct (factored_ok t0 t P N H) as ((f0 & cs & -> & C) & Vt & _).
  rewrite <- Vt. destruct cs as [|[g w] cs].
  - cbn [build chain] in *. destruct C as [P0 _]. destruct f0; auto. destruct P0.
  - cbn [build chain unfactored FactorSpec.value] in *. destruct C as (Pg & H1 & H2 & H3 & H4 & H5).
    apply (subst_chain w g cs [w] f0); auto.
    + now left.
    + intros x [Hx|[]]; auto.
    + intros x Hx. destruct (H1 x Hx) as [?|[]]. auto.
Qed.

Theorem auto_value : forall d t0 table, plain t0 -> inputs op (List.length table) t0 ->
  forall fuel, nodes t0 < fuel -> exists t, auto_factorize fuel t0 = Ok t
  /\ (forall env, value t env = value t0 env)
  /\ (forall s, below op s t -> factorize t s = t)
  /\ forall fuel', nodes t <= fuel' ->
     exists extra, call fuel' t table = Ok (value t0 (from_table val d table), table ++ extra).
Proof.
  intros d t0 table P I fuel F.
  assert (N : forall x, In x (vars t0) -> (0 <= vind x)%Z) by (intros x Hx; apply (I x Hx)).
  destruct (auto_ok fuel t0 (plain_chained t0 P N)) as (t & E & C & Vt & S & R).
  { pose proof (heavy_nodes t0). lia. }
  exists t. split; [exact E|split; [exact Vt|split]].
  - now apply rec_search_none.
  - apply (factored_value d t0 t table P I). eapply auto_factored; eauto. constructor.
Qed.
End Proofs.

(** ** Formulas *)
From Coq Require Import Reals Lra.
Local Open Scope nat_scope.

(** The table holds arrays of the declared dimensions. *)
Lemma embed_plain : forall f, plain fop (embed f).
Proof. induction f; cbn; auto. Qed.

Lemma embed_value : forall f env,
  (forall v, In v (vars fop (embed f)) -> fst (env (vind v)) = vdim v) ->
  value fop arrayv fosem (embed f) env = (dim f, eval f (fun i => snd (env i))).
Proof.
  induction f; intros env H; cbn [embed FactorSpec.value map].
  - specialize (H _ (or_introl eq_refl)). cbn in *. destruct (env i) as [a b]. cbn in *. now subst.
  - reflexivity.
  - reflexivity.
  - reflexivity.
  - rewrite IHf; [reflexivity|]. intros v Hv. apply H. cbn. apply in_app_iff. auto.
  - rewrite IHf1, IHf2; [reflexivity| |]; intros v Hv; apply H; cbn; rewrite !in_app_iff; auto.
  - rewrite IHf1, IHf2, IHf3; [reflexivity| | |]; intros v Hv; apply H; cbn; rewrite !in_app_iff; auto.
  - rewrite IHf; [destruct l; reflexivity|]. intros v Hv. apply H. cbn. apply in_app_iff. auto.
  - rewrite IHf1, IHf2; [destruct b; reflexivity| |]; intros v Hv; apply H; cbn; rewrite !in_app_iff; auto.
  - rewrite IHf1, IHf2; [reflexivity| |]; intros v Hv; apply H; cbn; rewrite !in_app_iff; auto.
  - rewrite IHf; [destruct s; reflexivity|]. intros v Hv. apply H. cbn. apply in_app_iff. auto.
Qed.

Theorem auto_fm : forall f table fuel,
  (forall v, In v (vars fop (embed f)) -> (0 <= vind v)%Z
     /\ exists a, nth_error table (Z.to_nat (vind v)) = Some a /\ fst a = vdim v) ->
  nodes fop (embed f) < fuel ->
  exists t, auto_factorize_fm fuel (embed f) = Ok t
  /\ forall fuel', nodes fop t <= fuel' -> exists out extra,
     call_fm fuel' t table = Ok ((dim f, out), table ++ extra)
     /\ forall k, out k = eval f (fun i => snd (nth (Z.to_nat i) table (0, fun _ => 0%R))) k.
Proof.
  intros f table fuel H F. set (d := (0, fun _ : nat => 0%R) : arrayv).
  assert (I : inputs fop (List.length table) (embed f)).
  { intros v Hv. destruct (H v Hv) as (N & a & E & _). split; auto.
    assert (K : nth_error table (Z.to_nat (vind v)) <> None) by congruence.
    apply nth_error_Some in K. lia. }
  destruct (auto_value fop fop_eq_dec fodim flight arrayv fosem d (embed f) table (embed_plain f) I fuel F)
    as (t & E & _ & _ & C).
  exists t. split; [exact E|]. intros fuel' F'. destruct (C fuel' F') as (extra & K).
  set (env := fun i => nth (Z.to_nat i) table d).
  assert (V1 : value fop arrayv fosem (embed f) (from_table arrayv d table) = value fop arrayv fosem (embed f) env).
  { apply value_ext. intros x Hx. unfold from_table, env. destruct (Z.ltb_spec (vind x) 0); auto.
    destruct (I x Hx). lia. }
  assert (V2 : value fop arrayv fosem (embed f) env = (dim f, eval f (fun i => snd (env i)))).
  { apply embed_value. intros v Hv. destruct (H v Hv) as (_ & a & Ea & Da). 
    pose proof (nth_error_nth _ _ d Ea) as K'. unfold env. cbv beta. rewrite <- Da. f_equal. exact K'. }
  exists (eval f (fun i => snd (env i))), extra. split.
  - unfold call_fm. rewrite K. rewrite V1, V2. reflexivity.
  - reflexivity.
Qed.

(** A factorised formula below the root. *)
Definition x0 := embed (Var 0 1 0).
Definition y1 := embed (Var 1 1 1).
Definition neg t := Node fop (OUn UMinus) [t].
Definition sq t := Node fop (OUn USquare) [t].
Definition add t u := Node fop (OBin BAdd) [t; u].
Definition mul t u := Node fop (OBin BMult) [t; u].
Definition inner := factorize_fm (mul (sq (neg x0)) (sq (neg x0))) (neg x0).
Definition table01 : list arrayv := [(1, fun _ => 0%R); (1, fun _ => 1%R)].

Lemma nested_calls : forall (val : Type) (osem : fop -> list val -> val) (a b : val),
  call fop fop_eq_dec val osem 20 (add inner y1) [a; b]
  = Ok (let s := osem (OUn USquare) [osem (OUn UMinus) [a]] in
        osem (OBin BAdd) [osem (OBin BMult) [s; s]; b], [a; b; osem (OUn UMinus) [a]])
  /\ exists t tab, auto_factorize_fm 20 (add inner y1) = Ok t
  /\ call fop fop_eq_dec val osem 20 t [a; b]
     = Ok (let s := osem (OUn USquare) [b] in osem (OBin BAdd) [osem (OBin BMult) [s; s]; b], tab).
Proof.
  intros val osem a b. split; [vm_compute; reflexivity|].
  eexists. eexists. split; [vm_compute; reflexivity|]. vm_compute. reflexivity.
Qed.

Theorem nested : exists t out1 out2 tab1 tab2,
  auto_factorize_fm 20 (add inner y1) = Ok t
  /\ call_fm 20 (add inner y1) table01 = Ok ((1, out1), tab1) /\ out1 0 = 1%R
  /\ call_fm 20 t table01 = Ok ((1, out2), tab2) /\ out2 0 = 2%R.
Proof.
  destruct (nested_calls arrayv fosem (1, fun _ => 0%R) (1, fun _ => 1%R)) as (C1 & t & tab & E & C2).
  exists t. do 4 eexists. split; [exact E|].
  split; [exact C1|]. split; [cbn; unfold bcv; cbn; lra|].
  split; [exact C2|]. cbn. unfold bcv. cbn. lra.
Qed.
