(** DiffT accepts the formulas of GradReadySpec, and gives such a formula. *)

From Coq Require Import ZArith Lia List Bool.
From Verif Require Import Result Formula Simplify SimplifyProofs Termination NoError Closure Diff DiffTermination GradReadySpec.
Local Open Scope nat_scope.

(** ** The condition on nodes *)

Definition last1 (f : fm) : Prop :=
  match f with
  | Un u f =>
      match u with
      | USqrt | URsqrt | UAsin | UAcos => False
      | UInv | ULog | UXLogX => nonzero f
      | USinXDivX => varying f
      | _ => True
      end
  | Bin b f g =>
      match b with
      | BDiv => varying g
      | BAtan2 => dim f = dim g
      | BPowf => dim f = dim g /\ nonzero f
      | _ => True
      end
  | Ter t f g h => match t with TIfElse => dim f = 1 /\ dim g = dim h | _ => False end
  | Lin LSum f => dim f <> 1
  | _ => True
  end.

Lemma lasting_iff : forall f, lasting f <-> clean f /\ everywhere last1 f.
Proof.
  induction f; try destruct l; cbn [lasting clean everywhere last1]; try tauto.
Qed.

Lemma varying_as : forall g, varying g <-> as_zero g = None /\ as_int g = None /\ as_rat g = None.
Proof. destruct g; cbn; split; try tauto; try (intros (A & B & C); discriminate); auto. Qed.

Lemma last1_arith : arith_nodes last1.
Proof.
  split; cbn; auto. intros f g A B C. apply varying_as. auto.
Qed.
Notation E := (everywhere last1).
Notation AN := last1_arith.

Lemma sums_last : forall n,
  (forall f h, fst (sum_calls n) f = Ok h -> E f -> E h) /\
  (forall f g h, snd (sum_calls n) f g = Ok h -> E f -> E g -> E h).
Proof.
  assert (L : forall b f g, E (Bin b f g) -> E f) by (intros b f g (_ & H & _); exact H).
  assert (R : forall b f g, E (Bin b f g) -> E g) by (intros b f g (_ & _ & H); exact H).
  induction n as [|n IHn]; [split; simpl; discriminate|].
  cbn [sum_calls]. destruct (sum_calls n) as [rs rp]. destruct IHn as [IS IP].
  cbn [fst snd] in *. split.
  - intros f h H Ef. unfold Sum_body in H. steps H; bind_inv; inv_as; ok_inv;
      try (eapply (ev_Mult last1 AN); eauto; fail); eauto.
    all: split; [|first [exact Ef|exact I]]; cbn [last1]; auto.
    match goal with H : (_ =? _) = false |- _ => apply Nat.eqb_neq in H; exact H end.
  - intros f g h H Ef Eg. unfold Scalprod_body in H. steps H; bind_inv; inv_as; ok_inv;
      try (eapply (ev_Mult last1 AN); eauto; fail).
    all: try (eapply IS; [eassumption|]; eapply (ev_Square last1 AN); eauto; fail).
    all: split; [exact I|auto].
Qed.

(** ** Results *)

Definition N (f : fm) : Prop := wf f /\ clean f /\ E f.
Definition gives (r : res fm) (k : nat) : Prop := exists h, r = Ok h /\ N h /\ dim h = k.

Lemma g_ok : forall h k, N h -> dim h = k -> gives (Ok h) k.
Proof. intros h k H K. exists h. auto. Qed.
Lemma g_bind : forall r K k k', gives r k -> (forall h, r = Ok h -> N h -> dim h = k -> gives (K h) k') -> gives (rbind r K) k'.
Proof. intros r K k k' (h & -> & Nh & Dh) H. exact (H h eq_refl Nh Dh). Qed.

Lemma N_pos : forall f, N f -> 1 <= dim f.
Proof. intros f (W & _). apply dim_pos; auto. Qed.

Lemma g_mk : forall f, node_ok f = true -> N f -> gives (mk f) (dim f).
Proof. intros f K H. unfold mk. rewrite K. apply g_ok; auto. Qed.

Lemma N_un : forall u f, N f -> last1 (Un u f) -> N (Un u f).
Proof. intros u f (W & C & F) L. repeat split; cbn; auto. Qed.
Lemma N_bin : forall b f g, N f -> N g -> compat (dim f) (dim g) -> last1 (Bin b f g) -> N (Bin b f g).
Proof.
  intros b f g (W & C & F) (W' & C' & F') K L. repeat split; cbn [wf node_ok]; auto.
  apply vcompat2_spec; auto using dim_pos.
Qed.
Lemma N_zero : forall d, 1 <= d -> N (Zero d).
Proof. intros d H. repeat split; cbn [wf node_ok clean everywhere last1]; auto. apply Nat.leb_le. exact H. Qed.
Lemma N_int : forall z, N (IntCst z).
Proof. intros z. unfold IntCst. destruct (z =? 0)%Z; repeat split; cbn; auto. Qed.
Lemma dim_int : forall z, dim (IntCst z) = 1.
Proof. intros z. unfold IntCst. destruct (z =? 0)%Z; auto. Qed.

Lemma g_Minus : forall f, N f -> gives (Minus f) (dim f).
Proof.
  intros f (W & C & F). destruct (Minus_succeeds f W C) as (h & H & Ch).
  exists h. destruct (Minus_ok _ safe_arith_ok _ _ H W) as (Wh & Dh & _). repeat split; auto. eapply (ev_Minus last1 AN); eauto.
Qed.
Lemma g_Add : forall f g, N f -> N g -> compat (dim f) (dim g) -> gives (Add f g) (max (dim f) (dim g)).
Proof.
  intros f g (W & C & F) (W' & C' & F') K. destruct (Add_succeeds f g W W' C C' K) as (h & H & Ch).
  exists h. destruct (Add_ok _ safe_arith_ok _ _ _ H W W') as (Wh & _ & Dh & _). repeat split; auto. eapply (ev_Add last1 AN); eauto.
Qed.
Lemma g_Subtract : forall f g, N f -> N g -> compat (dim f) (dim g) -> gives (Subtract f g) (max (dim f) (dim g)).
Proof.
  intros f g (W & C & F) (W' & C' & F') K. destruct (Subtract_succeeds f g W W' C C' K) as (h & H & Ch).
  exists h. destruct (Subtract_ok _ safe_arith_ok _ _ _ H W W') as (Wh & _ & Dh & _). repeat split; auto. eapply (ev_Subtract last1 AN); eauto.
Qed.
Lemma g_Mult : forall f g, N f -> N g -> compat (dim f) (dim g) -> gives (Mult f g) (max (dim f) (dim g)).
Proof.
  intros f g (W & C & F) (W' & C' & F') K. destruct (Mult_succeeds f g W W' C C' K) as (h & H & Ch).
  exists h. destruct (Mult_ok _ safe_arith_ok _ _ _ H W W') as (Wh & _ & Dh & _). repeat split; auto. eapply (ev_Mult last1 AN); eauto.
Qed.
Lemma g_Sum : forall f, N f -> gives (Sum f) 1.
Proof.
  intros f (W & C & F). destruct (Sum_succeeds f W C) as (h & H & Ch).
  exists h. destruct (Sum_ok _ safe_arith_ok _ _ H W) as (Wh & Dh & _). repeat split; auto.
  eapply (proj1 (sums_last _)); eauto.
Qed.
Lemma g_Scalprod : forall f g, N f -> N g -> compat (dim f) (dim g) -> gives (Scalprod f g) 1.
Proof.
  intros f g (W & C & F) (W' & C' & F') K. destruct (Scalprod_succeeds f g W W' C C' K) as (h & H & Ch).
  exists h. destruct (Scalprod_ok _ safe_arith_ok _ _ _ H W W') as (Wh & _ & Dh & _). repeat split; auto.
  eapply (proj2 (sums_last _)); eauto.
Qed.
Lemma g_SumT : forall f d, N f -> dim f = 1 -> 1 < d -> gives (SumT f d) d.
Proof.
  intros f d (W & C & F) H L. unfold SumT. rewrite H. simpl.
  destruct (as_zero f); cbn [on orelse].
  - apply g_mk; [apply Nat.leb_le; lia|apply N_zero; lia].
  - assert (K : node_ok (Lin (LSumT d) f) = true).
    { cbn [node_ok]. apply andb_true_iff. split; [apply Nat.eqb_eq; exact H|apply Nat.leb_le; lia]. }
    apply (g_mk (Lin (LSumT d) f)); auto.
    split; [exact (conj K W)|]. split; [split; [exact C|lia]|exact (conj I F)].
Qed.
Lemma g_Broadcast : forall f d, N f -> 1 <= d -> compat (dim f) d -> gives (Broadcast f d) (max (dim f) d).
Proof.
  intros f d H L K. assert (P := N_pos _ H). unfold Broadcast.
  destruct (Nat.eqb_spec (dim f) d); cbn [orb]; [apply g_ok; auto; lia|].
  destruct (Nat.eqb_spec d 1); cbn [orb]; [apply g_ok; auto; lia|].
  destruct (Nat.eqb_spec (dim f) 1).
  - replace (max (dim f) d) with d by lia. apply g_SumT; auto. lia.
  - unfold compat in K; lia.
Qed.
Lemma g_Square : forall f, N f -> gives (Square f) (dim f).
Proof.
  intros f H. unfold Square. destruct (as_zero f); cbn [on orelse]; [apply g_ok; auto|].
  apply (g_mk (Un USquare f)); auto. apply N_un; auto; try exact I.
Qed.
Lemma g_Divide : forall f g, N f -> N g -> varying g -> compat (dim f) (dim g) -> gives (Divide f g) (max (dim f) (dim g)).
Proof.
  intros f g H K V C. unfold Divide. assert (P := N_pos _ H). assert (Q := N_pos _ K).
  destruct (as_zero f) eqn:Z; cbn [on orelse].
  - apply g_Broadcast; auto.
  - apply varying_as in V as (A & B & D). rewrite A, B, D. cbn [on orelse].
    apply (g_mk (Bin BDiv f g)).
    + cbn. apply vcompat2_spec; auto.
    + apply N_bin; auto. cbn. apply varying_as; auto.
Qed.
Lemma g_Pow : forall f m, N f -> gives (Pow f m) (dim f).
Proof.
  intros f m H. unfold Pow. destruct (m =? 1)%Z; [apply g_ok; auto|].
  apply (g_mk (Un (UPow m) f)); auto. apply N_un; auto; try exact I.
Qed.

Lemma square_varying : forall f s, nonzero f -> Square f = Ok s -> s = Un USquare f.
Proof. intros f s K H. unfold Square in H. destruct f; cbn in *; try tauto; congruence. Qed.

(** 1 + f^2 is not the formula Zero. *)
Lemma fuel_S : forall k, exists n, fuel_for k = S n.
Proof. intros k. exists (16 * k + 15). unfold fuel_for. lia. Qed.
Lemma one_plus : forall f s a, Square f = Ok s -> Add (IntCst 1) s = Ok a -> nonzero a.
Proof.
  intros f s a H K. unfold Add, addF in K. destruct (fuel_S (size (IntCst 1) + size s)) as [n X]. rewrite X in K.
  cbn [calls radd] in K. unfold add_body in K. unfold Square in H.
  destruct (as_zero f) eqn:Z; cbn [on orelse] in H.
  - apply as_zero_S in Z. subst f. inversion H; subst. cbn in K. unfold Broadcast, SumT in K. cbn [dim] in K.
    destruct (_ || _)%bool in K; [inversion K; exact I|]. cbn in K. unfold mk in K. destruct (node_ok _) in K; inversion K; exact I.
  - apply mk_ok in H as [-> _].
    assert (Y : feqb (IntCst 1) (Un USquare f) = false) by (unfold feqb; destruct fm_eq_dec; [discriminate|reflexivity]).
    rewrite Y in K. cbn in K. unfold mk in K. destruct (node_ok _) in K; inversion K; exact I.
Qed.

(** ** Derivatives *)

(** 2 f^2 or f^2 + g^2 is not a constant. *)
Lemma squares : forall f g s t r, nonzero f -> nonzero g -> Square f = Ok s -> Square g = Ok t -> Add s t = Ok r -> varying r.
Proof.
  intros f g s t r Hf Hg Hs Ht H. apply square_varying in Hs; auto. apply square_varying in Ht; auto. subst.
  unfold Add, addF in H. destruct (fuel_S (size (Un USquare f) + size (Un USquare g))) as [n X]. rewrite X in H.
  cbn [calls radd] in H. unfold add_body in H. cbn [as_zero on orelse] in H.
  destruct (feqb _ _) in H; cbn [when orelse] in H.
  - assert (Y : exists m, n = S m).
    { unfold fuel_for in X. cbn in X. exists (n - 1). lia. }
    destruct Y as [m ->]. cbn [calls rmult] in H. unfold mult_body in H.
    cbn in H. unfold mk in H. destruct (node_ok _) in H; inversion H; exact I.
  - cbn in H. unfold mk in H. destruct (node_ok _) in H; inversion H; exact I.
Qed.

Lemma zero_or : forall f, nonzero f \/ exists d, f = Zero d.
Proof. destruct f; cbn; eauto. Qed.
Lemma varying_nonzero : forall f, varying f -> nonzero f.
Proof. destruct f; cbn; auto. Qed.

Ltac pos := repeat match goal with H : N ?f |- _ =>
  lazymatch goal with _ : 1 <= dim f |- _ => fail | _ => assert (1 <= dim f) by (apply N_pos; exact H) end end.
Ltac dm := pos; rewrite ?dim_int in *; unfold compat in *; cbn [dim] in *; lia.

Ltac gb t := eapply g_bind; [t|intros ? ? ? ?].

Lemma g_unDer : forall u a, N a -> last1 (Un u a) -> u <> UMinus ->
  match unDer u a with Some r => gives r (dim a) | None => True end.
Proof.
  intros u a H L _. pos. destruct u; cbn [unDer]; cbn [last1] in L; try exact I; try tauto.
  - replace (dim a) with (max (dim (IntCst 2)) (dim a)) by dm. apply g_Mult; auto using N_int. dm.
  - apply (g_mk (Un UExp a)); auto. apply N_un; auto.
  - apply (g_mk (Un UInv a)); auto. apply N_un; auto.
  - gb ltac:(apply g_Square; auto). apply square_varying in H1; auto. subst h.
    replace (dim a) with (max (dim (IntCst (-1))) (dim (Un USquare a))) by dm.
    apply g_Divide; auto using N_int; [exact I|dm].
  - apply (g_mk (Un UCos a)); auto. apply N_un; auto; try exact I.
  - apply (g_Minus (Un USin a)). apply N_un; auto; try exact I.
  - apply (g_mk (Un USign a)); auto. apply N_un; auto; try exact I.
  - apply (g_mk (Un UStep a)); auto. apply N_un; auto; try exact I.
  - replace (dim a) with (max (dim (Un ULog a)) (dim (IntCst 1))) by dm.
    apply g_Add; auto using N_int; [apply N_un; auto|dm].
  - gb ltac:(apply (g_Divide (Un UCos a) a); [apply N_un; auto; exact I|auto|auto|dm]).
    gb ltac:(apply (g_Square a); auto). apply square_varying in H4; auto using varying_nonzero. subst h0.
    gb ltac:(apply (g_Divide (Un USin a) (Un USquare a)); [apply N_un; auto; exact I|auto|exact I|dm]).
    replace (dim a) with (max (dim h) (dim h0)) by dm. apply g_Subtract; auto. dm.
  - gb ltac:(apply (g_Square a); auto).
    gb ltac:(apply (g_Add (IntCst 1) h); auto using N_int; dm).
    assert (K : nonzero h0) by (eapply one_plus; eauto).
    replace (dim a) with (dim (Un UInv h0)) by dm. apply (g_mk (Un UInv h0)); auto. apply N_un; auto.
  - gb ltac:(apply (g_Pow a); auto).
    replace (dim a) with (max (dim (IntCst m)) (dim h)) by dm. apply g_Mult; auto using N_int. dm.
  - apply (g_mk (Un (UDiffClampInt a0 b) a)); auto. apply N_un; auto; try exact I.
Qed.

Section Level.
Variable d : nat.
Hypothesis Hd : 1 <= d.

Definition ready (D : fm -> fm -> res fm) (f : fm) : Prop := forall g, N g -> dim g = dim f -> gives (D f g) d.

Variable D : fm -> fm -> res fm.

Lemma g_zero : gives (mk (Zero d)) d.
Proof. apply (g_mk (Zero d)); [apply Nat.leb_le; exact Hd|apply N_zero; exact Hd]. Qed.

Lemma g_add0 : forall x, N x -> gives (Add (IntCst 0) x) (dim x).
Proof.
  intros x H. pos. replace (dim x) with (max (dim (IntCst 0)) (dim x)) by dm. apply g_Add; auto using N_int. dm.
Qed.

Lemma g_vecterm : forall f df g, ready D f -> N df -> N g -> N f -> dim df = dim f -> dim g = dim f ->
  gives (vecterm D f df g) d.
Proof.
  intros f df g R Kd Kg Kf E1 E2. unfold vecterm. pos. destruct (Nat.eqb_spec (dim df) 1).
  - gb ltac:(apply R; auto). replace d with (max (dim h) (dim df)) by dm. apply g_Mult; auto. dm.
  - gb ltac:(apply (g_Mult g df); auto; dm). apply R; auto. dm.
Qed.

Lemma g_same : forall x y, N x -> N y -> dim x = d -> dim y = d -> gives (Add x y) d /\ gives (Subtract x y) d.
Proof.
  intros x y Hx Hy Dx Dy. split.
  - replace d with (max (dim x) (dim y)) by dm. apply g_Add; auto. dm.
  - replace d with (max (dim x) (dim y)) by dm. apply g_Subtract; auto. dm.
Qed.
Lemma g_add : forall x y, N x -> N y -> dim x = d -> dim y = d -> gives (Add x y) d.
Proof. intros. apply g_same; auto. Qed.
Lemma g_sub : forall x y, N x -> N y -> dim x = d -> dim y = d -> gives (Subtract x y) d.
Proof. intros. apply g_same; auto. Qed.

Lemma g_mult1 : forall x y k, N x -> N y -> compat (dim x) (dim y) -> max (dim x) (dim y) = k -> gives (Mult x y) k.
Proof. intros x y k Hx Hy C <-. apply g_Mult; auto. Qed.
Lemma g_div1 : forall x y k, N x -> N y -> varying y -> compat (dim x) (dim y) -> max (dim x) (dim y) = k -> gives (Divide x y) k.
Proof. intros x y k Hx Hy V C <-. apply g_Divide; auto. Qed.
Lemma g_mk1 : forall x k, node_ok x = true -> N x -> dim x = k -> gives (mk x) k.
Proof. intros x k Hx Hy <-. apply g_mk; auto. Qed.

Lemma un_inv : forall u a, N (Un u a) -> N a /\ last1 (Un u a).
Proof. intros u a ((_ & W) & C & L & F). cbn in C. repeat split; auto. Qed.
Lemma bin_inv : forall b x y, N (Bin b x y) -> N x /\ N y /\ compat (dim x) (dim y) /\ last1 (Bin b x y).
Proof.
  intros b x y ((K & W & W') & (C & C') & L & F & F'). cbn [node_ok] in K.
  apply vcompat2_spec in K; auto using dim_pos. repeat split; auto.
Qed.
Lemma bil_inv : forall b x y, N (Bil b x y) -> N x /\ N y /\ node_ok (Bil b x y) = true.
Proof. intros b x y ((K & W & W') & (C & C') & L & F & F'). repeat split; auto. Qed.
Lemma lin_inv : forall l x, N (Lin l x) -> N x /\ node_ok (Lin l x) = true /\ last1 (Lin l x) /\
  match l with LSumT n => n <> 1 | _ => True end.
Proof. intros b x ((K & W) & (C & C') & L & F). repeat split; auto. Qed.
Lemma N_lin : forall l x, N x -> node_ok (Lin l x) = true -> last1 (Lin l x) ->
  match l with LSumT n => n <> 1 | _ => True end -> N (Lin l x).
Proof. intros b x (W & C & F) K L C'. repeat split; auto. Qed.
Lemma N_bil : forall b x y, N x -> N y -> node_ok (Bil b x y) = true -> N (Bil b x y).
Proof. intros b x y (W & C & F) (W' & C' & F') K. repeat split; auto. Qed.
Lemma N_sel : forall l x, N x -> node_ok (Sel l x) = true -> N (Sel l x).
Proof. intros b x (W & C & F) K. repeat split; auto. Qed.

Variables (i : Z) (c : nat).
Notation v := (Var i d c).

Ltac go :=
  match goal with
  | |- gives (rbind (Sum _) _) _ => gb ltac:(apply g_Sum; auto)
  | |- gives (rbind (SumT _ _) _) _ => gb ltac:(apply g_SumT; [auto|dm|dm])
  | |- gives (rbind (Scalprod _ _) _) _ => gb ltac:(apply g_Scalprod; [auto|auto|dm])
  | |- gives (rbind (Mult _ _) _) _ => gb ltac:(apply g_Mult; [auto|auto|dm])
  | |- gives (rbind (Add _ _) _) _ => gb ltac:(apply g_Add; [auto using N_int|auto using N_int|dm])
  | |- gives (rbind (Subtract _ _) _) _ => gb ltac:(apply g_Subtract; [auto using N_int|auto using N_int|dm])
  | |- gives (rbind (Square _) _) _ => gb ltac:(apply g_Square; auto)
  | |- gives (rbind (Minus _) _) _ => gb ltac:(apply g_Minus; auto)
  | R : ready D ?a |- gives (rbind (D ?a _) _) _ => gb ltac:(apply R; [auto|dm])
  | R : ready D ?a |- gives (D ?a _) _ => apply R; [auto|dm]
  | |- gives (Add _ _) _ => apply g_add; [auto|auto|dm|dm]
  | |- gives (Subtract _ _) _ => apply g_sub; [auto|auto|dm|dm]
  | |- gives (Mult _ _) _ => apply g_mult1; [auto|auto|dm|dm]
  | |- gives (mk (Zero _)) _ => apply g_zero
  end.

Lemma level_un : forall u a g, N (Un u a) -> ready D a -> N g -> dim g = dim a -> gives (diff_body D v (Un u a) g) d.
Proof.
  intros u a g H R G Dg. apply un_inv in H as [H L]. cbn [diff_body].
  assert (M : u = UMinus \/ u <> UMinus) by (destruct u; auto; right; discriminate).
  destruct M as [->|M].
  - go. match goal with X : dim ?x = d |- gives (Minus ?x) d => rewrite <- X; apply g_Minus; auto end.
  - assert (U := g_unDer u a H L M). destruct (unDer u a) as [r|] eqn:Q.
    + assert (S : gives (do df <- r; do x <- vecterm D a df g; Add (IntCst 0) x) d).
      { gb ltac:(exact U). gb ltac:(apply g_vecterm; auto; dm).
        match goal with X : dim ?x = d |- gives (Add _ ?x) d => rewrite <- X; apply g_add0; auto end. }
      destruct u; try discriminate Q; exact S.
    + destruct u; try discriminate Q; try congruence; apply g_zero.
Qed.

Lemma level_bin : forall b x y g, N (Bin b x y) -> ready D x -> ready D y ->
  (forall u, as_exp y = Some u -> ready D u) -> N g -> dim g = max (dim x) (dim y) ->
  gives (diff_body D v (Bin b x y) g) d.
Proof.
  intros b x y g H Rx Ry Ru G Dg. apply bin_inv in H as (Hx & Hy & C & L). pos.
  destruct b; cbn [diff_body]; try apply g_zero.
  - destruct (Nat.eqb_spec (dim x) 1); destruct (Nat.ltb_spec 1 (dim y)); cbn [andb];
      destruct (Nat.eqb_spec (dim y) 1); destruct (Nat.ltb_spec 1 (dim x)); cbn [andb]; repeat go.
  - destruct (Nat.eqb_spec (dim x) 1); destruct (Nat.ltb_spec 1 (dim y)); cbn [andb];
      destruct (Nat.eqb_spec (dim y) 1); destruct (Nat.ltb_spec 1 (dim x)); cbn [andb]; repeat go.
  - destruct (as_exp y) as [u|] eqn:X.
    + assert (Hu : N u).
      { apply as_exp_S in X. subst y. apply un_inv in Hy. apply Hy. }
      assert (Du : dim u = dim y) by (apply as_exp_S in X; subst y; reflexivity).
      specialize (Ru u eq_refl).
      destruct (Nat.eqb_spec (dim y) 1); destruct (Nat.eqb_spec (dim x) 1); destruct (Nat.ltb_spec 1 (dim y)); cbn [andb];
        repeat go.
    + destruct (Nat.eqb_spec (dim x) 1); destruct (Nat.ltb_spec 1 (dim y)); cbn [andb];
      destruct (Nat.eqb_spec (dim y) 1); destruct (Nat.ltb_spec 1 (dim x)); cbn [andb]; repeat go.
  - cbn [last1] in L. assert (NZ := varying_nonzero _ L).
    destruct (Nat.eqb_spec (dim x) 1); destruct (Nat.ltb_spec 1 (dim y)); cbn [andb];
      destruct (Nat.eqb_spec (dim y) 1); destruct (Nat.ltb_spec 1 (dim x)); cbn [andb];
      repeat first [go
        | match goal with S : Square y = Ok ?s |- _ => apply square_varying in S; [|exact NZ]; subst s end
        | match goal with |- gives (rbind (Divide _ _) _) _ => gb ltac:(apply g_Divide; [auto|auto|auto; exact I|dm]) end
        | match goal with |- gives (Divide _ _) _ => apply g_div1; [auto|auto|exact I|dm|dm] end].
  - cbn [last1] in L. eapply g_bind; [apply g_Square; auto|intros a2 Ea Na Da].
    eapply g_bind; [apply g_Square; auto|intros b2 Eb Nb Db].
    eapply g_bind; [apply g_Add; [auto|auto|dm]|intros r2 Er Nr Dr].
    assert (T : forall a, N a -> dim a = dim x -> (exists k, a = Zero k) \/ varying r2 -> gives (Divide a r2) (dim x)).
    { intros a Ha Da' [[k ->]|V].
      - unfold Divide. cbn [as_zero on orelse]. rewrite <- Da'.
        replace (dim (Zero k)) with (max (dim (Zero k)) (dim r2)) by dm. apply g_Broadcast; auto; dm.
      - apply g_div1; auto; dm. }
    assert (V : (exists k, x = Zero k) /\ (exists k, y = Zero k) \/ varying r2).
    { destruct (zero_or x) as [Zx|[k ->]]; destruct (zero_or y) as [Zy|[k' ->]].
      - right. exact (squares x y a2 b2 r2 Zx Zy Ea Eb Er).
      - right. unfold Square in Eb. cbn in Eb. inversion Eb; subst b2.
        apply square_varying in Ea; auto. subst a2. unfold Add, addF in Er.
        match type of Er with context [fuel_for ?q] => destruct (fuel_S q) as [n Y] end. rewrite Y in Er.
        cbn [calls radd] in Er. unfold add_body in Er. cbn [as_zero on orelse] in Er. unfold Broadcast in Er.
        cbn [dim] in Er, L. rewrite L, Nat.eqb_refl in Er. cbn in Er. inversion Er; exact I.
      - right. unfold Square in Ea. cbn in Ea. inversion Ea; subst a2.
        apply square_varying in Eb; auto. subst b2. unfold Add, addF in Er.
        match type of Er with context [fuel_for ?q] => destruct (fuel_S q) as [n Y] end. rewrite Y in Er.
        cbn [calls radd] in Er. unfold add_body in Er. cbn [as_zero on orelse] in Er. unfold Broadcast in Er.
        cbn [dim] in Er, L. rewrite <- L, Nat.eqb_refl in Er. cbn in Er. inversion Er; exact I.
      - left. eauto. }
    eapply g_bind; [apply T; [auto|dm|destruct V as [[_ V]|V]; auto]|intros da Eda Nda Dda].
    eapply g_bind; [apply g_Minus; auto|intros ma Em Nm Dm].
    assert (V' : (exists k, ma = Zero k) \/ varying r2).
    { destruct V as [[[k ->] _]|V]; [left|auto]. exists k. cbn in Em. inversion Em. reflexivity. }
    eapply g_bind; [apply T; [auto|dm|exact V']|intros db Edb Ndb Ddb].
    gb ltac:(apply g_vecterm; auto; dm). go. gb ltac:(apply g_vecterm; auto; dm). go.
  - cbn [last1] in L. destruct L as [L NZ]. go.
    assert (N1 : N (Bin BPowf x h)) by (apply N_bin; [auto|auto|dm|cbn; split; [dm|exact NZ]]).
    assert (N2 : N (Bin BPowf x y)) by (apply N_bin; [auto|auto|dm|cbn; split; [dm|exact NZ]]).
    assert (N3 : N (Un ULog x)) by (apply N_un; auto).
    gb ltac:(apply g_mk; [apply N1|exact N1]). go.
    gb ltac:(apply g_mk; [apply N2|exact N2]). go.
    gb ltac:(apply g_vecterm; auto; dm). go. gb ltac:(apply g_vecterm; auto; dm). go.
Qed.

Lemma level_ter : forall t x y z g, N (Ter t x y z) -> ready D y -> ready D z -> N g -> dim g = dim (Ter t x y z) ->
  gives (diff_body D v (Ter t x y z) g) d.
Proof.
  intros t x y z g ((K & Wx & Wy & Wz) & (Cx & Cy & Cz) & L & Fx & Fy & Fz) Ry Rz G Dg.
  destruct t; cbn [last1] in L; try tauto. destruct L as [L1 L2]. cbn [diff_body dim] in *.
  assert (Hx : N x) by (repeat split; auto). assert (Hy : N y) by (repeat split; auto).
  assert (Hz : N z) by (repeat split; auto). pos.
  eapply g_bind; [apply Ry; [auto|dm]|intros a Ea Na Da]. eapply g_bind; [apply Rz; [auto|dm]|intros b Eb Nb Db].
  assert (Q : node_ok (Ter TIfElse x a b) = true).
  { cbn [node_ok]. rewrite L1, Da, Db. unfold vcompat3. replace (max (max 1 d) d) with d by lia. rewrite orb_true_r, Nat.eqb_refl. reflexivity. }
  apply g_mk1; auto; [|cbn [dim]; dm]. destruct Na as (? & ? & ?), Nb as (? & ? & ?).
  repeat split; cbn [clean everywhere]; auto; congruence.
Qed.

Lemma level_lin : forall l x g, N (Lin l x) -> ready D x -> N g -> dim g = dim (Lin l x) ->
  gives (diff_body D v (Lin l x) g) d.
Proof.
  intros l x g H R G Dg. apply lin_inv in H as (H & K & L & C). pos.
  destruct l; cbn [diff_body last1 dim node_ok] in *.
  - repeat go.
  - apply andb_true_iff in K as [K1 K2]. apply Nat.eqb_eq in K1. repeat go.
  - apply Nat.ltb_lt in K. assert (Q : node_ok (Lin (LElemT (dim x) m) g) = true).
    { cbn [node_ok]. apply andb_true_iff. split; [apply Nat.eqb_eq; dm|apply Nat.ltb_lt; dm]. }
    eapply g_bind; [apply g_mk; [exact Q|apply N_lin; auto; exact I]|intros s Es Ns Ds]. cbn [dim] in Ds. go.
  - apply andb_true_iff in K as [K1 K2]. apply Nat.eqb_eq in K1. apply Nat.ltb_lt in K2.
    assert (Q : node_ok (Lin (LElem m) g) = true) by (cbn [node_ok]; apply Nat.ltb_lt; dm).
    eapply g_bind; [apply g_mk; [exact Q|apply N_lin; auto; exact I]|intros s' Es Ns Ds]. cbn [dim] in Ds. go.
  - apply andb_true_iff in K as [K1 K2]. apply Nat.leb_le in K1, K2.
    assert (Q : node_ok (Lin (LExtractT s (dim x)) g) = true) by (cbn [node_ok]; apply Nat.leb_le; dm).
    eapply g_bind; [apply g_mk; [exact Q|apply N_lin; auto; exact I]|intros s' Es Ns Ds]. cbn [dim] in Ds. go.
  - apply Nat.leb_le in K.
    assert (Q : node_ok (Lin (LExtract s (dim x)) g) = true).
    { cbn [node_ok]. apply andb_true_iff. split; apply Nat.leb_le; dm. }
    eapply g_bind; [apply g_mk; [exact Q|apply N_lin; auto; exact I]|intros s' Es Ns Ds]. cbn [dim] in Ds. go.
Qed.

Lemma div_exact : forall a b, 1 <= a -> 1 <= b -> a mod b = 0 -> exists q, 1 <= q /\ a = q * b /\ a / b = q.
Proof.
  intros a b A B K. exists (a / b). assert (X := Nat.div_mod a b ltac:(lia)). rewrite K in X.
  split; [|split; [lia|reflexivity]]. destruct (a / b); lia.
Qed.
Lemma mod_mult : forall q b, 1 <= q -> 1 <= b -> (q * b) mod q = 0 /\ q * b / q = b.
Proof.
  intros q b A B. rewrite Nat.mul_comm. split; [apply Nat.mod_mul; lia|apply Nat.div_mul; lia].
Qed.

Lemma level_bil : forall b x y g, N (Bil b x y) -> ready D x -> ready D y -> N g -> dim g = dim (Bil b x y) ->
  gives (diff_body D v (Bil b x y) g) d.
Proof.
  intros b x y g H Rx Ry G Dg. apply bil_inv in H as (Hx & Hy & K). pos.
  destruct b; cbn [diff_body dim node_ok] in *.
  - apply Nat.eqb_eq in K. repeat go.
  - apply Nat.eqb_eq in K. destruct (div_exact (dim x) (dim y)) as (q & Q1 & Q2 & Q3); auto. rewrite Q3 in Dg.
    destruct (mod_mult q (dim y)) as [M1 M2]; auto.
    eapply g_bind; [apply g_mk; [|apply N_bil; auto]; reflexivity|intros p Ep Np Dp]. cbn [dim] in Dp.
    eapply g_bind; [apply Rx; [auto|rewrite Dp, Dg, Q2; reflexivity]|intros a Ea Na Da].
    assert (X : node_ok (Bil KVecMat g x) = true) by (cbn [node_ok]; rewrite Dg, Q2, M1; reflexivity).
    eapply g_bind; [apply g_mk; [exact X|apply N_bil; auto]|intros s Es Ns Ds]. cbn [dim] in Ds.
    eapply g_bind; [apply Ry; [auto|rewrite Ds, Dg, Q2, M2; reflexivity]|intros c' Ec Nc Dc]. go.
  - apply Nat.eqb_eq in K. destruct (div_exact (dim y) (dim x)) as (q & Q1 & Q2 & Q3); auto. rewrite Q3 in Dg.
    destruct (mod_mult q (dim x)) as [M1 M2]; auto.
    eapply g_bind; [apply g_mk; [|apply N_bil; auto]; reflexivity|intros p Ep Np Dp]. cbn [dim] in Dp.
    eapply g_bind; [apply Ry; [auto|rewrite Dp, Dg, Q2; apply Nat.mul_comm]|intros a Ea Na Da].
    assert (X : node_ok (Bil KMatVec y g) = true) by (cbn [node_ok]; rewrite Dg, Q2, M1; reflexivity).
    eapply g_bind; [apply g_mk; [exact X|apply N_bil; auto]|intros s Es Ns Ds]. cbn [dim] in Ds.
    eapply g_bind; [apply Rx; [auto|rewrite Ds, Dg, Q2, M2; reflexivity]|intros c' Ec Nc Dc]. go.
  - destruct (mod_mult (dim x) (dim y)) as [M1 M2]; auto.
    assert (M3 : (dim x * dim y) mod dim y = 0 /\ dim x * dim y / dim y = dim x).
    { split; [apply Nat.mod_mul; lia|apply Nat.div_mul; lia]. }
    destruct M3 as [M3 M4].
    assert (X : node_ok (Bil KMatVec g y) = true) by (cbn [node_ok]; rewrite Dg, M3; reflexivity).
    eapply g_bind; [apply g_mk; [exact X|apply N_bil; auto]|intros s Es Ns Ds]. cbn [dim] in Ds.
    eapply g_bind; [apply Rx; [auto|rewrite Ds, Dg, M4; reflexivity]|intros c' Ec Nc Dc].
    assert (Y : node_ok (Bil KVecMat x g) = true) by (cbn [node_ok]; rewrite Dg, M1; reflexivity).
    eapply g_bind; [apply g_mk; [exact Y|apply N_bil; auto]|intros s' Es' Ns' Ds']. cbn [dim] in Ds'.
    eapply g_bind; [apply Ry; [auto|rewrite Ds', Dg, M2; reflexivity]|intros c2 Ec' Nc' Dc']. go.
Qed.

Lemma level_cat : forall x y g, N x -> N y -> ready D x -> ready D y -> N g -> dim g = dim x + dim y ->
  gives (diff_body D v (Cat x y) g) d.
Proof.
  intros x y g Hx Hy Rx Ry G Dg. pos. cbn [diff_body].
  assert (Q : node_ok (Lin (LExtract 0 (dim x)) g) = true).
  { cbn [node_ok]. apply andb_true_iff. split; apply Nat.leb_le; dm. }
  assert (P : node_ok (Lin (LExtract (dim x) (dim y)) g) = true).
  { cbn [node_ok]. apply andb_true_iff. split; apply Nat.leb_le; dm. }
  eapply g_bind; [apply g_mk; [exact Q|apply N_lin; auto; exact I]|intros s Es Ns Ds]. cbn [dim] in Ds. go.
  eapply g_bind; [apply g_mk; [exact P|apply N_lin; auto; exact I]|intros s' Es' Ns' Ds']. cbn [dim] in Ds'. go. go.
Qed.

Lemma level_sel : forall l x g, N (Sel l x) -> ready D x -> N g -> dim g = dim (Sel l x) ->
  gives (diff_body D v (Sel l x) g) d.
Proof.
  intros l x g ((K & W) & C & _ & F) R G Dg. assert (H : N x) by (repeat split; auto). pos.
  destruct l; cbn [diff_body dim] in *; try apply g_zero.
  - assert (P : N (Sel SArgMax x)) by (apply N_sel; auto).
    assert (Q : node_ok (Sel (SOneHot (dim x)) (Sel SArgMax x)) = true) by (cbn [node_ok dim]; apply Nat.leb_le; auto).
    eapply g_bind; [apply g_mk; [exact Q|apply N_sel; auto]|intros s Es Ns Ds]. cbn [dim] in Ds. repeat go.
  - assert (P : N (Sel SArgMin x)) by (apply N_sel; auto).
    assert (Q : node_ok (Sel (SOneHot (dim x)) (Sel SArgMin x)) = true) by (cbn [node_ok dim]; apply Nat.leb_le; auto).
    eapply g_bind; [apply g_mk; [exact Q|apply N_sel; auto]|intros s Es Ns Ds]. cbn [dim] in Ds. repeat go.
Qed.
End Level.

Lemma weight_pos : forall f, 1 <= weight f.
Proof. destruct f; cbn; try lia. destruct t; lia. Qed.

Lemma DiffTn_ready : forall i d c, 1 <= d -> forall n f, N f -> weight f <= n -> ready d (DiffTn n (Var i d c)) f.
Proof.
  intros i d c Hd. induction n as [|n IHn]; intros f H W g G Dg; [assert (X := weight_pos f); lia|].
  cbn [DiffTn]. destruct f; cbn [weight] in W.
  - cbn [diff_body]. destruct (feqb _ _) eqn:Q; [|apply g_zero; exact Hd].
    apply feqb_eq in Q. inversion Q; subst. apply g_ok; auto.
  - apply g_zero; exact Hd.
  - apply g_zero; exact Hd.
  - apply g_zero; exact Hd.
  - apply level_un; auto. apply IHn; [apply (un_inv _ _ H)|lia].
  - destruct (bin_inv _ _ _ H) as (Hx & Hy & C & L).
    apply level_bin; auto; try (apply IHn; auto; lia).
    intros u E. apply as_exp_S in E. subst f2. cbn [weight] in W. apply IHn; [apply (un_inv _ _ Hy)|lia].
  - assert (H' := H). destruct H' as ((K & Wx & Wy & Wz) & (Cx & Cy & Cz) & L & Fx & Fy & Fz).
    destruct t; cbn [last1] in L; try tauto. cbn in W.
    apply level_ter; auto; apply IHn; try lia; repeat split; auto.
  - apply level_lin; auto. apply IHn; [apply (lin_inv _ _ H)|lia].
  - apply level_bil; auto; apply IHn; try lia; apply (bil_inv _ _ _ H).
  - destruct H as ((_ & Wx & Wy) & (Cx & Cy) & _ & Fx & Fy).
    assert (N f1) by (repeat split; auto). assert (N f2) by (repeat split; auto).
    apply level_cat; auto; apply IHn; auto; lia.
  - apply level_sel; auto. destruct H as ((_ & Wx) & Cx & _ & Fx). apply IHn; [repeat split; auto|lia].
Qed.

Lemma N_lasting : forall f, N f <-> wf f /\ lasting f.
Proof. intros f. rewrite lasting_iff. unfold N. tauto. Qed.

Lemma DiffT_lasting : forall f i d c g, 1 <= d -> wf f -> lasting f -> wf g -> lasting g -> dim g = dim f ->
  exists h, DiffT f (Var i d c) g = Ok h /\ wf h /\ lasting h /\ dim h = d.
Proof.
  intros f i d c g Hd Wf Lf Wg Lg Dg.
  destruct (DiffTn_ready i d c Hd (weight f) f) with (g := g) as (h & E & Nh & Dh); auto;
    try (apply N_lasting; auto).
  exists h. apply N_lasting in Nh as [Wh Lh]. auto.
Qed.
