(** Announced dimensions and the formulas of the engine; gradients; texts that are not formulas. *)

From Coq Require Import ZArith List Bool Ascii String Lia.
From Verif Require Import Result Keys KeySpec Formula LazyTensors Tensordot Methods MethodsSpec C42Proofs DotProofs
  Build BuildProofs Diff GradSpec DiffProofs C22Proofs.
Import ListNotations.
Open Scope string_scope.

(** ** Main statements *)

Lemma announced : forall l t d, made l t -> formula l = written t /\ (engine_dim t = Ok d -> ndim l = d).
Proof. intros l t d H. apply made_agrees in H as [A B C]. split; auto. intros E. now apply B. Qed.

Lemma accepted_early : forall l t, made l t -> checked t = true -> engine_dim t = Ok (ndim l).
Proof.
  intros l t H C. apply made_agrees in H. destruct (ag_ok _ _ H C) as [d E]. destruct (ag_dim _ _ H d E) as [-> _]. auto.
Qed.

Lemma removelast_cons2 : forall (s : list Z) a b d, removelast (s ++ [a; b; d])%list = (s ++ [a; b])%list.
Proof.
  intros s a b d. change [a; b; d] with ([a; b] ++ [d])%list. rewrite app_assoc. apply removelast_last.
Qed.

Lemma shapes : forall l t d, made l t -> engine_dim t = Ok d ->
  lt_shape l = shape_of (match batchdims l with Some b => b | None => [] end) (rows (ni l)) (rows (nj l)) d.
Proof.
  intros l t d H E. apply (announced l t d) in H as [_ H]. specialize (H E).
  unfold lt_shape, inner_shape, shape_of, rows. rewrite H. destruct (d =? 1)%Z eqn:D.
  - rewrite removelast_cons2. reflexivity.
  - reflexivity.
Qed.

(** ** Formulas *)

Fixpoint positive (t : term) : Prop :=
  (forall d, engine_dim t = Ok d -> (1 <= d)%Z) /\
  match t with
  | TVar _ _ _ | TSym _ _ _ | TInt _ => True
  | T1 _ t _ => positive t
  | TOp _ t u | T2 _ t u _ | TDot _ t u _ => positive t /\ positive u
  | T3 _ t u v => positive t /\ positive u /\ positive v
  end.

Lemma made_positive : forall l t, made l t -> positive t.
Proof.
  intros l t H.
  assert (F : forall d, engine_dim t = Ok d -> (1 <= d)%Z).
  { intros d E. apply made_agrees in H. now destruct (ag_dim _ _ H d E). }
  induction H; try (split; [exact F|]; repeat split;
    first [ exact I
          | (apply IHmade; intros d0 E0; match goal with M : made _ _ |- _ => destruct (ag_dim _ _ (made_agrees _ _ M) d0 E0) end; auto; fail)
          | (apply IHmade1; intros d0 E0; destruct (ag_dim _ _ (made_agrees _ _ H) d0 E0); auto; fail)
          | (apply IHmade2; intros d0 E0; destruct (ag_dim _ _ (made_agrees _ _ H0) d0 E0); auto; fail)
          | (apply IHmade3; intros d0 E0; destruct (ag_dim _ _ (made_agrees _ _ H1) d0 E0); auto; fail) ]).
  destruct (k =? 2)%Z; (split; [exact F|]; apply IHmade; intros d0 E0;
    destruct (ag_dim _ _ (made_agrees _ _ H) d0 E0); auto).
Qed.

Definition meets (t : term) (f : fm) : Prop :=
  forall d, engine_dim t = Ok d -> wf f /\ Z.of_nat (dim f) = d.

Ltac names op :=
  repeat match goal with
  | H : context [String.eqb op ?s] |- _ => destruct (String.eqb_spec op s); [subst op|]
  end.

Lemma among_cons : forall op a l, among op (a :: l) = String.eqb op a || among op l.
Proof. reflexivity. Qed.
Lemma among_nil : forall op, among op [] = false.
Proof. reflexivity. Qed.

Lemma wf_pos : forall f, wf f -> 1 <= dim f -> wf f /\ 1 <= dim f.
Proof. auto. Qed.

Lemma compat_z : forall a b d, vectorized [Z.of_nat a; Z.of_nat b] = Ok d -> 1 <= a -> 1 <= b ->
  vcompat2 a b = true /\ Z.of_nat (max a b) = d.
Proof.
  intros a b d H A B. apply vect2_ok in H as [-> H]; [|lia..]. split; [|lia].
  unfold vcompat2. destruct H as [H|[H|H]].
  - apply Nat2Z.inj in H. subst. rewrite Nat.eqb_refl. reflexivity.
  - assert (a = 1) by lia. subst. apply orb_true_intro. right. apply Nat.eqb_eq. lia.
  - assert (b = 1) by lia. subst. apply orb_true_intro. right. apply Nat.eqb_eq. lia.
Qed.

Lemma compat3_z : forall a b c d, vectorized [Z.of_nat a; Z.of_nat b; Z.of_nat c] = Ok d -> 1 <= a -> 1 <= b -> 1 <= c ->
  vcompat3 a b c = true /\ Z.of_nat (max (max a b) c) = d.
Proof.
  intros a b c d H A B C. assert (H' := H). apply vect3_ok in H'; [|lia..]. subst d. split; [|lia].
  unfold vectorized in H. rewrite nodup3 in H. unfold vcompat3.
  destruct (Z.eqb_spec (Z.of_nat b) (Z.of_nat c)).
  - assert (b = c) by lia. subst. destruct (Z.eqb_spec (Z.of_nat a) (Z.of_nat c)).
    + assert (a = c) by lia. subst. rewrite !Nat.max_id, Nat.eqb_refl. reflexivity.
    + cbn in H. destruct (Z.min (Z.of_nat a) (Z.of_nat c) =? 1)%Z eqn:E; [|discriminate]. apply Z.eqb_eq in E.
      rewrite !andb_true_iff, !orb_true_iff, !Nat.eqb_eq. lia.
  - destruct (Z.eqb_spec (Z.of_nat a) (Z.of_nat b)).
    + cbn in H. destruct (Z.min (Z.of_nat b) (Z.of_nat c) =? 1)%Z eqn:E; [|discriminate]. apply Z.eqb_eq in E.
      rewrite !andb_true_iff, !orb_true_iff, !Nat.eqb_eq. lia.
    + destruct (Z.eqb_spec (Z.of_nat a) (Z.of_nat c)); [|discriminate].
      cbn in H. destruct (Z.min (Z.of_nat b) (Z.of_nat c) =? 1)%Z eqn:E; [|discriminate]. apply Z.eqb_eq in E.
      rewrite !andb_true_iff, !orb_true_iff, !Nat.eqb_eq. lia.
Qed.

Lemma wf_sqnorm : forall f, wf f -> wf (sqnorm f).
Proof. intros f W. cbn. auto. Qed.

Lemma unop_engine : forall op u d, unop_of op = Some u -> engine1 op [] d = Ok d.
Proof.
  intros op u d H. unfold unop_of in H. names op; try reflexivity. discriminate.
Qed.

Lemma sel_ok : forall s f d, wf f -> 1 <= dim f -> match s with SOneHot _ => False | _ => True end ->
  (if (Z.of_nat (dim f) <? 1)%Z then KErr else Ok 1%Z) = Ok d -> wf (Sel s f) /\ Z.of_nat (dim (Sel s f)) = d.
Proof.
  intros s f d W P S E. destruct (Z.ltb_spec (Z.of_nat (dim f)) 1); [discriminate|]. inversion E; subst.
  split; [|destruct s; try contradiction; reflexivity].
  split; [|auto]. destruct s; try contradiction; cbn; destruct (dim f); auto; lia.
Qed.

Lemma formula1_ok : forall op ps f f' d, wf f -> 1 <= dim f -> formula1 op ps f = Some f' ->
  engine1 op ps (Z.of_nat (dim f)) = Ok d -> (1 <= d)%Z -> wf f' /\ Z.of_nat (dim f') = d.
Proof.
  intros op ps f f' d W P F E D. destruct ps as [|a [|b [|]]]; cbn [formula1] in F; [| | |discriminate].
  - destruct (unop_of op) as [u|] eqn:U.
    + rewrite (unop_engine _ _ _ U) in E. inversion F; inversion E; subst. cbn. auto.
    + destruct (String.eqb_spec op "Normalize"); [subst op|].
      { inversion F; subst. destruct (compat_z 1 (dim f) d E) as [V M]; [lia..|]. split; [|exact M].
        split; [exact V|]. split; [|auto]. split; [reflexivity|]. now apply wf_sqnorm. }
      destruct (String.eqb_spec op "SqNorm2"); [subst op|].
      { inversion F; inversion E; subst. split; [now apply wf_sqnorm|reflexivity]. }
      destruct (String.eqb_spec op "Norm2"); [subst op|].
      { inversion F; inversion E; subst. split; [|reflexivity]. cbn. rewrite Nat.eqb_refl. auto. }
      destruct (String.eqb_spec op "Sum"); [subst op|].
      { inversion F; inversion E; subst. cbn. auto. }
      destruct (String.eqb_spec op "Min"); [subst op|]. { inversion F; subst. apply sel_ok; auto. }
      destruct (String.eqb_spec op "ArgMin"); [subst op|]. { inversion F; subst. apply sel_ok; auto. }
      destruct (String.eqb_spec op "Max"); [subst op|]. { inversion F; subst. apply sel_ok; auto. }
      destruct (String.eqb_spec op "ArgMax"); [subst op|]. { inversion F; subst. apply sel_ok; auto. }
      discriminate.
  - destruct (String.eqb_spec op "Pow"); [subst op|].
    { inversion F; inversion E; subst. cbn. auto. }
    destruct (String.eqb_spec op "Elem"); [subst op|].
    { inversion F; subst. cbn -[Z.leb] in E. destruct (Z.leb_spec (Z.of_nat (dim f)) a); [discriminate|].
      inversion E; subst. split; [|reflexivity]. split; [|auto]. cbn [node_ok]. apply Nat.ltb_lt. lia. }
    destruct (String.eqb_spec op "OneHot"); [subst op|].
    { inversion F; subst. cbn -[Z.eqb Z.ltb] in E. destruct (Z.eqb_spec (Z.of_nat (dim f)) 1); [|discriminate].
      cbn [negb] in E. destruct (Z.ltb_spec a 1); [discriminate|]. inversion E; subst.
      split; [|cbn; lia]. split; [|auto]. cbn [node_ok]. apply andb_true_intro. split; [apply Nat.eqb_eq|apply Nat.leb_le]; lia. }
    discriminate.
  - destruct (String.eqb_spec op "ClampInt"); [subst op|].
    { inversion F; inversion E; subst. cbn. auto. }
    destruct (String.eqb_spec op "Extract"); [subst op|].
    { inversion F; subst. cbn -[Z.ltb Z.add] in E. destruct (Z.ltb_spec (Z.of_nat (dim f)) (a + b)); [discriminate|].
      destruct (Z.ltb_spec a 0); [discriminate|]. inversion E; subst. split; [|cbn; lia].
      split; [|auto]. cbn [node_ok]. apply andb_true_intro. split; apply Nat.leb_le; lia. }
    discriminate.
Qed.

Lemma wf_bin : forall b f g, wf f -> wf g -> vcompat2 (dim f) (dim g) = true -> wf (Bin b f g).
Proof. intros b f g A B C. split; auto. Qed.

Lemma formula_op_ok : forall op f g f' d, wf f -> wf g -> 1 <= dim f -> 1 <= dim g -> formula_op op f g = Some f' ->
  engine_op op (Z.of_nat (dim f)) (Z.of_nat (dim g)) = Ok d -> wf f' /\ Z.of_nat (dim f') = d.
Proof.
  intros op f g f' d W W' P P' F E. unfold formula_op in F. names op;
    try (inversion F; subst; destruct (compat_z _ _ d E) as [V M]; [lia..|]; split; [now apply wf_bin|exact M]; fail).
  - inversion F; subst. destruct (compat_z _ _ d E) as [V M]; [lia..|]. split; [|cbn; lia].
    apply wf_bin; auto. unfold vcompat2 in *. now rewrite Nat.eqb_sym, Nat.min_comm.
  - inversion F; subst. destruct (compat_z _ _ d E) as [V M]; [lia..|]. split; [|cbn; lia].
    apply wf_bin; auto. unfold vcompat2 in *. now rewrite Nat.eqb_sym, Nat.min_comm.
  - inversion F; subst. cbn in E. destruct (Z.eqb_spec (Z.of_nat (dim f)) (Z.of_nat (dim g))); [|discriminate].
    inversion E; subst. split; [|reflexivity]. split; [|auto]. cbn. apply Nat.eqb_eq. lia.
  - discriminate.
Qed.

Lemma mod_nat : forall a b, 1 <= b -> (Z.of_nat a mod Z.of_nat b =? 0)%Z = true -> (a mod b =? 0)%nat = true.
Proof. intros a b B H. apply Z.eqb_eq in H. rewrite <- Nat2Z.inj_mod in H. apply Nat.eqb_eq. lia. Qed.

Lemma formula2_ok : forall op ps f g f' d, wf f -> wf g -> 1 <= dim f -> 1 <= dim g -> formula2 op ps f g = Some f' ->
  engine2 op ps (Z.of_nat (dim f)) (Z.of_nat (dim g)) = Ok d -> wf f' /\ Z.of_nat (dim f') = d.
Proof.
  intros op ps f g f' d W W' P P' F E. destruct ps; [|discriminate]. cbn [formula2] in F.
  destruct (String.eqb_spec op "Atan2"); [subst op|].
  { inversion F; subst; destruct (compat_z _ _ d E) as [V M]; [lia..|]; split; [now apply wf_bin|exact M]. }
  destruct (String.eqb_spec op "Equal"); [subst op|].
  { inversion F; subst; destruct (compat_z _ _ d E) as [V M]; [lia..|]; split; [now apply wf_bin|exact M]. }
  destruct (String.eqb_spec op "NotEqual"); [subst op|].
  { inversion F; subst; destruct (compat_z _ _ d E) as [V M]; [lia..|]; split; [now apply wf_bin|exact M]. }
  destruct (String.eqb_spec op "Powf"); [subst op|].
  { inversion F; subst; destruct (compat_z _ _ d E) as [V M]; [lia..|]; split; [now apply wf_bin|exact M]. }
  destruct (String.eqb_spec op "SqDist"); [subst op|].
  { inversion F; subst. cbn -[vectorized] in E. apply bind_ok in E as (x & E' & E). inversion E; subst.
    destruct (compat_z _ _ x E') as [V M]; [lia..|]. split; [|reflexivity]. apply wf_sqnorm. now apply wf_bin. }
  destruct (String.eqb_spec op "WeightedSqNorm"); [subst op|].
  { cbn -[vectorized Z.mul dim] in E. inversion F; subst; clear F. destruct (Nat.eqb_spec (dim f) 1) as [e|e].
    - rewrite e in E. cbn in E. inversion E; subst. split; [|cbn; now rewrite e].
      apply wf_bin; [auto|now apply wf_sqnorm|]. now rewrite e.
    - destruct (Z.eqb_spec (Z.of_nat (dim f)) 1); [lia|]. destruct (Nat.eqb_spec (dim f) (dim g)) as [h|h].
      + rewrite h in E. rewrite Z.eqb_refl in E. apply bind_ok in E as (x & E' & E). inversion E; subst.
        split; [|reflexivity]. split; [reflexivity|]. apply wf_bin; [auto|cbn; auto|]. cbn [dim]. unfold vcompat2.
        rewrite h, Nat.eqb_refl. reflexivity.
      + destruct (Z.eqb_spec (Z.of_nat (dim f)) (Z.of_nat (dim g))); [lia|]. apply bind_ok in E as (x & E' & E). inversion E; subst.
        rewrite <- Nat2Z.inj_mul in E'. destruct (compat_z _ _ x E') as [V M]; [nia..|].
        split; [|reflexivity]. split; [reflexivity|]. apply wf_bin; [auto|cbn; auto|exact V]. }
  destruct (String.eqb_spec op "Concat"); [subst op|].
  { inversion F; inversion E; subst. cbn. split; [auto|lia]. }
  destruct (String.eqb_spec op "MatVecMult"); [subst op|].
  { inversion F; subst. cbn -[Z.eqb Z.modulo Z.div] in E. destruct (Z.eqb_spec (Z.of_nat (dim g)) 0); [discriminate|].
    destruct (Z.of_nat (dim f) mod Z.of_nat (dim g) =? 0)%Z eqn:M; [|discriminate]. inversion E.
    split; [|cbn; now rewrite Nat2Z.inj_div]. split; [|auto]. cbn [node_ok]. now apply mod_nat. }
  destruct (String.eqb_spec op "VecMatMult"); [subst op|].
  { inversion F; subst. cbn -[Z.eqb Z.modulo Z.div] in E. destruct (Z.eqb_spec (Z.of_nat (dim f)) 0); [discriminate|].
    destruct (Z.of_nat (dim g) mod Z.of_nat (dim f) =? 0)%Z eqn:M; [|discriminate]. inversion E.
    split; [|cbn; now rewrite Nat2Z.inj_div]. split; [|auto]. cbn [node_ok]. now apply mod_nat. }
  destruct (String.eqb_spec op "TensorProd"); [subst op|].
  { inversion F; inversion E; subst. cbn. split; [auto|lia]. }
  discriminate.
Qed.

Lemma formula3_ok : forall op f g h f' d, wf f -> wf g -> wf h -> 1 <= dim f -> 1 <= dim g -> 1 <= dim h ->
  formula3 op f g h = Some f' ->
  engine3 op (Z.of_nat (dim f)) (Z.of_nat (dim g)) (Z.of_nat (dim h)) = Ok d -> wf f' /\ Z.of_nat (dim f') = d.
Proof.
  intros op f g h f' d W W' W'' P P' P'' F E. unfold formula3 in F. names op;
    try (inversion F; subst; destruct (compat3_z _ _ _ d E) as [V M]; [lia..|]; split; [split; auto|exact M]; fail).
  discriminate.
Qed.

Lemma formulas : forall t f d, positive t -> as_formula t = Some f -> engine_dim t = Ok d ->
  wf f /\ Z.of_nat (dim f) = d.
Proof.
  induction t; intros f dd [Q Qs] F E; assert (D := Q _ E); cbn [as_formula] in F; cbn [engine_dim] in E.
  - inversion F; inversion E; subst. cbn. split; [|lia]. split; [|auto]. destruct (Z.to_nat dd) eqn:X; [lia|auto].
  - inversion F; inversion E; subst. cbn. split; [|lia]. split; [|auto]. destruct (Z.to_nat dd) eqn:X; [lia|auto].
  - inversion F; inversion E; subst. cbn. auto.
  - destruct (as_formula t) as [f0|]; [|discriminate]. apply bind_ok in E as (a & Ea & E).
    destruct (IHt _ _ Qs eq_refl Ea) as [W M]. assert (1 <= a)%Z by (destruct t; apply Qs; auto).
    subst a. eapply formula1_ok; eauto. lia.
  - destruct (as_formula t1) as [f1|]; [|discriminate]. destruct (as_formula t2) as [f2|]; [|discriminate].
    apply bind_ok in E as (a & Ea & E). apply bind_ok in E as (b & Eb & E). destruct Qs as [Q1 Q2].
    destruct (IHt1 _ _ Q1 eq_refl Ea) as [W M]. destruct (IHt2 _ _ Q2 eq_refl Eb) as [W' M'].
    assert (1 <= a)%Z by (destruct t1; apply Q1; auto). assert (1 <= b)%Z by (destruct t2; apply Q2; auto).
    subst a b. eapply (formula_op_ok _ f1 f2); [exact W|exact W'|lia|lia|exact F|exact E].
  - destruct (as_formula t1) as [f1|]; [|discriminate]. destruct (as_formula t2) as [f2|]; [|discriminate].
    apply bind_ok in E as (a & Ea & E). apply bind_ok in E as (b & Eb & E). destruct Qs as [Q1 Q2].
    destruct (IHt1 _ _ Q1 eq_refl Ea) as [W M]. destruct (IHt2 _ _ Q2 eq_refl Eb) as [W' M'].
    assert (1 <= a)%Z by (destruct t1; apply Q1; auto). assert (1 <= b)%Z by (destruct t2; apply Q2; auto).
    subst a b. eapply (formula2_ok _ _ f1 f2); [exact W|exact W'|lia|lia|exact F|exact E].
  - discriminate.
  - destruct (as_formula t1) as [f1|]; [|discriminate]. destruct (as_formula t2) as [f2|]; [|discriminate].
    destruct (as_formula t3) as [f3|]; [|discriminate].
    apply bind_ok in E as (a & Ea & E). apply bind_ok in E as (b & Eb & E). apply bind_ok in E as (c & Ec & E).
    destruct Qs as (Q1 & Q2 & Q3).
    destruct (IHt1 _ _ Q1 eq_refl Ea) as [W M]. destruct (IHt2 _ _ Q2 eq_refl Eb) as [W' M'].
    destruct (IHt3 _ _ Q3 eq_refl Ec) as [W'' M''].
    assert (1 <= a)%Z by (destruct t1; apply Q1; auto). assert (1 <= b)%Z by (destruct t2; apply Q2; auto).
    assert (1 <= c)%Z by (destruct t3; apply Q3; auto).
    subst a b c. eapply (formula3_ok _ f1 f2 f3); [exact W|exact W'|exact W''|lia|lia|lia|exact F|exact E].
Qed.

(** The formula that the engine builds, after its simplifications. *)
Lemma built_dim : forall l t f h d, made l t -> as_formula t = Some f -> engine_dim t = Ok d -> build f = Ok h ->
  wf h /\ Z.of_nat (dim h) = ndim l.
Proof.
  intros l t f h d M F E B. destruct (formulas t f d (made_positive _ _ M) F E) as [W D].
  destruct (build_sound f h B W) as (W' & D' & _). split; auto. rewrite D', D. symmetry. now apply (announced l t d M).
Qed.

(** ** Gradients *)

Lemma grad_fields : forall l v e r, m_grad l v e = Ok r -> (1 <= ndim v)%Z ->
  formula r = "Grad(" ++ formula l ++ ", " ++ formula v ++ ", " ++ formula e ++ ")"
  /\ ndim r = ndim v /\ ndim l = ndim e.
Proof.
  intros l v e r H P. apply binary_fields in H as (C & F & N). cbn in C. apply Z.eqb_eq in C.
  rewrite N, or_default_pos by auto. auto.
Qed.

Lemma gradient_dim : forall l t f v i d c e u g r h,
  made l t -> as_formula t = Some f -> engine_dim t = Ok (ndim l) ->
  made v (TVar i d c) -> made e u -> as_formula u = Some g -> engine_dim u = Ok (ndim e) ->
  m_grad l v e = Ok r ->
  consistent i (Z.to_nat d) (Z.to_nat c) f -> unmixed f ->
  DiffT f (Var i (Z.to_nat d) (Z.to_nat c)) g = Ok h ->
  formula r = "Grad(" ++ written t ++ ", " ++ written (TVar i d c) ++ ", " ++ written u ++ ")"
  /\ Z.of_nat (dim h) = ndim r.
Proof.
  intros l t f v i d c e u g r h Ml F E Mv Me G Eg H C U D.
  destruct (announced _ _ d Mv) as [Tv Nv]. specialize (Nv eq_refl).
  assert (P : (1 <= d)%Z) by (apply (made_positive _ _ Mv); reflexivity).
  destruct (grad_fields _ _ _ _ H) as (Fr & Nr & Nl); [lia|].
  destruct (formulas t f _ (made_positive _ _ Ml) F E) as [Wf Df].
  destruct (formulas u g _ (made_positive _ _ Me) G Eg) as [Wg Dg].
  split; [rewrite Fr, Tv; now rewrite (proj1 (announced l t 0%Z Ml)), (proj1 (announced e u 0%Z Me))|].
  rewrite Nr, Nv. apply DiffT_adjoint in D as [D _]; auto; lia.
Qed.

(** ** Texts that are not formulas *)

Lemma has_app : forall c s t, has c (s ++ t) = has c s || has c t.
Proof. intros c s t. induction s; cbn; auto. rewrite IHs. now rewrite orb_assoc. Qed.

Lemma no_int : forall z, has newline (str_int z) = false.
Proof. intros z. apply str_int_has; [reflexivity|discriminate]. Qed.

Lemma no_ints : forall sep l, has newline sep = false -> has newline (String.concat "" (map (fun p => sep ++ str_int p) l)) = false.
Proof.
  intros sep l S. induction l as [|a [|b l] IH]; [reflexivity| |].
  - cbn [map String.concat]. rewrite has_app, S, no_int. reflexivity.
  - cbn [map String.concat] in *. rewrite !has_app, S, no_int. cbn [has orb]. exact IH.
Qed.

Lemma no_concat : forall sep (l : list string), has newline sep = false -> Forall (fun s => has newline s = false) l ->
  has newline (String.concat sep l) = false.
Proof.
  intros sep l S H. induction H as [|a l Ha H IH]; [reflexivity|].
  destruct l; [exact Ha|]. cbn [String.concat] in *. rewrite !has_app, S, Ha. exact IH.
Qed.

Lemma no_lists : forall l, has newline (String.concat "" (map (fun p => ", " ++ ints_text p) l)) = false.
Proof.
  intros l. apply no_concat; [reflexivity|]. apply Forall_forall. intros s H. apply in_map_iff in H as (x & <- & _).
  unfold ints_text. rewrite !has_app. cbn [has newline]. rewrite no_concat; [reflexivity|reflexivity|].
  apply Forall_forall. intros s H. apply in_map_iff in H as (z & <- & _). apply no_int.
Qed.

Lemma no_among : forall op l, among op l = true -> forallb (fun s => negb (has newline s)) l = true -> has newline op = false.
Proof.
  intros op l A F. unfold among in A. apply existsb_exists in A as (s & I & E). apply String.eqb_eq in E. subst s.
  rewrite forallb_forall in F. apply F in I. now destruct (has newline op).
Qed.

Ltac known H op :=
  repeat match type of H with
  | context [among op ?l] => let A := fresh in destruct (among op l) eqn:A; [exact (no_among op l A eq_refl)|]
  | context [String.eqb op ?s] => destruct (String.eqb_spec op s); [subst op; reflexivity|]
  end; try discriminate.

Lemma known1 : forall op ps d d', engine1 op ps d = Ok d' -> has newline op = false.
Proof. intros op ps d d' H. unfold engine1 in H. destruct ps as [|a [|b [|]]]; known H op. Qed.
Lemma known_op : forall op a b d, engine_op op a b = Ok d -> has newline op = false.
Proof. intros op a b d H. unfold engine_op in H. known H op. Qed.
Lemma known2 : forall op ps a b d, engine2 op ps a b = Ok d -> has newline op = false.
Proof. intros op ps a b d H. unfold engine2 in H. destruct ps as [|k [|]]; known H op. Qed.
Lemma known_dot : forall op ps a b d, engine_dot op ps a b = Ok d -> has newline op = false.
Proof. intros op ps a b d H. unfold engine_dot in H. destruct ps as [|? [|? [|? [|? [|? [|]]]]]]; known H op. Qed.
Lemma known3 : forall op a b c d, engine3 op a b c = Ok d -> has newline op = false.
Proof. intros op a b c d H. unfold engine3 in H. known H op. Qed.

Lemma one_line : forall t d, engine_dim t = Ok d -> has newline (written t) = false.
Proof.
  induction t; intros dd E; cbn [written engine_dim] in *; rewrite ?has_app; cbn [has newline]; rewrite ?no_int; auto.
  - apply bind_ok in E as (a & Ea & E). rewrite (known1 _ _ _ _ E), (IHt _ Ea), no_ints by reflexivity. reflexivity.
  - apply bind_ok in E as (a & Ea & E). apply bind_ok in E as (b & Eb & E).
    rewrite (known_op _ _ _ _ E), (IHt1 _ Ea), (IHt2 _ Eb). reflexivity.
  - apply bind_ok in E as (a & Ea & E). apply bind_ok in E as (b & Eb & E).
    rewrite (known2 _ _ _ _ _ E), (IHt1 _ Ea), (IHt2 _ Eb), no_ints by reflexivity. reflexivity.
  - apply bind_ok in E as (a & Ea & E). apply bind_ok in E as (b & Eb & E).
    rewrite (known_dot _ _ _ _ _ E), (IHt1 _ Ea), (IHt2 _ Eb), no_lists. reflexivity.
  - apply bind_ok in E as (a & Ea & E). apply bind_ok in E as (b & Eb & E). apply bind_ok in E as (c & Ec & E).
    rewrite (known3 _ _ _ _ _ E), (IHt1 _ Ea), (IHt2 _ Eb), (IHt3 _ Ec). reflexivity.
Qed.

Lemma grad_matrix_text : forall rest l v t d, engine_dim t = Ok d -> formula (m_grad_matrix rest l v) <> written t.
Proof.
  intros rest l v t d E H. apply one_line in E. rewrite <- H in E. cbn [m_grad_matrix unary init formula] in E.
  rewrite !has_app in E. unfold lt_str in E. rewrite has_app in E.
  replace (has newline (String newline ("    formula: " ++ rest))) with true in E by reflexivity.
  rewrite orb_true_r in E. cbn [orb] in E. rewrite !orb_true_r in E. discriminate.
Qed.

Lemma difference_matrix_unknown : forall l t l' t' r, made l t -> made l' t' -> m_difference_matrix l l' = Ok r ->
  formula r = written (T2 "DifferenceMatrix" t t' []) /\ forall d, engine_dim (T2 "DifferenceMatrix" t t' []) <> Ok d.
Proof.
  intros l t l' t' r A A' H. split.
  - apply (announced r _ 0%Z). eapply made_difference_matrix; eauto.
  - intros d E. cbn [engine_dim] in E. apply bind_ok in E as (a & _ & E). apply bind_ok in E as (b & _ & E). discriminate.
Qed.

Lemma gradient_atan2 : exists l r h,
  made l (T2 "Atan2" (TVar 0 1 2) (TVar 1 3 2) []) /\ m_grad l (lt_floats 0 1) (lt_floats 2 3) = Ok r /\
  DiffT (Bin BAtan2 (Var 0 1 2) (Var 1 3 2)) (Var 0 1 2) (Var 2 3 2) = Ok h /\ ndim r = 1%Z /\ dim h = 3%nat.
Proof.
  do 3 eexists. split.
  { apply (made_fun2 Fatan2 (lt_floats 0 1) _ (lt_floats 1 3)); [now constructor|now constructor|reflexivity]. }
  split; [reflexivity|]. split; [lazy; reflexivity|]. split; reflexivity.
Qed.
