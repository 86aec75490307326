(** Proofs for C67. *)

From Coq Require Import ZArith Reals Lia Lra List Bool Ascii String.
From Verif Require Import C64Grad RedText Result BackText Keys KeySpec Aliases AliasSpec Formula Simplify SimplifyProofs Closure Build XReal Reductions ReductionSpec
  KernelSum KernelSumSpec Loader CpuReduc CpuConv CpuConvSpec LseSpec Postprocess FormulaSpec Methods MethodsSpec PyRead PyReadSpec
  GenericOps GenericOpsSpec RKeops RKeopsSpec RLazy RLazySpec C65Args C65Read C65Proofs C65Cases RMethods RMethodsSpec C66Proofs RReduce RReduceSpec
  C06Proofs C07Proofs C12Proofs.
Import ListNotations.
Local Open Scope nat_scope.
Open Scope string_scope.

(** ** The variables of a built formula *)

Section Declared.
  Variable decl : KernelSum.declaration.
  Definition declared1 (f : fm) : Prop := match f with Var j d c => decl j = (d, c) | _ => True end.
  Lemma declared_all : forall f, KernelSumSpec.declared decl f <-> everywhere declared1 f.
  Proof. intros f. induction f; cbn; tauto. Qed.
  Lemma AN : arith_nodes declared1.
  Proof. repeat split; cbn; auto. Qed.
  Notation E := (everywhere declared1).

  Lemma sums_declared : forall n,
    (forall f h, fst (sum_calls n) f = Ok h -> E f -> E h) /\
    (forall f g h, snd (sum_calls n) f g = Ok h -> E f -> E g -> E h).
  Proof.
    assert (L : forall b f g, E (Bin b f g) -> E f) by (intros b f g (_ & H & _); exact H).
    assert (R : forall b f g, E (Bin b f g) -> E g) by (intros b f g (_ & _ & H); exact H).
    induction n as [|n IHn]; [split; simpl; discriminate|].
    cbn [sum_calls]. destruct (sum_calls n) as [rs rp]. destruct IHn as [IS IP].
    cbn [fst snd] in *. split.
    - intros f h H Ef. unfold Sum_body in H. steps H; bind_inv; inv_as; ok_inv;
        try (eapply (ev_Mult declared1 AN); eauto; fail); eauto.
      all: split; [exact I|first [exact Ef|exact I]].
    - intros f g h H Ef Eg. unfold Scalprod_body in H. steps H; bind_inv; inv_as; ok_inv;
        try (eapply (ev_Mult declared1 AN); eauto; fail).
      all: try (eapply IS; [eassumption|]; eapply (ev_Square declared1 AN); eauto; fail).
      all: split; [exact I|auto].
  Qed.

  Lemma built_declared : forall f h, build f = Ok h -> E f -> E h.
  Proof.
    induction f as [j d c|d|z|a b|u f IH|b f IHf g IHg|t f IHf g IHg k IHk|l f IH|b f IHf g IHg|f IHf g IHg|s f IH]; intros h H D; cbn [build] in H.
    - apply mk_ok in H as [-> _]. exact D.
    - apply mk_ok in H as [-> _]. exact D.
    - injection H as <-. apply ev_IntCst, AN.
    - eapply ev_RatCst; [exact AN|exact H].
    - apply rbind_inv in H. destruct H as (x & X & H). destruct D as [_ D]. specialize (IH x X D).
      destruct u; cbn [build_un] in H; try (apply mk_ok in H as [-> _]; split; [exact I|exact IH]).
      + eapply ev_Minus; [exact AN|exact H|exact IH].
      + eapply ev_Square; [exact AN|exact H|exact IH].
      + unfold Pow in H. destruct (_ =? _)%Z; [injection H as <-; exact IH|]. apply mk_ok in H as [-> _]. split; [exact I|exact IH].
    - apply rbind_inv in H. destruct H as (x & X & H). apply rbind_inv in H. destruct H as (y & Y & H). destruct D as (_ & D & D').
      specialize (IHf x X D). specialize (IHg y Y D').
      destruct b; cbn [build_bin] in H; try (apply mk_ok in H as [-> _]; split; [exact I|split; assumption]).
      + eapply ev_Add; [exact AN|exact H| |]; assumption.
      + eapply ev_Subtract; [exact AN|exact H| |]; assumption.
      + eapply ev_Mult; [exact AN|exact H| |]; assumption.
      + eapply ev_Divide; [exact AN|exact H| |]; assumption.
    - apply rbind_inv in H. destruct H as (x & X & H). apply rbind_inv in H. destruct H as (y & Y & H). apply rbind_inv in H. destruct H as (w & W & H).
      destruct D as (_ & D & D' & D''). apply mk_ok in H as [-> _]. cbn. auto.
    - apply rbind_inv in H. destruct H as (x & X & H). destruct D as [_ D]. specialize (IH x X D).
      destruct l; cbn [build_lin] in H; try (apply mk_ok in H as [-> _]; split; [exact I|exact IH]).
      + exact (proj1 (sums_declared _) _ _ H IH).
      + eapply ev_SumT; [exact AN|exact H|exact IH].
    - apply rbind_inv in H. destruct H as (x & X & H). apply rbind_inv in H. destruct H as (y & Y & H). destruct D as (_ & D & D').
      specialize (IHf x X D). specialize (IHg y Y D').
      destruct b; cbn [build_bil] in H; try (apply mk_ok in H as [-> _]; split; [exact I|split; assumption]).
      exact (proj2 (sums_declared _) _ _ _ H IHf IHg).
    - apply rbind_inv in H. destruct H as (x & X & H). apply rbind_inv in H. destruct H as (y & Y & H). destruct D as (_ & D & D').
      apply mk_ok in H as [-> _]. cbn. auto.
    - apply rbind_inv in H. destruct H as (x & X & H). destruct D as [_ D]. apply mk_ok in H as [-> _]. split; [exact I|auto].
  Qed.

  (** ** The variables of the formula of a program *)

  Lemma formula_declared : forall place p F,
    (forall a x v, In (a, x, v) (leaves p) -> decl (Z.of_nat (place a x)) = (coordinates v, Z.to_nat (category (kind_of x)))) ->
    as_formula (term_of place p) = Some F -> E F.
  Proof.
    intros place. induction p as [a x v|n|op opts d e IH|op c d e IHe f IHf|e IHe f IHf|op c d e IHe f IHf g IHg]; intros F H A; cbn [leaves term_of as_formula] in *.
    - injection A as <-. split; [|exact I]. cbn. rewrite Nat2Z.id. apply H. now left.
    - injection A as <-. cbn. auto.
    - destruct (as_formula (term_of place e)) as [G|]; [|discriminate]. specialize (IH G H eq_refl). unfold formula1 in A.
      destruct opts as [|k [|k' [|]]]; [destruct (unop_of op) as [u|]; [injection A as <-; cbn; auto|]| | |discriminate];
        repeat (match type of A with (if ?b then _ else _) = _ => destruct b end; [injection A as <-; cbn; auto 10|]); try discriminate A.
    - assert (HE : forall a x v, In (a, x, v) (leaves e) -> decl (Z.of_nat (place a x)) = (coordinates v, Z.to_nat (category (kind_of x)))) by (intros; apply H, in_or_app; auto).
      assert (HF : forall a x v, In (a, x, v) (leaves f) -> decl (Z.of_nat (place a x)) = (coordinates v, Z.to_nat (category (kind_of x)))) by (intros; apply H, in_or_app; auto).
      destruct (arithmetic op) as [s|]; cbn [as_formula] in A;
        (destruct (as_formula (term_of place e)) as [G|]; [|discriminate]); (destruct (as_formula (term_of place f)) as [K|]; [|discriminate]);
        specialize (IHe G HE eq_refl); specialize (IHf K HF eq_refl).
      + unfold formula_op in A. repeat (match type of A with (if ?b then _ else _) = _ => destruct b end; [injection A as <-; cbn; auto 10|]); discriminate A.
      + unfold formula2 in A. repeat (match type of A with (if ?b then _ else _) = _ => destruct b end;
          [injection A as <-; repeat (match goal with |- context [if ?b then _ else _] => destruct b end); cbn; auto 10|]); discriminate A.
    - assert (HE : forall a x v, In (a, x, v) (leaves e) -> decl (Z.of_nat (place a x)) = (coordinates v, Z.to_nat (category (kind_of x)))) by (intros; apply H, in_or_app; auto).
      assert (HF : forall a x v, In (a, x, v) (leaves f) -> decl (Z.of_nat (place a x)) = (coordinates v, Z.to_nat (category (kind_of x)))) by (intros; apply H, in_or_app; auto).
      (destruct (as_formula (term_of place e)) as [G|]; [|discriminate]); (destruct (as_formula (term_of place f)) as [K|]; [|discriminate]);
        specialize (IHe G HE eq_refl); specialize (IHf K HF eq_refl). cbn in A. injection A as <-. cbn. auto.
    - assert (HE : forall a x v, In (a, x, v) (leaves e) -> decl (Z.of_nat (place a x)) = (coordinates v, Z.to_nat (category (kind_of x)))) by (intros; apply H, in_or_app; auto).
      assert (HF : forall a x v, In (a, x, v) (leaves f) -> decl (Z.of_nat (place a x)) = (coordinates v, Z.to_nat (category (kind_of x)))) by (intros; apply H; rewrite !in_app_iff; auto).
      assert (HG : forall a x v, In (a, x, v) (leaves g) -> decl (Z.of_nat (place a x)) = (coordinates v, Z.to_nat (category (kind_of x)))) by (intros; apply H; rewrite !in_app_iff; auto).
      (destruct (as_formula (term_of place e)) as [G|]; [|discriminate]); (destruct (as_formula (term_of place f)) as [K|]; [|discriminate]);
        (destruct (as_formula (term_of place g)) as [L|]; [|discriminate]).
      specialize (IHe G HE eq_refl); specialize (IHf K HF eq_refl); specialize (IHg L HG eq_refl).
      unfold formula3 in A. repeat (match type of A with (if ?b then _ else _) = _ => destruct b end; [injection A as <-; cbn; auto 10|]); discriminate A.
  Qed.
End Declared.

Definition decl_of (place : string -> rindex -> nat) (p : program) : KernelSum.declaration := fun n =>
  match find (fun t => Z.eqb (Z.of_nat (place (fst (fst t)) (snd (fst t)))) n) (leaves p) with
  | Some (a, x, v) => (coordinates v, Z.to_nat (category (kind_of x)))
  | None => (1, 2)
  end.

Section Run.
  Variables (c : call) (p : program) (z : lazy_tensor).
  Hypothesis H : program_of c = Ok p.
  Hypothesis R : run p = Ok z.
  Hypothesis OB : objects p.
  Hypothesis NE : not_empty c.
  Variable place : string -> rindex -> nat.
  Variable data : list rvalue.
  Hypothesis PL : placed p place data.

  Lemma decl_leaf : forall a x v, In (a, x, v) (leaves p) -> decl_of place p (Z.of_nat (place a x)) = (coordinates v, Z.to_nat (category (kind_of x))).
  Proof.
    intros a x v J. unfold decl_of. destruct (find _ _) as [[[a' x'] v']|] eqn:F.
    - apply find_some in F. destruct F as [J' F]. cbn in F. apply Z.eqb_eq, Nat2Z.inj in F. destruct PL as (_ & P & _).
      destruct (P _ _ _ _ _ _ J' J F) as [-> ->]. now rewrite (proj1 OB _ _ _ _ _ J' J).
    - apply (find_none _ _ F) in J. cbn in J. now rewrite Z.eqb_refl in J.
  Qed.
  Lemma decl_categories : categories (decl_of place p).
  Proof. intros n. unfold decl_of. destruct (find _ _) as [[[a x] v]|]; [destruct x|]; cbn; lia. Qed.

  Variable l : list RKeops.matrix.
  Hypothesis LP : forall a x v, In (a, x, v) (leaves p) -> exists m, nth_error l (place a x) = Some m /\ points "col" v m.
  Variables (M N : nat) (A : memory).
  Hypothesis SZ : sizes p M N.
  Hypothesis ST : stored l A.

  Lemma point_rows : forall i j, i < M -> j < N -> RMethodsSpec.rows place p i j (point (decl_of place p) (contiguous (decl_of place p) A) i j).
  Proof.
    intros i j Hi Hj a x v k J L. destruct (LP a x v J) as (m & Q & PT). specialize (SZ a x v J). assert (LI := leaf_index p z a x v R J).
    unfold point, contiguous. rewrite (decl_leaf a x v J). cbn [fst snd]. destruct v as [n f|n q f]; cbn [points coordinates cols coordinate] in *.
    - subst x. destruct PT as (_ & MR & MC & PT). cbn [kind_of category row Z.to_nat]. cbn.
      specialize (ST _ _ Q k 0). rewrite MR, MC in ST. rewrite <- (PT k L). rewrite <- ST by lia. change (row (Pos.to_nat 2) i j) with 0. f_equal. lia.
    - destruct PT as [(_ & MR & MC & PT)|(E & _)]; [|discriminate E].
      destruct LI as [->| ->]; cbn [kind_of category] in *; cbn; subst n; try change (row (Pos.to_nat 1) i j) with j;
        [specialize (ST _ _ Q i k)|specialize (ST _ _ Q j k)]; rewrite MR, MC in ST; rewrite ST by lia; apply PT; lia.
  Qed.
End Run.

(** ** The formula of a call is in its domain *)

Lemma sum_squares : forall n v, (0 <= rsum n (fun k => v k * v k))%R.
Proof. induction n as [|n IH]; intros v; cbn [rsum]; [lra|]. specialize (IH v). assert (0 <= v n * v n)%R by nra. lra. Qed.
Lemma squares_positive : forall n (v : nat -> R), (0 <= rsum n (fun k => unR USquare (v k)))%R.
Proof. induction n as [|n IH]; intros v; cbn [rsum]; [lra|]. specialize (IH v). assert (0 <= unR USquare (v n))%R by (cbn; nra). lra. Qed.
Lemma bcv_some : forall n (v : nat -> R) k, 1 <= n -> n = 1 \/ k < n -> exists l, l < n /\ bcv n v k = v l.
Proof. intros n v k P [->|L]; unfold bcv; [exists 0; auto|]. destruct (Nat.eqb_spec n 1) as [->|N]; [exists 0|exists k]; auto. Qed.

Section Safe.
  Variables (place : string -> rindex -> nat) (env : Formula.env) (i j : nat).

  Definition holds_safe (c : call) (p : program) (z : lazy_tensor) : Prop :=
    pos p -> not_empty c -> defined c i j -> in_range c i j -> fits env place p i j ->
    forall F, as_formula (term_of place p) = Some F -> safe env F.

  (** What is known of an argument. *)
  Definition known (c : call) (z : lazy_tensor) (G : fm) : Prop :=
    safe env G /\ z_dim z = Z.of_nat (size c) /\ dim G = size c /\ 1 <= size c /\ forall k, k < size c -> eval G env k = value c i j k.
  Lemma argument : forall c p z, program_of c = Ok p -> run p = Ok z -> pos p -> not_empty c -> defined c i j -> in_range c i j -> fits env place p i j ->
    (forall p z, program_of c = Ok p -> run p = Ok z -> holds_safe c p z) ->
    forall G, as_formula (term_of place p) = Some G -> known c z G.
  Proof.
    intros c p z H R P N D RA FI S G AG. destruct (calls c p z H R P N) as (_ & _ & DZ & P1 & V). destruct (V place G env i j AG FI) as [DG VG].
    split; [exact (S p z H R P N D RA FI G AG)|]. unfold known. auto 6.
  Qed.

  Lemma safe_calls : forall c p z, program_of c = Ok p -> run p = Ok z -> holds_safe c p z.
  Proof.
    induction c as [a x v|n|a n y|f c IH|f c IHc d IHd|f c IHc d IHd e IHe|c IH m|c IH m d|c IH d]; intros p z H R P N D RA FI F AF; cbn [program_of] in H.
    - injection H as <-. injection AF as <-. exact Logic.I.
    - injection H as <-. injection AF as <-. exact Logic.I.
    - injection H as <-. injection AF as <-. exact Logic.I.
    - apply rbind_inv in H. destruct H as (q & HQ & H). destruct (is_number c && _); [discriminate|]. injection H as <-.
      destruct (run1 _ _ _ _ _ R) as (x & X & _). cbn [term_of as_formula] in AF. destruct (as_formula (term_of place q)) as [G|] eqn:AG; [|discriminate].
      destruct D as [D DO]. destruct (argument c q x HQ X P N D RA FI IH G AG) as (SG & DX & DG & P1 & VG).
      assert (U : forall u, (forall k, k < size c -> unDom u (value c i j k)) -> safe env (Un u G)).
      { intros u Q. split; [exact SG|]. intros k L. rewrite DG in L. cbn [dun safe_doms]. rewrite VG by exact L. auto. }
      destruct f; cbn in AF; injection AF as <-; cbn [domain1] in DO;
        first [ apply U; intros k L; try specialize (DO k L); cbn [unDom]; solve [lra | exact Logic.I | exact DO | left; lia]
              | exact SG
              | split; [exact SG|exact SG]
              | split; [exact SG|intros; exact Logic.I]
              | split; [split; exact SG|intros k _; cbn [dun safe_doms unDom eval bilR]; apply sum_squares]
              | split; [split; [split; exact SG|intros k _; cbn [dun safe_doms unDom eval bilR]; apply sum_squares]|split; [exact SG|intros; exact Logic.I]]
              | idtac ].
      split; [split; [split; [exact SG|intros; exact Logic.I]|]|split; [exact SG|intros; exact Logic.I]].
      intros k _. cbn [dun safe_doms unDom eval linR sqnorm dim]. apply squares_positive.
    - apply rbind_inv in H. destruct H as (q & HQ & H). apply rbind_inv in H. destruct H as (r & HR & H). destruct N as (N1 & N2 & N3).
      destruct D as (D1 & D2 & D3). destruct RA as [RA1 RA2].
      assert (ONE : forall x, run q = Ok x -> (forall t, In t (leaves q) -> In t (leaves p)) -> forall G, as_formula (term_of place q) = Some G -> known c x G).
      { intros x X E G AG. apply (argument c q x); auto; [apply (pos_in p); auto|]. intros a t v k J. apply FI; auto. }
      assert (GO : forall x y, run q = Ok x -> run r = Ok y -> (forall t, In t (leaves q) \/ In t (leaves r) -> In t (leaves p)) ->
        forall G K, as_formula (term_of place q) = Some G -> as_formula (term_of place r) = Some K -> known c x G /\ known d y K).
      { intros x y X Y E G K AG AK. split; [apply (ONE x); auto|]. apply (argument d r y); auto; [apply (pos_in p); auto|]. intros a t v k J. apply FI; auto. }
      assert (BIN : forall op ck dr, p = X2 op ck dr q r -> exists x y G K, run q = Ok x /\ run r = Ok y /\
        match ck with Some t => check2 t (z_dim x) (z_dim y) | None => true end = true /\
        as_formula (term_of place q) = Some G /\ as_formula (term_of place r) = Some K /\ known c x G /\ known d y K).
      { intros op ck dr ->. destruct (run2 _ _ _ _ _ _ R) as (x & y & X & Y & CK & _). cbn [term_of] in AF.
        destruct (as_formula (term_of place q)) as [G|] eqn:AG; [|destruct (arithmetic op); cbn in AF; rewrite AG in AF; discriminate].
        destruct (as_formula (term_of place r)) as [K|] eqn:AK; [|destruct (arithmetic op); cbn in AF; rewrite AG, AK in AF; discriminate].
        exists x, y, G, K. split; [exact X|]. split; [exact Y|]. split; [exact CK|]. split; [reflexivity|]. split; [reflexivity|].
        apply (GO x y X Y); auto. cbn [leaves]. intros t J. apply in_or_app. exact J. }
      assert (DOM : forall b x y G K, known c x G -> known d y K -> check2 SameOr1 (z_dim x) (z_dim y) = true ->
        (forall k l, k < size c -> l < size d -> binDom b (value c i j k) (value d i j l)) -> safe env (Bin b G K)).
      { intros b x y G K (SG & DX & DG & P1 & VG) (SK & DY & DK & P2 & VK) CK Q. split; [exact SG|]. split; [exact SK|]. intros k L.
        rewrite DX, DY in CK. rewrite DG, DK in *. destruct (same_or_one _ _ P1 P2 CK k L) as [A B].
        destruct (bcv_some _ (eval G env) k P1 A) as (l & Ll & ->). destruct (bcv_some _ (eval K env) k P2 B) as (l' & Ll' & ->).
        rewrite VG, VK by assumption. apply Q; assumption. }
      destruct f; cbn [method2] in H.
      1-4: destruct (is_number c && is_number d); [discriminate|]; injection H as <-; destruct (BIN _ _ _ eq_refl) as (x & y & G & K & X & Y & CK & AG & AK & KG & KK);
        cbn in AF; rewrite AG, AK in AF; injection AF as <-; eapply DOM; eauto; intros k l Lk Ll; cbn [binDom]; solve [exact Logic.I | apply D3; exact Ll].
      + destruct (is_number c && is_number d); [discriminate|]. injection H as <-.
        assert (TWO : power q d r = X2 "Powf" (Some SameOr1) None q r -> (forall k, k < size c -> (0 < value c i j k)%R) -> safe env F).
        { intros E Q. rewrite E in *. destruct (BIN _ _ _ eq_refl) as (x & y & G & K & X & Y & CK & AG & AK & KG & KK).
          cbn in AF. rewrite AG, AK in AF. injection AF as <-. eapply DOM; eauto. intros k l Lk Ll. cbn [binDom]. auto. }
        assert (SOLO : forall op opts u, power q d r = X1 op opts None q ->
          (forall G, as_formula (T1 op (term_of place q) opts) = Some F -> as_formula (term_of place q) = Some G -> F = Un u G) ->
          (as_formula (term_of place q) = None -> as_formula (T1 op (term_of place q) opts) = None) ->
          (forall k, k < size c -> unDom u (value c i j k)) -> safe env F).
        { intros op opts u E Q NO W. rewrite E in *. destruct (run1 _ _ _ _ _ R) as (x & X & _). cbn [term_of] in AF.
          destruct (as_formula (term_of place q)) as [G|] eqn:AG; [|rewrite NO in AF by reflexivity; discriminate].
          destruct (ONE x X (fun t J => J) G eq_refl) as (SG & DX & DG & P1 & VG). rewrite (Q G AF eq_refl).
          split; [exact SG|]. intros k L. rewrite DG in L. cbn [dun safe_doms]. rewrite VG by exact L. auto. }
        destruct d as [a0 x0 v0|n|a0 n0 y0|f0 c0|f0 c0 d0|f0 c0 d0 e0|c0 m0|c0 m0 d0|c0 d0]; try (apply TWO; [reflexivity|exact D3]).
        * cbn [power] in SOLO. destruct (Z.eqb_spec n 2) as [->|NE].
          -- apply (SOLO "Square" [] USquare); [reflexivity| | |intros; exact Logic.I].
             ++ intros G A B. cbn in A. rewrite B in A. now injection A as <-.
             ++ intros B. cbn. now rewrite B.
          -- apply (SOLO "Pow" [n] (UPow n)); [reflexivity| | |].
             ++ intros G A B. cbn in A. rewrite B in A. now injection A as <-.
             ++ intros B. cbn. now rewrite B.
             ++ intros k L. cbn [unDom]. destruct D3 as [D3|D3]; [now left|right; auto].
        * cbn [power] in SOLO, TWO. destruct (Nat.eqb_spec n0 1) as [->|NE]; [|apply TWO; [reflexivity|exact D3]].
          destruct (Req_EM_T (y0 0) (1 / 2)) as [E|E].
          { apply (SOLO "Sqrt" [] USqrt); [reflexivity| | |].
            - intros G A B. cbn in A. rewrite B in A. now injection A as <-.
            - intros B. cbn. now rewrite B.
            - intros k L. cbn [unDom]. specialize (D3 k L). lra. }
          destruct (Req_EM_T (y0 0) (- (1 / 2))) as [E'|E'].
          { apply (SOLO "Rsqrt" [] URsqrt); [reflexivity| | |].
            - intros G A B. cbn in A. rewrite B in A. now injection A as <-.
            - intros B. cbn. now rewrite B.
            - intros k L. cbn [unDom]. specialize (D3 k L). lra. }
          apply TWO; [reflexivity|exact D3].
      + destruct (is_number c && is_number d); [discriminate|]. injection H as <-. destruct (run_scal _ _ _ R) as (x & y & X & Y & _).
        cbn in AF. destruct (as_formula (term_of place q)) as [G|] eqn:AG; [|discriminate]. destruct (as_formula (term_of place r)) as [K|] eqn:AK; [|discriminate].
        injection AF as <-. destruct (GO x y X Y) with (G := G) (K := K) as [KG KK]; auto; [cbn [leaves]; intros t J; now apply in_or_app|].
        split; [apply KG|apply KK].
      + destruct (is_number c && is_number d); [discriminate|]. injection H as <-. destruct (BIN _ _ _ eq_refl) as (x & y & G & K & X & Y & CK & AG & AK & KG & KK).
        cbn in AF. rewrite AG, AK in AF. injection AF as <-. split; [apply KG|]. split; [apply KK|intros; exact Logic.I].
      + injection H as <-. destruct (BIN _ _ _ eq_refl) as (x & y & G & K & X & Y & CK & AG & AK & KG & KK).
        cbn in AF. rewrite AG, AK in AF. injection AF as <-. assert (SG := proj1 KG). assert (SK := proj1 KK). cbn. repeat split; auto.
      + destruct (is_number c || is_number d); [discriminate|]. apply rbind_inv in H. destruct H as (x' & X' & H). apply rbind_inv in H. destruct H as (y' & Y' & H).
        injection H as <-. destruct (BIN _ _ _ eq_refl) as (x & y & G & K & X & Y & CK & AG & AK & KG & KK).
        cbn in AF. rewrite AG, AK in AF. injection AF as <-. split; [apply KG|apply KK].
      + destruct (is_number c || is_number d); [discriminate|]. apply rbind_inv in H. destruct H as (x' & X' & H). apply rbind_inv in H. destruct H as (y' & Y' & H).
        destruct (lazy_matrix x' && lazy_vector y' && _); [|discriminate].
        injection H as <-. destruct (BIN _ _ _ eq_refl) as (x & y & G & K & X & Y & CK & AG & AK & KG & KK).
        cbn in AF. rewrite AG, AK in AF. injection AF as <-. split; [apply KG|apply KK].
      + destruct (is_number c || is_number d); [discriminate|]. apply rbind_inv in H. destruct H as (x' & X' & H). apply rbind_inv in H. destruct H as (y' & Y' & H).
        destruct (lazy_vector x' && lazy_matrix y' && _); [|discriminate].
        injection H as <-. destruct (BIN _ _ _ eq_refl) as (x & y & G & K & X & Y & CK & AG & AK & KG & KK).
        cbn in AF. rewrite AG, AK in AF. injection AF as <-. split; [apply KG|apply KK].
      + injection H as <-. destruct (run2 _ _ _ _ _ _ R) as (y & x & Y & X & _).
        cbn in AF. destruct (as_formula (term_of place r)) as [K|] eqn:AK; [|discriminate]. destruct (as_formula (term_of place q)) as [G|] eqn:AG; [|discriminate].
        destruct (GO x y X Y) with (G := G) (K := K) as [KG KK]; auto; [cbn [leaves]; intros t J; apply in_or_app; tauto|].
        assert (SG := proj1 KG). assert (SK := proj1 KK).
        injection AF as <-. destruct (dim K =? 1)%nat; [|destruct (dim K =? dim G)%nat]; cbn; repeat split; auto.
    - apply rbind_inv in H. destruct H as (q & HQ & H). apply rbind_inv in H. destruct H as (r & HR & H). apply rbind_inv in H. destruct H as (s & HS & H).
      destruct N as (N1 & N2 & N3). destruct D as (D1 & D2 & D3 & D4). destruct RA as (RA1 & RA2 & RA3).
      assert (ARG : forall c p' x, program_of c = Ok p' -> run p' = Ok x -> not_empty c -> defined c i j -> in_range c i j -> (forall t, In t (leaves p') -> In t (leaves p)) ->
        (forall p z, program_of c = Ok p -> run p = Ok z -> holds_safe c p z) -> forall G, as_formula (term_of place p') = Some G -> known c x G).
      { intros c' p' x HP X NC DC RC E S G AG. apply (argument c' p' x); auto; [apply (pos_in p); auto|]. intros a t v k J. apply FI; auto. }
      assert (THREE : forall op t, In (f, op, t) [(Fclamp, "Clamp", TClamp); (Fifelse, "IfElse", TIfElse); (Fmod, "Mod", TMod)] ->
        p = X3 op SameOr1 None q r s -> safe env F).
      { intros op t J E. subst p. destruct (run3 _ _ _ _ _ R) as (x & y & w & X & Y & W & CK & _).
        assert (FF : exists G K M, as_formula (term_of place q) = Some G /\ as_formula (term_of place r) = Some K /\ as_formula (term_of place s) = Some M /\ F = Ter t G K M).
        { cbn [term_of] in AF.
          destruct J as [J|[J|[J|[]]]]; injection J as <- <- <-; cbn in AF;
            (destruct (as_formula (term_of place q)) as [G|]; [|discriminate]); (destruct (as_formula (term_of place r)) as [K|]; [|discriminate]);
            (destruct (as_formula (term_of place s)) as [M|]; [|discriminate]); injection AF as <-; eauto 10. }
        destruct FF as (G & K & M & AG & AK & AM & ->).
        destruct (ARG c q x HQ X N1 D1 RA1) with (G := G) as (SG & DX & DG & P1 & VG); auto; [intros u Ju; cbn [leaves]; rewrite !in_app_iff; auto|].
        destruct (ARG d r y HR Y N2 D2 RA2) with (G := K) as (SK & DY & DK & P2 & VK); auto; [intros u Ju; cbn [leaves]; rewrite !in_app_iff; auto|].
        destruct (ARG e s w HS W N3 D3 RA3) with (G := M) as (SM & DW & DM & P3 & VM); auto; [intros u Ju; cbn [leaves]; rewrite !in_app_iff; auto|].
        split; [exact SG|]. split; [exact SK|]. split; [exact SM|]. intros k L. rewrite DG, DK, DM in *. rewrite DX, DY, DW in CK. rewrite <- Nat.max_assoc in L.
        destruct (same_or_one3 _ _ _ P1 P2 P3 CK k L) as (_ & B & _). destruct (bcv_some _ (eval K env) k P2 B) as (l & Ll & ->). rewrite VK by exact Ll.
        destruct J as [J|[J|[J|[]]]]; injection J as <- <- <-; try exact Logic.I. exact (D4 l Ll). }
      destruct f; cbn [method3] in H.
      + assert (CA : (exists a b, d = CInt a /\ e = CInt b /\ p = X1 "ClampInt" [a; b] None q) \/ p = X3 "Clamp" SameOr1 None q r s).
        { destruct d; try (right; now injection H as <-). destruct e; try (right; now injection H as <-). left. exists n, n0. injection H as <-. auto. }
        destruct CA as [(a & b & -> & -> & ->)|E]; [|eapply THREE; [|exact E]; cbn; auto].
        destruct (run1 _ _ _ _ _ R) as (x & X & _). cbn in AF. destruct (as_formula (term_of place q)) as [G|] eqn:AG; [|discriminate]. injection AF as <-.
        split; [|intros; exact Logic.I]. apply (ARG c q x HQ X N1 D1 RA1 (fun t J => J) IHc G AG).
      + destruct (is_number c); [discriminate|]. injection H as <-. eapply THREE; [|reflexivity]. cbn; auto.
      + destruct (is_number c); [discriminate|]. injection H as <-. eapply THREE; [|reflexivity]. cbn; auto.
    - destruct (is_number c); [discriminate|]. apply rbind_inv in H. destruct H as (q & HQ & H). apply rbind_inv in H. destruct H as (x & X & H).
      destruct ((m <? 0)%Z || _); [discriminate|]. injection H as <-. cbn in AF. destruct (as_formula (term_of place q)) as [G|] eqn:AG; [|discriminate]. injection AF as <-.
      apply (argument c q x HQ X P N D RA FI IH G AG).
    - destruct (is_number c); [discriminate|]. apply rbind_inv in H. destruct H as (q & HQ & H). apply rbind_inv in H. destruct H as (x & X & H).
      destruct ((m <? 0)%Z || _); [discriminate|]. destruct ((d <? 0)%Z || _); [discriminate|]. injection H as <-. destruct N as [N1 N2].
      cbn in AF. destruct (as_formula (term_of place q)) as [G|] eqn:AG; [|discriminate]. injection AF as <-.
      apply (argument c q x HQ X P N1 D RA FI IH G AG).
    - destruct (is_number c); [discriminate|]. apply rbind_inv in H. destruct H as (q & HQ & H). apply rbind_inv in H. destruct H as (x & X & H).
      destruct (negb (z_dim x =? 1)%Z || _) eqn:CK; [discriminate|]. injection H as <-. destruct N as [N1 N2]. destruct D as [D _]. destruct RA as (RA & n & Ln & E).
      cbn in AF. destruct (as_formula (term_of place q)) as [G|] eqn:AG; [|discriminate]. injection AF as <-.
      destruct (argument c q x HQ X P N1 D RA FI IH G AG) as (SG & DX & DG & P1 & VG). split; [exact SG|]. cbn [dsel safe_doms selDom].
      rewrite VG, E, trunc_half by lia. lia.
  Qed.
End Safe.

Lemma calls_safe : forall c p z place F env i j, program_of c = Ok p -> run p = Ok z -> pos p -> not_empty c -> as_formula (term_of place p) = Some F ->
  fits env place p i j -> defined c i j -> in_range c i j -> safe env F.
Proof. intros c p z place F env i j H R P N AF FI D RA. exact (safe_calls place env i j c p z H R P N D RA FI F AF). Qed.

Definition tag (index : rindex) : nat := match index with Ri => 1 | _ => 0 end.

(** At each pair of rows, the formula has the values of the call. *)
Definition matched (c : call) (decl : KernelSum.declaration) (F : fm) (A : memory) (M N : nat) : Prop :=
  KernelSumSpec.declared decl F /\ categories decl /\
  forall i j, i < M -> j < N -> let e := point decl (contiguous decl A) i j in
    safe e F /\ forall k, k < size c -> eval F e k = value c i j k.

Lemma core : forall c p z op index opt o l, program_of c = Ok p -> run p = Ok z -> objects p -> not_empty c ->
  reduction z op index opt = Ok (o, l) ->
  exists place F, as_formula (term_of place p) = Some F /\ wf F /\ dim F = size c /\
    (forall M N A, sizes p M N -> stored l A -> inside c M N -> exists decl, matched c decl F A M N) /\
    forall k one cls phi d, r_reduction F op opt k one cls phi d -> (one = true -> size c = 1) ->
    forall P : redobj -> Prop, (forall ro, ro_id ro = cls -> build phi = Ok (ro_formula ro) -> equivalent phi (ro_formula ro) -> Z.to_nat (ro_tag ro) = tag index -> P ro) ->
    engine_runs o phi k P.
Proof.
  intros c p z op index opt o l H R OB NE S. assert (PO : pos p) by (intros a x v J; now apply (proj2 OB a x v)).
  destruct (calls c p z H R PO NE) as (U & O & _).
  destruct (reduction_claim p z op index opt o l OB O R S) as (place & PL & X).
  destruct (usual_formula p z place OB U R) as (F & AF & W & DF & ET).
  destruct (values c p z H R OB NE) as [_ V]. destruct (V place) as (F' & AF' & _ & D & EV). rewrite AF in AF'. injection AF' as <-.
  exists place, F. split; [exact AF|]. split; [exact W|]. split; [exact D|].
  assert (LP : forall a x v, In (a, x, v) (leaves p) -> exists m, nth_error l (place a x) = Some m /\ points "col" v m).
  { destruct (C65Cases.data_claim z op index opt o l S) as [_ DA]. intros a x v J. destruct PL as [PL _].
    apply DA. specialize (PL a x v J). rewrite nth_error_app1; [exact PL|]. apply nth_error_Some. now rewrite PL. }
  split.
  - intros M N A SZ ST IN. exists (decl_of place p). split; [|split; [apply decl_categories|]].
    + apply declared_all. apply (formula_declared _ place p F); [|exact AF]. intros a x v J. now apply (decl_leaf p OB place (z_data z) PL).
    + intros i j Hi Hj. assert (PR := point_rows p z R OB place (z_data z) PL l LP M N A SZ ST i j Hi Hj).
      destruct (IN i j Hi Hj) as [DE RA]. split; [|exact (EV i j _ PR DE)].
      apply (calls_safe c p z place F _ i j H R PO NE AF); auto.
  - intros k one cls phi d RR ON P HP. destruct (X F k one cls phi d AF W ET RR) as (_ & q & al & T & L & (e & a & RD & DI & E1 & E2)).
    exists q, al, e, a. split; [exact T|]. split; [exact L|]. split; [exact RD|]. split; [exact DI|]. split.
    + intros ro k' Q. destruct (E1 ro k' Q) as (Ek & Ec & B & EQ & TG & _). split; [exact Ek|]. apply HP; auto.
      rewrite TG. destruct index; try reflexivity. exfalso. unfold reduction, preprocess_reduction in S. discriminate S.
    + intros h B. destruct (E2 h B) as (ro & Q & _); [intros E; rewrite D; now apply ON|]. exists ro. exact Q.
Qed.

Lemma over_reduced : forall x op index opt w o l, (forall o l, w <> Ok (Reduced o l)) -> over x op index opt w = Ok (Reduced o l) ->
  reduction x op index opt = Ok (o, l).
Proof.
  intros x op index opt w o l W H. destruct index; cbn [over] in H.
  - apply rbind_inv in H. destruct H as ([o' l'] & E & H). cbn in H. injection H as <- <-. exact E.
  - apply rbind_inv in H. destruct H as ([o' l'] & E & H). cbn in H. injection H as <- <-. exact E.
  - now destruct (W o l).
Qed.

(** The built formula has the same values. *)
Lemma matched_built : forall c decl F h A M N, matched c decl F A M N -> dim F = size c -> build F = Ok h -> equivalent F h -> matched c decl h A M N.
Proof.
  intros c decl F h A M N (DE & CA & V) D B (_ & _ & EQ). split; [|split; [exact CA|]].
  - apply declared_all. apply declared_all in DE. exact (built_declared decl F h B DE).
  - intros i j Hi Hj e. destruct (V i j Hi Hj) as [SA VA]. destruct (EQ e SA) as [SA' VA']. split; [exact SA'|].
    intros k L. rewrite VA' by lia. now apply VA.
Qed.

Lemma tag_le : forall index, tag index <= 1.
Proof. intros []; cbn; lia. Qed.

Lemma terms_value : forall c decl h A M N index n m k, matched c decl h A M N -> n < rows_of index M N -> m < terms_of index M N -> k < size c ->
  terms decl A h (tag index) n m k = Fin (term_at c index n m k).
Proof.
  intros c decl h A M N index n m k (_ & _ & V) Hn Hm Hk. unfold terms, term_at. destruct index; cbn [tag rows_of terms_of] in *; f_equal; now apply V.
Qed.

Lemma sum_claim : forall c p z f index o l, program_of c = Ok p -> run p = Ok z -> objects p -> not_empty c ->
  In f [RReduce.sum; RReduce.sum_reduction] -> f z index = Ok (Reduced o l) ->
  exists place F, as_formula (term_of place p) = Some F /\
    engine_runs o F None (fun ro => forall M N A s, sizes p M N -> stored l A -> inside c M N ->
      output ro 0 s A M N (fun out => forall n k, n < rows_of index M N -> k < size c ->
        out (n * size c + k) = Fin (total (terms_of index M N) (fun m => term_at c index n m k)))).
Proof.
  intros c p z f index o l H R OB NE I S.
  assert (S' : reduction z "Sum" index NoArg = Ok (o, l)) by (destruct I as [<-|[<-|[]]]; apply over_reduced in S; auto; discriminate).
  destruct (core c p z _ index _ o l H R OB NE S') as (place & F & AF & W & D & MA & X). exists place, F. split; [exact AF|].
  apply (X None false "Sum_Reduction" F (Z.of_nat (dim F))); [apply (rr_one F "Sum"); now left|discriminate|].
  intros ro Ei B EQ TG M N A s SZ ST IN. destruct (MA M N A SZ ST IN) as (decl & MT).
  assert (MH := matched_built c decl F _ A M N MT D B EQ). destruct EQ as (Wh & Dh & _). rewrite D in Dh.
  exists (Sum_Red (dim (ro_formula ro))). split; [now rewrite Ei|]. intros schedule out CO. rewrite TG.
  assert (MH' := MH). destruct MH' as (DE & CA & _).
  destruct (dense_sum decl _ s (tag index) A M N schedule out DE Wh CA (tag_le index) CO) as (out' & E & V & _).
  exists out'. split; [exact E|]. intros n k Hn Hk. rewrite <- Dh at 1. rewrite V; [|destruct index; exact Hn|lia]. f_equal.
  unfold reduce_sum. cbn [stagI sformula].
  transitivity (rsum (terms_of index M N) (fun m => term_at c index n m k)); [|symmetry; apply total_rsum].
  destruct MH as (_ & _ & VA). destruct index; cbn [tag terms_of rows_of term_at] in *; apply rsum_ext; intros m Hm; now apply VA.
Qed.

(** ** Optima *)

Lemma good_reals : forall mx a b, as_good mx (Fin a) (Fin b) -> if mx then (b <= a)%R else (a <= b)%R.
Proof. intros [] a b; cbn; intros [H|[H _]]; cbn in H; try (injection H as ->); lra. Qed.

Lemma optimum_row : forall mx d T (F : nat -> cells) (v : nat -> R) k, k < d -> 0 < T -> (forall m k, m < T -> k < d -> F m k <> NaN) ->
  (forall m, m < T -> F m k = Fin (v m)) ->
  exists i, first_optimum mx T v i /\
    rfinal (OptArg_Red mx OBoth d) (Reductions.run (OptArg_Red mx OBoth d) (dense T F) (rinit (OptArg_Red mx OBoth d))) k = Fin (v i) /\
    rfinal (OptArg_Red mx OBoth d) (Reductions.run (OptArg_Red mx OBoth d) (dense T F) (rinit (OptArg_Red mx OBoth d))) (d + k) = Fin (INR i) /\
    rfinal (OptArg_Red mx OArg d) (Reductions.run (OptArg_Red mx OArg d) (dense T F) (rinit (OptArg_Red mx OArg d))) k = Fin (INR i) /\
    rfinal (Opt_Red mx d) (Reductions.run (Opt_Red mx d) (dense T F) (rinit (Opt_Red mx d))) k = Fin (v i).
Proof.
  intros mx d T F v k Hk HT NN FV. destruct (optarg_dense mx d T F NN k Hk) as [_ X]. destruct (X HT) as (i & Hi & A & B & C & D & G & FI).
  exists i. unfold of_long in *. rewrite <- INR_IZR_INZ in *. rewrite (FV i Hi) in *. split; [|auto].
  split; [exact Hi|]. split.
  - intros j Hj. specialize (G j Hj). rewrite (FV j Hj) in G. now apply good_reals.
  - intros j Hj E. apply (FI j Hj). rewrite (FV j) by lia. now rewrite E.
Qed.

Lemma optimum_claim : forall c p z f mx vals args index o l, program_of c = Ok p -> run p = Ok z -> objects p -> not_empty c ->
  In (f, (mx, vals, args)) optima -> f z index = Ok (Reduced o l) ->
  exists place F, as_formula (term_of place p) = Some F /\
    engine_runs o F None (fun ro => forall M N A, sizes p M N -> stored l A -> inside c M N -> 0 < terms_of index M N ->
      output ro 0 direct_sum A M N (fun out => forall n k, n < rows_of index M N -> k < size c ->
        let width := if vals && args then 2 * size c else size c in
        exists i, first_optimum mx (terms_of index M N) (fun m => term_at c index n m k) i /\
          (vals = true -> out (n * width + k) = Fin (term_at c index n i k)) /\
          (args = true -> out (n * width + ((if vals then size c else 0) + k)) = Fin (INR i)))).
Proof.
  intros c p z f mx vals args index o l H R OB NE I S.
  set (op := (if vals then (if mx then "Max" else "Min") else "") ++ (if vals && args then "_" else "") ++ (if args then (if mx then "ArgMax" else "ArgMin") else "")).
  assert (S' : reduction z op index NoArg = Ok (o, l)).
  { unfold optima in I. do 12 (destruct I as [E|I]; [injection E as <- <- <- <-; cbn in op; unfold op; apply over_reduced in S; [exact S|intros; discriminate]|]). destruct I. }
  destruct (core c p z _ index _ o l H R OB NE S') as (place & F & AF & W & D & MA & X). exists place, F. split; [exact AF|].
  set (r := fun d => if vals then (if args then OptArg_Red mx OBoth d else Opt_Red mx d) else OptArg_Red mx OArg d).
  assert (RR : exists d, r_reduction F op NoArg None false (op ++ "_Reduction") F d).
  { unfold optima in I. do 12 (destruct I as [E|I]; [injection E as <- <- <- <-; cbn in op; unfold op; first [solve [eexists; apply rr_one; cbn; auto 10] | solve [eexists; apply rr_two; cbn; auto 10]]|]). destruct I. }
  assert (AC : forall d, accumulators (op ++ "_Reduction") 0 d = Some (r d)).
  { intros d. unfold optima in I. do 12 (destruct I as [E|I]; [injection E as <- <- <- <-; reflexivity|]). destruct I. }
  assert (RO : forall d, CpuConvSpec.reduction_of d (r d)) by (intros d; unfold r; destruct vals, args; constructor).
  assert (RD : forall d, rdim (r d) = if vals && args then 2 * d else d) by (intros d; unfold r; destruct vals, args; reflexivity).
  assert (NZ : vals = true \/ args = true).
  { unfold optima in I. do 12 (destruct I as [E|I]; [injection E as <- <- <- <-; auto|]). destruct I. }
  destruct RR as (d & RR). apply (X _ _ _ _ _ RR); [discriminate|].
  intros ro Ei B EQ TG M N A SZ ST IN HT. destruct (MA M N A SZ ST IN) as (decl & MT).
  assert (MH := matched_built c decl F _ A M N MT D B EQ). destruct EQ as (Wh & Dh & _). rewrite D in Dh.
  exists (r (dim (ro_formula ro))). split; [now rewrite Ei|]. intros schedule out CO. rewrite TG.
  assert (MH' := MH). destruct MH' as (DE & CA & _).
  destruct (dense_direct decl _ (r (dim (ro_formula ro))) (tag index) A M N schedule out DE Wh CA (tag_le index) (RO _) CO) as (out' & E & V & _).
  exists out'. split; [exact E|]. intros n k Hn Hk width.
  assert (TE : red_terms (tag index) M N = terms_of index M N) by (destruct index; reflexivity).
  assert (OE : out_rows (tag index) M N = rows_of index M N) by (destruct index; reflexivity).
  rewrite Dh, RD in V. rewrite OE, TE in V. fold width in V.
  destruct (optimum_row mx (size c) (terms_of index M N) (terms decl A (ro_formula ro) (tag index) n) (fun m => term_at c index n m k) k Hk HT)
    as (i & FO & V1 & V2 & V3 & V4).
  { intros m k' Hm Hk'. rewrite (terms_value c decl _ A M N index n m k' MH Hn Hm Hk'). discriminate. }
  { intros m Hm. exact (terms_value c decl _ A M N index n m k MH Hn Hm Hk). }
  exists i. split; [exact FO|]. unfold r in V. destruct vals, args; cbn [andb] in *; (split; intros Q; try discriminate Q); unfold width in *.
  - rewrite V by lia. exact V1.
  - rewrite V by lia. exact V2.
  - rewrite V by lia. exact V4.
  - cbn [Nat.add]. rewrite V by lia. exact V3.
Qed.

(** ** Log-sum-exp *)

Lemma exp_sum_map : forall (e : nat -> LseSpec.entry) (v : nat -> R) n, (forall m, m < n -> exists w, e m = (Some (v m), w) /\ w 0 = 1%R) ->
  exp_sum 0 (taken n e) = total n (fun m => exp (v m)).
Proof.
  intros e v n. induction n as [|n IH]; intros E; [reflexivity|]. unfold taken in *. rewrite seq_S, map_app. cbn [map Nat.add total].
  assert (AP : forall u w, exp_sum 0 (u ++ w) = (exp_sum 0 u + exp_sum 0 w)%R).
  { induction u as [|[[y|] g] u IU]; intros w; cbn [app exp_sum]; [lra|rewrite IU; lra|apply IU]. }
  rewrite AP, IH by (intros m Hm; apply E; lia). destruct (E n (le_n _)) as (w & -> & W). cbn [exp_sum]. rewrite W. lra.
Qed.

Lemma total_pos : forall n v, 0 < n -> (forall m, m < n -> (0 < v m)%R) -> (0 < total n v)%R.
Proof.
  induction n as [|n IH]; intros v Hn Hv; [lia|]. cbn [total]. specialize (Hv n (le_n _)) as Hl.
  destruct n as [|n]; [cbn; lra|]. specialize (IH v ltac:(lia)). assert (0 < total (S n) v)%R by (apply IH; intros; apply Hv; lia). lra.
Qed.

Lemma logsumexp_claim : forall c p z f index o l, program_of c = Ok p -> run p = Ok z -> objects p -> not_empty c -> size c = 1 ->
  In f [logsumexp; logsumexp_reduction] -> f z index None = Ok (Reduced o l) ->
  exists place F, as_formula (term_of place p) = Some F /\
    engine_runs o (Cat F (Int 1)) None (fun ro => forall M N A s, sizes p M N -> stored l A -> inside c M N -> 0 < terms_of index M N -> s <> kahan_scheme ->
      output ro 0 s A M N (fun out => forall n, n < rows_of index M N ->
        lse_post (fun q => out (n * 2 + q)) 0 = Fin (ln (total (terms_of index M N) (fun m => exp (term_at c index n m 0)))))).
Proof.
  intros c p z f index o l H R OB NE ONE I S.
  assert (S' : reduction z "LogSumExp" index NoArg = Ok (o, l)) by (destruct I as [<-|[<-|[]]]; apply over_reduced in S; auto; discriminate).
  destruct (core c p z _ index _ o l H R OB NE S') as (place & F & AF & W & D & MA & X). exists place, F. split; [exact AF|].
  apply (X _ _ _ _ _ (rr_lse F)); [auto|].
  intros ro Ei B EQ TG M N A s SZ ST IN HT HS. destruct (MA M N A SZ ST IN) as (decl & (DE & CA & VA)).
  assert (DH : KernelSumSpec.declared decl (ro_formula ro)).
  { apply declared_all. apply declared_all in DE. apply (built_declared decl _ _ B). cbn. auto. }
  destruct EQ as (Wh & Dh & EQ). cbn [dim] in Dh. rewrite D, ONE in Dh.
  exists (LSE_Red (dim (ro_formula ro) - 1)). split; [now rewrite Ei|]. intros schedule out CO. rewrite TG, Dh.
  assert (TE : red_terms (tag index) M N = terms_of index M N) by (destruct index; reflexivity).
  assert (OE : out_rows (tag index) M N = rows_of index M N) by (destruct index; reflexivity).
  destruct (dense_lse decl _ s 1 (tag index) A M N schedule out DH Wh CA (tag_le index) CO Dh HS) as (out' & E & V & _); [now rewrite TE|].
  exists out'. split; [exact E|]. intros n Hn. rewrite OE, TE in V.
  assert (ES : exp_sum 0 (taken (terms_of index M N) (entry_of decl A (ro_formula ro) (tag index) n)) = total (terms_of index M N) (fun m => exp (term_at c index n m 0))).
  { assert (EV : forall i j, i < M -> j < N -> let e := point decl (contiguous decl A) i j in
      eval (ro_formula ro) e 0 = value c i j 0 /\ eval (ro_formula ro) e 1 = 1%R).
    { intros i j Hi Hj e. destruct (VA i j Hi Hj) as [SA VV]. destruct (EQ e (conj SA Logic.I)) as [_ V'].
      split; rewrite V' by (cbn [dim]; lia); cbn [eval]; rewrite D, ONE; [apply VV; lia|reflexivity]. }
    apply exp_sum_map. intros m Hm. destruct index; cbn [tag terms_of rows_of term_at entry_of] in *.
    - destruct (EV m n Hm Hn) as [E0 E1]. rewrite <- E0. eexists. split; [reflexivity|exact E1].
    - destruct (EV n m Hn Hm) as [E0 E1]. rewrite <- E0. eexists. split; [reflexivity|exact E1].
    - destruct (EV n m Hn Hm) as [E0 E1]. rewrite <- E0. eexists. split; [reflexivity|exact E1]. }
  specialize (V n 0 Hn ltac:(lia)). cbv zeta in V. rewrite ES in V. apply V. apply total_pos; [exact HT|]. intros; apply exp_pos.
Qed.

(** ** The K smallest values *)

Lemma dense_map : forall (F : nat -> cells) (v : nat -> R) k T, (forall m, m < T -> F m k = Fin (v m)) ->
  map (fun q : Z * cells => (snd q k, fst q)) (dense T F) = map (fun m => (Fin (v m), Z.of_nat m)) (seq 0 T).
Proof.
  intros F v k T E. unfold dense. rewrite map_map. apply map_ext_in. intros m J. apply in_seq in J. cbn. rewrite E by lia. reflexivity.
Qed.

Lemma smallest_claim : forall c p z f vals args K index o l, program_of c = Ok p -> run p = Ok z -> objects p -> not_empty c -> (0 < K)%Z ->
  In (f, (vals, args)) smallest -> f z K index = Ok (Reduced o l) ->
  exists place F, as_formula (term_of place p) = Some F /\
    engine_runs o F (Some K) (fun ro => forall M N A, sizes p M N -> stored l A -> inside c M N ->
      output ro (Z.to_nat K) direct_sum A M N (fun out => forall n k, n < rows_of index M N -> k < size c ->
        let width := if vals && args then 2 * size c else size c in
        exists L, k_smallest (Z.to_nat K) (map (fun m => (Fin (term_at c index n m k), Z.of_nat m)) (seq 0 (terms_of index M N))) L /\
          List.length L = Z.to_nat K /\ forall s v i, nth_error L s = Some (v, i) ->
          (vals = true -> out (n * (Z.to_nat K * width) + (s * width + k)) = v) /\
          (args = true -> out (n * (Z.to_nat K * width) + (s * width + ((if vals then size c else 0) + k))) = Fin (IZR i)))).
Proof.
  intros c p z f vals args K index o l H R OB NE HK I S.
  set (op := (if vals then "KMin" else "") ++ (if vals && args then "_" else "") ++ (if args then "ArgKMin" else "")).
  assert (S' : reduction z op index (IntArg K) = Ok (o, l)).
  { unfold smallest in I. do 6 (destruct I as [E|I]; [injection E as <- <- <-; cbn in op; unfold op; apply over_reduced in S; [exact S|intros; discriminate]|]). destruct I. }
  destruct (core c p z _ index _ o l H R OB NE S') as (place & F & AF & W & D & MA & X). exists place, F. split; [exact AF|].
  set (t := if vals then (if args then OBoth else OVal) else OArg).
  assert (RR : exists d, r_reduction F op (IntArg K) (Some K) false (op ++ "_Reduction") F d).
  { unfold smallest in I. do 6 (destruct I as [E|I]; [injection E as <- <- <-; cbn in op; unfold op;
      first [solve [eexists; apply rr_k; [cbn; auto|exact HK]] | solve [eexists; apply rr_kk; exact HK]]|]). destruct I. }
  assert (AC : forall d, accumulators (op ++ "_Reduction") (Z.to_nat K) d = Some (KMin_Red t (Z.to_nat K) d)).
  { intros d. unfold smallest in I. do 6 (destruct I as [E|I]; [injection E as <- <- <-; reflexivity|]). destruct I. }
  assert (NZ : vals = true \/ args = true).
  { unfold smallest in I. do 6 (destruct I as [E|I]; [injection E as <- <- <-; auto|]). destruct I. }
  destruct RR as (d & RR). apply (X _ _ _ _ _ RR); [discriminate|].
  intros ro Ei B EQ TG M N A SZ ST IN. destruct (MA M N A SZ ST IN) as (decl & MT).
  assert (MH := matched_built c decl F _ A M N MT D B EQ). destruct EQ as (Wh & Dh & _). rewrite D in Dh.
  exists (KMin_Red t (Z.to_nat K) (dim (ro_formula ro))). split; [now rewrite Ei|]. intros schedule out CO. rewrite TG.
  assert (MH' := MH). destruct MH' as (DE & CA & _).
  destruct (dense_direct decl _ (KMin_Red t (Z.to_nat K) (dim (ro_formula ro))) (tag index) A M N schedule out DE Wh CA (tag_le index) ltac:(constructor) CO) as (out' & E & V & _).
  exists out'. split; [exact E|]. intros n k Hn Hk width.
  assert (TE : red_terms (tag index) M N = terms_of index M N) by (destruct index; reflexivity).
  assert (OE : out_rows (tag index) M N = rows_of index M N) by (destruct index; reflexivity).
  rewrite Dh in V. rewrite OE, TE in V.
  assert (RD : rdim (KMin_Red t (Z.to_nat K) (size c)) = Z.to_nat K * width).
  { unfold t, width. destruct vals, args; cbn; lia. }
  rewrite RD in V.
  destruct (kmin_correct (Z.to_nat K) (size c) (dense (terms_of index M N) (terms decl A (ro_formula ro) (tag index) n))) with (k := k)
    as (L & KS & LL & VL); [|exact Hk|].
  { split; [apply dense_sorted|]. intros i x J k' Hk'. unfold dense in J. apply in_map_iff in J. destruct J as (m & Q & J). apply in_seq in J.
    injection Q as <- <-. rewrite (terms_value c decl _ A M N index n m k' MH Hn ltac:(lia) Hk'). split; discriminate. }
  rewrite (dense_map _ (fun m => term_at c index n m k)) in KS.
  2:{ intros m Hm. exact (terms_value c decl _ A M N index n m k MH Hn Hm Hk). }
  exists L. split; [exact KS|]. split; [exact LL|]. intros s v i Q. destruct (VL s v i Q) as (V1 & V2 & V3 & V4).
  assert (SL : s < Z.to_nat K) by (rewrite <- LL; apply nth_error_Some; now rewrite Q).
  unfold of_long in *. unfold t in V. destruct vals, args; cbn [andb] in *; (split; intros Z; try discriminate Z); unfold width in *.
  - rewrite V by nia. rewrite <- V3. f_equal. nia.
  - rewrite V by nia. rewrite <- V4. f_equal. nia.
  - rewrite V by nia. exact V1.
  - cbn [Nat.add]. rewrite V by nia. exact V2.
Qed.
