(** Derivatives of smooth formulas are smooth formulas: what DiffT gives can be differentiated again. *)

From Coq Require Import ZArith Reals Lia Lra List Bool.
From Verif Require Import Result Formula Simplify SimplifyProofs BuildProofs Diff
  GradSpec Calculus ScalarDeriv Tangent DiffRules Closure Adjoint DiffProofs.
Local Open Scope nat_scope.

(** ** Properties of nodes *)

(** Predicates that hold for every node that is not a variable, except perhaps Atan2, Powf and IfElse. *)
Record free_nodes (A : fm -> Prop) : Prop := {
  fn_zero : forall d, A (Zero d);
  fn_int : forall z, A (Int z);
  fn_rat : forall p q, A (Rat p q);
  fn_un : forall u f, A (Un u f);
  fn_bin : forall b f g, match b with BAtan2 | BPowf => False | _ => True end -> A (Bin b f g);
  fn_lin : forall l f, A (Lin l f);
  fn_bil : forall b f g, A (Bil b f g);
  fn_cat : forall f g, A (Cat f g);
  fn_sel : forall s f, A (Sel s f) }.

Lemma free_arith : forall A, free_nodes A -> arith_nodes A.
Proof. intros A []. split; auto; intros; apply fn_bin0; exact I. Qed.

Section Closed.
Variable A : fm -> Prop.
Hypothesis HA : free_nodes A.
Notation E := (everywhere A).
Let HN : arith_nodes A := free_arith A HA.

Lemma left_of : forall b f g, E (Bin b f g) -> E f.
Proof. intros b f g (_ & H & _). exact H. Qed.
Lemma right_of : forall b f g, E (Bin b f g) -> E g.
Proof. intros b f g (_ & _ & H). exact H. Qed.

Lemma sums_closed : forall n,
  (forall f h, fst (sum_calls n) f = Ok h -> E f -> E h) /\
  (forall f g h, snd (sum_calls n) f g = Ok h -> E f -> E g -> E h).
Proof.
  induction n as [|n IHn]; [split; simpl; discriminate|].
  cbn [sum_calls]. destruct (sum_calls n) as [rs rp]. destruct IHn as [IS IP].
  cbn [fst snd] in *. split.
  - intros f h H Ef. unfold Sum_body in H. steps H; bind_inv; inv_as; ok_inv;
      try (eapply (ev_Mult A HN); eauto using left_of, right_of; fail); eauto using left_of, right_of.
    all: split; [first [apply fn_zero|apply fn_lin]; exact HA|auto].
  - intros f g h H Ef Eg. unfold Scalprod_body in H. steps H; bind_inv; inv_as; ok_inv;
      try (eapply (ev_Mult A HN); eauto using left_of, right_of; fail).
    all: try (eapply IS; [eassumption|]; eapply ev_Square; eauto; fail).
    all: split; [apply fn_bil, HA|auto].
Qed.
Lemma ev_Sum : forall f h, Sum f = Ok h -> E f -> E h.
Proof. intros f h. apply sums_closed. Qed.
Lemma ev_Scalprod : forall f g h, Scalprod f g = Ok h -> E f -> E g -> E h.
Proof. intros f g h. apply sums_closed. Qed.
Lemma ev_Pow : forall f m h, Pow f m = Ok h -> E f -> E h.
Proof.
  intros f m h H Ef. unfold Pow in H. destruct (m =? 1)%Z; [inversion H; subst; auto|].
  apply mk_ok in H as [-> _]. cbn. split; [apply fn_un, HA|auto].
Qed.
End Closed.

(** ** Smooth formulas *)

Lemma unmixed1_free : free_nodes unmixed1.
Proof. split; cbn; auto. intros b f g. destruct b; cbn; tauto. Qed.

Section Nice.
Variable e : env.

(** A formula that can be differentiated at the point. *)
Definition nice (f : fm) : Prop := wf f /\ everywhere unmixed1 f /\ smooth e f.

Notation SO := smooth_doms.
Notation SA := smooth_arith_ok.
Let UN := unmixed1_free.
Let UA := unmixed1_arith.

Lemma n_minus : forall x h, Minus x = Ok h -> nice x ->
  nice h /\ dim h = dim x /\ forall k, k < dim h -> val h e k = (- val x e k)%R.
Proof.
  intros x h H (W & U & S). destruct (Minus_ok SO SA _ _ H W) as (A & B & C).
  destruct (C e S) as [C1 C2]. split; [split; [auto|]; split; [eapply (ev_Minus unmixed1 UA); eauto|auto]|].
  split; [auto|]. intros k K. apply C2. left; auto.
Qed.
Lemma n_square : forall x h, Square x = Ok h -> nice x ->
  nice h /\ dim h = dim x /\ forall k, k < dim h -> val h e k = (val x e k * val x e k)%R.
Proof.
  intros x h H (W & U & S). destruct (Square_ok SO SA _ _ H W) as (A & B & C).
  destruct (C e S) as [C1 C2]. split; [split; [auto|]; split; [eapply (ev_Square unmixed1 UA); eauto|auto]|].
  split; [auto|]. intros k K. apply C2. left; auto.
Qed.
Lemma n_add : forall x y h, Add x y = Ok h -> nice x -> nice y ->
  nice h /\ dim h = max (dim x) (dim y) /\ forall k, k < dim h -> val h e k = (val x e k + val y e k)%R.
Proof.
  intros x y h H (W & U & S) (W' & U' & S'). destruct (Add_ok SO SA _ _ _ H W W') as (A & B & C & D).
  destruct (D e S S') as [D1 D2]. split; [split; [auto|]; split; [eapply (ev_Add unmixed1 UA); eauto|auto]|].
  split; [auto|]. intros k K. apply D2. left; auto.
Qed.
Lemma n_sub : forall x y h, Subtract x y = Ok h -> nice x -> nice y ->
  nice h /\ dim h = max (dim x) (dim y) /\ forall k, k < dim h -> val h e k = (val x e k - val y e k)%R.
Proof.
  intros x y h H (W & U & S) (W' & U' & S'). destruct (Subtract_ok SO SA _ _ _ H W W') as (A & B & C & D).
  destruct (D e S S') as [D1 D2]. split; [split; [auto|]; split; [eapply (ev_Subtract unmixed1 UA); eauto|auto]|].
  split; [auto|]. intros k K. apply D2. left; auto.
Qed.
Lemma n_mult : forall x y h, Mult x y = Ok h -> nice x -> nice y ->
  nice h /\ dim h = max (dim x) (dim y) /\ forall k, k < dim h -> val h e k = (val x e k * val y e k)%R.
Proof.
  intros x y h H (W & U & S) (W' & U' & S'). destruct (Mult_ok SO SA _ _ _ H W W') as (A & B & C & D).
  destruct (D e S S') as [D1 D2]. split; [split; [auto|]; split; [eapply (ev_Mult unmixed1 UA); eauto|auto]|].
  split; [auto|]. intros k K. apply D2. left; auto.
Qed.
Lemma n_div : forall x y h, Divide x y = Ok h -> nice x -> nice y ->
  (forall k, k < max (dim x) (dim y) -> val y e k <> 0%R) -> nice h /\ dim h = max (dim x) (dim y).
Proof.
  intros x y h H (W & U & S) (W' & U' & S') N. destruct (Divide_ok SO SA _ _ _ H W W') as (A & B & C & D).
  destruct (D e S S') as [D1 D2]; [intros; apply N; lia|].
  split; [split; [auto|]; split; [eapply (ev_Divide unmixed1 UA); eauto|auto]|auto].
Qed.
Lemma n_sum : forall x h, Sum x = Ok h -> nice x -> nice h /\ dim h = 1.
Proof.
  intros x h H (W & U & S). destruct (Sum_ok SO SA _ _ H W) as (A & B & C).
  destruct (C e S) as [C1 C2]. split; [split; [auto|]; split; [eapply (ev_Sum unmixed1 UN); eauto|auto]|auto].
Qed.
Lemma n_scal : forall x y h, Scalprod x y = Ok h -> nice x -> nice y -> nice h /\ dim h = 1.
Proof.
  intros x y h H (W & U & S) (W' & U' & S'). destruct (Scalprod_ok SO SA _ _ _ H W W') as (A & B & C & D).
  destruct (D e S S') as [D1 D2]. split; [split; [auto|]; split; [eapply (ev_Scalprod unmixed1 UN); eauto|auto]|auto].
Qed.
Lemma n_sumT : forall x n h, SumT x n = Ok h -> nice x -> nice h /\ dim h = n.
Proof.
  intros x n h H (W & U & S). destruct (SumT_ok SO _ _ _ H W) as (A & B & C & D & F).
  destruct (F e S) as [F1 _]. split; [split; [auto|]; split; [eapply (ev_SumT unmixed1 UA); eauto|auto]|auto].
Qed.
Lemma n_pow : forall x m h, Pow x m = Ok h -> nice x ->
  (forall k, k < dim x -> (0 <= m)%Z \/ eval x e k <> 0%R) -> nice h /\ dim h = dim x.
Proof.
  intros x m h H (W & U & S) N. destruct (Pow_ok SO SA _ _ _ H W) as (A & B & C).
  destruct (C e S N) as [C1 C2]. split; [split; [auto|]; split; [eapply (ev_Pow unmixed1 UN); eauto|auto]|auto].
Qed.
Lemma n_int : forall z, nice (IntCst z).
Proof.
  intros z. unfold IntCst. destruct (z =? 0)%Z; (split; [|split]); cbn; auto.
Qed.
Lemma n_rat : forall a b h, RatCst a b = Ok h -> nice h /\ dim h = 1.
Proof.
  intros a b h H. destruct (RatCst_ok SO _ _ _ H) as (A & B & C & D).
  split; [split; [auto|]; split; [eapply (ev_RatCst unmixed1 UA); eauto|apply D]|auto].
Qed.
Lemma n_zero : forall n h, mk (Zero n) = Ok h -> nice h /\ dim h = n.
Proof. intros n h H. apply mk_ok in H as [-> N]. split; [split; [split; auto|split; cbn; auto]|reflexivity]. Qed.
Lemma n_un : forall u x, nice x -> (forall k, k < dim x -> un_smooth u (eval x e k)) -> nice (Un u x).
Proof. intros u x (W & U & S) N. split; [split; auto|]. split; [cbn; auto|split; auto]. Qed.
Lemma n_lin : forall l x h, mk (Lin l x) = Ok h -> nice x -> nice h /\ dim h = dim (Lin l x).
Proof.
  intros l x h H (W & U & S). apply mk_ok in H as [-> N]. split; [|reflexivity].
  split; [split; auto|]. split; [cbn; auto|exact S].
Qed.
Lemma n_bil : forall b x y h, mk (Bil b x y) = Ok h -> nice x -> nice y -> nice h /\ dim h = dim (Bil b x y).
Proof.
  intros b x y h H (W & U & S) (W' & U' & S'). apply mk_ok in H as [-> N]. split; [|reflexivity].
  split; [split; auto|]. split; [cbn; auto|split; auto].
Qed.
Lemma nice_un : forall u x, nice (Un u x) -> nice x.
Proof. intros u x ((_ & W) & (_ & U) & (S & _)). split; auto. Qed.

Ltac nc :=
  repeat match goal with
  | H : Minus ?x = Ok _, X : nice ?x |- _ => destruct (n_minus _ _ H X) as (? & ? & ?); clear H
  | H : Square ?x = Ok _, X : nice ?x |- _ => destruct (n_square _ _ H X) as (? & ? & ?); clear H
  | H : Add ?x ?y = Ok _, X : nice ?x, Y : nice ?y |- _ => destruct (n_add _ _ _ H X Y) as (? & ? & ?); clear H
  | H : Subtract ?x ?y = Ok _, X : nice ?x, Y : nice ?y |- _ => destruct (n_sub _ _ _ H X Y) as (? & ? & ?); clear H
  | H : Mult ?x ?y = Ok _, X : nice ?x, Y : nice ?y |- _ => destruct (n_mult _ _ _ H X Y) as (? & ? & ?); clear H
  | H : Sum ?x = Ok _, X : nice ?x |- _ => destruct (n_sum _ _ H X) as (? & ?); clear H
  | H : Scalprod ?x ?y = Ok _, X : nice ?x, Y : nice ?y |- _ => destruct (n_scal _ _ _ H X Y) as (? & ?); clear H
  | H : SumT ?x _ = Ok _, X : nice ?x |- _ => destruct (n_sumT _ _ _ H X) as (? & ?); clear H
  | H : RatCst _ _ = Ok _ |- _ => destruct (n_rat _ _ _ H) as (? & ?); clear H
  | H : mk (Zero _) = Ok _ |- _ => destruct (n_zero _ _ H) as (? & ?); clear H
  | H : mk (Lin _ ?x) = Ok _, X : nice ?x |- _ => destruct (n_lin _ _ _ H X) as (? & ?); clear H
  | H : mk (Bil _ ?x ?y) = Ok _, X : nice ?x, Y : nice ?y |- _ => destruct (n_bil _ _ _ _ H X Y) as (? & ?); clear H
  end.

Ltac vals :=
  repeat match goal with
  | H : forall k, k < dim ?h -> val ?h e k = _ |- context [val ?h e ?j] => rewrite (H j) by lia
  end.
Ltac dv :=
  match goal with
  | H : Divide ?x ?y = Ok ?h, X : nice ?x, Y : nice ?y |- _ =>
      let A := fresh in assert (A : nice h /\ dim h = max (dim x) (dim y)); [apply (n_div _ _ _ H X Y)|destruct A; clear H]
  end.

Lemma unDer_nice : forall u a df, unDer u a = Some (Ok df) -> nice (Un u a) -> nice df.
Proof.
  intros u a df E N. assert (Na := nice_un _ _ N). assert (S := proj2 (proj2 (proj2 N))).
  assert (I2 := n_int 2). assert (I1 := n_int 1). assert (Im := n_int (-1)).
  assert (Pa := dim_pos _ (proj1 Na)).
  assert (MU : forall u h, mk (Un u a) = Ok h -> (forall k, k < dim a -> un_smooth u (eval a e k)) -> nice h).
  { intros v h H C. apply mk_ok in H as [-> _]. apply n_un; auto. }
  cbn [dun SO] in S.
  destruct u; cbn [unDer] in E; try discriminate E; apply some_inj in E; bind_inv; cbn [un_smooth] in S.
  - nc. auto.
  - apply (MU _ _ E). cbn; auto.
  - apply (MU _ _ E). intros k K. specialize (S k K). cbn. lra.
  - nc. eapply n_div; eauto. intros k K. rewrite H2 by (change (dim (IntCst (-1))) with 1 in K; lia).
    assert (K' : k < dim a) by (change (dim (IntCst (-1))) with 1 in K; lia). rewrite val_own by auto.
    apply Rmult_integral_contrapositive_currified; apply S; auto.
  - apply (MU _ _ E). cbn; auto.
  - assert (X : nice (Un USin a)) by (apply n_un; cbn; auto). nc. auto.
  - assert (X : nice (Un URsqrt a)) by (apply n_un; cbn; auto). nc. auto.
  - assert (X : nice (Un URsqrt a)) by (apply n_un; cbn; auto). nc.
    match goal with H : Pow _ _ = Ok _ |- _ => destruct (n_pow _ _ _ H X) as [Y _]; [intros; left; lia|] end. nc. auto.
  - apply (MU _ _ E). exact S.
  - apply (MU _ _ E). exact S.
  - assert (X : nice (Un ULog a)) by (apply n_un; cbn; auto). nc. auto.
  - assert (X : nice (Un UCos a)) by (apply n_un; cbn; auto).
    assert (X' : nice (Un USin a)) by (apply n_un; cbn; auto). nc.
    dv.
    { cbn [dim]. intros k K. vals. rewrite val_own by lia.
      first [apply S; lia|apply Rmult_integral_contrapositive_currified; apply S; lia]. }
    dv.
    { cbn [dim]. intros k K. vals. rewrite val_own by lia.
      first [apply S; lia|apply Rmult_integral_contrapositive_currified; apply S; lia]. }
    nc. auto.
  - nc. apply mk_ok in E as [-> _]. apply n_un; auto. change (dim (IntCst 1)) with 1 in *. intros k K.
    rewrite <- val_own by auto. vals. rewrite (val_own a) by lia.
    change (val (IntCst 1) e k) with 1%R. assert (Q := S k ltac:(lia)). cbn. nra.
  - nc. change (dim (IntCst 1)) with 1 in *.
    assert (X : nice (Un URsqrt x0)).
    { apply n_un; auto. intros k K.
      rewrite <- val_own by auto. vals. rewrite (val_own a) by lia.
      change (val (IntCst 1) e k) with 1%R. assert (Q := S k ltac:(lia)). cbn. nra. }
    nc. auto.
  - nc. change (dim (IntCst 1)) with 1 in *. apply mk_ok in E as [-> _]. apply n_un; auto. intros k K.
    rewrite <- val_own by auto. vals. rewrite (val_own a) by lia.
    change (val (IntCst 1) e k) with 1%R. cbn.
    assert (0 <= eval a e k * eval a e k)%R by apply Rle_0_sqr. lra.
  - destruct (Z.eq_dec m 0) as [->|M].
    + assert (Z0 : exists n, df = Zero n).
      { change (IntCst 0) with (Zero 1) in E. clear - E.
        assert (E' : Broadcast (Zero 1) (dim x) = Ok df) by exact E. clear E.
        unfold Broadcast, SumT in E'. cbn [dim as_zero] in E'.
        destruct ((1 =? dim x) || (dim x =? 1)); [inversion E'; eauto|].
        cbn in E'. apply mk_ok in E' as [-> _]. eauto. }
      destruct Z0 as [n Z0].
      assert (W : wf df).
      { destruct (i_pow _ _ _ H (proj1 Na)) as (A & _ & _).
        destruct (i_mult _ _ _ E) as (B & _ & _); auto. split; auto. }
      subst df. split; [exact W|]. split; cbn; auto.
    + destruct (n_pow _ _ _ H Na) as [X _].
      { intros k K. specialize (S k K). cbn in S. destruct S; [left; lia|auto]. }
      assert (IM := n_int m). nc. auto.
  - apply (MU _ _ E). exact S.
Qed.

(** ** One level of DiffT *)

Section Level.
Variables (i : Z) (d c : nat).
Hypothesis Hd : 1 <= d.
Variable D : fm -> fm -> res fm.
Hypothesis IH : forall f g h, D f g = Ok h -> good i d c f -> wf g -> dim g = dim f -> grad i d f g h.
Hypothesis IN : forall f g h, D f g = Ok h -> good i d c f -> smooth e f -> nice g -> dim g = dim f -> nice h.

(** A formula with its variables, at the point. *)
Definition fine (f : fm) : Prop := good i d c f /\ smooth e f.

Lemma fine_nice : forall f, fine f -> nice f.
Proof. intros f ((W & _ & U) & S). split; [auto|]. split; [apply unmixed_all; auto|auto]. Qed.

Lemma n_D : forall f g h, D f g = Ok h -> fine f -> nice g -> dim g = dim f -> nice h /\ dim h = d.
Proof.
  intros f g h E [G S] N Dg. split; [eapply IN; eauto|].
  destruct (IH _ _ _ E G (proj1 N) Dg) as (_ & B & _). exact B.
Qed.

Ltac nd :=
  repeat (nc; match goal with
  | H : D ?f ?g = Ok _, F : fine ?f, X : nice ?g |- _ =>
      destruct (n_D _ _ _ H F X) as (? & ?); [cbn [dim] in *; solve [lia]|clear H]
  end); nc.

Lemma n_vecterm : forall f df g x, vecterm D f df g = Ok x -> fine f -> nice df -> nice g ->
  dim df = dim f -> dim g = dim f -> nice x /\ dim x = d.
Proof.
  intros f df g x E F Nd Ng D1 D2. unfold vecterm in E.
  destruct (Nat.eqb_spec (dim df) 1); bind_inv; nd; split; auto; lia.
Qed.

Lemma fine_un : forall u a, fine (Un u a) -> fine a.
Proof. intros u a [G S]. split; [eapply good_un; eauto|apply S]. Qed.
Lemma fine_lin : forall u a, fine (Lin u a) -> fine a.
Proof. intros u a [G S]. split; [eapply good_lin; eauto|apply S]. Qed.
Lemma fine_sel : forall u a, fine (Sel u a) -> fine a.
Proof. intros u a [G S]. split; [eapply good_sel; eauto|apply S]. Qed.
Lemma fine_bin : forall u a b, fine (Bin u a b) -> fine a /\ fine b.
Proof. intros u a b [G S]. destruct (good_bin _ _ _ _ _ _ G). split; split; auto; apply S. Qed.
Lemma fine_bil : forall u a b, fine (Bil u a b) -> fine a /\ fine b.
Proof. intros u a b [G S]. destruct (good_bil _ _ _ _ _ _ G). split; split; auto; apply S. Qed.
Lemma fine_cat : forall a b, fine (Cat a b) -> fine a /\ fine b.
Proof. intros a b [G S]. destruct (good_cat _ _ _ _ _ G). split; split; auto; apply S. Qed.

Lemma node_bin : forall b x y, wf (Bin b x y) -> 1 <= dim x /\ 1 <= dim y /\ (dim x = dim y \/ dim x = 1 \/ dim y = 1).
Proof.
  intros b x y W. assert (V := wf_node _ W). destruct W as (_ & Wx & Wy).
  assert (P1 := dim_pos _ Wx). assert (P2 := dim_pos _ Wy). cbn [node_ok] in V. unfold vcompat2 in V. rewrite !orb_true_iff, !Nat.eqb_eq in V. lia.
Qed.

Lemma div_facts : forall a b, a mod b = 0 -> 1 <= a -> 1 <= b -> a / b * b = a /\ a / (a / b) = b.
Proof.
  intros a b M A B. assert (E : a = b * (a / b)) by (apply Nat.div_exact; lia).
  assert (1 <= a / b) by nia. split; [lia|]. rewrite E at 1. apply Nat.div_mul. lia.
Qed.

Lemma level_linear : forall f g h, diff_body D (Var i d c) f g = Ok h -> fine f -> nice g -> dim g = dim f ->
  match f with Bin _ _ _ | Ter _ _ _ _ | Sel _ _ | Un _ _ => False | _ => True end -> nice h.
Proof.
  intros f g h E F Ng Dg K. assert (W := proj1 (proj1 F)). destruct f; try contradiction; cbn [diff_body] in E.
  - destruct (feqb _ _); [inversion E; subst; auto|]. nc. auto.
  - nc; auto.
  - nc; auto.
  - nc; auto.
  - apply fine_lin in F. assert (N := wf_node _ W). assert (P := dim_pos _ (proj1 (proj1 F))).
    destruct l; bind_inv; cbn [node_ok] in N; cbn [dim] in *;
      rewrite ?andb_true_iff, ?Nat.leb_le, ?Nat.eqb_eq, ?Nat.ltb_lt in N; nd; auto.
  - apply fine_bil in F as [Fa Fb]. assert (Na := fine_nice _ Fa). assert (Nb := fine_nice _ Fb).
    assert (N := wf_node _ W). destruct b; bind_inv; cbn [node_ok] in N; cbn [dim] in *;
      rewrite ?andb_true_iff, ?Nat.leb_le, ?Nat.eqb_eq, ?Nat.ltb_lt in N; nd; auto.
    + destruct (div_facts _ _ N) as [Q1 Q2]; [apply dim_pos, Na|apply dim_pos, Nb|].
      cbn [dim] in *. rewrite Dg in *. nd. auto.
    + destruct (div_facts _ _ N) as [Q1 Q2]; [apply dim_pos, Nb|apply dim_pos, Na|].
      cbn [dim] in *. rewrite Dg in *. rewrite (Nat.mul_comm (dim f1)) in *. nd. auto.
    + assert (P1 := dim_pos _ (proj1 Na)). assert (P2 := dim_pos _ (proj1 Nb)). cbn [dim] in *. rewrite Dg in *.
      rewrite ?Nat.div_mul, ?(Nat.mul_comm (dim f1)), ?Nat.div_mul in * by lia. nd. auto.
  - apply fine_cat in F as [Fa Fb]. bind_inv. nd. auto.
Qed.

Lemma level_un : forall u a g h, diff_body D (Var i d c) (Un u a) g = Ok h -> fine (Un u a) -> nice g ->
  dim g = dim a -> nice h.
Proof.
  intros u a g h E F Ng Dg. assert (Fa := fine_un _ _ F). assert (I0 := n_int 0).
  cbn [diff_body] in E. destruct (unDer u a) as [r|] eqn:U.
  - assert (E' : (do df <- r; do x <- vecterm D a df g; Add (IntCst 0) x) = Ok h).
    { destruct u; try discriminate U; exact E. }
    clear E. bind_inv. subst r. assert (Nd := unDer_nice _ _ _ U (fine_nice _ F)).
    destruct (unDer_ok u a _ x U eq_refl (proj1 (proj1 Fa))) as (_ & Ddf & _).
    destruct (n_vecterm a x g x0) as [? ?]; auto. nc. auto.
  - destruct u; try discriminate U; bind_inv; nd; auto.
Qed.

Lemma level_bin : forall b x y g h, diff_body D (Var i d c) (Bin b x y) g = Ok h -> fine (Bin b x y) -> nice g ->
  dim g = max (dim x) (dim y) -> nice h.
Proof.
  intros b x y g h E F Ng Dg. assert (Nf := fine_nice _ F). assert (I0 := n_int 0). assert (I1 := n_int 1).
  destruct (fine_bin _ _ _ F) as [Fx Fy]. assert (Nx := fine_nice _ Fx). assert (Ny := fine_nice _ Fy).
  destruct (node_bin _ _ _ (proj1 Nf)) as (P1 & P2 & P3).
  assert (S := proj2 (proj2 (proj2 F))).
  change (forall k, k < max (dim x) (dim y) -> bin_smooth b (val x e k) (val y e k)) in S.
  assert (G := proj1 F).
  destruct b; cbn [diff_body] in E; cbn [bin_smooth] in S.
  - destruct (Nat.eqb_spec (dim x) 1), (Nat.ltb_spec 1 (dim y)), (Nat.eqb_spec (dim y) 1),
      (Nat.ltb_spec 1 (dim x)); cbn [andb] in E; bind_inv; try lia; nd; auto.
  - destruct (Nat.eqb_spec (dim x) 1), (Nat.ltb_spec 1 (dim y)), (Nat.eqb_spec (dim y) 1),
      (Nat.ltb_spec 1 (dim x)); cbn [andb] in E; bind_inv; try lia; nd; auto.
  - destruct (as_exp y) as [u|] eqn:X.
    + apply as_exp_S in X. subst y. assert (Fu := fine_un _ _ Fy). assert (Nu := fine_nice _ Fu). cbn [dim] in *.
      destruct (Nat.eqb_spec (dim u) 1); [bind_inv; nd; auto|].
      destruct (Nat.eqb_spec (dim x) 1), (Nat.ltb_spec 1 (dim u)); cbn [andb] in E; bind_inv; try lia; nd; auto.
    + destruct (Nat.eqb_spec (dim x) 1), (Nat.ltb_spec 1 (dim y)), (Nat.eqb_spec (dim y) 1),
        (Nat.ltb_spec 1 (dim x)); cbn [andb] in E; bind_inv; try lia; nd; auto.
  - assert (Sy : forall k, k < max (dim x) (dim y) -> (val y e k * val y e k <> 0)%R).
    { intros k K. apply Rmult_integral_contrapositive_currified; apply S; auto. }
    destruct (Nat.eqb_spec (dim x) 1), (Nat.ltb_spec 1 (dim y)), (Nat.eqb_spec (dim y) 1),
      (Nat.ltb_spec 1 (dim x)); cbn [andb] in E; bind_inv; try lia;
      repeat (nd; dv; [cbn [dim] in *; intros k K; first [apply S; lia|vals; apply Sy; lia]|]); nd; auto.
    dv; [|auto]. intros k K. match goal with |- val ?z e k <> _ =>
      rewrite (val_1 z), <- (val_own z e 0) by lia end. vals. apply Sy. lia.
  - assert (Dxy : dim x = dim y) by apply (proj2 (proj2 G)). bind_inv. nc.
    assert (R2 : forall r k, k < dim x -> val r e k = (val x e k * val x e k + val y e k * val y e k)%R -> val r e k <> 0%R).
    { intros r k K ->. assert (0 < val x e k * val x e k + val y e k * val y e k)%R; [|lra].
      apply sq_pos. destruct (S k ltac:(lia)); [right; lra|left; lra]. }
    dv; [intros k K; apply R2; [lia|]; vals; reflexivity|].
    dv; [intros k K; apply R2; [lia|]; vals; reflexivity|].
    repeat match goal with
    | H : vecterm D ?f ?df g = Ok ?z |- _ =>
        destruct (n_vecterm f df g z H) as [? ?]; [auto|auto|auto|lia|lia|]; clear H; nc
    end. auto.
  - assert (Dxy : dim x = dim y) by apply (proj2 (proj2 G)). bind_inv. nc.
    change (dim (IntCst 1)) with 1 in *.
    repeat match goal with H : mk (Bin BPowf _ _) = Ok _ |- _ => apply mk_ok in H as [-> ?] end.
    assert (NP : forall z, nice z -> dim z = dim x -> node_ok (Bin BPowf x z) = true -> nice (Bin BPowf x z)).
    { intros z (Wz & Uz & Sz) Dz Nz. split; [split; [auto|split; [apply Nx|auto]]|].
      split; [split; [cbn; auto|split; [apply Nx|auto]]|]. split; [apply Nx|]. split; [auto|].
      intros k K. rewrite Dz, Nat.max_id in K. apply (S k). lia. }
    assert (NL : nice (Un ULog x)).
    { apply n_un; auto. intros k K. rewrite <- val_own by auto. apply (S k). lia. }
    assert (N1 : nice (Bin BPowf x x0)) by (apply NP; auto; lia).
    assert (N2 : nice (Bin BPowf x y)) by (apply NP; auto; lia). nc. cbn [dim] in *.
    repeat match goal with
    | H : vecterm D ?f ?df g = Ok ?z |- _ =>
        destruct (n_vecterm f df g z H) as [? ?]; [auto|auto|auto|lia|lia|]; clear H; nc
    end. auto.
  - nc. auto.
  - nc. auto.
  - nc. auto.
  - nc. auto.
Qed.

Lemma level_ifelse : forall w x y g h, diff_body D (Var i d c) (Ter TIfElse w x y) g = Ok h ->
  fine (Ter TIfElse w x y) -> nice g -> dim g = dim (Ter TIfElse w x y) -> nice h.
Proof.
  intros w x y g h E [((N & Ww & Wx & Wy) & (Kw & Kx & Ky) & ((U1 & U2) & Uw & Ux & Uy)) (Sw & Sx & Sy & SS)] Ng Dg.
  cbn [diff_body] in E. bind_inv. cbn [dim] in Dg. assert (Px := dim_pos _ Wx).
  assert (Fx : fine x) by (repeat split; auto). assert (Fy : fine y) by (repeat split; auto).
  assert (Fw : fine w) by (repeat split; auto). nd.
  assert (Nw := fine_nice _ Fw). apply mk_ok in E as [-> NN].
  assert (W0 : val w e 0 <> 0%R) by (apply (SS 0); lia).
  split; [split; [auto|]; split; [apply Nw|split; [apply H0|apply H1]]|].
  split; [split; [cbn; lia|]; split; [apply Nw|split; [apply H0|apply H1]]|].
  split; [apply Nw|]. split; [apply H0|]. split; [apply H1|].
  intros k K. change (val w e k <> 0%R). rewrite (val_1 w) by auto. rewrite <- (val_own w e 0) by lia. exact W0.
Qed.

Lemma level_clamp : forall x a b g h, diff_body D (Var i d c) (Ter TClamp x a b) g = Ok h ->
  fine (Ter TClamp x a b) -> nice g -> dim g = dim (Ter TClamp x a b) -> nice h.
Proof.
  intros x a b g h E [((V & Wx & Wa & Wb) & (Kx & Ka & Kb) & (_ & Ux & Ua & Ub)) (Sx & Sa & Sb & SS)] Ng Dg.
  cbn [diff_body] in E. bind_inv.
  match goal with H : mk (Un _ _) = Ok _ |- _ => apply mk_ok in H as [-> _] end.
  assert (C := vc3 _ _ _ V). cbn zeta in C.
  destruct (clamp_alt d Hd smooth_doms smooth_arith_ok x a b _ _ _ _ _ H H0 H1 H3 H4) as (A & B & F); auto.
  set (N := max (max (dim x) (dim a)) (dim b)) in *. cbn [dim] in Dg. fold N in Dg.
  assert (SV : forall k, k < N -> (val a e k < val b e k /\ val x e k <> val a e k /\
                                     val x e k <> val b e k)%R) by exact SS.
  destruct (n_D _ _ _ E) with (2 := Ng); [|cbn [dim] in *; lia|auto].
  split; [split; [auto|split]|].
  - apply consistent_all. apply consistent_all in Kx, Ka, Kb.
    eapply (clamp_all _ (consistent1_arith i d c)) with (x := x); eauto. cbn; auto.
  - apply unmixed_all. apply unmixed_all in Ux, Ua, Ub.
    eapply (clamp_all _ unmixed1_arith) with (x := x); eauto. cbn; auto.
  - apply F; auto.
      * intros k K. specialize (SV k K). lra.
      * intros k K. destruct (SV k K) as (L & N1 & N2).
        assert (EE : ((val x e k - val a e k) / (val b e k - val a e k) *
                    (val b e k - val a e k) = val x e k - val a e k)%R) by (field; lra).
        split; intro Q; rewrite Q in EE; lra.
Qed.

Lemma level_mod : forall x n b g h, diff_body D (Var i d c) (Ter TMod x n b) g = Ok h ->
  fine (Ter TMod x n b) -> nice g -> dim g = dim (Ter TMod x n b) -> nice h.
Proof.
  intros x n b g h E [((V & Wx & Wa & Wb) & (Kx & Ka & Kb) & (_ & Ux & Ua & Ub)) (Sx & Sa & Sb & SS)] Ng Dg.
  cbn [diff_body] in E. bind_inv.
  match goal with H : mk (Un _ _) = Ok _ |- _ => apply mk_ok in H as [-> _] end.
  assert (C := vc3 _ _ _ V). cbn zeta in C.
  destruct (mod_alt d Hd smooth_doms smooth_arith_ok x n b _ _ _ _ H H0 H2 H3) as (A & B & F); auto.
  set (N := max (max (dim x) (dim n)) (dim b)) in *. cbn [dim] in Dg. fold N in Dg.
  assert (SV : forall k, k < N -> (val n e k <> 0)%R /\
       ~ is_integer ((val x e k - val b e k) / val n e k)) by exact SS.
  destruct (n_D _ _ _ E) with (2 := Ng); [|cbn [dim] in *; lia|auto].
  split; [split; [auto|split]|].
  - apply consistent_all. apply consistent_all in Kx, Ka, Kb.
    eapply (mod_all _ (consistent1_arith i d c)) with (x := x) (n := n) (b := b); eauto; cbn; auto.
  - apply unmixed_all. apply unmixed_all in Ux, Ua, Ub.
    eapply (mod_all _ unmixed1_arith) with (x := x) (n := n) (b := b); eauto; cbn; auto.
  - apply F; auto.
    + intros k K. exact (proj1 (SV k K)).
    + intros k K. exact (proj2 (SV k K)).
Qed.

Lemma half_not_integer : forall m, ~ is_integer (INR m + / 2).
Proof.
  intros m [z E]. rewrite INR_IZR_INZ in E.
  assert (H : (IZR (2 * Z.of_nat m + 1) = IZR (2 * z))%R).
  { rewrite plus_IZR, !mult_IZR, <- E. field. }
  apply eq_IZR in H. lia.
Qed.

Lemma level_best : forall s s' a g o p h,
  (s = SMax /\ s' = SArgMax \/ s = SMin /\ s' = SArgMin) ->
  mk (Sel (SOneHot (dim a)) (Sel s' a)) = Ok o -> Mult o g = Ok p -> D a p = Ok h ->
  fine (Sel s a) -> nice g -> dim g = 1 -> nice h.
Proof.
  intros s s' a g o p h Ss Eo Ep Eh F Ng Dg. assert (Fa := fine_sel _ _ F).
  assert (Na := fine_nice _ Fa). assert (Pa := dim_pos _ (proj1 Na)). apply mk_ok in Eo as [-> No].
  assert (S := proj2 (proj2 F)).
  assert (M : exists m, m < dim a /\ selR s' (dim a) (eval a e) 0 = INR m /\ sel_smooth s' (dim a) (eval a e)).
  { destruct Ss as [[-> ->]|[-> ->]]; destruct S as (m & M1 & M2); exists m; (split; [auto|]); cbn [selR].
    - split; [rewrite (argmax_best _ _ m); auto|]. exists m; auto.
    - split; [rewrite (argmin_best _ _ m); auto|]. exists m; auto. }
  destruct M as (m & M1 & M2 & M3).
  assert (No' : nice (Sel (SOneHot (dim a)) (Sel s' a))).
  { split; [split; [auto|]; split; [|apply Na]|].
    - destruct Ss as [[-> ->]|[-> ->]]; cbn [node_ok]; apply Nat.leb_le; auto.
    - split; [cbn; split; [auto|split; [auto|apply Na]]|].
      split; [split; [apply Na|exact M3]|].
      change (sel_smooth (SOneHot (dim a)) (dim (Sel s' a)) (eval (Sel s' a) e)).
      cbn [sel_smooth eval]. rewrite M2. split; [rewrite Rtrunc_half; lia|apply half_not_integer]. }
  nc. cbn [dim] in *. nd. auto.
Qed.

Lemma level_ok : forall f g h, diff_body D (Var i d c) f g = Ok h -> fine f -> nice g -> dim g = dim f -> nice h.
Proof.
  intros f g h E F Ng Dg.
  destruct f; try (eapply level_linear; eauto; exact I).
  - eapply level_un; eauto.
  - eapply level_bin; eauto.
  - destruct t; [eapply level_ifelse|eapply level_clamp|eapply level_mod]; eauto.
  - cbn [diff_body] in E. destruct s; bind_inv; try (nc; auto; fail).
    + eapply (level_best SMax SArgMax); eauto.
    + eapply (level_best SMin SArgMin); eauto.
Qed.
End Level.

Lemma DiffTn_nice : forall i d c, 1 <= d -> forall n f g h, DiffTn n (Var i d c) f g = Ok h ->
  good i d c f -> smooth e f -> nice g -> dim g = dim f -> nice h.
Proof.
  intros i d c Hd. induction n as [|n IHn]; intros f g h E G S Ng Dg; [discriminate|].
  cbn [DiffTn] in E. eapply (level_ok i d c Hd (DiffTn n (Var i d c))); eauto.
  - intros. eapply DiffTn_ok; eauto.
  - split; auto.
Qed.
End Nice.

(** The derivative of a formula that is smooth at a point is smooth at that point. *)
Lemma DiffT_smooth : forall i d c f g h e, DiffT f (Var i d c) g = Ok h -> 1 <= d ->
  wf f -> consistent i d c f -> unmixed f -> smooth e f ->
  wf g -> unmixed g -> smooth e g -> dim g = dim f -> wf h /\ dim h = d /\ unmixed h /\ smooth e h.
Proof.
  intros i d c f g h e E Hd Wf K U S Wg Ug Sg Dg.
  destruct (DiffTn_nice e i d c Hd _ f g h E) as (A & B & C); auto.
  - repeat split; auto.
  - split; [auto|]. split; [apply unmixed_all; auto|auto].
  - destruct (DiffTn_ok i d c Hd _ f g h E) as (_ & Dh & _); auto; [repeat split; auto|].
    split; [auto|]. split; [auto|]. split; [apply unmixed_all; auto|auto].
Qed.

(** ** Properties of the variables *)

(** Predicates about the variables of a formula only. *)
Definition of_vars (A : fm -> Prop) : Prop := forall f, match f with Var _ _ _ => True | _ => A f end.

Lemma of_vars_free : forall A, of_vars A -> free_nodes A.
Proof. intros A H. split; intros; match goal with |- A ?f => exact (H f) end. Qed.

Section Vars.
Variable A : fm -> Prop.
Hypothesis HV : of_vars A.
Notation E := (everywhere A).
Let HA : free_nodes A := of_vars_free A HV.
Let HN : arith_nodes A := free_arith A HA.

Lemma v_mk : forall f h, mk f = Ok h -> E f -> E h.
Proof. intros f h H F. apply mk_ok in H as [-> _]. exact F. Qed.
Lemma v_zero : forall n, E (Zero n).
Proof. intros n. exact (conj (HV (Zero n)) Logic.I). Qed.
Lemma v_int : forall z, E (IntCst z).
Proof. intros z. unfold IntCst. destruct (z =? 0)%Z; [apply v_zero|exact (conj (HV (Int z)) Logic.I)]. Qed.
Lemma v_un : forall u f, E f -> E (Un u f).
Proof. intros u f H. exact (conj (HV (Un u f)) H). Qed.
Lemma v_bin : forall b f g, E f -> E g -> E (Bin b f g).
Proof. intros b f g H K. exact (conj (HV (Bin b f g)) (conj H K)). Qed.
Lemma v_ter : forall b f g h, E f -> E g -> E h -> E (Ter b f g h).
Proof. intros b f g h H K L. exact (conj (HV (Ter b f g h)) (conj H (conj K L))). Qed.
Lemma v_lin : forall l f, E f -> E (Lin l f).
Proof. intros l f H. exact (conj (HV (Lin l f)) H). Qed.
Lemma v_bil : forall b f g, E f -> E g -> E (Bil b f g).
Proof. intros b f g H K. exact (conj (HV (Bil b f g)) (conj H K)). Qed.
Lemma v_sel : forall l f, E f -> E (Sel l f).
Proof. intros l f H. exact (conj (HV (Sel l f)) H). Qed.

Lemma v_minus : forall f h, Minus f = Ok h -> E f -> E h.
Proof. intros. eapply (ev_Minus A HN); eauto. Qed.
Lemma v_square : forall f h, Square f = Ok h -> E f -> E h.
Proof. intros. eapply (ev_Square A HN); eauto. Qed.
Lemma v_add : forall f g h, Add f g = Ok h -> E f -> E g -> E h.
Proof. intros f g h H. intros. eapply (ev_Add A HN); eauto. Qed.
Lemma v_sub : forall f g h, Subtract f g = Ok h -> E f -> E g -> E h.
Proof. intros f g h H. intros. eapply (ev_Subtract A HN); eauto. Qed.
Lemma v_mult : forall f g h, Mult f g = Ok h -> E f -> E g -> E h.
Proof. intros f g h H. intros. eapply (ev_Mult A HN); eauto. Qed.
Lemma v_div : forall f g h, Divide f g = Ok h -> E f -> E g -> E h.
Proof. intros f g h H. intros. eapply (ev_Divide A HN); eauto. Qed.
Lemma v_sum : forall f h, Sum f = Ok h -> E f -> E h.
Proof. intros. eapply (ev_Sum A HA); eauto. Qed.
Lemma v_scal : forall f g h, Scalprod f g = Ok h -> E f -> E g -> E h.
Proof. intros. eapply (ev_Scalprod A HA); eauto. Qed.
Lemma v_sumT : forall f n h, SumT f n = Ok h -> E f -> E h.
Proof. intros. eapply (ev_SumT A HN); eauto. Qed.
Lemma v_pow : forall f m h, Pow f m = Ok h -> E f -> E h.
Proof. intros. eapply (ev_Pow A HA); eauto. Qed.
Lemma v_rat : forall a b h, RatCst a b = Ok h -> E h.
Proof. intros. eapply (ev_RatCst A HN); eauto. Qed.

Hint Resolve v_zero v_int v_un v_bin v_ter v_lin v_bil v_sel : vars.

Ltac vs tac :=
  repeat match goal with
  | H : Exp _ = Ok _ |- _ => unfold Exp in H
  | H : Inv _ = Ok _ |- _ => unfold Inv in H
  | H : mk _ = Ok ?z |- _ => assert (E z) by (eapply v_mk; [exact H|eauto 8 with vars]); clear H
  | H : Minus _ = Ok ?z |- _ => assert (E z) by (eapply v_minus; [exact H|eauto with vars]); clear H
  | H : Square _ = Ok ?z |- _ => assert (E z) by (eapply v_square; [exact H|eauto with vars]); clear H
  | H : Add _ _ = Ok ?z |- _ => assert (E z) by (eapply v_add; [exact H|eauto with vars|eauto with vars]); clear H
  | H : Subtract _ _ = Ok ?z |- _ => assert (E z) by (eapply v_sub; [exact H|eauto with vars|eauto with vars]); clear H
  | H : Mult _ _ = Ok ?z |- _ => assert (E z) by (eapply v_mult; [exact H|eauto with vars|eauto with vars]); clear H
  | H : Divide _ _ = Ok ?z |- _ => assert (E z) by (eapply v_div; [exact H|eauto with vars|eauto with vars]); clear H
  | H : Scalprod _ _ = Ok ?z |- _ => assert (E z) by (eapply v_scal; [exact H|eauto with vars|eauto with vars]); clear H
  | H : Sum _ = Ok ?z |- _ => assert (E z) by (eapply v_sum; [exact H|eauto with vars]); clear H
  | H : SumT _ _ = Ok ?z |- _ => assert (E z) by (eapply v_sumT; [exact H|eauto with vars]); clear H
  | H : Pow _ _ = Ok ?z |- _ => assert (E z) by (eapply v_pow; [exact H|eauto with vars]); clear H
  | H : RatCst _ _ = Ok ?z |- _ => assert (E z) by (eapply v_rat; exact H); clear H
  | _ => tac
  end.

Lemma v_unDer : forall u a df, unDer u a = Some (Ok df) -> E a -> E df.
Proof.
  intros u a df H F. destruct u; cbn [unDer] in H; try discriminate H; apply some_inj in H; bind_inv;
    vs fail; auto.
Qed.

Variable v : fm.
Variable D : fm -> fm -> res fm.
Hypothesis ID : forall f g h, D f g = Ok h -> E f -> E g -> E h.

Ltac vd := vs ltac:(idtac; match goal with
  | H : D _ _ = Ok ?z |- _ => assert (E z) by (eapply ID; [exact H|eauto with vars|eauto with vars]); clear H end).

Lemma v_vecterm : forall f df g x, vecterm D f df g = Ok x -> E f -> E df -> E g -> E x.
Proof. intros f df g x H F K L. unfold vecterm in H. destruct (_ =? _); bind_inv; vd; auto. Qed.

Lemma v_level : forall f g h, diff_body D v f g = Ok h -> E f -> E g -> E h.
Proof.
  intros f g h H F G. destruct f; cbn [diff_body] in H.
  - destruct (feqb _ _); [inversion H; subst; auto|]. vd; auto.
  - vd; auto.
  - vd; auto.
  - vd; auto.
  - destruct F as [_ F].
    destruct (unDer u f) as [r|] eqn:U.
    + assert (E' : (do df <- r; do x <- vecterm D f df g; Add (IntCst 0) x) = Ok h).
      { destruct u; try discriminate U; exact H. }
      clear H. bind_inv. subst r. apply v_unDer in U; auto.
      assert (E x0) by (eapply v_vecterm; eauto). vd; auto.
    + destruct u; try discriminate U; bind_inv; vd; auto.
  - destruct F as (_ & F1 & F2).
    assert (X : match as_exp f2 with Some u => E u | None => True end).
    { destruct (as_exp f2) eqn:X; auto. apply as_exp_S in X. subst f2. apply F2. }
    destruct b; try destruct (as_exp f2);
      repeat match type of H with context [if ?b then _ else _] => destruct b end; bind_inv;
      repeat match goal with
      | Q : vecterm D _ _ g = Ok ?z |- _ => vd; assert (E z) by (eapply v_vecterm; eauto); clear Q
      end; vd; auto.
  - destruct F as (_ & F1 & F2 & F3). destruct t; bind_inv; vd; auto.
  - destruct F as (_ & F). destruct l; bind_inv; vd; auto.
  - destruct F as (_ & F1 & F2). destruct b; bind_inv; vd; auto.
  - destruct F as (_ & F1 & F2). bind_inv; vd; auto.
  - destruct F as (_ & F). destruct s; bind_inv; vd; auto.
Qed.
End Vars.

Lemma DiffTn_vars : forall A, of_vars A -> forall v n f g h, DiffTn n v f g = Ok h ->
  everywhere A f -> everywhere A g -> everywhere A h.
Proof.
  intros A HV v. induction n as [|n IHn]; intros f g h H F G; [discriminate|].
  cbn [DiffTn] in H. eapply (v_level A HV v (DiffTn n v)); eauto.
Qed.

(** DiffT only uses the variables of the formula and of the gradient. *)
Lemma DiffT_vars : forall A, of_vars A -> forall v f g h, DiffT f v g = Ok h ->
  everywhere A f -> everywhere A g -> everywhere A h.
Proof. intros A HV v f g h. apply DiffTn_vars; auto. Qed.
