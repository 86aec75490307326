(** Soundness of the simplification rules (proofs; statements for readers are in
    Properties files). *)

From Coq Require Import ZArith Reals List Bool Lia Lra.
From Verif Require Import Result Formula Simplify.
Import ListNotations.
Local Open Scope nat_scope.

(** ** Dimensions *)

Definition compat (a b : nat) : Prop := a = b \/ a = 1 \/ b = 1.

Lemma vcompat2_spec : forall a b, 1 <= a -> 1 <= b ->
  (vcompat2 a b = true <-> compat a b).
Proof.
  intros a b Ha Hb; unfold vcompat2, compat.
  rewrite orb_true_iff, !Nat.eqb_eq. lia.
Qed.

Lemma vcompat3_spec : forall a b c, vcompat3 a b c = true ->
  let d := max (max a b) c in
  (a = d \/ a = 1) /\ (b = d \/ b = 1) /\ (c = d \/ c = 1).
Proof.
  intros a b c; unfold vcompat3.
  rewrite !andb_true_iff, !orb_true_iff, !Nat.eqb_eq. tauto.
Qed.

Lemma wf_node : forall f, wf f -> node_ok f = true.
Proof. destruct f; simpl; tauto. Qed.

Lemma dim_pos : forall f, wf f -> 1 <= dim f.
Proof.
  induction f; intros H; assert (N := wf_node _ H); cbn [wf] in H; cbn [node_ok dim] in *.
  - apply Nat.leb_le in N; auto.
  - apply Nat.leb_le in N; auto.
  - auto.
  - auto.
  - destruct H; auto.
  - destruct H as (_ & H1 & H2). specialize (IHf1 H1). lia.
  - destruct H as (_ & H1 & H2 & H3). specialize (IHf1 H1). lia.
  - destruct H as (_ & H). specialize (IHf H).
    destruct l; auto; rewrite ?andb_true_iff, ?Nat.leb_le, ?Nat.ltb_lt, ?Nat.eqb_eq in N; lia.
  - destruct H as (_ & H1 & H2). specialize (IHf1 H1). specialize (IHf2 H2).
    destruct b; auto; rewrite ?Nat.eqb_eq in N.
    + apply Nat.mod_divides in N; [|lia]. destruct N as [c Hc].
      rewrite Hc. rewrite Nat.mul_comm, Nat.div_mul by lia.
      destruct c; lia.
    + apply Nat.mod_divides in N; [|lia]. destruct N as [c Hc].
      rewrite Hc. rewrite Nat.mul_comm, Nat.div_mul by lia.
      destruct c; lia.
    + nia.
  - destruct H as (_ & H1 & H2). specialize (IHf1 H1). lia.
  - destruct s; auto. rewrite ?andb_true_iff, ?Nat.leb_le in N; tauto.
Qed.

(** ** Broadcast values *)

Definition vok (d k : nat) : Prop := k < d \/ d = 1.

Definition val (f : fm) (e : env) (k : nat) : R := bcv (dim f) (eval f e) k.

Lemma val_lt : forall f e k, k < dim f -> val f e k = eval f e k.
Proof.
  intros f e k H; unfold val, bcv.
  destruct (Nat.eqb_spec (dim f) 1); auto.
  replace k with 0 by lia. reflexivity.
Qed.

Lemma val_1 : forall f e k, dim f = 1 -> val f e k = eval f e 0.
Proof. intros f e k H; unfold val, bcv; rewrite H; reflexivity. Qed.

Lemma val_eval : forall f e k, vok (dim f) k ->
  val f e k = eval f e (if dim f =? 1 then 0 else k).
Proof. reflexivity. Qed.

Lemma val_zero : forall d e k, val (Zero d) e k = 0%R.
Proof. reflexivity. Qed.
Lemma val_int : forall z e k, val (Int z) e k = IZR z.
Proof. reflexivity. Qed.
Lemma val_rat : forall p q e k, val (Rat p q) e k = (IZR p / IZR q)%R.
Proof. reflexivity. Qed.
Lemma val_un : forall u f e k, val (Un u f) e k = unR u (val f e k).
Proof. reflexivity. Qed.
Lemma val_bin : forall b f g e k, compat (dim f) (dim g) ->
  1 <= dim f -> 1 <= dim g ->
  val (Bin b f g) e k = binR b (val f e k) (val g e k).
Proof.
  intros b f g e k C Hf Hg. unfold val at 1, bcv at 1. cbn [dim eval].
  destruct (Nat.eqb_spec (max (dim f) (dim g)) 1) as [E|E]; [|reflexivity].
  assert (dim f = 1) by lia. assert (dim g = 1) by lia.
  rewrite !val_1 by assumption. unfold bcv. rewrite H, H0. reflexivity.
Qed.
Lemma val_sumT : forall d f e k, dim f = 1 -> val (Lin (LSumT d) f) e k = val f e k.
Proof. intros d f e k H. rewrite (val_1 f) by assumption. reflexivity. Qed.

(** ** Inversion of isinstance tests *)

Lemma as_zero_S : forall f d, as_zero f = Some d -> f = Zero d.
Proof. destruct f; simpl; congruence. Qed.
Lemma as_int_S : forall f d, as_int f = Some d -> f = Int d.
Proof. destruct f; simpl; congruence. Qed.
Lemma as_rat_S : forall f p q, as_rat f = Some (p, q) -> f = Rat p q.
Proof. destruct f; simpl; congruence. Qed.
Lemma as_mult_S : forall f p q, as_mult f = Some (p, q) -> f = Bin BMult p q.
Proof. destruct f; simpl; try congruence. destruct b; congruence. Qed.
Lemma as_add_S : forall f p q, as_add f = Some (p, q) -> f = Bin BAdd p q.
Proof. destruct f; simpl; try congruence. destruct b; congruence. Qed.
Lemma as_sub_S : forall f p q, as_sub f = Some (p, q) -> f = Bin BSub p q.
Proof. destruct f; simpl; try congruence. destruct b; congruence. Qed.
Lemma as_minus_S : forall f p, as_minus f = Some p -> f = Un UMinus p.
Proof. destruct f; simpl; try congruence. destruct u; congruence. Qed.
Lemma as_exp_S : forall f p, as_exp f = Some p -> f = Un UExp p.
Proof. destruct f; simpl; try congruence. destruct u; congruence. Qed.
Lemma as_sumT_S : forall f p d, as_sumT f = Some (p, d) -> f = Lin (LSumT d) p.
Proof. destruct f; simpl; try congruence. destruct l; congruence. Qed.

Lemma mk_ok : forall f h, mk f = Ok h -> h = f /\ node_ok f = true.
Proof. unfold mk; intros f h; destruct (node_ok f); intros H; inversion H; auto. Qed.

Lemma is_exp_S : forall f, is_exp f = true -> exists a, f = Un UExp a.
Proof.
  unfold is_exp; intros f. destruct (as_exp f) eqn:E; [|discriminate].
  apply as_exp_S in E; eauto.
Qed.

(** Equality of values transfers between broadcast dimensions. *)
Lemma vok_le : forall a b k, (a = b \/ a = 1) -> vok b k -> vok a k.
Proof. unfold vok; intros; lia. Qed.

(** ** Well-formedness *)

Lemma wf_exp : forall a, wf (Un UExp a) <-> wf a.
Proof. simpl; intuition. Qed.
Lemma wf_rat : forall p q, wf (Rat p q) <-> (0 < q)%Z.
Proof. intros p q; simpl. rewrite Z.ltb_lt. tauto. Qed.
Lemma wf_zero : forall d, wf (Zero d) <-> 1 <= d.
Proof. intros d; simpl. rewrite (Nat.leb_le 1 d). tauto. Qed.
Lemma wf_minus : forall a, wf (Un UMinus a) <-> wf a.
Proof. simpl; intuition. Qed.
Lemma wf_bin : forall b f g, wf (Bin b f g) <->
  (wf f /\ wf g /\ 1 <= dim f /\ 1 <= dim g /\ compat (dim f) (dim g)).
Proof.
  intros b f g; cbn [wf node_ok]; split.
  - intros (A & B & C). assert (P := dim_pos _ B). assert (P' := dim_pos _ C).
    apply vcompat2_spec in A; auto.
  - intros (A & B & C & D & E). split; auto. apply vcompat2_spec; auto.
Qed.
Lemma wf_sumT : forall d f, wf (Lin (LSumT d) f) <-> (wf f /\ dim f = 1 /\ 1 <= d).
Proof.
  intros d f; cbn [wf node_ok]. rewrite andb_true_iff, Nat.eqb_eq, (Nat.leb_le 1 d). tauto.
Qed.
Lemma wf_int : forall z, wf (Int z).
Proof. simpl; auto. Qed.

Lemma IntCst_wf : forall z, wf (IntCst z).
Proof. intros z; unfold IntCst; destruct (z =? 0)%Z; simpl; auto. Qed.
Lemma IntCst_dim : forall z, dim (IntCst z) = 1.
Proof. intros z; unfold IntCst; destruct (z =? 0)%Z; simpl; auto. Qed.
Lemma IntCst_val : forall z e k, val (IntCst z) e k = IZR z.
Proof.
  intros z e k; unfold IntCst; destruct (Z.eqb_spec z 0); subst; reflexivity.
Qed.

(** ** Finite sums *)

Lemma rsum_ext : forall n u v, (forall k, k < n -> u k = v k) -> rsum n u = rsum n v.
Proof.
  induction n; simpl; intros u v H; auto. rewrite (IHn u v), H; auto with arith.
Qed.
Lemma rsum_scal : forall n c u, rsum n (fun k => c * u k)%R = (c * rsum n u)%R.
Proof. induction n; simpl; intros; [ring|rewrite IHn; ring]. Qed.
Lemma rsum_scal_r : forall n c u, rsum n (fun k => u k * c)%R = (rsum n u * c)%R.
Proof. induction n; simpl; intros; [ring|rewrite IHn; ring]. Qed.
Lemma rsum_plus : forall n u v, rsum n (fun k => u k + v k)%R = (rsum n u + rsum n v)%R.
Proof. induction n; simpl; intros; [ring|rewrite IHn; ring]. Qed.
Lemma rsum_opp : forall n u, rsum n (fun k => - u k)%R = (- rsum n u)%R.
Proof. induction n; simpl; intros; [ring|rewrite IHn; ring]. Qed.
Lemma rsum_zero : forall n, rsum n (fun _ => 0%R) = 0%R.
Proof. induction n; simpl; intros; [ring|rewrite IHn; ring]. Qed.
Lemma rsum_0 : forall n u, (forall k, k < n -> u k = 0%R) -> rsum n u = 0%R.
Proof. intros n u H. rewrite (rsum_ext n u (fun _ => 0%R)); auto using rsum_zero. Qed.
Lemma rsum_1 : forall u, rsum 1 u = u 0.
Proof. intros; simpl; ring. Qed.

(** ** Tactics *)

Ltac inv_as :=
  repeat match goal with
  | H : as_zero _ = Some _ |- _ => apply as_zero_S in H; subst
  | H : as_int _ = Some _ |- _ => apply as_int_S in H; subst
  | H : as_rat _ = Some (_, _) |- _ => apply as_rat_S in H; subst
  | H : as_mult _ = Some (_, _) |- _ => apply as_mult_S in H; subst
  | H : as_add _ = Some (_, _) |- _ => apply as_add_S in H; subst
  | H : as_sub _ = Some (_, _) |- _ => apply as_sub_S in H; subst
  | H : as_minus _ = Some _ |- _ => apply as_minus_S in H; subst
  | H : as_exp _ = Some _ |- _ => apply as_exp_S in H; subst
  | H : as_sumT _ = Some (_, _) |- _ => apply as_sumT_S in H; subst
  | H : (_ =? _)%Z = true |- _ => apply Z.eqb_eq in H; subst
  | H : (_ =? _) = true |- _ => apply Nat.eqb_eq in H
  | H : negb (_ =? _) = false |- _ => apply negb_false_iff in H
  | H : feqb _ _ = true |- _ => apply feqb_eq in H; subst
  | H : is_exp _ = true |- _ => apply is_exp_S in H; destruct H as [? ->]
  end.

(** One step of the case analysis on a rule list. *)
Ltac red_as H :=
  cbn [as_zero as_int as_rat as_mult as_add as_sub as_minus as_exp as_sumT
       is_int is_rat orelse on on' when when'] in H.

Ltac pick H o :=
  let E := fresh "E" in
  destruct o eqn:E; red_as H;
  [ repeat match goal with p : (_ * _)%type |- _ => destruct p end; inv_as; red_as H | ].

Ltac step H :=
  red_as H;
  lazymatch type of H with
  | orelse (on ?o _) _ = Ok _ => pick H o
  | orelse (on' ?o _) _ = Ok _ => pick H o
  | orelse (when ?c _) _ = Ok _ => pick H c
  | (if ?c then _ else _) = Ok _ => pick H c
  | orelse (when' ?c _ _) _ = Ok _ => pick H c
  end.

Ltac steps H := repeat (step H).

Ltac bind_inv :=
  repeat match goal with
  | H : rbind _ _ = Ok _ |- _ =>
      apply rbind_ok in H; let x := fresh "x" in destruct H as (x & ? & H)
  end.

Ltac wfs :=
  repeat match goal with
  | H : wf (Un UExp _) |- _ => rewrite wf_exp in H
  | H : wf (Un UMinus _) |- _ => rewrite wf_minus in H
  | H : wf (Rat _ _) |- _ => rewrite wf_rat in H
  | H : wf (Zero _) |- _ => rewrite wf_zero in H
  | H : wf (Bin _ _ _) |- _ => rewrite wf_bin in H; destruct H as (? & ? & ? & ? & ?)
  | H : wf (Lin (LSumT _) _) |- _ => rewrite wf_sumT in H; destruct H as (? & ? & ?)
  | H : wf (Int _) |- _ => clear H
  end.

Ltac dims := unfold vok, compat in *; cbn [dim] in *; rewrite ?IntCst_dim in *; lia.

Ltac wf_goal :=
  lazymatch goal with
  | |- wf (IntCst _) => apply IntCst_wf
  | |- wf (Int _) => apply wf_int
  | |- wf (Un UExp _) => apply wf_exp; wf_goal
  | |- wf (Un UMinus _) => apply wf_minus; wf_goal
  | |- wf (Rat _ _) => apply wf_rat; assumption
  | |- wf (Zero _) => apply wf_zero; first [assumption|dims]
  | |- wf (Bin _ _ _) => apply wf_bin; split; [wf_goal|split;[wf_goal|repeat split; first [assumption|dims]]]
  | |- wf (Lin (LSumT _) _) => apply wf_sumT; split; [wf_goal|split; first [assumption|dims]]
  | |- wf _ => assumption
  end.

Ltac vals :=
  repeat first
  [ rewrite val_zero in * | rewrite val_int in * | rewrite val_rat in *
  | rewrite IntCst_val in * | rewrite val_un in *
  | rewrite val_bin in * by (first [assumption|dims])
  | rewrite val_sumT in * by assumption ];
  cbn [unR binR] in *.

Ltac izr := rewrite ?opp_IZR, ?plus_IZR, ?minus_IZR, ?mult_IZR in *.

Ltac ok_inv :=
  repeat match goal with
  | H : Ok _ = Ok _ |- _ => injection H as H; subst
  | H : mk _ = Ok _ |- _ => apply mk_ok in H; destruct H as [-> H]
  end.


Ltac qnz :=
  repeat match goal with
  | H : (0 < ?q)%Z |- _ =>
     let A := fresh in assert (A : IZR q <> 0%R) by (apply not_0_IZR; lia); revert H
  end; intros.

Ltac val_fin :=
  vals; izr;
  repeat match goal with A : val ?x _ _ = _ |- context [val ?x _ _] => rewrite A end;
  vals; izr;
  rewrite ?exp_plus;
  first [ reflexivity | assumption | ring | (qnz; field; repeat split; assumption) | idtac ].

(** The rules only rearrange additions, multiplications and exponentials, so they preserve
    [inside D] for every D that does not restrict these. *)
Definition arith_ok (D : doms) : Prop :=
  (forall x, dun D UMinus x) /\ (forall x, dun D USquare x) /\ (forall x, dun D UExp x) /\
  (forall x y, dbin D BAdd x y) /\ (forall x y, dbin D BSub x y) /\
  (forall x y, dbin D BMult x y) /\ (forall x y, y <> 0%R -> dbin D BDiv x y) /\
  (forall m x, (0 <= m)%Z \/ x <> 0%R -> dun D (UPow m) x).

Lemma safe_arith_ok : arith_ok safe_doms.
Proof. repeat split; simpl; auto. Qed.

Section Sound.
Variable dd : doms.
Hypothesis HD : arith_ok dd.
Notation safe := (inside dd).

Ltac arith := destruct HD as (? & ? & ? & ? & ? & ? & ? & ?); auto.

(** Specification used in the inductions. *)
Definition sound1 (op : R -> R) (f h : fm) : Prop :=
  wf f -> wf h /\ dim h = dim f /\
  forall e, safe e f -> safe e h /\ forall k, vok (dim h) k -> val h e k = op (val f e k).

Definition sound2 (op : R -> R -> R) (f g h : fm) : Prop :=
  wf f -> wf g -> wf h /\ compat (dim f) (dim g) /\ dim h = max (dim f) (dim g) /\
  forall e, safe e f -> safe e g ->
    safe e h /\ forall k, vok (dim h) k -> val h e k = op (val f e k) (val g e k).

(** ** Non-recursive constructors *)

Lemma IntCst_safe : forall z e, safe e (IntCst z).
Proof. intros z e; unfold IntCst; destruct (z =? 0)%Z; simpl; auto. Qed.

Lemma RatCst_ok : forall a b h, RatCst a b = Ok h ->
  b <> 0%Z /\ wf h /\ dim h = 1 /\ forall e, safe e h /\ forall k, val h e k = (IZR a / IZR b)%R.
Proof.
  intros a b h. unfold RatCst.
  destruct (Z.eqb_spec b 0) as [|Hb]; [discriminate|].
  set (g := Z.gcd a b).
  assert (Hg : (0 < g)%Z).
  { assert (0 <= g)%Z by apply Z.gcd_nonneg.
    assert (g <> 0)%Z; [|lia]. intro E. apply Z.gcd_eq_0_r in E. lia. }
  destruct (Z.gcd_divide_l a b) as [a' Ha]. destruct (Z.gcd_divide_r a b) as [b' Hb'].
  fold g in Ha, Hb'.
  assert (Da : (a / g = a')%Z) by (rewrite Ha; apply Z.div_mul; lia).
  assert (Db : (b / g = b')%Z) by (rewrite Hb' at 1; apply Z.div_mul; lia).
  rewrite Da, Db.
  assert (Hb0 : b' <> 0%Z) by (intro; subst b'; lia).
  assert (HbR : IZR b <> 0%R) by (apply not_0_IZR; auto).
  assert (Hb'R : IZR b' <> 0%R) by (apply not_0_IZR; auto).
  assert (HgR : IZR g <> 0%R) by (apply not_0_IZR; lia).
  assert (V : (IZR a / IZR b = IZR a' / IZR b')%R).
  { rewrite Ha, Hb' at 1. rewrite !mult_IZR. field. split; auto. }
  set (p := if (b <? 0)%Z then (- a')%Z else a').
  set (q := if (b <? 0)%Z then (- b')%Z else b').
  assert (V2 : (IZR a' / IZR b' = IZR p / IZR q)%R).
  { unfold p, q. destruct (b <? 0)%Z; auto. rewrite !opp_IZR. field. auto. }
  assert (Hq : (0 < q)%Z).
  { unfold q. destruct (Z.ltb_spec b 0); nia. }
  rewrite V, V2. clearbody p q. clear - Hq Hb.
  destruct (Z.eqb_spec p 0).
  { intros H; inversion H; subst. repeat split; simpl; auto.
    intros k. rewrite val_zero. field. apply not_0_IZR; lia. }
  destruct (Z.eqb_spec q 1).
  { intros H; inversion H; subst. repeat split; auto using IntCst_wf, IntCst_dim, IntCst_safe.
    intros k; rewrite IntCst_val. field. }
  intros H; inversion H; subst. apply Z.ltb_lt in Hq. repeat split; auto.
Qed.

Lemma SumT_ok : forall f d h, SumT f d = Ok h -> wf f ->
  1 <= d /\ dim f = 1 /\ wf h /\ dim h = d /\
  forall e, safe e f -> safe e h /\ forall k, val h e k = val f e k.
Proof.
  intros f d h. unfold SumT.
  destruct (Nat.eqb_spec (dim f) 1) as [D|D]; simpl; [|discriminate].
  destruct (as_zero f) eqn:E; simpl.
  - apply as_zero_S in E; subst f. intros H Hf. apply mk_ok in H. destruct H as [-> N].
    cbn [node_ok] in N. assert (1 <= d) by (apply Nat.leb_le; exact N).
    repeat split; auto.
  - intros H Hf. apply mk_ok in H. destruct H as [-> N].
    assert (1 <= d). { cbn [node_ok] in N. rewrite andb_true_iff, Nat.leb_le in N. tauto. }
    repeat split; auto.
    intros k. apply val_sumT; auto.
Qed.

Lemma Broadcast_ok : forall f d h, Broadcast f d = Ok h -> wf f -> 1 <= d ->
  compat (dim f) d /\ wf h /\ dim h = max (dim f) d /\
  forall e, safe e f -> safe e h /\ forall k, val h e k = val f e k.
Proof.
  intros f d h. unfold Broadcast, compat. intros H Hf Hd.
  assert (P := dim_pos _ Hf).
  destruct (Nat.eqb_spec (dim f) d); simpl in H.
  { inversion H; subst h. subst d. repeat split; auto; lia. }
  destruct (Nat.eqb_spec d 1); simpl in H.
  { inversion H; subst h. subst d. repeat split; auto; lia. }
  destruct (Nat.eqb_spec (dim f) 1); [|discriminate].
  apply SumT_ok in H; auto. destruct H as (H1 & H2 & H3 & H4 & H5).
  repeat split; auto; try lia; apply H5; auto.
Qed.

Lemma Square_ok : forall f h, Square f = Ok h -> sound1 (fun x => x * x)%R f h.
Proof.
  intros f h. unfold Square. destruct (as_zero f) eqn:E; simpl.
  - apply as_zero_S in E; subst f. intros H Hf; inversion H; subst h.
    repeat split; auto. apply (wf_node _ Hf). intros. rewrite val_zero. ring.
  - intros H; apply mk_ok in H. destruct H as [-> _]. intros Hf.
    repeat split; auto. intros k K. arith.
Qed.

Lemma Exp_ok : forall f h, Exp f = Ok h -> h = Un UExp f.
Proof. intros f h H. apply mk_ok in H. tauto. Qed.

Lemma un_sound : forall u f, (forall x, dun dd u x) -> sound1 (unR u) f (Un u f).
Proof. intros u f D Hf. repeat split; auto. Qed.

Lemma bin_sound : forall b f g h, (forall x y, dbin dd b x y) ->
  mk (Bin b f g) = Ok h -> sound2 (binR b) f g h.
Proof.
  intros b f g h D H Hf Hg. apply mk_ok in H. destruct H as [-> N].
  assert (Pf := dim_pos _ Hf). assert (Pg := dim_pos _ Hg).
  assert (C : compat (dim f) (dim g)) by (apply vcompat2_spec; auto).
  repeat split; auto.
  intros k _. apply val_bin; auto.
Qed.

(** ** The four mutually recursive functions *)

Record soundR (rc : recs) : Prop := {
  sr_minus : forall f h, rminus rc f = Ok h -> sound1 Ropp f h;
  sr_add : forall f g h, radd rc f g = Ok h -> sound2 Rplus f g h;
  sr_sub : forall f g h, rsub rc f g = Ok h -> sound2 Rminus f g h;
  sr_mult : forall f g h, rmult rc f g = Ok h -> sound2 Rmult f g h
}.

Lemma sound1_use : forall op f h, sound1 op f h -> wf f ->
  wf h /\ 1 <= dim h /\ dim h = dim f /\
  forall e, safe e f -> safe e h /\ forall k, vok (dim h) k -> val h e k = op (val f e k).
Proof. intros op f h H Hf. destruct (H Hf) as (A & B & C). auto using dim_pos. Qed.

Lemma sound2_use : forall op f g h, sound2 op f g h -> wf f -> wf g ->
  wf h /\ 1 <= dim h /\ compat (dim f) (dim g) /\ dim h = max (dim f) (dim g) /\
  forall e, safe e f -> safe e g ->
    safe e h /\ forall k, vok (dim h) k -> val h e k = op (val f e k) (val g e k).
Proof. intros op f g h H Hf Hg. destruct (H Hf Hg) as (A & B & C & D). auto using dim_pos. Qed.

Lemma safe_exp : forall e a, safe e (Un UExp a) <-> safe e a.
Proof. simpl; intuition arith. Qed.
Lemma safe_minus : forall e a, safe e (Un UMinus a) <-> safe e a.
Proof. simpl; intuition arith. Qed.
Lemma safe_bin : forall e b f g, (forall x y, dbin dd b x y) ->
  (safe e (Bin b f g) <-> safe e f /\ safe e g).
Proof. simpl; intuition. Qed.
Ltac forward1 :=
  match goal with
  | H : sound2 _ _ _ _ |- _ =>
      eapply sound2_use in H; [|wf_goal|wf_goal];
      let V := fresh "V" in destruct H as (? & ? & ? & ? & V)
  | H : sound1 _ _ _ |- _ =>
      eapply sound1_use in H; [|wf_goal];
      let V := fresh "V" in destruct H as (? & ? & ? & V)
  | H : RatCst _ _ = Ok _ |- _ =>
      apply RatCst_ok in H; let V := fresh "V" in destruct H as (? & ? & ? & V)
  | H : Broadcast ?f ?d = Ok _ |- _ =>
      apply Broadcast_ok in H; [|wf_goal|first [assumption|apply dim_pos; wf_goal]];
      let V := fresh "V" in destruct H as (? & ? & ? & V)
  | H : SumT ?f ?d = Ok _ |- _ =>
      apply SumT_ok in H; [|wf_goal];
      let V := fresh "V" in destruct H as (? & ? & ? & ? & V)
  | H : Exp _ = Ok _ |- _ => apply Exp_ok in H; subst
  | H : Square _ = Ok _ |- _ => apply Square_ok in H
  end.

Ltac safe_goal :=
  lazymatch goal with
  | |- safe _ (IntCst _) => apply IntCst_safe
  | |- safe _ (Int _) => exact I
  | |- safe _ (Rat _ _) => exact I
  | |- safe _ (Zero _) => exact I
  | |- safe _ (Un UExp _) => apply safe_exp; safe_goal
  | |- safe _ (Un UMinus _) => apply safe_minus; safe_goal
  | |- safe _ (Bin _ _ _) => apply safe_bin; [arith|split; safe_goal]
  | |- safe ?e (Lin (LSumT ?d) ?f) => change (safe e f); safe_goal
  | |- safe _ _ => assumption
  end.

Ltac safes :=
  repeat match goal with
  | H : safe _ (Un UExp _) |- _ => rewrite safe_exp in H
  | H : safe _ (Un UMinus _) |- _ => rewrite safe_minus in H
  | H : safe _ (Bin _ _ _) |- _ => rewrite safe_bin in H by arith; destruct H as (? & ?)
  | H : safe _ (Lin (LSumT _) _) |- _ => cbn [inside] in H
  end.

Ltac use_e e :=
  repeat match goal with
  | V : forall e0 : env, safe e0 _ -> safe e0 _ -> _ |- _ =>
      specialize (V e); let A := fresh in
      assert (A := V ltac:(safe_goal) ltac:(safe_goal)); clear V;
      let W := fresh "W" in destruct A as [? W]
  | V : forall e0 : env, safe e0 _ -> _ |- _ =>
      specialize (V e); let A := fresh in
      assert (A := V ltac:(safe_goal)); clear V;
      let W := fresh "W" in destruct A as [? W]
  | V : forall e0 : env, safe e0 _ /\ _ |- _ =>
      specialize (V e); let W := fresh "W" in destruct V as [? W]
  end.

Ltac use_k k :=
  repeat match goal with
  | W : forall k0 : nat, vok _ k0 -> _ |- _ =>
      specialize (W k); let A := fresh in
      assert (A := W ltac:(dims)); clear W
  | W : forall k0 : nat, val _ _ _ = _ |- _ => specialize (W k)
  end.

Ltac use_rec R :=
  repeat match goal with
  | H : rminus _ _ = Ok _ |- _ => apply (sr_minus _ R) in H
  | H : radd _ _ _ = Ok _ |- _ => apply (sr_add _ R) in H
  | H : rsub _ _ _ = Ok _ |- _ => apply (sr_sub _ R) in H
  | H : rmult _ _ _ = Ok _ |- _ => apply (sr_mult _ R) in H
  end.

Ltac fin :=
  split; [wf_goal|];
  repeat match goal with
  | |- _ /\ _ => split; [dims|]
  end;
  (let e := fresh "e" in intros e; intros; safes; use_e e; split;
     [safe_goal | let k := fresh "k" in let K := fresh "K" in intros k K; use_k k; val_fin]).

Ltac body R H :=
  steps H;
  bind_inv; inv_as; ok_inv; use_rec R; wfs; repeat forward1.

Lemma minus_sound : forall rc, soundR rc ->
  forall f h, minus_body rc f = Ok h -> sound1 Ropp f h.
Proof.
  intros rc R f h H Wf. assert (Pf := dim_pos _ Wf).
  unfold minus_body in H. body R H; fin.
Qed.


Ltac body2 R H :=
  steps H; try discriminate; bind_inv; inv_as;
  try (apply bin_sound in H; [solve [apply H; assumption] | arith]);
  ok_inv; use_rec R; wfs; repeat forward1.

Lemma add_sound : forall rc, soundR rc ->
  forall f g h, add_body rc f g = Ok h -> sound2 Rplus f g h.
Proof.
  intros rc R f g h H Wf Wg. assert (Pf := dim_pos _ Wf). assert (Pg := dim_pos _ Wg).
  unfold add_body in H. body2 R H; fin.
Qed.

Lemma sub_sound : forall rc, soundR rc ->
  forall f g h, sub_body rc f g = Ok h -> sound2 Rminus f g h.
Proof.
  intros rc R f g h H Wf Wg. assert (Pf := dim_pos _ Wf). assert (Pg := dim_pos _ Wg).
  unfold sub_body in H. body2 R H; fin.
Qed.

Lemma mult_sound : forall rc, soundR rc ->
  forall f g h, mult_body rc f g = Ok h -> sound2 Rmult f g h.
Proof.
  intros rc R f g h H Wf Wg. assert (Pf := dim_pos _ Wf). assert (Pg := dim_pos _ Wg).
  unfold mult_body in H. body2 R H;
  try match goal with E : Bin _ _ _ = Bin _ _ _ |- _ => injection E as ? ?; subst end; fin.
Qed.

Lemma calls_sound : forall n, soundR (calls n).
Proof.
  induction n as [|n IH].
  - split; simpl; discriminate.
  - split; simpl.
    + apply minus_sound; auto.
    + apply add_sound; auto.
    + apply sub_sound; auto.
    + apply mult_sound; auto.
Qed.

Lemma Minus_ok : forall f h, Minus f = Ok h -> sound1 Ropp f h.
Proof. intros; eapply sr_minus; eauto using calls_sound. Qed.
Lemma Add_ok : forall f g h, Add f g = Ok h -> sound2 Rplus f g h.
Proof. intros; eapply sr_add; eauto using calls_sound. Qed.
Lemma Subtract_ok : forall f g h, Subtract f g = Ok h -> sound2 Rminus f g h.
Proof. intros; eapply sr_sub; eauto using calls_sound. Qed.
Lemma Mult_ok : forall f g h, Mult f g = Ok h -> sound2 Rmult f g h.
Proof. intros; eapply sr_mult; eauto using calls_sound. Qed.

(** ** Divide *)

Lemma Divide_ok : forall f g h, Divide f g = Ok h -> wf f -> wf g ->
  wf h /\ compat (dim f) (dim g) /\ dim h = max (dim f) (dim g) /\
  forall e, safe e f -> safe e g ->
    (forall k, k < dim h -> val g e k <> 0%R) ->
    safe e h /\ forall k, vok (dim h) k -> val h e k = (val f e k / val g e k)%R.
Proof.
  intros f g h H Wf Wg. assert (Pf := dim_pos _ Wf). assert (Pg := dim_pos _ Wg).
  unfold Divide in H. steps H; try discriminate; bind_inv; inv_as.
  - apply Broadcast_ok in H; auto. destruct H as (A & B & C & D).
    repeat split; auto; intros; destruct (D e I) as [D0 D']; auto.
    rewrite D'. rewrite val_zero. unfold Rdiv; ring.
  - apply RatCst_ok in H0. destruct H0 as (A & B & C & D).
    apply Mult_ok in H. destruct (H B Wf) as (X & Y & Z & T).
    split; [auto|]. split; [dims|]. split; [dims|]. intros e Sf _ _.
    destruct (D e) as [S1 D']. destruct (T e S1 Sf) as [S2 V]. split; auto.
    intros k K. rewrite V, D', val_int by auto. field. apply not_0_IZR; auto.
  - apply RatCst_ok in H0. destruct H0 as (A & B & C & D).
    apply Mult_ok in H. destruct (H B Wf) as (X & Y & Z & T).
    rewrite wf_rat in Wg.
    split; [auto|]. split; [dims|]. split; [dims|]. intros e Sf _ _.
    destruct (D e) as [S1 D']. destruct (T e S1 Sf) as [S2 V]. split; auto.
    intros k K. rewrite V, D', val_rat by auto. field. split; apply not_0_IZR; lia.
  - apply mk_ok in H. destruct H as [-> N]. cbn [node_ok] in N.
    apply vcompat2_spec in N; auto.
    split; [apply wf_bin; auto|]. split; auto. split; auto.
    intros e Sf Sg NZ. split.
    + assert (HDiv : forall x y, y <> 0%R -> dbin dd BDiv x y) by arith.
      cbn [inside]. split; [auto|]. split; [auto|]. intros k K. apply HDiv. apply NZ. exact K.
    + intros k K. rewrite val_bin; auto.
Qed.

(** ** Sum and Scalprod *)

Definition soundSum (f h : fm) : Prop :=
  wf f -> wf h /\ dim h = 1 /\
  forall e, safe e f -> safe e h /\ eval h e 0 = rsum (dim f) (eval f e).

Definition soundScal (f g h : fm) : Prop :=
  wf f -> wf g -> wf h /\ compat (dim f) (dim g) /\ dim h = 1 /\
  forall e, safe e f -> safe e g -> safe e h /\
    eval h e 0 = rsum (max (dim f) (dim g)) (fun k => val f e k * val g e k)%R.

Lemma mult_scalar : forall a s h, Mult a s = Ok h -> wf a -> wf s ->
  dim a = 1 -> dim s = 1 ->
  wf h /\ dim h = 1 /\ forall e, safe e a -> safe e s ->
    safe e h /\ eval h e 0 = (eval a e 0 * eval s e 0)%R.
Proof.
  intros a s h H Wa Ws Da Ds. apply Mult_ok in H. destruct (H Wa Ws) as (X & Y & Z & T).
  rewrite Da, Ds in Z. simpl in Z. repeat split; auto.
  - apply T; auto.
  - destruct (T e H0 H1) as [_ V]. specialize (V 0). rewrite !val_1 in V by auto.
    apply V. unfold vok; lia.
Qed.

Lemma soundScal_sym : forall f g h, soundScal f g h -> soundScal g f h.
Proof.
  intros f g h H Wg Wf. destruct (H Wf Wg) as (A & B & C & D).
  split; [auto|]. split; [dims|]. split; [auto|]. intros e Sg Sf.
  destruct (D e Sf Sg) as [S V]. split; auto. rewrite V, Nat.max_comm.
  apply rsum_ext; intros; ring.
Qed.

Lemma scal_u : forall a b g s h, dim a = 1 -> soundScal b g s -> Mult a s = Ok h ->
  soundScal (Bin BMult a b) g h.
Proof.
  intros a b g s h Du H0 H Wf Wg. assert (Pg := dim_pos _ Wg).
  apply wf_bin in Wf. destruct Wf as (Wa & Wb & Pa & Pb & C).
  destruct (H0 Wb Wg) as (Ws & C' & Ds & Ts).
  apply mult_scalar in H; auto. destruct H as (Wh & Dh & Th).
  split; [auto|]. split; [dims|]. split; [auto|]. intros e S Sg.
  apply safe_bin in S as [Sa Sb]; [|arith].
  destruct (Ts e Sb Sg) as [Ss Vs]; destruct (Th e Sa Ss) as [Sh Vh]; split; auto.
  rewrite Vh, Vs, <- rsum_scal.
  replace (max (dim (Bin BMult a b)) (dim g)) with (max (dim b) (dim g)) by dims.
  apply rsum_ext; intros k K. rewrite val_bin, (val_1 a) by auto. cbn [binR]. ring.
Qed.

Lemma scal_v : forall a b g s h, dim b = 1 -> soundScal a g s -> Mult b s = Ok h ->
  soundScal (Bin BMult a b) g h.
Proof.
  intros a b g s h Du H0 H Wf Wg. assert (Pg := dim_pos _ Wg).
  apply wf_bin in Wf. destruct Wf as (Wa & Wb & Pa & Pb & C).
  destruct (H0 Wa Wg) as (Ws & C' & Ds & Ts).
  apply mult_scalar in H; auto. destruct H as (Wh & Dh & Th).
  split; [auto|]. split; [dims|]. split; [auto|]. intros e S Sg.
  apply safe_bin in S as [Sa Sb]; [|arith].
  destruct (Ts e Sa Sg) as [Ss Vs]; destruct (Th e Sb Ss) as [Sh Vh]; split; auto.
  rewrite Vh, Vs, <- rsum_scal.
  replace (max (dim (Bin BMult a b)) (dim g)) with (max (dim a) (dim g)) by dims.
  apply rsum_ext; intros k K. rewrite val_bin, (val_1 b) by auto. cbn [binR]. ring.
Qed.

Lemma scal_impl : forall f g, dim f = dim g -> soundScal f g (Bil KScal f g).
Proof.
  intros f g H Wf Wg. 
  split; [cbn [wf node_ok]; rewrite H, Nat.eqb_refl; auto|].
  split; [dims|]. split; [auto|]. intros e Sf Sg. split; [simpl; auto|].
  cbn [eval bilR]. rewrite <- H, Nat.max_id. apply rsum_ext; intros k K.
  rewrite !val_lt by lia. auto.
Qed.

Ltac scal_close IP :=
  try match goal with H0 : _ = Ok ?x, H : Mult _ ?x = Ok _ |- _ => apply IP in H0 end;
  first
  [ eapply scal_u; eassumption
  | eapply scal_v; eassumption
  | apply soundScal_sym; [eapply scal_u; eassumption | assumption | assumption]
  | apply soundScal_sym; [eapply scal_v; eassumption | assumption | assumption]
  | match goal with H : node_ok _ = true |- _ =>
      cbn [node_ok] in H; apply Nat.eqb_eq in H; eapply scal_impl; eassumption end ].

Lemma sum_calls_sound : forall n,
  (forall f h, fst (sum_calls n) f = Ok h -> soundSum f h) /\
  (forall f g h, snd (sum_calls n) f g = Ok h -> soundScal f g h).
Proof.
  induction n as [|n IH]; [split; simpl; discriminate|].
  cbn [sum_calls]. destruct (sum_calls n) as [rs rp]. destruct IH as [IS IP].
  cbn [fst snd] in *. split.
  - intros f h H Wf. assert (Pf := dim_pos _ Wf). unfold Sum_body in H.
    steps H; bind_inv; inv_as; ok_inv.
    + rewrite E. repeat split; auto. rewrite rsum_1. reflexivity.
    + repeat split; auto. simpl. rewrite rsum_0; auto.
    + apply wf_bin in Wf. destruct Wf as (Wa & Wb & Pa & Pb & C).
      apply IS in H0. destruct (H0 Wb) as (Ws & Ds & Ts).
      apply mult_scalar in H; auto. destruct H as (Wh & Dh & Th).
      split; [auto|]. split; [auto|]. intros e S. apply safe_bin in S as [Sa Sb]; [|arith].
      destruct (Ts e Sb) as [Ss Vs]; destruct (Th e Sa Ss) as [Sh Vh]; split; auto.
      rewrite Vh, Vs. rewrite <- rsum_scal.
      replace (dim (Bin BMult f0 f1)) with (dim f1) by dims.
      apply rsum_ext; intros k K.
      change ((eval f0 e 0 * eval f1 e k)%R = (val f0 e k * val f1 e k)%R).
      rewrite (val_1 f0), val_lt; auto.
    + apply wf_bin in Wf. destruct Wf as (Wa & Wb & Pa & Pb & C).
      apply IS in H0. destruct (H0 Wa) as (Ws & Ds & Ts).
      apply mult_scalar in H; auto. destruct H as (Wh & Dh & Th).
      split; [auto|]. split; [auto|]. intros e S. apply safe_bin in S as [Sa Sb]; [|arith].
      destruct (Ts e Sa) as [Ss Vs]; destruct (Th e Ss Sb) as [Sh Vh]; split; auto.
      rewrite Vh, Vs. rewrite <- rsum_scal_r.
      replace (dim (Bin BMult f0 f1)) with (dim f0) by dims.
      apply rsum_ext; intros k K.
      change ((eval f0 e k * eval f1 e 0)%R = (val f0 e k * val f1 e k)%R).
      rewrite (val_1 f1), val_lt; auto.
    + apply wf_bin in Wf. destruct Wf as (Wa & Wb & Pa & Pb & C).
      apply IP in H. destruct (H Wa Wb) as (Wh & C' & Dh & Th).
      split; [auto|]. split; [auto|]. intros e S. apply safe_bin in S as [Sa Sb]; [|arith].
      destruct (Th e Sa Sb) as [Sh Vh]; auto.
    + repeat split; auto.
  - intros f g h H Wf Wg. assert (Pf := dim_pos _ Wf). assert (Pg := dim_pos _ Wg).
    unfold Scalprod_body in H.
    steps H; bind_inv; inv_as; ok_inv.
    + apply IS in H0. destruct (H0 Wg) as (Ws & Ds & Ts).
      apply mult_scalar in H; auto. destruct H as (Wh & Dh & Th).
      split; [auto|]. split; [dims|]. split; [auto|]. intros e Sf Sg.
      destruct (Ts e Sg) as [Ss Vs]; destruct (Th e Sf Ss) as [Sh Vh]; split; auto.
      rewrite Vh, Vs. rewrite <- rsum_scal. replace (max (dim f) (dim g)) with (dim g) by dims.
      apply rsum_ext; intros k K. rewrite (val_1 f), val_lt; auto.
    + apply IS in H0. destruct (H0 Wf) as (Ws & Ds & Ts).
      apply mult_scalar in H; auto. destruct H as (Wh & Dh & Th).
      split; [auto|]. split; [dims|]. split; [auto|]. intros e Sf Sg.
      destruct (Ts e Sf) as [Ss Vs]; destruct (Th e Ss Sg) as [Sh Vh]; split; auto.
      rewrite Vh, Vs. rewrite <- rsum_scal_r. replace (max (dim f) (dim g)) with (dim f) by dims.
      apply rsum_ext; intros k K. rewrite (val_1 g), val_lt; auto.
    + apply Square_ok in H0. destruct (H0 Wf) as (Wx & Dx & Tx).
      apply IS in H. destruct (H Wx) as (Ws & Ds & Ts).
      split; [auto|]. split; [dims|]. split; [auto|]. intros e Sf _.
      destruct (Tx e Sf) as [Sx Vx]. destruct (Ts e Sx) as [Ss Vs]. split; auto.
      rewrite Vs, Dx, Nat.max_id. apply rsum_ext; intros k K.
      rewrite <- Vx by dims. rewrite val_lt; auto. rewrite Dx; auto.
    + scal_close IP.
    + scal_close IP.
    + scal_close IP.
    + scal_close IP.
    + scal_close IP.
    + scal_close IP.
    + scal_close IP.
    + scal_close IP.
    + scal_close IP.
    + scal_close IP.
Qed.

Lemma Sum_ok : forall f h, Sum f = Ok h -> soundSum f h.
Proof. intros f h H. eapply sum_calls_sound; eauto. Qed.
Lemma Scalprod_ok : forall f g h, Scalprod f g = Ok h -> soundScal f g h.
Proof. intros f g h H. eapply sum_calls_sound; eauto. Qed.

Lemma Pow_ok : forall f m h, Pow f m = Ok h -> wf f ->
  wf h /\ dim h = dim f /\ forall e, safe e f ->
    (forall k, k < dim f -> (0 <= m)%Z \/ eval f e k <> 0%R) ->
    safe e h /\ forall k, val h e k = powerRZ (val f e k) m.
Proof.
  intros f m h H Wf. unfold Pow in H. destruct (Z.eqb_spec m 1).
  - inversion H; subst. repeat split; auto. intros k. simpl. ring.
  - apply mk_ok in H as [-> _]. repeat split; auto. intros k K. arith.
Qed.

End Sound.
