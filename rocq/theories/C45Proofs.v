(** Proofs for C45. *)

From Coq Require Import ZArith Reals List Bool String Arith Lia.
From Verif Require Import Result Formula Simplify Diff Loader XReal Reductions KernelSum KernelSumSpec
  CpuReduc CpuConvSpec GpuConv FinalChunks Folder Options OptionsSpec LoaderProofs C21Proofs.
Import ListNotations.
Local Open Scope nat_scope.

(** ** Gradients with respect to a variable that does not occur *)

Fixpoint absent (v f : fm) : Prop :=
  match f with
  | Var _ _ _ => f <> v
  | Zero _ | Int _ | Rat _ _ => True
  | Un _ g | Lin _ g | Sel _ g => absent v g
  | Bin _ g h | Bil _ g h | Cat g h => absent v g /\ absent v h
  | Ter _ g h k => absent v g /\ absent v h /\ absent v k
  end.

Lemma bind_ok : forall {A B} (r : res A) (k : A -> res B) b,
  rbind r k = Ok b -> exists a, r = Ok a /\ k a = Ok b.
Proof. intros A B [a| | |] k b; cbn; try discriminate. eauto. Qed.

Lemma mk_zero : forall d r, mk (Zero d) = Ok r -> r = Zero d.
Proof. intros d r. unfold mk. destruct node_ok; congruence. Qed.

Lemma minus_fuel : forall f, Minus f = minus_body (calls (16 * size f + 15)) f.
Proof.
  intros f. unfold Minus, fuel_for, minusF.
  replace (16 * size f + 16) with (S (16 * size f + 15)) by lia. reflexivity.
Qed.
Lemma add_fuel : forall f g, Add f g = add_body (calls (16 * (size f + size g) + 15)) f g.
Proof.
  intros f g. unfold Add, fuel_for, addF.
  replace (16 * (size f + size g) + 16) with (S (16 * (size f + size g) + 15)) by lia. reflexivity.
Qed.
Lemma sub_fuel : forall f g, Subtract f g = sub_body (calls (S (16 * (size f + size g) + 14))) f g.
Proof.
  intros f g. unfold Subtract, fuel_for, subF.
  replace (16 * (size f + size g) + 16) with (S (S (16 * (size f + size g) + 14))) by lia. reflexivity.
Qed.
Lemma mult_fuel : forall f g, Mult f g = mult_body (calls (16 * (size f + size g) + 15)) f g.
Proof.
  intros f g. unfold Mult, fuel_for, multF.
  replace (16 * (size f + size g) + 16) with (S (16 * (size f + size g) + 15)) by lia. reflexivity.
Qed.

Section absent.
Variable v : fm.
Hypothesis big : 2 <= dim v.

Lemma minus_zero : forall r, Minus (Zero (dim v)) = Ok r -> r = Zero (dim v).
Proof. intros r H. rewrite minus_fuel in H. unfold minus_body in H. cbn [as_zero on orelse] in H. congruence. Qed.

Lemma broadcast_same : forall d, Broadcast (Zero d) d = Ok (Zero d).
Proof. intros d. unfold Broadcast. cbn [dim]. now rewrite Nat.eqb_refl. Qed.

Lemma add_zeros : forall r, Add (Zero (dim v)) (Zero (dim v)) = Ok r -> r = Zero (dim v).
Proof.
  intros r H. rewrite add_fuel in H. unfold add_body in H.
  cbn [as_zero on orelse] in H. rewrite broadcast_same in H. congruence.
Qed.

Lemma add_zero_one : forall r, Add (IntCst 0) (Zero (dim v)) = Ok r -> r = Zero (dim v).
Proof.
  intros r H. change (IntCst 0) with (Zero 1) in H. rewrite add_fuel in H. unfold add_body in H.
  cbn [as_zero on orelse] in H. unfold Broadcast in H. cbn [dim Nat.eqb] in H. rewrite orb_true_r in H. congruence.
Qed.

Lemma sub_zeros : forall r, Subtract (Zero (dim v)) (Zero (dim v)) = Ok r -> r = Zero (dim v).
Proof.
  intros r H. rewrite sub_fuel in H. unfold sub_body in H.
  cbn [as_zero on orelse] in H. rewrite broadcast_same in H. cbn [rbind] in H.
  change (minus_body (calls (16 * (size (Zero (dim v)) + size (Zero (dim v))) + 14)) (Zero (dim v)) = Ok r) in H.
  unfold minus_body in H. cbn [as_zero on orelse] in H. congruence.
Qed.

Lemma mult_zero_left : forall h r, dim h = 1 -> Mult (Zero (dim v)) h = Ok r -> r = Zero (dim v).
Proof.
  intros h r D H. rewrite mult_fuel in H. unfold mult_body in H. cbn [as_zero on orelse] in H.
  unfold Broadcast in H. rewrite D, orb_true_r in H. congruence.
Qed.

Lemma mult_zero_right : forall g r, Mult g (Zero (dim v)) = Ok r -> r = Zero (dim v).
Proof.
  intros g r H. rewrite mult_fuel in H. unfold mult_body in H.
  destruct (as_zero g) as [d|] eqn:Z.
  - destruct g; try discriminate. cbn [as_zero on orelse] in H. unfold Broadcast, SumT in H. cbn [dim] in H.
    destruct (d0 =? dim v) eqn:E; cbn [orb] in H.
    + apply Nat.eqb_eq in E. congruence.
    + destruct (dim v =? 1) eqn:F; [apply Nat.eqb_eq in F; lia|].
      destruct (d0 =? 1) eqn:F'; [|discriminate]. cbn [negb as_zero on orelse] in H. now apply mk_zero.
  - cbn [as_zero on orelse] in H. unfold Broadcast, SumT in H. cbn [dim as_zero on orelse] in H.
    destruct (_ || _); [congruence|]. destruct (dim v =? 1) eqn:F; [apply Nat.eqb_eq in F; lia|discriminate].
Qed.

Lemma divide_zero : forall h r, dim h = 1 -> Divide (Zero (dim v)) h = Ok r -> r = Zero (dim v).
Proof.
  intros h r D H. unfold Divide in H. cbn [as_zero on orelse] in H. unfold Broadcast in H.
  rewrite D, orb_true_r in H. congruence.
Qed.

Ltac step :=
  match goal with
  | H : rbind _ _ = Ok _ |- _ => apply bind_ok in H; destruct H as (? & ? & H)
  | IH : forall f s r, plain f -> absent v f -> _ = Ok r -> r = _, H : DiffTn _ v ?f _ = Ok ?x |- _ =>
      apply IH in H; [subst x|tauto|tauto]
  | H : mk (Zero _) = Ok _ |- _ => apply mk_zero in H
  | H : Minus (Zero (dim v)) = Ok _ |- _ => apply minus_zero in H
  | H : Add (Zero (dim v)) (Zero (dim v)) = Ok _ |- _ => apply add_zeros in H
  | H : Subtract (Zero (dim v)) (Zero (dim v)) = Ok _ |- _ => apply sub_zeros in H
  | H : Add (IntCst 0) (Zero (dim v)) = Ok _ |- _ => apply add_zero_one in H
  | H : Mult _ (Zero (dim v)) = Ok _ |- _ => apply mult_zero_right in H
  | H : Mult (Zero (dim v)) _ = Ok _ |- _ => apply mult_zero_left in H; [|assumption]
  | H : Divide (Zero (dim v)) _ = Ok _ |- _ => apply divide_zero in H; [|assumption]
  | H : ?x = Zero _ |- _ => is_var x; subst x
  end.

Lemma square_dim : forall f g, Square f = Ok g -> dim g = dim f.
Proof.
  intros f g H. unfold Square in H. destruct (as_zero f); cbn in H; [congruence|].
  inversion H. reflexivity.
Qed.

Lemma absent_zero : forall n f s r, plain f -> absent v f -> DiffTn n v f s = Ok r -> r = Zero (dim v).
Proof.
  induction n as [|n IH]; intros f s r P A H; [discriminate|]. cbn [DiffTn] in H.
  assert (T : forall f df g r, plain f -> absent v f -> vecterm (DiffTn n v) f df g = Ok r ->
              r = Zero (dim v)).
  { intros f0 df g r0 P0 A0 H0. unfold vecterm in H0. destruct (dim df =? 1) eqn:E.
    - apply Nat.eqb_eq in E. now repeat step.
    - now repeat step. }
  destruct f as [i d c|d|z|p q|u f|b f g|t f g h|l f|b f g|f g|l f]; cbn [plain absent] in P, A.
  - cbn [diff_body] in H. destruct (feqb v (Var i d c)) eqn:E; [|now apply mk_zero].
    apply feqb_eq in E. now subst.
  - now apply mk_zero in H.
  - now apply mk_zero in H.
  - now apply mk_zero in H.
  - destruct u; cbn [diff_body unDer] in H;
      try (repeat step; reflexivity);
      do 2 step; try step;
      match goal with H : vecterm _ _ _ _ = Ok _ |- _ => apply T in H; [|assumption|assumption] end;
      repeat step; reflexivity.
  - destruct b; cbn [diff_body] in H.
    + destruct ((dim f =? 1) && (1 <? dim g)); [|destruct ((dim g =? 1) && (1 <? dim f))]; repeat step; reflexivity.
    + destruct ((dim f =? 1) && (1 <? dim g)); [|destruct ((dim g =? 1) && (1 <? dim f))]; repeat step; reflexivity.
    + destruct (as_exp g) eqn:X.
      * destruct (dim g =? 1) eqn:E.
        -- apply Nat.eqb_eq in E. destruct g as [| | | |u g| | | | | |]; try discriminate.
           destruct u; try discriminate. inversion X; subst. cbn [absent plain] in *.
           repeat step; reflexivity.
        -- destruct ((dim f =? 1) && (1 <? dim g)); repeat step; reflexivity.
      * destruct ((dim f =? 1) && (1 <? dim g)); [|destruct ((dim g =? 1) && (1 <? dim f))]; repeat step; reflexivity.
    + destruct ((dim f =? 1) && (1 <? dim g)); [|destruct ((dim g =? 1) && (1 <? dim f)) eqn:E].
      * repeat step; reflexivity.
      * apply andb_true_iff in E. destruct E as [E _]. apply Nat.eqb_eq in E. do 6 step.
        repeat step.
        match goal with S : Square g = Ok _ |- _ => apply square_dim in S; rewrite E in S end.
        repeat step; reflexivity.
      * repeat step; reflexivity.
    + repeat step.
      repeat match goal with H : vecterm _ _ _ _ = Ok _ |- _ => apply T in H; [|tauto|tauto] end; repeat step; reflexivity.
    + repeat step.
      repeat match goal with H : vecterm _ _ _ _ = Ok _ |- _ => apply T in H; [|tauto|tauto] end; repeat step; reflexivity.
    + now apply mk_zero in H.
    + now apply mk_zero in H.
    + now apply mk_zero in H.
    + now apply mk_zero in H.
  - contradiction.
  - destruct l; cbn [diff_body] in H; repeat step; reflexivity.
  - destruct b; cbn [diff_body] in H; repeat step; reflexivity.
  - cbn [diff_body] in H; repeat step; reflexivity.
  - destruct l; cbn [diff_body] in H; repeat step; reflexivity.
Qed.
End absent.

(** ** Products *)

Lemma mult_body_bare : forall rc g i d c, dim g = 1 -> 2 <= d -> bare g ->
  mult_body rc g (Var i d c) = Ok (Bin BMult g (Var i d c)).
Proof.
  intros rc g i d c G D B.
  assert (K : mk (Bin BMult g (Var i d c)) = Ok (Bin BMult g (Var i d c))).
  { unfold mk. cbn [node_ok dim]. rewrite G. unfold vcompat2. rewrite (Nat.min_l 1 d) by lia. now rewrite orb_true_r. }
  assert (NE : feqb g (Var i d c) = false).
  { unfold feqb. destruct fm_eq_dec as [->|]; [cbn in G; lia|reflexivity]. }
  unfold mult_body.
  destruct g as [i' d' c'|d'|z|p q|u f|b f g|t f g h|l f|b f g|f g|l f];
    cbn [as_zero as_int as_rat as_mult as_minus as_sumT as_exp is_exp is_int is_rat is_cst on on' orelse
         andb orb negb dim] in *;
    try (now rewrite NE).
  - contradiction.
  - destruct B as [B1 B2]. apply Z.eqb_neq in B1, B2. rewrite B1, B2. cbn [when orelse]. now rewrite NE.
  - destruct u; try contradiction; cbn [as_minus as_exp on on' orelse]; rewrite NE; cbn [when orelse];
      try assumption.
    rewrite G. destruct (Nat.leb_spec d 1); [lia|]. assumption.
  - destruct b; cbn [as_mult on on' orelse]; try (now rewrite NE).
    assert (is_cst f = false) as ->.
    { unfold is_cst, is_int, is_rat. destruct f; try reflexivity; contradiction. }
    cbn [when orelse]. rewrite NE. cbn [when orelse].
    destruct (as_exp g) eqn:X; [|assumption]. cbn [on' orelse].
    destruct g as [| | | |w g'| | | | | |]; try discriminate. destruct w; try discriminate.
    inversion X; subst. cbn [dim] in G. assert (dim f0 <= 1) by lia.
    destruct (Nat.leb_spec d (dim f0)); [lia|]. assumption.
  - destruct l; try contradiction; cbn [as_sumT on orelse]; now rewrite NE.
Qed.

Lemma mult_bare : forall g i d c, dim g = 1 -> 2 <= d -> bare g ->
  Mult g (Var i d c) = Ok (Bin BMult g (Var i d c)).
Proof. intros. rewrite mult_fuel. now apply mult_body_bare. Qed.

Lemma absent_vars : forall b d c g, (forall e k, ~ In (b, e, k) (vars g)) -> absent (Var b d c) g.
Proof.
  intros b d c g. induction g as [i e k|e|z|p q|u f IH|o f IHf g IHg|t f IHf g IHg h IHh|l f IH|o f IHf g IHg|f IHf g IHg|s f IH];
    intros H; cbn [absent vars] in *; auto.
  - intros E. inversion E; subst. apply (H d c). now left.
  - split; [apply IHf|apply IHg]; intros e k I; apply (H e k), union_vars_in; auto.
  - split; [apply IHf|split; [apply IHg|apply IHh]]; intros e k I; apply (H e k); rewrite !union_vars_in; auto.
  - split; [apply IHf|apply IHg]; intros e k I; apply (H e k), union_vars_in; auto.
  - split; [apply IHf|apply IHg]; intros e k I; apply (H e k), union_vars_in; auto.
Qed.

Lemma diff_product : forall g b d c eta c' h, dim g = 1 -> 2 <= d -> bare g -> plain g ->
  (forall e k, ~ In (b, e, k) (vars g)) ->
  DiffT (Bin BMult g (Var b d c)) (Var b d c) (Var eta d c') = Ok h ->
  h = Bin BMult g (Var eta d c').
Proof.
  intros g b d c eta c' h G D B P A H. unfold DiffT in H. cbn [weight] in H.
  remember (weight g + 1) as n eqn:En. clear En. cbn [DiffTn diff_body as_exp dim] in H.
  rewrite G in H. cbn [Nat.eqb] in H. replace (1 <? d) with true in H by (symmetry; apply Nat.ltb_lt; lia).
  cbn [andb] in H.
  apply bind_ok in H as (s & _ & H). apply bind_ok in H as (x & X & H).
  apply absent_zero in X; [|cbn; lia|assumption|now apply absent_vars]. subst x.
  rewrite mult_bare in H by assumption. cbn [rbind] in H.
  destruct n as [|n]; [discriminate|]. cbn [DiffTn diff_body] in H.
  assert (feqb (Var b d c) (Var b d c) = true) as E by (unfold feqb; destruct fm_eq_dec; congruence).
  rewrite E in H. cbn [rbind] in H. rewrite add_fuel in H. unfold add_body in H.
  cbn [as_zero on orelse] in H. unfold Broadcast in H. cbn [dim] in H. rewrite G in H.
  rewrite (Nat.max_r 1 d), Nat.eqb_refl in H by lia. cbn [orb] in H. congruence.
Qed.

Lemma scalar_sum : forall decl g b d tagI A M N bd o m out,
  dim g = 1 -> 2 <= d -> bare g -> tagI <= 1 -> wf g ->
  declared decl g -> decl b = (d, 1 - tagI) -> categories decl ->
  In (b, d, 1 - tagI) (vars g) \/ (forall i e, In (i, e, 1 - tagI) (vars g) -> (i < b)%Z) ->
  orders_ok o -> 1 <= bd -> 0 < out_rows tagI M N ->
  exists f out', Mult g (Var b d (1 - tagI)) = Ok f /\
    launch_final o m block_sum f tagI A M N bd out = Ok out' /\
    forall n k, n < out_rows tagI M N -> k < d ->
       out' (n * d + k) =
       Fin (reduce_sum decl (contiguous decl A) M N {| sformula := f; stagI := tagI |} n k).
Proof.
  intros decl g b d tagI A M N bd o m out G D B T W Dg Db C L O Hb Hx.
  set (f := Bin BMult g (Var b d (1 - tagI))).
  assert (Df : dim f = d) by (cbn [f dim]; lia).
  destruct (final_sum decl f g b d tagI A M N bd o m out) as (out' & E & V & _); auto.
  - split; assumption.
  - split; [|split; [assumption|]].
    + cbn [node_ok dim]. rewrite G. unfold vcompat2. rewrite (Nat.min_l 1 d) by lia. now rewrite orb_true_r.
    + split; [|exact I]. cbn [node_ok]. apply Nat.leb_le. lia.
  - exists f, out'. split; [now apply mult_bare|]. split; [assumption|].
    intros n k Hn Hk. rewrite Df in V. now apply V.
Qed.

Lemma gradient_sum : forall decl g b d tagI eta A M N bd o m out r,
  dim g = 1 -> 2 <= d -> bare g -> plain g -> tagI <= 1 -> wf g ->
  declared decl g -> decl b = (d, 1 - tagI) -> decl eta = (d, tagI) -> categories decl ->
  (forall e k, ~ In (b, e, k) (vars g)) ->
  (forall i e k, In (i, e, k) (vars g) -> (i < eta)%Z) ->
  orders_ok o -> 1 <= bd -> 0 < out_rows (1 - tagI) M N ->
  Sum_DiffT {| sformula := Bin BMult g (Var b d (1 - tagI)); stagI := tagI |} (Var b d (1 - tagI))
    (Var eta d tagI) = Ok r ->
  exists out', launch_final o m block_sum (sformula r) (stagI r) A M N bd out = Ok out' /\
    dim (sformula r) = d /\ stagI r = 1 - tagI /\
    forall n k, n < out_rows (1 - tagI) M N -> k < d ->
       out' (n * d + k) = Fin (reduce_sum decl (contiguous decl A) M N r n k).
Proof.
  intros decl g b d tagI eta A M N bd o m out r G D B P T W Dg Db De C Ab L O Hb Hx H.
  unfold Sum_DiffT in H. cbn [sformula] in H.
  destruct (DiffT _ _ _) as [h| | |] eqn:E; try discriminate.
  apply diff_product in E; try assumption. subst h.
  assert (Em : (1 - tagI) mod 2 = 1 - tagI) by (destruct tagI as [|[|]]; [reflexivity|reflexivity|lia]).
  rewrite Em in H. inversion H; subst r. clear H. cbn [sformula stagI].
  assert (Et : 1 - (1 - tagI) = tagI) by lia.
  destruct (scalar_sum decl g eta d (1 - tagI) A M N bd o m out) as (f & out' & Ef & El & V);
    rewrite ?Et; auto; try lia.
  - right. intros i e I. now apply (L i e tagI).
  - rewrite Et in Ef. rewrite mult_bare in Ef by assumption. inversion Ef; subst f.
    exists out'. split; [assumption|]. split; [cbn [dim]; lia|]. split; [reflexivity|]. assumption.
Qed.

(** ** Formulas that the mode refuses *)

Lemma calls_mult : forall n f g, rmult (calls (S n)) f g = mult_body (calls n) f g.
Proof. reflexivity. Qed.
Lemma calls_minus : forall n f, rminus (calls (S n)) f = minus_body (calls n) f.
Proof. reflexivity. Qed.

Lemma not_constant : forall k, (forall z, k <> Int z) -> (forall p q, k <> Rat p q) ->
  as_int k = None /\ is_rat k = false /\ is_cst k = false.
Proof.
  intros k I Q. destruct k; try (repeat split; reflexivity).
  - now destruct (I z).
  - now destruct (Q p q).
Qed.

Lemma opposite_refused : forall k i d c s o m tagI A M N bd out, dim k = 1 -> 2 <= d -> bare k ->
  (forall z, k <> Int z) -> (forall p q, k <> Rat p q) ->
  exists f, Mult (Un UMinus k) (Var i d c) = Ok f /\ launch_final o m s f tagI A M N bd out = PyErr.
Proof.
  intros k i d c s o m tagI A M N bd out G D B I Q.
  assert (E : exists n, Mult (Un UMinus k) (Var i d c) = mult_body (calls (S n)) (Un UMinus k) (Var i d c)).
  { rewrite mult_fuel. exists (16 * (size (Un UMinus k) + size (Var i d c)) + 14). do 2 f_equal. lia. }
  destruct E as [n ->]. unfold mult_body at 1.
  cbn [as_zero as_int as_rat as_mult as_minus on on' orelse is_cst is_int is_rat andb when].
  rewrite calls_mult, mult_body_bare by assumption. cbn [rbind]. rewrite calls_minus. unfold minus_body.
  cbn [as_zero as_int as_rat as_mult as_minus on on' orelse].
  destruct (not_constant k I Q) as (_ & _ & ->). cbn [when orelse].
  eexists. split; reflexivity.
Qed.

Lemma scaled_refused : forall z k i d c o m tagI A M N bd out, dim k = 1 -> 2 <= d -> bare k ->
  (forall z, k <> Int z) -> (forall p q, k <> Rat p q) -> (2 <= z)%Z ->
  exists f, Mult (Bin BMult (Int z) k) (Var i d c) = Ok f /\
            launch_final o m block_sum f tagI A M N bd out = PyErr.
Proof.
  intros z k i d c o m tagI A M N bd out G D B I Q Z.
  set (g := Bin BMult (Int z) k).
  assert (E : exists n, Mult g (Var i d c) = mult_body (calls (S n)) g (Var i d c)).
  { rewrite mult_fuel. exists (16 * (size g + size (Var i d c)) + 14). do 2 f_equal. lia. }
  destruct E as [n ->]. unfold mult_body at 1, g.
  cbn [as_zero as_int as_rat as_mult as_minus as_exp on on' orelse is_cst is_int is_rat is_exp andb orb negb when].
  rewrite calls_mult, mult_body_bare by assumption. cbn [rbind]. rewrite calls_mult. unfold mult_body.
  destruct (not_constant k I Q) as (K1 & K2 & K3).
  cbn [as_zero as_int as_rat as_mult as_minus as_exp as_sumT on on' orelse is_cst is_int is_rat is_exp andb orb negb when].
  rewrite (proj2 (Z.eqb_neq z 1)) by lia. rewrite (proj2 (Z.eqb_neq z (-1))) by lia. cbn [when orelse].
  rewrite K1, K2. cbn [on' andb when orelse].
  assert (feqb (Int z) (Bin BMult k (Var i d c)) = false) as ->.
  { unfold feqb. destruct fm_eq_dec; congruence. }
  cbn [when orelse]. unfold mk. cbn [node_ok dim].
  assert (vcompat2 1 (Nat.max (dim k) d) = true) as ->.
  { unfold vcompat2. rewrite (Nat.min_l 1 (Nat.max (dim k) d)) by lia. now rewrite orb_true_r. }
  eexists. split; [reflexivity|]. reflexivity.
Qed.

(** ** Gradients that the mode refuses *)

Definition mean_kernel : fm :=
  Un UExp (Un UMinus (Lin LSum (Un USquare (Bin BSub (Var 0 147 0) (Var 1 147 1))))).

Lemma repeated_refused : exists r,
  Sum_DiffT {| sformula := Bin BMult mean_kernel (Var 1 147 1); stagI := 0 |} (Var 1 147 1) (Var 2 147 0)
    = Ok r /\
  rdim (Sum_Red (dim (sformula r))) = 147 /\
  forall o m A M N bd out, launch_final o m block_sum (sformula r) (stagI r) A M N bd out = PyErr.
Proof. eexists. split; [lazy; reflexivity|]. split; reflexivity. Qed.

Lemma branch_refused : exists r,
  Sum_DiffT {| sformula := Bin BMult (Ter TIfElse (Var 0 1 0) (Var 1 1 1) (Int 1)) (Var 2 147 1);
               stagI := 0 |} (Var 2 147 1) (Var 3 147 0) = Ok r /\
  rdim (Sum_Red (dim (sformula r))) = 147 /\
  forall o m A M N bd out, launch_final o m block_sum (sformula r) (stagI r) A M N bd out = KErr.
Proof. eexists. split; [lazy; reflexivity|]. split; reflexivity. Qed.

(** ** The flag *)

Lemma selected_asked : forall v gpu g ranges r,
  (final_selected gpu g ranges (numpy_flag v) r = true -> asked v) /\
  (v <> VBool false -> final_selected gpu g ranges (torch_flag v) r = true -> asked v).
Proof.
  intros v gpu g ranges r. unfold final_selected, use_final, asked. split.
  - destruct v as [|[]|n]; cbn; rewrite ?andb_false_r; try discriminate; eauto.
  - intros N. destruct v as [|[]|n]; cbn; rewrite ?andb_false_r; try discriminate; eauto. congruence.
Qed.

Lemma selected_when : forall v gpu g ranges d,
  final_selected gpu g ranges (numpy_flag v) (Sum_Red d) = true <->
  gpu = true /\ (146 < d)%nat /\ (g <> 1%nat \/ ranges = true) /\ (v = VBool true \/ exists n, v = VInt n /\ n <> 0%Z).
Proof.
  intros v gpu g ranges d. unfold final_selected, use_final. cbn [rdim Sum_Red].
  rewrite !andb_true_iff, negb_true_iff, andb_false_iff, Nat.ltb_lt, negb_false_iff, Nat.eqb_neq.
  assert (V : numpy_flag v = true <-> v = VBool true \/ exists n, v = VInt n /\ n <> 0%Z).
  { destruct v as [|b|n]; cbn.
    - split; [discriminate|]. intros [H|[n [H _]]]; discriminate.
    - split; [intros ->; now left|]. intros [H|[n [H _]]]; congruence.
    - split; [|intros [H|[m [H N]]]; [discriminate|]; injection H as ->; destruct (Z.eqb_spec m 0); tauto].
      intros H. right. exists n. split; [reflexivity|]. destruct (Z.eqb_spec n 0); [discriminate|auto]. }
  rewrite V. tauto.
Qed.

Lemma default_wrong : forall A m out,
  ~ asked torch_default /\
  final_selected true 0 false (torch_flag torch_default) (Sum_Red (dim add_formula)) = true /\
  exists out', launch_final {| load_order := fun _ _ l => l; store_order := fun l => l |} m block_sum
    add_formula 0 A 1 1 192 out = Ok out' /\
  out' 0 = Fin (A 0%Z 0%nat * A 1%Z 0%nat) /\
  reduce_sum add_decl (contiguous add_decl A) 1 1 {| sformula := add_formula; stagI := 0 |} 0 0 =
  (A 0%Z 0%nat + A 1%Z 0%nat)%R.
Proof.
  intros A m out. split; [|split; [reflexivity|apply wrong_operation]].
  intros [E|[n E]]; discriminate.
Qed.

(** ** Options of the gradients *)

Lemma no_flag : forall nargs args rec, (forall p, In p (map fst args) -> rec <> VInt p) ->
  ~ In nargs (map fst args) ->
  forall p o, In (p, o) (fst (backward_options rec nargs args)) -> torch_flag o = false.
Proof.
  intros nargs args. induction args as [|[q b] args IH]; intros rec F N p o I; [contradiction|].
  cbn [backward_options] in I. cbn [map fst In] in F, N. destruct b.
  - destruct (backward_options (gradient_option rec q nargs) nargs args) as [l r] eqn:E. cbn [fst] in I.
    assert (G : gradient_option rec q nargs = VNone).
    { destruct rec as [| |x]; try reflexivity. cbn. destruct (Z.eqb_spec x q); [|reflexivity].
      subst. exfalso. apply (F q); [now left|reflexivity]. }
    destruct I as [I|I].
    + inversion I; subst. now rewrite G.
    + apply (IH VNone) with p; [discriminate|tauto|]. rewrite G in E. now rewrite E.
  - apply (IH rec) with p; [|tauto|assumption]. intros x X. apply F. now right.
Qed.

Lemma flagged : forall nargs args rec, NoDup (map fst args) -> ~ In nargs (map fst args) ->
  forall p o, In (p, o) (fst (backward_options rec nargs args)) ->
  (torch_flag o = true <->
   rec = VInt p /\ exists pre post, args = (pre ++ (p, true) :: post)%list /\ forall a, In a pre -> snd a = false).
Proof.
  intros nargs args. induction args as [|[q b] args IH]; intros rec D N p o I; [contradiction|].
  cbn [backward_options] in I. cbn [map fst In] in D, N. inversion D as [|? ? D1 D2]; subst. destruct b.
  - destruct (backward_options (gradient_option rec q nargs) nargs args) as [l r] eqn:E. cbn [fst] in I.
    assert (L : forall p o, In (p, o) l -> torch_flag o = false).
    { intros p' o' I'. apply (no_flag nargs args (gradient_option rec q nargs)) with p'.
      - intros x X. destruct rec as [| |y]; cbn; try discriminate. destruct (Z.eqb_spec y q); [|discriminate].
        intros [= ->]. tauto.
      - tauto.
      - now rewrite E. }
    destruct I as [I|I].
    + inversion I; subst. split.
      * intros T. destruct rec as [| |y]; cbn in T; try discriminate.
        destruct (Z.eqb_spec y p); [subst|discriminate]. split; [reflexivity|]. exists [], args. split; [reflexivity|].
        intros a [].
      * intros [-> _]. cbn. now rewrite Z.eqb_refl.
    + rewrite (L p o I). split; [discriminate|]. intros (_ & pre & post & H & F).
      destruct pre as [|a pre]; cbn in H; inversion H; subst.
      * exfalso. (* p = q appears in l, hence in args *)
        assert (X : forall args rec nargs p o, In (p, o) (fst (backward_options rec nargs args)) -> In p (map fst args)).
        { clear. induction args as [|[q b] args IH]; intros rec nargs p o I; [contradiction|].
          cbn [backward_options] in I. destruct b; cbn [map fst].
          - destruct (backward_options _ _ args) as [l r] eqn:E. destruct I as [I|I].
            + inversion I. now left.
            + right. apply (IH (gradient_option rec q nargs) nargs p o). now rewrite E.
          - right. now apply IH in I. }
        apply D1. apply (X post (gradient_option rec p nargs) nargs p o). now rewrite E.
      * specialize (F _ (or_introl eq_refl)). discriminate.
  - assert (N' : ~ In nargs (map fst args)) by tauto. rewrite (IH rec D2 N' p o I). split.
    + intros (R & pre & post & -> & F). split; [assumption|]. exists ((q, false) :: pre), post. split; [reflexivity|].
      intros a [<-|A]; [reflexivity|auto].
    + intros (R & pre & post & H & F). split; [assumption|].
      destruct pre as [|a pre]; cbn in H; inversion H; subst. exists pre, post. split; [reflexivity|].
      intros a A. apply F. now right.
Qed.

Lemma after_pass : forall nargs args rec,
  (exists p, In (p, true) args) ->
  snd (backward_options rec nargs args) = VNone \/ snd (backward_options rec nargs args) = VInt nargs.
Proof.
  intros nargs args.
  assert (S : forall rec, rec = VNone \/ rec = VInt nargs ->
    snd (backward_options rec nargs args) = VNone \/ snd (backward_options rec nargs args) = VInt nargs).
  { induction args as [|[q b] args IH]; intros rec H; [exact H|]. cbn [backward_options]. destruct b.
    - destruct (backward_options (gradient_option rec q nargs) nargs args) as [l r] eqn:E. cbn [snd].
      specialize (IH (gradient_option rec q nargs)). rewrite E in IH. apply IH.
      destruct H as [->| ->]; [now left|]. cbn. destruct (nargs =? q)%Z; auto.
    - now apply IH. }
  revert S. induction args as [|[q b] args IH]; intros S rec [p I]; [contradiction|].
  cbn [backward_options]. destruct b.
  - destruct (backward_options (gradient_option rec q nargs) nargs args) as [l r] eqn:E. cbn [snd].
    specialize (S (gradient_option rec q nargs)).
    cbn [backward_options] in S.
    clear IH. assert (G : gradient_option rec q nargs = VNone \/ gradient_option rec q nargs = VInt nargs).
    { destruct rec as [| |y]; cbn; auto. destruct (y =? q)%Z; auto. }
    clear S I. revert l r E. generalize (gradient_option rec q nargs) G. clear.
    induction args as [|[q b] args IH]; intros rec G l r E; cbn [backward_options] in E.
    + inversion E; subst. exact G.
    + destruct b.
      * destruct (backward_options (gradient_option rec q nargs) nargs args) as [l' r'] eqn:E'.
        inversion E; subst. apply (IH (gradient_option rec q nargs)) with l'; [|assumption].
        destruct G as [->| ->]; [now left|]. cbn. destruct (nargs =? q)%Z; auto.
      * now apply (IH rec G l r).
  - apply IH; [|exists p; destruct I as [I|I]; [discriminate|assumption]].
    intros rec' H. specialize (S rec' H). cbn [backward_options] in S. exact S.
Qed.

Lemma second_pass : forall nargs args rec, ~ In nargs (map fst args) -> (exists p, In (p, true) args) ->
  forall p o, In (p, o) (fst (backward_options (snd (backward_options rec nargs args)) nargs args)) ->
  torch_flag o = false.
Proof.
  intros nargs args rec N H. apply no_flag; [|assumption].
  intros p P. destruct (after_pass nargs args rec H) as [->| ->]; [discriminate|]. intros [= ->]. contradiction.
Qed.

Lemma jvp_flag : forall rec nargs args p o, In (p, o) (jvp_options rec nargs args) ->
  (torch_flag o = true <-> rec = VInt p).
Proof.
  intros rec nargs args p o I. unfold jvp_options in I. apply in_flat_map in I.
  destruct I as ([q b] & I & J). destruct b; [|contradiction]. destruct J as [J|[]]. inversion J; subst.
  destruct rec as [| |y]; cbn; try (split; discriminate).
  destruct (Z.eqb_spec y p); subst; split; intros H; try discriminate; try reflexivity. congruence.
Qed.

(** ** Backend *)

Lemma find_mem_ok : forall tf vars m, find_mem tf vars = Ok m ->
  exists b, m = tag b /\ kept_in b vars.
Proof.
  intros tf vars m H. unfold find_mem in H. destruct (forallb is_numpy vars) eqn:E.
  - inversion H; subst. exists false. split; [reflexivity|]. left. rewrite forallb_forall in E.
    apply Forall_forall. intros x X. specialize (E x X). now destruct x.
  - destruct tf; [|discriminate]. destruct (forallb is_torch vars) eqn:T; [|discriminate].
    assert (T' : forall x, In x vars -> exists d, x = Torch d).
    { rewrite forallb_forall in T. intros x X. specialize (T x X). destruct x; try discriminate. eauto. }
    destruct (forallb _ (map is_cuda vars)) eqn:A.
    + inversion H; subst. exists true. split; [reflexivity|]. split.
      * intros ->. discriminate.
      * apply Forall_forall. intros x X. rewrite forallb_forall in A.
        specialize (A (is_cuda x) (in_map _ _ _ X)). destruct x as [| [n|]|]; try discriminate. eauto.
    + destruct (existsb _ _) eqn:B; [discriminate|]. inversion H; subst. exists false. split; [reflexivity|].
      right. apply Forall_forall. intros x X. destruct (T' x X) as [[n|] ->]; [|reflexivity].
      exfalso. assert (Y : existsb (fun b => b) (map is_cuda vars) = true).
      { apply existsb_exists. exists true. split; [|reflexivity]. now apply (in_map is_cuda) in X. }
      cbn in B. congruence.
Qed.

Lemma find_mem_kept : forall tf b vars, kept_in b vars -> (tf = true \/ Forall (fun a => a = Numpy) vars) ->
  find_mem tf vars = Ok (tag b).
Proof.
  intros tf b vars K T. unfold find_mem. destruct b; cbn [kept_in] in K.
  - destruct K as [NE K]. destruct vars as [|a vars]; [congruence|].
    inversion K as [|? ? [n ->] K']; subst.
    assert (forallb is_numpy (Torch (Some n) :: vars) = false) as -> by reflexivity.
    destruct T as [->|T]; [|inversion T; discriminate].
    assert (forallb is_torch (Torch (Some n) :: vars) = true) as ->.
    { apply forallb_forall. rewrite Forall_forall in K. intros x X. destruct (K x X) as [j ->]. reflexivity. }
    assert (forallb (fun b => b) (map is_cuda (Torch (Some n) :: vars)) = true) as ->; [|reflexivity].
    apply forallb_forall. intros y Y. apply in_map_iff in Y. destruct Y as (x & <- & X).
    rewrite Forall_forall in K. destruct (K x X) as [j ->]. reflexivity.
  - destruct K as [K|K].
    + assert (forallb is_numpy vars = true) as ->; [|reflexivity].
      apply forallb_forall. rewrite Forall_forall in K. intros x X. now rewrite (K x X).
    + destruct vars as [|a vars]; [reflexivity|].
      assert (a = Torch None) as -> by now inversion K.
      destruct T as [->|T]; [|inversion T; discriminate].
      assert (forallb is_numpy (Torch None :: vars) = false) as -> by reflexivity.
      assert (forallb is_torch (Torch None :: vars) = true) as ->.
      { apply forallb_forall. rewrite Forall_forall in K. intros x X. now rewrite (K x X). }
      cbn [map is_cuda forallb andb].
      assert (existsb (fun b => b) (false :: map is_cuda vars) = false) as ->; [|reflexivity].
      cbn [existsb orb]. inversion K as [|? ? _ K']; subst.
      induction vars as [|y vars IH]; [reflexivity|]. inversion K' as [|? ? -> K'']; subst. cbn.
      apply IH; [constructor; auto|assumption].
Qed.

Ltac some_name :=
  match goal with H : (_ =? _)%string = true |- _ => apply String.eqb_eq in H; subst end.

Lemma backend_ok : forall gpu tf backend vars a b c,
  define_tag_backend gpu tf backend vars = Ok (a, b, c) ->
  exists d g m, names backend d g m /\
    a = tag (match d with Some x => x | None => gpu end) /\
    b = (match g with Some n => n - 1 | None => 0 end) /\
    match m with Some x => c = tag x | None => exists x, c = tag x /\ kept_in x vars end.
Proof.
  intros gpu tf backend vars a b c H. unfold define_tag_backend in H.
  destruct (existsb (String.eqb backend) possible_options_list) eqn:E; [|discriminate]. cbn [negb] in H.
  unfold possible_options_list in E. cbn [existsb] in E.
  destruct (String.eqb backend "auto") eqn:X.
  { apply String.eqb_eq in X. subst. apply bind_ok in H as (m & M & H). apply find_mem_ok in M. inversion H; subst.
    do 3 eexists. split; [constructor|]. split; [now destruct gpu|]. split; [reflexivity|exact M]. }
  rewrite orb_false_r in E. cbn [orb] in E.
  repeat (apply orb_true_iff in E; destruct E as [E|E];
    [apply String.eqb_eq in E; subst;
     match type of H with context [split ?c ?s] =>
       let v := eval vm_compute in (split c s) in change (split c s) with v in H end;
     cbv iota beta in H;
     repeat (match type of H with context [lookup ?k ?t] =>
       let v := eval vm_compute in (lookup k t) in change (lookup k t) with v in H; cbn [rbind] in H end);
     try (apply bind_ok in H as (? & M & H); apply find_mem_ok in M);
     inversion H; subst;
     (do 3 eexists; split; [constructor|]; split; [reflexivity|]; split; [reflexivity|]; first [reflexivity|exact M])|]).
  apply String.eqb_eq in E; subst.
     match type of H with context [split ?c ?s] =>
       let v := eval vm_compute in (split c s) in change (split c s) with v in H end;
     cbv iota beta in H;
     repeat (match type of H with context [lookup ?k ?t] =>
       let v := eval vm_compute in (lookup k t) in change (lookup k t) with v in H; cbn [rbind] in H end).
  inversion H; subst.
  do 3 eexists; split; [constructor|]; split; [reflexivity|]; split; reflexivity.
Qed.

Lemma backend_accepts : forall gpu tf backend vars d g m,
  names backend d g m -> (m <> None \/ exists x, kept_in x vars) ->
  (tf = true \/ Forall (fun a => a = Numpy) vars) ->
  exists t, define_tag_backend gpu tf backend vars = Ok t.
Proof.
  intros gpu tf backend vars d g m N M T.
  assert (F : m = None -> exists x, find_mem tf vars = Ok x).
  { intros ->. destruct M as [M|[x M]]; [congruence|]. exists (tag x). now apply find_mem_kept. }
  inversion N; subst; try (destruct (F eq_refl) as [x E]);
    unfold define_tag_backend; cbn -[find_mem]; try rewrite E; eexists; reflexivity.
Qed.

Lemma backend_rejects : forall gpu tf backend vars,
  (forall d g m, ~ names backend d g m) -> define_tag_backend gpu tf backend vars = KErr.
Proof.
  intros gpu tf backend vars N. unfold define_tag_backend.
  destruct (existsb (String.eqb backend) possible_options_list) eqn:E; [|reflexivity].
  exfalso. apply existsb_exists in E. destruct E as (x & I & X). apply String.eqb_eq in X. subst x.
  cbn [possible_options_list In] in I.
  repeat (destruct I as [<-|I]; [eapply N; constructor|]). contradiction.
Qed.

Lemma names_lookup : forall gpu tf backend vars r, define_backend gpu tf backend vars <> Ok r.
Proof.
  intros gpu tf backend vars r H. unfold define_backend in H. apply bind_ok in H as ([[a b] c] & _ & H).
  cbn in H. discriminate.
Qed.

(** ** Device *)

Lemma device_ok : forall (x y : bool) request args id,
  set_device (tag x) (tag y) request args = Ok id ->
  exists a rest, args = a :: rest /\
    (x = true -> y = true -> forall b, In b rest -> b = a) /\
    (request <> (-1)%Z -> id = request /\ forall n, a = Some (S n) -> id = Z.of_nat (S n)) /\
    (request = (-1)%Z ->
       match a with
       | Some n => if x then id = Z.of_nat n else n <> 0 -> id = Z.of_nat n
       | None => id = if x then default_device_id else (-1)%Z
       end).
Proof.
  intros x y request args id H. unfold set_device in H. destruct args as [|a rest]; [discriminate|].
  exists a, rest. split; [reflexivity|].
  assert (B : (Nat.eqb (tag x) (Nat.land 1 (tag y)) && Nat.eqb (Nat.land 1 (tag y)) 1) = x && y).
  { destruct x, y; reflexivity. }
  rewrite B in H. clear B. destruct (x && y && negb (forallb (fun b => index_eqb b a) rest)) eqn:E; [discriminate|].
  split.
  { intros -> -> b I. cbn in E. apply negb_false_iff in E. rewrite forallb_forall in E. specialize (E b I).
    destruct b as [n|], a as [n'|]; cbn in E; try discriminate; [|reflexivity]. apply Nat.eqb_eq in E. congruence. }
  destruct (Z.eqb_spec request (-1)) as [->|N].
  - split; [congruence|]. intros _. destruct a as [[|n]|]; cbn [index_true index_of] in H.
    + destruct x; cbn in H; inversion H; [reflexivity|congruence].
    + inversion H. now destruct x.
    + destruct x; cbn in H; inversion H; reflexivity.
  - split; [|congruence]. intros _. destruct (index_true a && negb (index_of a =? request)%Z) eqn:F; [discriminate|].
    inversion H; subst. split; [reflexivity|]. intros n ->. cbn [index_true andb] in F. apply negb_false_iff, Z.eqb_eq in F.
    now rewrite <- F.
Qed.

Lemma device_zero : set_device 1 1 1 [Some 0; Some 0] = Ok 1%Z /\ set_device 1 1 1 [Some 2; Some 2] = KErr.
Proof. split; reflexivity. Qed.

Lemma cpu_on_device : forall gpu n,
  define_tag_backend gpu true "CPU" [Torch (Some n)] = Ok (0, 0, 1).
Proof. intros. reflexivity. Qed.
