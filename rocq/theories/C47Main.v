(** Proofs about the generated code: formulas. *)

From Coq Require Import ZArith Reals List Bool String Ascii Lia Lra Arith Decimal DecimalString.
From Verif Require Import Result Formula SimplifyProofs Keys KeySpec C22Proofs XReal CodeGen CSem CodeGenSpec C47Proofs C47Ops.
Import ListNotations.
Local Open Scope list_scope.
Local Open Scope nat_scope.

Section Rho.
Context {rho : indices}.
Local Notation off := (CSem.off rho).
Local Notation read := (CSem.read rho).
Local Notation write := (CSem.write rho).
Local Notation ceval := (CSem.ceval rho).
Local Notation exec := (CSem.exec rho).
Local Notation region := (@C47Proofs.region rho).
Local Notation room := (@C47Proofs.room rho).
Local Notation input := (@C47Ops.input rho).
Local Notation op_ok := (@C47Ops.op_ok rho).
Local Notation loaded := (CodeGenSpec.loaded rho).
Local Notation stored := (CodeGenSpec.stored rho).
Local Notation allocated := (CodeGenSpec.allocated rho).

(** ** More variables in scope *)
Definition more (m m1 : mem) : Prop :=
  exists pre, m1 = pre ++ m /\ forall x, bound m x -> ~ In x (map fst pre).

Lemma get_app_skip : forall pre m x, ~ In x (map fst pre) -> get x (pre ++ m) = get x m.
Proof.
  induction pre as [|[y o] pre IH]; intros m x H; [reflexivity|]. cbn [List.app get].
  destruct (String.eqb_spec x y) as [->|N]; [exfalso; apply H; now left|]. apply IH. intros I. apply H. now right.
Qed.
Lemma more_get : forall m m1 x, more m m1 -> bound m x -> get x m1 = get x m.
Proof. intros m m1 x (pre & -> & H) B. apply get_app_skip. auto. Qed.
Lemma more_bound : forall m m1 x, more m m1 -> bound m x -> bound m1 x.
Proof. intros m m1 x H B. unfold bound. rewrite (more_get m m1 x H B). exact B. Qed.
Lemma more_refl : forall m, more m m.
Proof. intros m. exists []. split; [reflexivity|]. intros x _ []. Qed.
Lemma more_trans : forall m m1 m2, more m m1 -> more m1 m2 -> more m m2.
Proof.
  intros m m1 m2 A (pre2 & -> & H2). assert (A' := A). destruct A as (pre1 & -> & H1).
  exists (pre2 ++ pre1). split; [now rewrite app_assoc|]. intros x B. rewrite map_app. intros I.
  apply in_app_or in I as [I|I]; [|now apply (H1 x)]. apply (H2 x); [|exact I]. now apply (more_bound m).
Qed.
Lemma more_cons : forall m x o, get x m = None -> more m ((x, o) :: m).
Proof.
  intros m x o U. exists [(x, o)]. split; [reflexivity|]. intros y B [E|[]]. cbn in E. subst y. now apply B.
Qed.
Lemma more_room : forall m m1 p n, more m m1 -> room m p n -> room m1 p n.
Proof.
  intros m m1 p n H R. assert (B := room_bound _ _ _ R). destruct R as (c & E & L). exists c. split; [|exact L].
  now rewrite (more_get m m1 _ H B).
Qed.
Lemma more_read : forall m m1 q i, more m m1 -> bound m (base q) -> read m1 q i = read m q i.
Proof. intros m m1 q i H B. unfold CSem.read. now rewrite (more_get m m1 _ H B). Qed.
Lemma more_input : forall m m1 p a v, more m m1 -> input m p a v -> input m1 p a v.
Proof.
  intros m m1 p a v H (B & N & V). split; [now apply (more_bound m)|]. split; [exact N|].
  intros k K. rewrite (more_read m m1); auto.
Qed.
Lemma more_leave : forall m m1 p n w, more m m1 -> bound m (base p) ->
  exists pre, region m1 p n w = pre ++ region m p n w.
Proof.
  intros m m1 p n w (pre & -> & H) B. exists pre. specialize (H _ B).
  induction pre as [|[x o] pre IH]; [reflexivity|]. cbn [List.app]. rewrite region_cons.
  - f_equal. apply IH. intros I. apply H. now right.
  - intros E. apply H. left. exact E.
Qed.

(** ** Formulas *)
Definition tab_ok (e : env) (table : list (option c_array)) (f : fm) (m : mem) (p : ptr) : Prop :=
  forall i d, occurs i d f ->
    (0 <= i)%Z /\ exists a, nth_error table (Z.to_nat i) = Some (Some a) /\ adim a = d /\ input m p a (e i).

Lemma tab_get : forall table i a, (0 <= i)%Z -> nth_error table (Z.to_nat i) = Some (Some a) ->
  table_get table i = Ok a.
Proof.
  intros table i a P E. unfold table_get. destruct (Z.ltb_spec i 0); [lia|].
  assert (L : Z.to_nat i < List.length table) by (apply nth_error_Some; rewrite E; discriminate).
  destruct (Z.leb_spec 0 i); [|lia]. destruct (Z.ltb_spec i (Z.of_nat (List.length table))); [|lia].
  cbn [andb]. now rewrite E.
Qed.
Lemma tab_more : forall e table f m m1 p, more m m1 -> tab_ok e table f m p -> tab_ok e table f m1 p.
Proof.
  intros e table f m m1 p H T i d Oc. destruct (T i d Oc) as (P & a & E & D & I). split; [exact P|].
  exists a. split; [exact E|]. split; [exact D|]. now apply (more_input m).
Qed.

Definition call_ok (e : env) (table : list (option c_array)) (f : fm) : Prop :=
  forall p g m, room m p (dim f) -> fresh g m -> tab_ok e table f m p ->
  exists s g', call f (Array p (dim f)) table g = Ok (s, g') /\ (forall t, g t <= g' t)
    /\ exec s m = Some (region m p (dim f) (fun k => Some (Fin (eval f e k)))).

Definition child_ok (e : env) (table : list (option c_array)) (f : fm) : Prop :=
  forall p g m, bound m (base p) -> fresh g m -> tab_ok e table f m p ->
  exists a s g' m1,
    child table f (fun o => call f o table) g = Ok (a, s, g') /\ (forall t, g t <= g' t)
    /\ exec s m = Some m1 /\ more m m1 /\ fresh g' m1
    /\ adim a = dim f /\ input m1 p a (eval f e).

Lemma child_make : forall e table f, 0 < dim f -> call_ok e table f ->
  (forall i d c, f <> Var i d c) -> child_ok e table f.
Proof.
  intros e table f P H NV p g m B F T.
  set (t := ("out_" ++ lower (string_id f))%string). set (x := name t (g t)).
  assert (U : get x m = None) by now apply fresh_new.
  assert (F1 := fresh_cons g m t (OArr (repeat None (dim f))) F). fold x in F1.
  destruct (H (PName x) (next g t) ((x, OArr (repeat None (dim f))) :: m)) as (s & g' & E & L & X).
  - exists (repeat None (dim f)). cbn [base get CSem.off]. rewrite String.eqb_refl, repeat_length. split; [reflexivity|lia].
  - exact F1.
  - intros i d Oc. destruct (T i d Oc) as (Pi & a & E & D & Ia). split; [exact Pi|]. exists a.
    split; [exact E|]. split; [exact D|]. apply input_cons; [exact U|].
    destruct Ia as (Ba & Na & Va). split; [exact Ba|]. split; [|exact Va]. cbn [base].
    intros Q. apply (bound_ne m x (base (aptr a)) U Ba). now symmetry.
  - set (m1 := region ((x, OArr (repeat None (dim f))) :: m) (PName x) (dim f) (fun k => Some (Fin (eval f e k)))).
    assert (Em1 : m1 = (x, OArr (over (repeat None (dim f)) 0 (dim f) (fun k => Some (Fin (eval f e k))))) :: m).
    { unfold m1, C47Proofs.region. cbn [base get CSem.off put]. rewrite !String.eqb_refl. reflexivity. }
    exists (Array (PName x) (dim f)), (SSeq (declare x (dim f)) s), g', m1.
    split.
    { destruct f; try (exfalso; eapply NV; reflexivity); unfold child; fold t; fold x; rewrite E; reflexivity. }
    split; [intros u; assert (Y := next_le g t u); specialize (L u); lia|].
    split. { unfold declare. destruct (Nat.ltb_spec 0 (dim f)); [|lia]. cbn [CSem.exec obind]. exact X. }
    split; [rewrite Em1; now apply more_cons|].
    split.
    { rewrite Em1. eapply fresh_mono; [apply fresh_cons; exact F|exact L]. }
    split; [reflexivity|]. split; [|split].
    + cbn [aptr base]. unfold bound. rewrite Em1. cbn [get]. rewrite String.eqb_refl. discriminate.
    + cbn [aptr base]. now apply (bound_ne m).
    + cbn [adim aptr]. intros k K. unfold m1. rewrite (region_read_self _ _ _ _ _ 0 k); [reflexivity| |reflexivity|reflexivity|lia].
      exists (repeat None (dim f)). cbn [base get CSem.off]. rewrite String.eqb_refl, repeat_length. split; [reflexivity|lia].
Qed.

Lemma child_var : forall e table i d c, child_ok e table (Var i d c).
Proof.
  intros e table i d c p g m B F T. destruct (T i d) as (P & a & E & D & I); [split; reflexivity|].
  exists a, SSkip, g, m. cbn [child]. rewrite (tab_get _ _ _ P E). cbn [rbind].
  split; [reflexivity|]. split; [auto|]. split; [reflexivity|]. split; [apply more_refl|]. split; [exact F|].
  split; [exact D|]. exact I.
Qed.

Lemma child_any : forall e table f, 0 < dim f -> call_ok e table f -> child_ok e table f.
Proof.
  intros e table f P H. destruct f; try (apply child_make; auto; intros; discriminate). apply child_var.
Qed.

(** The end of a block. *)
Lemma block_ok : forall m m2 p d g2 r v, more m m2 -> bound m (base p) -> op_ok m2 p d g2 r v ->
  exists s g', r = Ok (s, g') /\ (forall t, g2 t <= g' t)
  /\ exists m3, exec s m2 = Some m3 /\ leave m m3 = region m p d (fun k => Some (Fin (v k))).
Proof.
  intros m m2 p d g2 r v H B (s & g' & pre & E & L & X). exists s, g'. split; [exact E|]. split; [exact L|].
  destruct (more_leave m m2 p d (fun k => Some (Fin (v k))) H B) as (pre2 & Q). rewrite Q in X.
  eexists. split; [exact X|]. rewrite app_assoc. apply leave_app. apply region_length.
Qed.

Ltac leb := match goal with
  | |- forall t : string, _ => let t := fresh "t" in intros t;
      repeat match goal with L : forall u : string, _ <= _ |- _ => specialize (L t) end; lia
  end.

Ltac lin_side W :=
  match goal with |- match ?l with _ => _ end => destruct l end; cbn [node_ok] in W; cbn [dim] in *;
  try (apply andb_true_iff in W as [W ?]);
  repeat match goal with
  | H : (_ <=? _) = true |- _ => apply Nat.leb_le in H
  | H : (_ <? _) = true |- _ => apply Nat.ltb_lt in H
  | H : (_ =? _) = true |- _ => apply Nat.eqb_eq in H
  end; lia.

Theorem call_correct : forall e table f, wf f -> safe e f -> call_ok e table f.
Proof.
  intros e table f. induction f; intros W S.
  - intros p g m Hr F T. destruct (T i d) as (P & a & E & D & I); [split; reflexivity|].
    cbn [call dim]. rewrite (tab_get _ _ _ P E). cbn [rbind].
    cbn [dim] in Hr. destruct (region_init m p _ Hr) as [w Ew].
    assert (A := copy_ok m p d w g p 0 d a (e i) Hr F eq_refl ltac:(lia) ltac:(lia) I ltac:(lia)).
    destruct (VectCopy (Array p d) a g) as [s g'] eqn:EV. injection EV as Es Eg.
    exists (SBlock s), g'. split; [reflexivity|]. split; [subst g'; intros; apply next_le|].
    cbn [CSem.exec fst] in *. rewrite Ew at 1. rewrite A. cbn [obind]. rewrite Ew at 1. rewrite leave_region.
    f_equal. apply region_ext. intros k K. unfold fill. cbn [eval]. bool.
  - intros p g m Hr F T. cbn [call dim] in *. destruct (region_init m p _ Hr) as [w Ew].
    assert (A := assign_ok m p d w g p 0 d (EZ 0) 0%R Hr F eq_refl ltac:(lia) ltac:(lia) (fun _ _ _ _ => eq_refl)).
    destruct (assign (Array p d) (EZ 0) g) as [s g'] eqn:EV. injection EV as Es Eg.
    exists (SBlock s), g'. split; [reflexivity|]. split; [subst g'; intros; apply next_le|].
    cbn [CSem.exec fst] in *. rewrite Ew at 1. rewrite A. cbn [obind]. rewrite Ew at 1. rewrite leave_region.
    f_equal. apply region_ext. intros k K. unfold fill. cbn [eval]. bool.
  - intros p g m Hr F T. cbn [call dim] in *. destruct (region_init m p _ Hr) as [w Ew].
    eexists _, g. split; [reflexivity|]. split; [auto|]. cbn [CSem.exec CSem.ceval ieval obind aptr].
    rewrite Ew at 1. rewrite (region_write _ _ _ _ _ 0 0 _ Hr eq_refl) by lia. cbn [obind].
    rewrite Ew at 1. rewrite leave_region. f_equal. apply region_ext. intros k K. unfold at_. cbn [eval]. bool.
  - intros p0 g m Hr F T. cbn [call dim] in *. destruct (region_init m p0 _ Hr) as [w Ew].
    destruct W as [W _]. cbn [node_ok] in W. apply Z.ltb_lt in W.
    eexists _, g. split; [reflexivity|]. split; [auto|]. cbn [CSem.exec CSem.ceval ieval obind aptr].
    destruct (Z.eqb_spec q 0); [lia|]. cbn [obind].
    rewrite Ew at 1. rewrite (region_write _ _ _ _ _ 0 0 _ Hr eq_refl) by lia. cbn [obind].
    rewrite Ew at 1. rewrite leave_region. f_equal. apply region_ext. intros k K. unfold at_. cbn [eval]. bool.
  - (* Un *)
    intros p g m Hr F T. cbn [dim] in *. destruct W as [W Wf]. destruct S as [Sf Sd]. cbn [dun safe_doms] in Sd.
    assert (P := dim_pos _ Wf). assert (B := room_bound _ _ _ Hr).
    destruct (child_any e table f P (IHf Wf Sf) p g m B F T) as (a & s & g1 & m1 & E & L & X & M & F1 & D & I).
    cbn [call]. rewrite E. cbn [rbind].
    assert (Hop := @un_ok rho m1 p g1 u a (eval f e)). rewrite D in Hop.
    specialize (Hop (more_room _ _ _ _ M Hr) F1 ltac:(lia) I Sd).
    destruct (block_ok m m1 p _ g1 _ _ M B Hop) as (s2 & g2 & E2 & L2 & m3 & X3 & Lv).
    rewrite E2. cbn [rbind fst snd]. eexists _, g2. split; [reflexivity|]. split; [leb|].
    cbn [CSem.exec]. rewrite X. cbn [obind]. rewrite X3. cbn [obind]. now rewrite Lv.
  - (* Bin *)
    intros p g m Hr F T. cbn [dim] in *. destruct W as [W [Wf1 Wf2]]. destruct S as (Sf1 & Sf2 & Sd). cbn [dbin safe_doms] in Sd.
    assert (P1 := dim_pos _ Wf1). assert (P2 := dim_pos _ Wf2). assert (B := room_bound _ _ _ Hr).
    destruct (child_any e table f1 P1 (IHf1 Wf1 Sf1) p g m B F) as (a & s & g1 & m1 & E & L & X & M & F1 & D & I).
    { intros i d Oc. apply T. cbn [occurs]. auto. }
    destruct (child_any e table f2 P2 (IHf2 Wf2 Sf2) p g1 m1 (more_bound _ _ _ M B) F1)
      as (a2 & s2 & g2 & m2 & E2 & L2 & X2 & M2 & F2 & D2 & I2).
    { apply (tab_more e table f2 m); [exact M|]. intros i d Oc. apply T. cbn [occurs]. auto. }
    assert (MM := more_trans _ _ _ M M2).
    cbn [call]. rewrite E. cbn [rbind]. rewrite E2. cbn [rbind].
    cbn [node_ok] in W. unfold vcompat2 in W. apply orb_true_iff in W.
    assert (Dm : (dim f1 = max (dim f1) (dim f2) \/ dim f1 = 1) /\ (dim f2 = max (dim f1) (dim f2) \/ dim f2 = 1)).
    { destruct W as [W|W]; apply Nat.eqb_eq in W; lia. }
    assert (Hop := @bin_ok rho m2 p g2 (max (dim f1) (dim f2)) b a a2 (eval f1 e) (eval f2 e)).
    rewrite D, D2 in Hop.
    specialize (Hop (more_room _ _ _ _ MM Hr) F2 ltac:(lia) (more_input _ _ _ _ _ M2 I) I2 (proj1 Dm) (proj2 Dm) Sd).
    destruct (block_ok m m2 p _ g2 _ _ MM B Hop) as (s3 & g3 & E3 & L3 & m3 & X3 & Lv).
    rewrite E3. cbn [rbind fst snd]. eexists _, g3. split; [reflexivity|]. split; [leb|].
    cbn [CSem.exec]. rewrite X. cbn [obind]. rewrite X2. cbn [obind]. rewrite X3. cbn [obind]. now rewrite Lv.
  - (* Ter *)
    intros p g m Hr F T. cbn [dim] in *. destruct W as [W (Wf1 & Wf2 & Wf3)]. destruct S as (Sf1 & Sf2 & Sf3 & Sd).
    cbn [dter safe_doms] in Sd.
    assert (P1 := dim_pos _ Wf1). assert (P2 := dim_pos _ Wf2). assert (P3 := dim_pos _ Wf3).
    assert (B := room_bound _ _ _ Hr).
    destruct (child_any e table f1 P1 (IHf1 Wf1 Sf1) p g m B F) as (a & s & g1 & m1 & E & L & X & M & F1 & D & I).
    { intros i d Oc. apply T. cbn [occurs]. auto. }
    destruct (child_any e table f2 P2 (IHf2 Wf2 Sf2) p g1 m1 (more_bound _ _ _ M B) F1)
      as (a2 & s2 & g2 & m2 & E2 & L2 & X2 & M2 & F2 & D2 & I2).
    { apply (tab_more e table f2 m); [exact M|]. intros i d Oc. apply T. cbn [occurs]. auto. }
    assert (MM := more_trans _ _ _ M M2).
    destruct (child_any e table f3 P3 (IHf3 Wf3 Sf3) p g2 m2 (more_bound _ _ _ MM B) F2)
      as (a3 & s3 & g3 & m3 & E3 & L3 & X3 & M3' & F3 & D3 & I3).
    { apply (tab_more e table f3 m); [exact MM|]. intros i d Oc. apply T. cbn [occurs]. auto. }
    assert (MMM := more_trans _ _ _ MM M3').
    cbn [call]. rewrite E. cbn [rbind]. rewrite E2. cbn [rbind]. rewrite E3. cbn [rbind].
    cbn [node_ok] in W. unfold vcompat3 in W. apply andb_true_iff in W as [W W3]. apply andb_true_iff in W as [W1 W2].
    apply orb_true_iff in W1, W2, W3. rewrite !Nat.eqb_eq in W1, W2, W3.
    assert (Hop := @ter_ok rho m3 p g3 (max (max (dim f1) (dim f2)) (dim f3)) t a a2 a3 (eval f1 e) (eval f2 e) (eval f3 e)).
    rewrite D, D2, D3 in Hop.
    specialize (Hop (more_room _ _ _ _ MMM Hr) F3 ltac:(lia) (more_input _ _ _ _ _ M3' (more_input _ _ _ _ _ M2 I))
                  (more_input _ _ _ _ _ M3' I2) I3 W1 W2 W3 Sd).
    destruct (block_ok m m3 p _ g3 _ _ MMM B Hop) as (s4 & g4 & E4 & L4 & m4 & X4 & Lv).
    rewrite E4. cbn [rbind fst snd]. eexists _, g4. split; [reflexivity|]. split; [leb|].
    cbn [CSem.exec]. rewrite X. cbn [obind]. rewrite X2. cbn [obind]. rewrite X3. cbn [obind]. rewrite X4. cbn [obind]. now rewrite Lv.
  - (* Lin *)
    intros p g m Hr F T. assert (Pd := dim_pos _ W). destruct W as [W Wf]. cbn [safe inside] in S.
    assert (P := dim_pos _ Wf). assert (B := room_bound _ _ _ Hr).
    destruct (child_any e table f P (IHf Wf S) p g m B F T) as (a & s & g1 & m1 & E & L & X & M & F1 & D & I).
    cbn [call]. rewrite E. cbn [rbind].
    assert (Hop := @lin_ok rho m1 p g1 (dim (Lin l f)) l a (eval f e) (more_room _ _ _ _ M Hr) F1 ltac:(lia) ltac:(lia) I).
    rewrite D in Hop.
    destruct (block_ok m m1 p _ g1 _ _ M B (Hop ltac:(lin_side W))) as (s2 & g2 & E2 & L2 & m3 & X3 & Lv).
    rewrite E2. cbn [rbind fst snd]. eexists _, g2. split; [reflexivity|]. split; [leb|].
    cbn [CSem.exec]. rewrite X. cbn [obind]. rewrite X3. cbn [obind]. now rewrite Lv.
  - (* Bil *)
    intros p g m Hr F T. assert (Pd := dim_pos _ W). destruct W as [W [Wf1 Wf2]]. destruct S as (Sf1 & Sf2).
    assert (P1 := dim_pos _ Wf1). assert (P2 := dim_pos _ Wf2). assert (B := room_bound _ _ _ Hr).
    destruct (child_any e table f1 P1 (IHf1 Wf1 Sf1) p g m B F) as (a & s & g1 & m1 & E & L & X & M & F1 & D & I).
    { intros i d Oc. apply T. cbn [occurs]. auto. }
    destruct (child_any e table f2 P2 (IHf2 Wf2 Sf2) p g1 m1 (more_bound _ _ _ M B) F1)
      as (a2 & s2 & g2 & m2 & E2 & L2 & X2 & M2 & F2 & D2 & I2).
    { apply (tab_more e table f2 m); [exact M|]. intros i d Oc. apply T. cbn [occurs]. auto. }
    assert (MM := more_trans _ _ _ M M2).
    cbn [call]. rewrite E. cbn [rbind]. rewrite E2. cbn [rbind].
    assert (Hop : op_ok m2 p (dim (Bil b f1 f2)) g2 (bil_op b (dim (Bil b f1 f2)) (Array p (dim (Bil b f1 f2))) a a2 g2)
              (bilR b (dim f1) (dim f2) (eval f1 e) (eval f2 e))).
    { assert (R := more_room _ _ _ _ MM Hr). assert (I' := more_input _ _ _ _ _ M2 I).
      rewrite <- D, <- D2. destruct b; cbn [node_ok] in W; try apply Nat.eqb_eq in W.
      - apply scal_ok; auto; cbn [dim]; lia.
      - apply matvec_ok; auto; try lia. cbn [dim]. rewrite D, D2.
        assert (Q := Nat.div_mod (dim f1) (dim f2) ltac:(lia)). lia.
      - apply vecmat_ok; auto; try lia. cbn [dim]. rewrite D, D2.
        assert (Q := Nat.div_mod (dim f2) (dim f1) ltac:(lia)). lia.
      - apply tensorprod_ok; auto; cbn [dim]; lia. }
    destruct (block_ok m m2 p _ g2 _ _ MM B Hop) as (s3 & g3 & E3 & L3 & m3 & X3 & Lv).
    rewrite E3. cbn [rbind fst snd]. eexists _, g3. split; [reflexivity|]. split; [leb|].
    cbn [CSem.exec]. rewrite X. cbn [obind]. rewrite X2. cbn [obind]. rewrite X3. cbn [obind]. now rewrite Lv.
  - (* Cat *)
    intros p g m Hr F T. destruct W as [W [Wf1 Wf2]]. destruct S as (Sf1 & Sf2).
    assert (P1 := dim_pos _ Wf1). assert (P2 := dim_pos _ Wf2). assert (B := room_bound _ _ _ Hr).
    destruct (child_any e table f1 P1 (IHf1 Wf1 Sf1) p g m B F) as (a & s & g1 & m1 & E & L & X & M & F1 & D & I).
    { intros i d Oc. apply T. cbn [occurs]. auto. }
    destruct (child_any e table f2 P2 (IHf2 Wf2 Sf2) p g1 m1 (more_bound _ _ _ M B) F1)
      as (a2 & s2 & g2 & m2 & E2 & L2 & X2 & M2 & F2 & D2 & I2).
    { apply (tab_more e table f2 m); [exact M|]. intros i d Oc. apply T. cbn [occurs]. auto. }
    assert (MM := more_trans _ _ _ M M2).
    cbn [call]. rewrite E. cbn [rbind]. rewrite E2. cbn [rbind].
    assert (Hop := @cat_ok rho m2 p g2 (dim (Cat f1 f2)) a a2 (eval f1 e) (eval f2 e) (more_room _ _ _ _ MM Hr) F2 ltac:(lia) ltac:(lia)
                     (more_input _ _ _ _ _ M2 I) I2 ltac:(cbn [dim]; lia)).
    rewrite D in Hop.
    destruct (block_ok m m2 p _ g2 _ _ MM B Hop) as (s3 & g3 & E3 & L3 & m3 & X3 & Lv).
    rewrite E3. cbn [rbind fst snd]. eexists _, g3. split; [reflexivity|]. split; [leb|].
    cbn [CSem.exec]. rewrite X. cbn [obind]. rewrite X2. cbn [obind]. rewrite X3. cbn [obind]. now rewrite Lv.
  - (* Sel *)
    intros p g m Hr F T. destruct W as [W Wf]. destruct S as [Sf Sd]. cbn [dsel safe_doms] in Sd.
    assert (P := dim_pos _ Wf). assert (B := room_bound _ _ _ Hr).
    destruct (child_any e table f P (IHf Wf Sf) p g m B F T) as (a & s0 & g1 & m1 & E & L & X & M & F1 & D & I).
    cbn [call]. rewrite E. cbn [rbind].
    assert (Hop := @sel_ok rho m1 p g1 (dim (Sel s f)) s a (eval f e) (more_room _ _ _ _ M Hr) F1 ltac:(lia) I).
    rewrite D in Hop.
    destruct (block_ok m m1 p _ g1 _ _ M B (Hop ltac:(lin_side W) Sd)) as (s2 & g2 & E2 & L2 & m3 & X3 & Lv).
    rewrite E2. cbn [rbind fst snd]. eexists _, g2. split; [reflexivity|]. split; [leb|].
    cbn [CSem.exec]. rewrite X. cbn [obind]. rewrite X3. cbn [obind]. now rewrite Lv.
Qed.

(** ** The specification *)
Lemma region_stored : forall m p n v, room m p n -> stored m (region m p n (fun k => Some (Fin (v k)))) p n v.
Proof.
  intros m p n v Hr. split; [|split].
  - unfold C47Proofs.region. destruct (get (base p) m) as [[c| |]|]; auto. clear. generalize (OArr (over c (off p) n (fun k => Some (Fin (v k))))).
    intros o. induction m as [|[y q] m IH]; [reflexivity|]. cbn [put]. destruct (String.eqb (base p) y); cbn [map]; [reflexivity|].
    now rewrite IH.
  - intros x N. now apply region_get_other.
  - destruct (region_get_self m p n (fun k => Some (Fin (v k))) Hr) as (c & E & L & E').
    exists c, (over c (off p) n (fun k => Some (Fin (v k)))). split; [exact E|]. split; [exact E'|]. split; [apply over_length|].
    split; intros k K; rewrite over_spec by exact L; bool.
    do 4 f_equal. lia.
Qed.

Theorem generated_code_correct : forall f e table g m out,
  wf f -> safe e f -> adim out = dim f -> allocated m (aptr out) (dim f) -> names_new g m ->
  loaded e f table m (aptr out) ->
  exists s g' m', call f out table g = Ok (s, g') /\ exec s m = Some m'
    /\ stored m m' (aptr out) (dim f) (eval f e).
Proof.
  intros f e table g m [p d] W S E A Nn T. cbn [adim aptr] in *. subst d.
  assert (F : fresh g m).
  { intros t c B. destruct (Nat.lt_ge_cases c (g t)) as [H|H]; [exact H|]. exfalso. apply B. exact (Nn t c H). }
  destruct (call_correct e table f W S p g m A F) as (s & g' & Ec & _ & X).
  { intros i d Oc. destruct (T i d Oc) as (P & a & Ea & D & Nb & V). split; [exact P|]. exists a.
    split; [exact Ea|]. split; [exact D|]. split; [|split; [exact Nb|now rewrite D]].
    assert (Pd : 1 <= d).
    { clear - Oc W. induction f; cbn [occurs wf] in *; try tauto.
      destruct Oc as [_ ->]. destruct W as [W _]. cbn [node_ok] in W. now apply Nat.leb_le in W. }
    intros Q. specialize (V 0 ltac:(lia)). unfold CSem.read in V. rewrite Q in V. discriminate. }
  exists s, g', (region m p (dim f) (fun k => Some (Fin (eval f e k)))). split; [exact Ec|]. split; [exact X|].
  now apply region_stored.
Qed.

End Rho.

(** ** Names *)
Lemma digits_last : forall s c, digits (s ++ String c "") = true -> digit c = true.
Proof.
  induction s as [|x s IH]; intros c H; cbn in H; apply andb_true_iff in H as [H1 H2]; [exact H1|]. now apply IH.
Qed.
Lemma last_split : forall s, s <> EmptyString -> exists r c, s = (r ++ String c "")%string.
Proof.
  induction s as [|x s IH]; intros H; [contradiction|]. destruct s as [|y s].
  - exists EmptyString, x. reflexivity.
  - destruct IH as (r & c & E); [discriminate|]. exists (String x r), c. cbn. now rewrite <- E.
Qed.
Lemma app_last_inj : forall a c b d, (a ++ String c "" = b ++ String d "")%string -> c = d.
Proof.
  induction a as [|x a IH]; intros c [|y b] d E; cbn in E.
  - congruence.
  - injection E as _ E. destruct b; discriminate.
  - injection E as _ E. destruct a; discriminate.
  - injection E as _ E. eapply IH; eauto.
Qed.
Lemma app_assoc_s : forall a b c : string, ((a ++ b) ++ c = a ++ (b ++ c))%string.
Proof. induction a; intros; cbn; congruence. Qed.

Lemma not_name : forall r c, digit c = false -> forall t n, (r ++ String c "")%string <> name t n.
Proof.
  intros r c H t n E. unfold name in E.
  assert (D := str_nat_digits n).
  destruct (last_split (str_int (Z.of_nat n))) as (s & d & Es).
  { unfold str_int, NilZero.string_of_int. destruct n as [|n]; [discriminate|]. cbn [Z.of_nat Z.to_int].
    assert (U := uint_start (Pos.to_uint (Pos.of_succ_nat n))). intros Q. rewrite Q in U. discriminate. }
  rewrite Es in *. apply digits_last in D. rewrite <- !app_assoc_s in E. apply app_last_inj in E. subst d. congruence.
Qed.

Definition ok (g : gen) (s : stmt) (g' : gen) : Prop :=
  (forall t, g t <= g' t) /\ NoDup (declared s)
  /\ forall x, In x (declared s) -> exists t c, x = name t c /\ g t <= c < g' t.

Lemma ok_nil : forall g s, declared s = [] -> ok g s g.
Proof. intros g s E. split; [auto|]. rewrite E. split; [constructor|intros x []]. Qed.
Lemma ok_one : forall g t s, declared s = [name t (g t)] -> ok g s (next g t).
Proof.
  intros g t s E. split; [intros; apply next_le|]. rewrite E. split; [constructor; [intros []|constructor]|].
  intros x [<-|[]]. exists t, (g t). rewrite next_same. split; [reflexivity|lia].
Qed.
Lemma ok_app : forall g s g1 s' g2 r, ok g s g1 -> ok g1 s' g2 -> declared r = declared s ++ declared s' -> ok g r g2.
Proof.
  intros g s g1 s' g2 r (L1 & D1 & N1) (L2 & D2 & N2) E.
  split; [intros t; specialize (L1 t); specialize (L2 t); lia|]. rewrite E. split.
  - clear E. assert (Disj : forall x, In x (declared s) -> ~ In x (declared s')).
    { intros x I1 I2. destruct (N1 x I1) as (t & c & -> & B1). destruct (N2 _ I2) as (t' & c' & Q & B2).
      apply name_inj in Q as [<- <-]. lia. }
    clear - D1 D2 Disj. induction (declared s) as [|x l IH]; [exact D2|]. cbn. inversion_clear D1. constructor.
    + intros I. apply in_app_or in I as [I|I]; [contradiction|]. apply (Disj x); [now left|exact I].
    + apply IH; [assumption|]. intros y Hy. apply Disj. now right.
  - intros x I. apply in_app_or in I as [I|I].
    + destruct (N1 x I) as (t & c & -> & B). exists t, c. specialize (L2 t). split; [reflexivity|lia].
    + destruct (N2 x I) as (t & c & -> & B). exists t, c. specialize (L1 t). split; [reflexivity|lia].
Qed.
Lemma ok_same : forall g s g' r, ok g s g' -> declared r = declared s -> ok g r g'.
Proof. intros g s g' r (L & D & N) E. split; [exact L|]. rewrite E. auto. Qed.

Lemma ok_assign : forall o v g, ok g (fst (assign o v g)) (snd (assign o v g)).
Proof. intros. now apply ok_one. Qed.
Lemma ok_copy : forall o v g, ok g (fst (VectCopy o v g)) (snd (VectCopy o v g)).
Proof. intros. now apply ok_one. Qed.
Lemma ok_vect : forall body o args g s g', (forall p i l, declared (body p i l) = []) ->
  VectApply body o args g = Ok (s, g') -> ok g s g'.
Proof.
  intros body o args g s g' H E. unfold VectApply, VectApplyV in E. destruct (forallb _ _); [|discriminate].
  injection E as <- <-. apply ok_one. cbn [declared]. now rewrite H.
Qed.
Lemma ok_seq2 : forall g a k s g', ok g (fst a) (snd a) ->
  (forall s1 g1, k (snd a) = Ok (s1, g1) -> ok (snd a) s1 g1) -> seq2 a k = Ok (s, g') -> ok g s g'.
Proof.
  intros g a k s g' H K E. unfold seq2 in E. destruct (k (snd a)) as [[s1 g1]| | |]; try discriminate.
  injection E as <- <-. eapply ok_app; [exact H|apply K; reflexivity|reflexivity].
Qed.

Lemma ok_lin : forall l o a g s g', lin_op l o a g = Ok (s, g') -> ok g s g'.
Proof.
  intros l o a g s g' E. destruct l; cbn [lin_op] in E.
  - eapply ok_seq2; [apply ok_assign| |exact E]. intros s1 g1 E1. eapply ok_vect; [|exact E1]. reflexivity.
  - injection E as <- <-. now apply ok_one.
  - injection E as <- <-. now apply ok_nil.
  - injection E as <- <-.
    eapply (ok_app g (SFor (name "k" (g "k")) 0 0 SSkip) (next g "k")
              (SFor (name "k" (next g "k" "k")) 0 0 SSkip)); [now apply ok_one|now apply ok_one|reflexivity].
  - injection E as <- <-. now apply ok_one.
  - destruct (split3 _ _ _ _) as [[[x y] z]| | |]; try discriminate. cbn [rbind] in E.
    eapply ok_seq2; [apply ok_assign| |exact E]. intros s1 g1 E1.
    eapply ok_seq2; [apply ok_copy| |exact E1]. intros s2 g2 E2. injection E2 as <- <-. now apply ok_one.
Qed.

Lemma ok_var_k_k : forall g s, declared s = [name "var" (g "var"); name "k" (next g "var" "k"); name "k" (next (next g "var") "k" "k")] ->
  ok g s (next (next (next g "var") "k") "k").
Proof.
  intros g s E. 
  eapply (ok_app g (SInt (name "var" (g "var")) 0) (next g "var")
    (SSeq (SInt (name "k" (next g "var" "k")) 0) (SInt (name "k" (next (next g "var") "k" "k")) 0)));
    [now apply ok_one| |exact E].
  eapply (ok_app _ (SInt (name "k" (next g "var" "k")) 0) _ (SInt (name "k" (next (next g "var") "k" "k")) 0));
    [now apply ok_one|now apply ok_one|reflexivity].
Qed.
Lemma ok_bil : forall b d o x y g s g', bil_op b d o x y g = Ok (s, g') -> ok g s g'.
Proof.
  intros b d o x y g s g' E. destruct b; cbn [bil_op] in E.
  - eapply ok_seq2; [apply ok_assign| |exact E]. intros s1 g1 E1. eapply ok_vect; [|exact E1]. reflexivity.
  - injection E as <- <-. apply ok_var_k_k. reflexivity.
  - injection E as <- <-. apply ok_var_k_k. reflexivity.
  - injection E as <- <-. apply ok_var_k_k. reflexivity.
Qed.
Lemma ok_sel : forall c d o x g s g', sel_op c d o x g = Ok (s, g') -> ok g s g'.
Proof.
  intros c d o x g s g' E. destruct c; cbn [sel_op] in E.
  - injection E as <- <-. now apply ok_one.
  - injection E as <- <-. now apply ok_one.
  - injection E as <- <-.
    eapply (ok_app g (SInt (name "var" (g "var")) 0) (next g "var") (SInt (name "k" (next g "var" "k")) 0));
      [now apply ok_one|now apply ok_one|reflexivity].
  - injection E as <- <-.
    eapply (ok_app g (SInt (name "var" (g "var")) 0) (next g "var") (SInt (name "k" (next g "var" "k")) 0));
      [now apply ok_one|now apply ok_one|reflexivity].
  - eapply ok_seq2; [apply ok_assign| |exact E]. intros s1 g1 E1. injection E1 as <- <-. now apply ok_nil.
Qed.
Lemma ok_cat : forall o x y g s g', cat_op o x y g = Ok (s, g') -> ok g s g'.
Proof.
  intros o x y g s g' E. unfold cat_op in E. destruct (split2 _ _ _) as [[a b]| | |]; try discriminate. cbn [rbind] in E.
  eapply ok_seq2; [apply ok_copy| |exact E]. intros s1 g1 E1. injection E1 as <- <-. now apply ok_one.
Qed.

Lemma ok_declare : forall g t d, ok g (declare (name t (g t)) d) (next g t).
Proof.
  intros g t d. unfold declare. destruct (0 <? d); [now apply ok_one|].
  split; [intros; apply next_le|]. split; [constructor|intros x []].
Qed.
Lemma ok_child : forall table f g a s g', (forall o g s g', call f o table g = Ok (s, g') -> ok g s g') ->
  child table f (fun o => call f o table) g = Ok (a, s, g') -> ok g s g'.
Proof.
  intros table f g a s g' H E.
  assert (X : forall t, (let x := name t (g t) in let arg := Array (PName x) (dim f) in
      do c <- call f arg table (next g t) ; Ok (arg, SSeq (declare x (dim f)) (fst c), snd c)) = Ok (a, s, g') -> ok g s g').
  { intros t Q. cbn zeta in Q. destruct (call f _ table (next g t)) as [[s1 g1]| | |] eqn:Ec; try discriminate.
    apply H in Ec. cbn [rbind fst snd] in Q. injection Q as _ <- <-.
    eapply ok_app; [apply ok_declare|exact Ec|reflexivity]. }
  destruct f; try exact (X _ E). cbn [child] in E. destruct (table_get table i); try discriminate.
  cbn [rbind] in E. injection E as _ <- <-. now apply ok_nil.
Qed.

Ltac step E :=
  match type of E with
  | (do x <- child ?t ?f ?c ?g ; _) = _ =>
      let Q := fresh "Q" in destruct (child t f c g) as [[[? ?] ?]| | |] eqn:Q; try discriminate; cbn [rbind] in E
  | (do x <- ?r ; _) = _ =>
      let Q := fresh "Q" in destruct r as [[? ?]| | |] eqn:Q; try discriminate; cbn [rbind] in E
  end.

Theorem declared_once : forall f out table g s g', call f out table g = Ok (s, g') -> ok g s g'.
Proof.
  induction f; intros out table g0 s0 g' E; cbn [call] in E.
  - destruct (table_get table i); try discriminate. cbn [rbind] in E. injection E as <- <-. now apply ok_one.
  - injection E as <- <-. now apply ok_one.
  - injection E as <- <-. now apply ok_nil.
  - injection E as <- <-. now apply ok_nil.
  - step E. step E. injection E as <- <-.
    apply (ok_child _ _ _ _ _ _ (fun o => IHf o table)) in Q. apply ok_vect in Q0; [|reflexivity].
    eapply ok_app; [exact Q|exact Q0|reflexivity].
  - step E. step E. step E. injection E as <- <-.
    apply (ok_child _ _ _ _ _ _ (fun o => IHf1 o table)) in Q. apply (ok_child _ _ _ _ _ _ (fun o => IHf2 o table)) in Q0.
    apply ok_vect in Q1; [|reflexivity].
    eapply ok_app; [exact Q| |reflexivity]. eapply ok_app; [exact Q0|exact Q1|reflexivity].
  - step E. step E. step E. step E. injection E as <- <-.
    apply (ok_child _ _ _ _ _ _ (fun o => IHf1 o table)) in Q. apply (ok_child _ _ _ _ _ _ (fun o => IHf2 o table)) in Q0.
    apply (ok_child _ _ _ _ _ _ (fun o => IHf3 o table)) in Q1.
    apply ok_vect in Q2; [|reflexivity].
    eapply ok_app; [exact Q| |reflexivity]. eapply ok_app; [exact Q0| |reflexivity]. eapply ok_app; [exact Q1|exact Q2|reflexivity].
  - step E. step E. injection E as <- <-.
    apply (ok_child _ _ _ _ _ _ (fun o => IHf o table)) in Q. apply ok_lin in Q0.
    eapply ok_app; [exact Q|exact Q0|reflexivity].
  - step E. step E. step E. injection E as <- <-.
    apply (ok_child _ _ _ _ _ _ (fun o => IHf1 o table)) in Q. apply (ok_child _ _ _ _ _ _ (fun o => IHf2 o table)) in Q0.
    apply ok_bil in Q1.
    eapply ok_app; [exact Q| |reflexivity]. eapply ok_app; [exact Q0|exact Q1|reflexivity].
  - step E. step E. step E. injection E as <- <-.
    apply (ok_child _ _ _ _ _ _ (fun o => IHf1 o table)) in Q. apply (ok_child _ _ _ _ _ _ (fun o => IHf2 o table)) in Q0.
    apply ok_cat in Q1.
    eapply ok_app; [exact Q| |reflexivity]. eapply ok_app; [exact Q0|exact Q1|reflexivity].
  - step E. step E. injection E as <- <-.
    apply (ok_child _ _ _ _ _ _ (fun o => IHf o table)) in Q. apply ok_sel in Q0.
    eapply ok_app; [exact Q|exact Q0|reflexivity].
Qed.

Theorem names_declared_once : forall f out table g s g', call f out table g = Ok (s, g') ->
  NoDup (declared s)
  /\ forall x, In x (declared s) -> exists t c, x = (t ++ "_" ++ str_int (Z.of_nat c))%string /\ g t <= c < g' t.
Proof. intros f out table g s g' E. exact (proj2 (declared_once _ _ _ _ _ _ E)). Qed.
