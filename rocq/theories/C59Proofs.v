(** Acceptance of the derivatives of any order. *)

From Coq Require Import ZArith Reals Lia List Bool String.
From Verif Require Import Result Aliases Formula Simplify SimplifyProofs Diff GradSpec KernelSum RedGrad PyRead RedText BackText BackSpec
  C58Proofs GradReadySpec GradReady.
Import ListNotations.
Local Open Scope nat_scope.

Lemma lasting_pos : forall R, lasting_red R -> (1 <= red_dim R)%Z /\ (0 <= red_tag R <= 1)%Z.
Proof.
  intros [r|F G t|d t|o k]; cbn [lasting_red red_dim red_tag].
  - intros (T & W & _). assert (D := dim_pos _ W). unfold zdim. lia.
  - intros (T & D & W & _). assert (X := dim_pos _ W). unfold zdim. lia.
  - lia.
  - tauto.
Qed.

Lemma flag_le : forall c, c <= 2 -> Nat.modulo c 2 <= 1.
Proof. intros c H. assert (X := Nat.mod_upper_bound c 2). lia. Qed.

Lemma lasting_DiffT : forall R i d c n m, lasting_red R -> 1 <= d -> c <= 2 -> exists R',
  red_DiffT R (Var i d c) (Var n (Z.to_nat (red_dim R)) (Z.to_nat (red_tag R)))
    (Var m (Z.to_nat (red_dim R)) (Z.to_nat (red_tag R))) = Ok R' /\ lasting_red R'.
Proof.
  intros R i d c n m L Hd Hc.
  assert (VN : forall k p t, 1 <= p -> N (Var k p t)).
  { intros k p t P. apply N_lasting. repeat split. cbn [node_ok]. apply Nat.leb_le. exact P. }
  destruct R as [r|F G t|d' t|o k]; cbn [lasting_red red_DiffT red_dim red_tag] in *.
  - destruct L as (T & W & L). assert (P := dim_pos _ W). unfold zdim. rewrite !Nat2Z.id.
    destruct (DiffT_lasting (sformula r) i d c (Var n (dim (sformula r)) (stagI r))) as (h & E & Wh & Lh & Dh); auto.
    + apply (VN n (dim (sformula r)) (stagI r)); exact P.
    + exact Logic.I.
    + unfold Sum_DiffT. rewrite E. cbn [rbind]. eexists. split; [reflexivity|]. cbn [lasting_red sformula stagI].
      split; [exact (flag_le c Hc)|auto].
  - destruct L as (T & D & WF & LF & WG & LG). assert (NF : N F) by (apply N_lasting; auto).
    assert (NG : N G) by (apply N_lasting; auto). assert (P := dim_pos _ WG). unfold zdim. rewrite !Nat2Z.id.
    set (k := Z.to_nat _). assert (K : k = 1 + dim G) by (unfold k; lia). clearbody k.
    unfold lse_DiffT, lse_reduction. rewrite D. cbn [Nat.eqb rbind]. unfold lse_summand. rewrite D.
    assert (Q1 : node_ok (Lin (LExtract 0 1) (Var m k t)) = true) by (cbn [node_ok dim]; rewrite K; reflexivity).
    assert (Q2 : node_ok (Lin (LExtract 1 (dim G)) (Var n k t)) = true).
    { cbn [node_ok dim]. rewrite K, Nat.leb_refl. apply Nat.leb_le. exact P. }
    assert (Vm := VN m k t ltac:(lia)). assert (Vn := VN n k t ltac:(lia)).
    assert (N1 : N (Lin (LExtract 0 1) (Var m k t))) by (apply N_lin; auto; exact Logic.I).
    assert (N2 : N (Lin (LExtract 1 (dim G)) (Var n k t))) by (apply N_lin; auto; exact Logic.I).
    unfold mk. rewrite Q1, Q2. cbn [rbind].
    destruct (g_Subtract F (Lin (LExtract 0 1) (Var m k t)) NF N1) as (s & Es & Ns & Ds); [right; left; exact D|].
    rewrite Es. cbn [rbind]. cbn [dim] in Ds. rewrite D in Ds. cbn in Ds.
    assert (NE : N (Un UExp s)) by (apply N_un; auto; exact Logic.I).
    destruct (g_Mult (Un UExp s) G NE NG) as (f & Ef & Nf & Df); [right; left; exact Ds|].
    rewrite Ef. cbn [rbind]. cbn [dim] in Df. rewrite Ds in Df.
    apply N_lasting in Nf as [Wf Lf]. apply N_lasting in N2 as [W2 L2].
    destruct (DiffT_lasting f i d c _ Hd Wf Lf W2 L2) as (h & E & Wh & Lh & Dh); [cbn [dim]; lia|].
    unfold Sum_DiffT. cbn [sformula]. rewrite E. cbn [rbind]. eexists. split; [reflexivity|].
    cbn [lasting_red sformula stagI]. split; [exact (flag_le c Hc)|auto].
  - eexists. split; [reflexivity|]. cbn. split; [exact Hd|exact (flag_le c Hc)].
  - tauto.
Qed.

Lemma lasting_aligned : forall decl p R needs k a, pass p R needs k a -> lasting_red R -> aligned decl (p_aliases (a_params a)) ->
  a_pos a = Z.of_nat k /\ (1 <= a_dim a)%Z /\ (0 <= a_cat a <= 2)%Z.
Proof.
  intros decl p R needs k a Q G H. destruct (lasting_pos R G) as [D T].
  destruct (pass_facts _ _ _ _ _ Q) as (s & ar & N1 & N2 & P1 & P2 & P3 & F & L).
  rewrite L in H. apply aligned_front in H. destruct H as (l & G1 & G2).
  destruct (get_types_nth _ _ _ _ _ G1 N1) as (x & X1 & X2). rewrite Z.add_0_l, N2 in X1. injection X1 as <-.
  destruct (G2 _ _ X2) as (Y1 & Y2 & Y3 & Y4). rewrite P1 in Y1. injection Y1 as ->. rewrite P2, P3 in *. auto.
Qed.

Lemma pass_accepted : forall decl p R needs k a, pass p R needs k a -> lasting_red R -> aligned decl (p_aliases (a_params a)) ->
  exists R', engine_makes (a_params a) R' /\ lasting_red R'.
Proof.
  intros decl p R needs k a Q G H. destruct (lasting_aligned _ _ _ _ _ _ Q G H) as (P & D & C).
  destruct (lasting_pos R G) as [D' T'].
  destruct (lasting_DiffT R (a_pos a) (Z.to_nat (a_dim a)) (Z.to_nat (a_cat a)) (Z.of_nat (List.length needs))
    (Z.of_nat (List.length needs) + 1) G) as (R' & E & L); [lia|lia|].
  exists R'. split; [|exact L]. apply (pass_text _ _ _ _ _ Q); [lia..|exact E].
Qed.

Lemma orders_lasting : forall decl p R0 q, engine_makes p R0 -> lasting_red R0 -> orders p q ->
  aligned decl (p_aliases q) -> exists R, engine_makes q R /\ lasting_red R.
Proof.
  intros decl p R0 q E0 G0 O. induction O as [|q R needs k a O IH Q]; intros HA; [exists R0; auto|].
  destruct IH as (R1 & E1 & L1).
  { destruct (pass_facts _ _ _ _ _ Q) as (s & ar & _ & _ & _ & _ & _ & _ & L). rewrite L in HA. eapply aligned_front, HA. }
  assert (R1 = R) as -> by (eapply makes_unique; [exact E1|apply Q]).
  eapply pass_accepted; eassumption.
Qed.

Lemma orders_exist : forall decl A M N, 0 < M -> 0 < N -> forall p R0 q r needs k a,
  engine_makes p R0 -> regular_red decl A M N R0 -> lasting_red R0 -> orders p q ->
  pass q (RSum r) needs k a -> aligned decl (p_aliases (a_params a)) ->
  exists rd, engine_makes (a_params a) (RSum rd) /\ gradient_of decl A M N r (Z.of_nat (List.length needs)) (Z.of_nat k) rd.
Proof.
  intros decl A M N HM HN p R0 q r needs k a E0 G0 L0 O Q HA.
  destruct (orders_lasting decl p R0 (a_params a) E0 L0 (O_next _ _ _ _ _ _ O Q) HA) as (R' & E & L).
  destruct (orders_gradient decl A M N HM HN _ _ _ _ _ _ _ _ E0 G0 O Q HA E) as (rd & -> & X). exists rd. auto.
Qed.

(** x/2 + z + 3 x. *)
Definition half_formula : fm :=
  Bin BAdd (Bin BAdd (Bin BMult (Rat 1 2) (Var 0 3 0)) (Var 1 3 1)) (Bin BMult (Int 3) (Var 0 3 0)).
Lemma rational : exists f i d c g,
  (do h <- Divide (Var 0 3 0) (Int 2) ; do s <- Add h (Var 1 3 1) ; do t <- Mult (Int 3) (Var 0 3 0) ; Add s t) = Ok f /\
  wf f /\ consistent i d c f /\ unmixed f /\ wf g /\ dim g = dim f /\ (forall e, smooth e f) /\ DiffT f (Var i d c) g = PyErr.
Proof.
  exists half_formula, 0%Z, 3, 0, (Var 2 3 0).
  split; [lazy; reflexivity|]. split; [cbn; repeat split|]. split; [cbn; repeat split; try reflexivity; discriminate|].
  split; [cbn; repeat split|]. split; [cbn; repeat split|]. split; [reflexivity|].
  split; [intros e; cbn; repeat split|lazy; reflexivity].
Qed.
