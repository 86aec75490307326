(** Announced dimensions of tensor contractions and of functions of three tensors. *)

From Coq Require Import ZArith List Bool Ascii String Lia Permutation.
From Verif Require Import Result Keys Formula LazyTensors Tensordot TensordotSpec C36Proofs Methods MethodsSpec C42Proofs.
Import ListNotations.
Open Scope string_scope.

Lemma require_ok : forall b u, require b = Ok u -> b = true.
Proof. intros [] u H; [auto|discriminate]. Qed.

Lemma td_fields : forall fad fbd da db ca cb pm t, tensordot fad fbd da db ca cb pm = Ok t ->
  fad = product da /\ fbd = product db /\ exists sa, select da ca = Ok sa /\
  (if Nat.eqb (List.length ca) 0 then td_dim t = (fad * fbd)%nat
   else product sa <> 0%nat /\ td_dim t = (fad * fbd / (product sa * product sa))%nat).
Proof.
  intros fad fbd da db ca cb pm t H. unfold tensordot in H. cbn zeta in H.
  apply bind_ok in H as (sb & E1 & H). apply bind_ok in H as (sa & E2 & H).
  apply bind_ok in H as (? & _ & H). apply bind_ok in H as (? & R1 & H). apply require_ok in R1. apply Nat.eqb_eq in R1.
  apply bind_ok in H as (? & R2 & H). apply require_ok in R2. apply Nat.eqb_eq in R2.
  split; [auto|]. split; [auto|]. exists sa. split; [auto|].
  do 5 (apply bind_ok in H as (? & _ & H)). apply bind_ok in H as (d & D & H).
  repeat (apply bind_ok in H as (? & _ & H)). inversion H; subst. cbn [td_dim].
  destruct (Nat.eqb (List.length ca) 0).
  - inversion D; auto.
  - destruct (Nat.eqb_spec (product sa) 0); [discriminate|]. inversion D; auto.
Qed.

Lemma td_positive : forall fad fbd da db ca cb pm t, tensordot fad fbd da db ca cb pm = Ok t ->
  (1 <= fad)%nat -> (1 <= fbd)%nat -> (1 <= td_dim t)%nat.
Proof.
  intros fad fbd da db ca cb pm t H A B. destruct (td_fields _ _ _ _ _ _ _ _ H) as (-> & -> & sa & S & D).
  destruct (Nat.eqb_spec (List.length ca) 0); [rewrite D; nia|]. destruct D as [P D]. rewrite D.
  destruct (accepted _ _ _ _ _ _ H) as (ca' & cb' & p & -> & -> & G & _). destruct G as [_ Na Nb Ra Rb Sz _].
  rewrite (sizes_sel da), (sizes_sel db) in Sz.
  rewrite (select_sel nat 0%nat) in S by auto. inversion S; subst sa.
  assert (Pa := product_split da ca' Na Ra). assert (Pb := product_split db cb' Nb Rb). rewrite <- Sz in Pb.
  set (x := product (sel 0%nat da ca')) in *.
  set (u := product (sel 0%nat da (kept (List.length da) ca'))) in *.
  set (v := product (sel 0%nat db (kept (List.length db) cb'))) in *.
  rewrite Pa, Pb. replace (u * x * (v * x))%nat with (u * v * (x * x))%nat by lia.
  rewrite Nat.div_mul by nia. rewrite Pa in A. rewrite Pb in B. nia.
Qed.

Lemma agrees_dot : forall da db ca cb pm l t l' t' r tr, agrees l t -> agrees l' t' ->
  m_tensordot da db ca cb pm l l' = Ok r ->
  tr = TDot "TensorDot" t t' ([map Z.of_nat da; map Z.of_nat db; ca; cb] ++ match pm with Some p => [p] | None => [] end) ->
  agrees r tr.
Proof.
  intros da db ca cb pm l t l' t' r tr A A' H ->. unfold m_tensordot in H. apply bind_ok in H as (d0 & D & H).
  refine (agrees_binary l t l' t' _ _ _ _ _ _ r _ A A' H _ _ _ _ _).
  - unfold binary_text, extra_text. cbn [written app]. rewrite dot_text. reflexivity.
  - sub2.
  - intros a b d Ga Gb Na Nb La Lb _ G. cbn [engine_dim] in G; rewrite Ga, Gb in G. cbn [rbind app] in G.
    assert (T : exists td, tensordot (Z.to_nat a) (Z.to_nat b) da db ca cb pm = Ok td /\ d = Z.of_nat (td_dim td)).
    { destruct pm as [p|]; cbn in G; rewrite !nats_zs in G; apply bind_ok in G as (td & T & G); inversion G; eauto. }
    destruct T as (td & T & ->). assert (P := td_positive _ _ _ _ _ _ _ _ T ltac:(lia) ltac:(lia)).
    destruct (td_fields _ _ _ _ _ _ _ _ T) as (Fa & Fb & sa & S & Dd).
    assert (d0 = td_dim td) as ->.
    { rewrite Fa, Fb in Dd. destruct ca as [|c ca]; cbn [List.length Nat.eqb] in Dd.
      - inversion D. congruence.
      - rewrite S in D. cbn [rbind] in D. destruct Dd as [Z1 Z2]. destruct (Nat.eqb_spec (product sa) 0); [congruence|].
        inversion D. congruence. }
    rewrite or_default_pos; lia.
  - cbn. discriminate.
  - cbn. discriminate.
Qed.

Lemma agrees_kron : forall da db l t l' t' r, agrees l t -> agrees l' t' -> m_kron da db l l' = Ok r ->
  agrees r (TDot "Kron" t t' [map Z.of_nat da; map Z.of_nat db]).
Proof.
  intros da db l t l' t' r A A' H.
  refine (agrees_binary l t l' t' _ _ _ _ _ _ r _ A A' H _ _ _ _ _).
  - unfold binary_text, extra_text. cbn [written]. rewrite dot_text. reflexivity.
  - sub2.
  - intros a b d Ga Gb Na Nb La Lb _ G. cbn [engine_dim] in G; rewrite Ga, Gb in G. cbn in G.
    rewrite !nats_zs in G. apply bind_ok in G as (td & T & G). inversion G.
    unfold kron in T. apply bind_ok in T as (? & _ & T). cbn zeta in T.
    assert (P := td_positive _ _ _ _ _ _ _ _ T ltac:(lia) ltac:(lia)).
    destruct (td_fields _ _ _ _ _ _ _ _ T) as (Fa & Fb & sa & S & Dd). cbn [List.length Nat.eqb] in Dd.
    rewrite Na, Nb. rewrite or_default_pos by nia. rewrite Dd. nia.
  - cbn. discriminate.
  - cbn. discriminate.
Qed.

Lemma agrees_ternary : forall l t l' t' l'' t'' op dr dc r,
  agrees l t -> agrees l' t' -> agrees l'' t'' -> ternary l l' l'' op dr dc None = Ok r ->
  (forall a b c d, (1 <= a)%Z -> (1 <= b)%Z -> (1 <= c)%Z -> engine3 op a b c = Ok d ->
     or_default dr (Z.max a (Z.max b c)) = d /\ (1 <= d)%Z) ->
  (negb (String.eqb op "SoftDTW_SqDist") = true -> dc = DSameOr1 /\ forall a b c, (1 <= a)%Z -> (1 <= b)%Z -> (1 <= c)%Z ->
     same_or_one_test a b c = true -> exists d, engine3 op a b c = Ok d) ->
  agrees r (T3 op t t' t'').
Proof.
  intros l t l' t' l'' t'' op dr dc r [A B C] [A' B' C'] [A'' B'' C''] H D E.
  apply ternary_fields in H as (H1 & H2 & H3). split.
  - cbn [written]. rewrite H1, A, A', A''. reflexivity.
  - intros d G. cbn [engine_dim] in G. apply bind_ok in G as (a & Ga & G). apply bind_ok in G as (b & Gb & G).
    apply bind_ok in G as (c & Gc & G). destruct (B _ Ga), (B' _ Gb), (B'' _ Gc). rewrite H2. subst. eauto.
  - intros G. cbn [checked] in G. apply andb_prop in G as [G G3]. apply andb_prop in G as [G G2].
    apply andb_prop in G as [G G1]. destruct (E G) as [-> E'].
    destruct (C G1) as [a Ga], (C' G2) as [b Gb], (C'' G3) as [c Gc].
    destruct (B _ Ga), (B' _ Gb), (B'' _ Gc). subst. specialize (H3 eq_refl).
    destruct (E' (ndim l) (ndim l') (ndim l'') ltac:(assumption) ltac:(assumption) ltac:(assumption) H3) as [d Hd].
    exists d. cbn [engine_dim]. rewrite Ga, Gb, Gc. exact Hd.
Qed.

Lemma fun3_engine : forall m a b c, engine3 (fun3_op m) a b c = vectorized [a; b; c].
Proof. destruct m; reflexivity. Qed.

Lemma agrees_fun3 : forall m l t l' t' l'' t'' r, agrees l t -> agrees l' t' -> agrees l'' t'' ->
  m_fun3 m l l' l'' = Ok r -> agrees r (T3 (fun3_op m) t t' t'').
Proof.
  intros m l t l' t' l'' t'' r A A' A'' H. unfold m_fun3 in H. eapply (agrees_ternary l t l' t' l'' t''); eauto.
  - intros a b c d La Lb Lc G. rewrite fun3_engine in G. apply vect3_ok in G; auto. cbn. lia.
  - intros _. split; auto. intros a b c La Lb Lc S. rewrite fun3_engine. apply vect3_is; auto.
Qed.

Lemma agrees_softdtw : forall l t l' t' l'' t'' r, agrees l t -> agrees l' t' -> agrees l'' t'' ->
  m_softdtw l l' l'' = Ok r -> agrees r (T3 "SoftDTW_SqDist" t t' t'').
Proof.
  intros l t l' t' l'' t'' r A A' A'' H. unfold m_softdtw in H. eapply (agrees_ternary l t l' t' l'' t''); eauto.
  - intros a b c d La Lb Lc G. cbn in G. destruct (negb (c =? 1)%Z); inversion G. cbn. lia.
  - intros K. discriminate.
Qed.

(** ** All the methods *)

Lemma made_agrees : forall l t, made l t -> agrees l t.
Proof.
  induction 1.
  - split; [reflexivity| |cbn; eauto]. cbn. intros d' E. inversion E; subst. auto.
  - split; [reflexivity| |cbn; eauto]. cbn. intros d' E. inversion E; subst. lia.
  - split; [reflexivity| |cbn; eauto]. cbn. intros d' E. inversion E; subst. auto.
  - destruct (array_fields _ _ _ _ _ _ H H2) as [F N]. subst d. split; [rewrite F; reflexivity| |cbn; eauto].
    cbn. intros d' E. inversion E; subst. split; auto. now apply last_in.
  - now apply agrees_map.
  - now apply agrees_pow.
  - now apply agrees_round.
  - now apply agrees_clamp_int.
  - now apply agrees_scal.
  - eapply agrees_elem; eauto.
  - exact (agrees_extract _ _ _ _ _ IHmade H0).
  - exact (agrees_extract _ _ _ _ _ IHmade H0).
  - unfold m_slice in H0. rewrite Z.sub_0_r in H0. exact (agrees_extract _ _ _ _ _ IHmade H0).
  - exact (agrees_extract _ _ _ _ _ IHmade H0).
  - eapply agrees_one_hot; eauto.
  - eapply (agrees_arith m false); eauto.
  - eapply (agrees_arith m true); eauto.
  - eapply (agrees_or false); eauto.
  - eapply (agrees_or true); eauto.
  - eapply agrees_fun2; eauto.
  - eapply agrees_powf; eauto.
  - eapply agrees_sqdist; eauto.
  - eapply agrees_weighted; eauto.
  - eapply agrees_difference; eauto.
  - eapply agrees_concat; eauto.
  - eapply agrees_bspline; eauto.
  - eapply agrees_matvec; eauto.
  - eapply agrees_vecmat; eauto.
  - eapply agrees_tensorprod; eauto.
  - exact (agrees_dot da db ca cb None _ _ _ _ _ _ IHmade1 IHmade2 H1 eq_refl).
  - exact (agrees_dot da db ca cb (Some p) _ _ _ _ _ _ IHmade1 IHmade2 H1 eq_refl).
  - eapply agrees_kron; eauto.
  - eapply agrees_factorize; eauto.
  - eapply agrees_fun3; eauto.
  - eapply agrees_softdtw; eauto.
Qed.
