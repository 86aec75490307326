(** Proofs for C67: the weighted reduction. *)

From Coq Require Import ZArith Reals Lia Lra List Bool Ascii String.
From Verif Require Import C64Grad RedText Result BackText Keys KeySpec Aliases AliasSpec Formula Simplify SimplifyProofs Closure Build XReal Reductions ReductionSpec
  RedLoops KernelSum KernelSumSpec Loader CpuReduc CpuConv CpuConvSpec LseSpec Postprocess FormulaSpec Methods MethodsSpec PyRead PyReadSpec
  GenericOps GenericOpsSpec RKeops RKeopsSpec RLazy RLazySpec C65Args C65Read C65Proofs C65Cases RMethods RMethodsSpec C66Proofs RReduce RReduceSpec
  C09Proofs C12Proofs C67Proofs.
Import ListNotations.
Local Open Scope nat_scope.
Open Scope string_scope.

Lemma dense_softmax : forall decl f s w tagI A M N schedule out,
  KernelSumSpec.declared decl f -> wf f -> categories decl -> tagI <= 1 -> complete schedule ->
  dim f = S (S w) -> s <> kahan_scheme -> 0 < red_terms tagI M N ->
  exists out', launch_cpu schedule (LSE_Red (S w)) s f tagI A M N out = Ok out' /\
    forall n k, n < out_rows tagI M N -> k < w -> (forall m, m < red_terms tagI M N -> snd (entry_of decl A f tagI n m) 0 = 1%R) ->
      let es := taken (red_terms tagI M N) (entry_of decl A f tagI n) in
      softmax_post (fun q => out' (n * S (S w) + q)) k = Fin (exp_sum (S k) es / exp_sum 0 es).
Proof.
  intros decl f s w tagI A M N schedule out D W C T Sc Dw Hs Hn.
  destruct (dense_cpu decl f (LSE_Red (S w)) s tagI A M N schedule out D W C T) as [out' [E [H1 H2]]].
  - constructor. assumption.
  - destruct s; cbn; eauto; congruence.
  - assumption.
  - exists out'. split; [assumption|]. intros n k Hrow Hk ONE es.
    destruct (H1 n Hrow) as [v [Ev Hv]].
    destruct (C09Proofs.user_softmax s w (red_terms tagI M N) (entry_of decl A f tagI n) Hn) as [v' [Ev' Hv']].
    + intros j Hj. split; [destruct tagI; discriminate|now apply ONE].
    + assumption.
    + rewrite (cpu_row_local (S (S w)) (LSE_Red (S w)) s _ (terms decl A f tagI n) (lse_terms (entry_of decl A f tagI n))) in Ev.
      * assert (v = v') by congruence. subst v'. unfold es. rewrite <- (Hv' k Hk). unfold softmax_post.
        cbn [rdim LSE_Red] in Hv. rewrite <- (Hv (S (S k))), <- (Hv 1) by lia. reflexivity.
      * constructor. reflexivity.
      * intros j Hj [|q] Hq; destruct tagI; reflexivity.
Qed.

Lemma exp_sum_at : forall k (e : nat -> LseSpec.entry) (v g : nat -> R) n, (forall m, m < n -> exists w, e m = (Some (v m), w) /\ w k = g m) ->
  exp_sum k (taken n e) = total n (fun m => (exp (v m) * g m)%R).
Proof.
  intros k e v g n. induction n as [|n IH]; intros E; [reflexivity|]. unfold taken in *. rewrite seq_S, map_app. cbn [map Nat.add total].
  assert (AP : forall u w, exp_sum k (u ++ w) = (exp_sum k u + exp_sum k w)%R).
  { induction u as [|[[y|] h] u IU]; intros w; cbn [app exp_sum]; [lra|rewrite IU; lra|apply IU]. }
  rewrite AP, IH by (intros m Hm; apply E; lia). destruct (E n (le_n _)) as (w & -> & W). cbn [exp_sum]. rewrite W. lra.
Qed.

(** The rows of the arrays, for any declaration that agrees with the tensors. *)
Lemma declared_rows : forall decl p z place l M N A, run p = Ok z ->
  (forall a x v, In (a, x, v) (leaves p) -> decl (Z.of_nat (place a x)) = (coordinates v, Z.to_nat (category (kind_of x)))) ->
  (forall a x v, In (a, x, v) (leaves p) -> exists m, nth_error l (place a x) = Some m /\ points "col" v m) -> sizes p M N -> stored l A ->
  forall i j, i < M -> j < N -> RMethodsSpec.rows place p i j (point decl (contiguous decl A) i j).
Proof.
  intros decl p z place l M N A R DL LP SZ ST i j Hi Hj a x v k J L. destruct (LP a x v J) as (m & Q & PT). specialize (SZ a x v J). assert (LI := leaf_index p z a x v R J).
  unfold point, contiguous. rewrite (DL a x v J). cbn [fst snd]. destruct v as [n f|n q f]; cbn [points coordinates cols coordinate] in *.
  - subst x. destruct PT as (_ & MR & MC & PT). cbn [kind_of category row Z.to_nat]. cbn.
    specialize (ST _ _ Q k 0). rewrite MR, MC in ST. rewrite <- (PT k L). rewrite <- ST by lia. change (row (Pos.to_nat 2) i j) with 0. f_equal. lia.
  - destruct PT as [(_ & MR & MC & PT)|(E & _)]; [|discriminate E].
    destruct LI as [->| ->]; cbn [kind_of category] in *; cbn; subst n; try change (row (Pos.to_nat 1) i j) with j;
      [specialize (ST _ _ Q i k)|specialize (ST _ _ Q j k)]; rewrite MR, MC in ST; rewrite ST by lia; apply PT; lia.
Qed.

Lemma softmax_output_claim : forall c p z w q y f index o l,
  program_of c = Ok p -> run p = Ok z -> objects p -> not_empty c -> size c = 1 -> program_of w = Ok q -> run q = Ok y -> objects q -> not_empty w ->
  In f [sumsoftmaxweight; sumsoftmaxweight_reduction] -> f z index y = Ok (Reduced o l) ->
  exists place after F G, as_formula (term_of place p) = Some F /\ as_formula (term_of after q) = Some G /\
    engine_runs o (Cat F (Cat (Int 1) G)) None (fun ro => forall M N A s, sizes p M N -> sizes q M N -> stored l A -> inside c M N -> inside w M N ->
      0 < terms_of index M N -> s <> kahan_scheme ->
      output ro 0 s A M N (fun out => forall n k, n < rows_of index M N -> k < size w ->
        softmax_post (fun q => out (n * (2 + size w) + q)) k =
          Fin (total (terms_of index M N) (fun m => (exp (term_at c index n m 0) * term_at w index n m k)%R) /
               total (terms_of index M N) (fun m => exp (term_at c index n m 0))))).
Proof.
  intros c p z w q y f index o l H R OB NE ONE H' R' OB' NE' I HF.
  assert (S' : reduction z "SumSoftMaxWeight" index (TensorArg y) = Ok (o, l)) by (destruct I as [<-|[<-|[]]]; apply over_reduced in HF; auto; discriminate).
  assert (PO : pos p) by (intros a x v J; now apply (proj2 OB a x v)). assert (PO' : pos q) by (intros a x v J; now apply (proj2 OB' a x v)).
  destruct (calls c p z H R PO NE) as (U & O & _). destruct (calls w q y H' R' PO' NE') as (U' & O' & _ & PW & _).
  destruct (weighted_claim p z q y _ index o l OB O R OB' O' R' S') as (place & place' & PL & PL' & LP & LP' & X).
  set (after := fun a x => List.length (z_data z) + place' a x) in *.
  destruct (usual_formula p z place OB U R) as (F & AF & WF & DF & ET). destruct (usual_formula q y after OB' U' R') as (G & AG & WG & DG & ET').
  destruct (X F G (Cat (Int 1) G) AF WF ET AG WG ET' (or_intror (conj eq_refl eq_refl))) as (t & al & T & L & (e & a & RD & DI & E1 & E2)). clear X.
  destruct (values c p z H R OB NE) as [_ V]. destruct (V place) as (F' & AF' & _ & D & EV). rewrite AF in AF'. injection AF' as <-.
  destruct (values w q y H' R' OB' NE') as [_ V']. destruct (V' after) as (G' & AG' & _ & D' & EV'). rewrite AG in AG'. injection AG' as <-.
  exists place, after, F, G. split; [exact AF|]. split; [exact AG|].
  exists t, al, e, a. do 4 (split; [assumption|]). split.
  2:{ intros h B. destruct (E2 h B) as (ro & Q & _); [intros _; now rewrite D|]. exists ro. exact Q. }
  intros ro k' Q. destruct (E1 ro k' Q) as (Ek & Ei & B & EQ & TG & _). split; [exact Ek|]. clear E1 E2 Q.
  assert (TG' : Z.to_nat (ro_tag ro) = tag index).
  { rewrite TG. destruct index; try reflexivity. exfalso. unfold reduction, preprocess_reduction in S'. discriminate S'. }
  intros M N A s SZ SZ' ST IN IN' HT HS.
  set (decl := fun n => if Z.ltb n (Z.of_nat (List.length (z_data z))) then decl_of place p n else decl_of after q n).
  assert (DL : forall a x v, In (a, x, v) (leaves p) -> decl (Z.of_nat (place a x)) = (coordinates v, Z.to_nat (category (kind_of x)))).
  { intros a0 x v J. unfold decl. assert (LT : place a0 x < List.length (z_data z)) by (apply nth_error_Some; rewrite (proj1 PL a0 x v J); discriminate).
    rewrite (proj2 (Z.ltb_lt _ _)) by lia. exact (decl_leaf p OB place (z_data z) PL a0 x v J). }
  assert (DL' : forall a x v, In (a, x, v) (leaves q) -> decl (Z.of_nat (after a x)) = (coordinates v, Z.to_nat (category (kind_of x)))).
  { intros a0 x v J. unfold decl. rewrite (proj2 (Z.ltb_ge _ _)) by (unfold after; lia). unfold decl_of.
    destruct (find _ _) as [[[a' x'] v']|] eqn:FN.
    - apply find_some in FN. destruct FN as [J' E]. cbn in E. apply Z.eqb_eq, Nat2Z.inj in E. unfold after in E. destruct PL' as (_ & P & _).
      destruct (P _ _ _ _ _ _ J' J ltac:(lia)) as [-> ->]. now rewrite (proj1 OB' _ _ _ _ _ J' J).
    - apply (find_none _ _ FN) in J. cbn in J. now rewrite Z.eqb_refl in J. }
  assert (CA : categories decl).
  { intros n. unfold decl. destruct (Z.ltb _ _); apply decl_categories. }
  assert (DH : KernelSumSpec.declared decl (ro_formula ro)).
  { apply declared_all. apply (built_declared decl _ _ B). cbn [everywhere].
    assert (X1 := formula_declared decl place p F DL AF). assert (X2 := formula_declared decl after q G DL' AG). cbn. auto 10. }
  assert (AT : forall i j, i < M -> j < N -> let e := point decl (contiguous decl A) i j in
    safe e (Cat F (Cat (Int 1) G)) /\ eval F e 0 = value c i j 0 /\ forall k, k < size w -> eval G e k = value w i j k).
  { intros i j Hi Hj e0. assert (PR := declared_rows decl p z place l M N A R DL LP SZ ST i j Hi Hj).
    assert (PR' := declared_rows decl q y after l M N A R' DL' LP' SZ' ST i j Hi Hj).
    destruct (IN i j Hi Hj) as [DE RA]. destruct (IN' i j Hi Hj) as [DE' RA']. split; [|split].
    - split; [|split; [exact Logic.I|]].
      + apply (calls_safe c p z place F _ i j H R PO NE AF); auto.
      + apply (calls_safe w q y after G _ i j H' R' PO' NE' AG); auto.
    - apply (EV i j _ PR DE). rewrite ONE. apply le_n.
    - exact (EV' i j _ PR' DE'). }
  destruct EQ as (Wh & Dh & EQ). cbn [dim] in Dh. rewrite D, ONE, D' in Dh. change (1 + (1 + size w)) with (S (S (size w))) in Dh.
  exists (LSE_Red (dim (ro_formula ro) - 1)). split; [now rewrite Ei|]. intros schedule out CO. rewrite TG', Dh. cbn [Nat.sub].
  assert (TE : red_terms (tag index) M N = terms_of index M N) by (destruct index; reflexivity).
  assert (OE : out_rows (tag index) M N = rows_of index M N) by (destruct index; reflexivity).
  destruct (dense_softmax decl _ s (size w) (tag index) A M N schedule out DH Wh CA (tag_le index) CO Dh HS) as (out' & E & VV); [now rewrite TE|].
  exists out'. split; [exact E|]. intros n k Hn Hk. rewrite OE, TE in VV.
  assert (EN : forall m, m < terms_of index M N -> exists g, entry_of decl A (ro_formula ro) (tag index) n m = (Some (term_at c index n m 0), g) /\ g 0 = 1%R /\ g (S k) = term_at w index n m k).
  { assert (EE : forall i j, i < M -> j < N -> let e := point decl (contiguous decl A) i j in
      eval (ro_formula ro) e 0 = value c i j 0 /\ eval (ro_formula ro) e 1 = 1%R /\ eval (ro_formula ro) e (S (S k)) = value w i j k).
    { intros i j Hi Hj e0. destruct (AT i j Hi Hj) as (SA & V0 & VW). destruct (EQ e0 SA) as [_ EQV].
      repeat split; rewrite EQV by (cbn [dim]; lia); cbn [eval]; rewrite D, ONE; cbn [Nat.ltb Nat.leb Nat.sub dim eval]; auto.
      rewrite Nat.sub_0_r. now apply VW. }
    intros m Hm. destruct index; cbn [tag terms_of rows_of term_at entry_of] in *.
    - destruct (EE m n Hm Hn) as (X0 & X1 & X2). rewrite <- X0. eexists. split; [reflexivity|]. split; [exact X1|exact X2].
    - destruct (EE n m Hn Hm) as (X0 & X1 & X2). rewrite <- X0. eexists. split; [reflexivity|]. split; [exact X1|exact X2].
    - destruct (EE n m Hn Hm) as (X0 & X1 & X2). rewrite <- X0. eexists. split; [reflexivity|]. split; [exact X1|exact X2]. }
  specialize (VV n k Hn Hk). cbv zeta in VV. change (2 + size w) with (S (S (size w))). rewrite VV.
  2:{ intros m Hm. destruct (EN m Hm) as (g & -> & G0 & _). exact G0. }
  f_equal. f_equal.
  - apply exp_sum_at. intros m Hm. destruct (EN m Hm) as (g & Eg & _ & Gk). exists g. auto.
  - f_equal. rewrite (exp_sum_at 0 _ (fun m => term_at c index n m 0) (fun _ => 1%R)).
    + clear. induction (terms_of index M N) as [|T IH]; [reflexivity|]. cbn [total]. rewrite IH. lra.
    + intros m Hm. destruct (EN m Hm) as (g & Eg & G0 & _). exists g. auto.
Qed.
