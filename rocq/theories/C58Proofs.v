(** Proofs for the texts of gradients and derivatives of any order. *)

From Coq Require Import ZArith Reals Lia Lra Arith List Bool Ascii String.
From Verif Require Import Result Keys KeySpec Folder Aliases AliasSpec C22Proofs C25Proofs C26Proofs Formula FormulaSpec Simplify SimplifyProofs
  BuildProofs Diff GradSpec Calculus Tangent Closure Adjoint DiffProofs LinOps LinOpsSpec LinOpsMain DiffClosure
  KernelSum KernelSumSpec C05Proofs RedGrad C46Proofs PyRead PyReadProofs ReadSaved RedText BackText BackSpec.
From Verif Require PyReadSpec.
Import ListNotations.
Open Scope string_scope.
Local Open Scope nat_scope.

(** ** Declarations *)

Lemma var_has : forall x p d c, digit x = false -> x <> "-"%char -> has x "Var(,)" = false -> has x (var_text p d c) = false.
Proof.
  intros x p d c D M H. unfold var_text. cbn [has] in H. repeat (apply orb_false_iff in H; destruct H as [?H H]).
  rewrite !has_app, !str_has by assumption. cbn [has]. now rewrite H0, H1, H2, H3, H4, H5.
Qed.

Lemma var_spaces : forall p d c, no_spaces (var_text p d c) = var_text p d c.
Proof.
  intros. assert (H : has " " (var_text p d c) = false) by (apply var_has; [reflexivity|discriminate|reflexivity]).
  revert H. generalize (var_text p d c). induction s as [|x s IH]; [reflexivity|]. cbn [has no_spaces].
  intros H. apply orb_false_iff in H. destruct H as [H1 H2]. rewrite H1, IH by assumption. reflexivity.
Qed.

Lemma engine_plain : forall l k cat nums p d c p' d' c',
  engine_aliases k cat nums (l ++ [var_text p d c; var_text p' d' c'])%list = engine_aliases k cat nums l.
Proof.
  induction l as [|s l IH]; intros.
  - cbn [app engine_aliases]. rewrite !var_spaces.
    rewrite !split_none by (apply var_has; [reflexivity|discriminate|reflexivity]). reflexivity.
  - cbn [app engine_aliases]. destruct (split "=" (no_spaces s)) as [|a [|b [|? ?]]]; try reflexivity; [apply IH|].
    destruct (engine_numbers k b nums) as [[[i x]|]| | |]; try reflexivity; cbn [rbind].
    destruct (engine_cat b cat); [|reflexivity]. rewrite IH. reflexivity.
Qed.

Lemma dictionary_unique : forall l d d1 d2, dictionary d l d1 -> dictionary d l d2 -> d1 = d2.
Proof.
  intros l d d1 d2 H. revert d2. induction H as [d|d a l d' C H IH|d a n x e v l d' C S R V H IH]; intros d2 H2.
  - now inversion H2.
  - inversion H2; subst; [now apply IH|congruence].
  - inversion H2 as [|? ? ? C2 H3|? n2 x2 e2 v2 ? ? C2 S2 R2 V2 H3]; subst; [congruence|].
    rewrite S in S2. injection S2 as <- <-. assert (e2 = e) as -> by (eapply reads_unique; eassumption).
    rewrite V in V2. injection V2 as <-. now apply IH.
Qed.

Lemma makes_unique : forall p R R', engine_makes p R -> engine_makes p R' -> R = R'.
Proof.
  intros p R R' (al & nm & e & A & D & X & V) (al' & nm' & e' & A' & D' & X' & V').
  rewrite A in A'. injection A' as <-. assert (nm' = nm) as -> by (eapply dictionary_unique; eassumption).
  assert (e' = e) as -> by (eapply reads_unique; eassumption). congruence.
Qed.

(** ** One pass *)

Definition vars_ok (n d c : Z) : Prop := (1 <= d)%Z /\ (0 <= c)%Z.

Lemma loop_call : forall sigs needs p nargs dimout tag k0 calls p' j a,
  back_loop p nargs dimout tag k0 sigs needs = Ok (calls, p') -> nth_error calls j = Some (Some a) ->
  exists s ar, nth_error sigs j = Some s /\ nth_error needs j = Some true /\ get_type s (Some (k0 + Z.of_nat j))%Z = Ok ar /\
    ar_pos ar = Some (a_pos a) /\ ar_dim ar = a_dim a /\ ar_cat ar = a_cat a /\
    p_formula (a_params a) = saved_text "Grad_WithSavedForward" (p_formula p) (var_text (a_pos a) (a_dim a) (a_cat a))
      (var_text nargs dimout tag) (var_text (nargs + 1) dimout tag) /\
    p_aliases (a_params a) = (p_aliases p ++ [var_text nargs dimout tag; var_text (nargs + 1) dimout tag])%list.
Proof.
  induction sigs as [|s sigs IH]; intros needs p nargs dimout tag k0 calls p' j a H N.
  { cbn in H. injection H as <- <-. now destruct j. }
  destruct needs as [|b needs]; [cbn in H; injection H as <- <-; now destruct j|].
  cbn [back_loop] in H. destruct b.
  - unfold back_one in H. destruct (get_type s (Some k0)) as [ar| | |] eqn:G; try discriminate. cbn [rbind] in H.
    destruct (ar_pos ar) as [pos|] eqn:P; [|discriminate]. cbn [rbind fst snd] in H.
    destruct (back_loop _ _ _ _ _ sigs needs) as [[cl pp]| | |] eqn:L; try discriminate. cbn [rbind fst snd] in H.
    injection H as <- <-. destruct j as [|j].
    + cbn in N. injection N as <-. exists s, ar. rewrite Z.add_0_r. cbn. rewrite P. auto 10.
    + cbn in N. destruct (IH _ _ _ _ _ _ _ _ _ _ L N) as (s' & ar' & X). exists s', ar'. cbn [nth_error].
      cbn [p_formula p_aliases] in X. replace (k0 + Z.of_nat (S j))%Z with (k0 + 1 + Z.of_nat j)%Z by lia. exact X.
  - destruct (back_loop _ _ _ _ _ sigs needs) as [[cl pp]| | |] eqn:L; try discriminate. cbn [rbind fst snd] in H.
    injection H as <- <-. destruct j as [|j]; [discriminate|].
    cbn in N. destruct (IH _ _ _ _ _ _ _ _ _ _ L N) as (s' & ar' & X). exists s', ar'. cbn [nth_error].
    replace (k0 + Z.of_nat (S j))%Z with (k0 + 1 + Z.of_nat j)%Z by lia. exact X.
Qed.

Lemma jvp_loop_call : forall sigs given p nargs dimout tag k0 calls j a,
  jvp_loop p nargs dimout tag k0 sigs given = Ok calls -> nth_error calls j = Some (Some a) ->
  exists s ar, nth_error sigs j = Some s /\ nth_error given j = Some true /\ get_type s (Some (k0 + Z.of_nat j))%Z = Ok ar /\
    ar_pos ar = Some (a_pos a) /\ ar_dim ar = a_dim a /\ ar_cat ar = a_cat a /\
    p_formula (a_params a) = saved_text "Diff_WithSavedForward" (p_formula p) (var_text (a_pos a) (a_dim a) (a_cat a))
      (var_text nargs (a_dim a) (a_cat a)) (var_text (nargs + 1) dimout tag) /\
    p_aliases (a_params a) = (p_aliases p ++ [var_text nargs (a_dim a) (a_cat a); var_text (nargs + 1) dimout tag])%list.
Proof.
  induction sigs as [|s sigs IH]; intros needs p nargs dimout tag k0 calls j a H N.
  { cbn in H. injection H as <-. now destruct j. }
  destruct needs as [|b needs]; [cbn in H; injection H as <-; now destruct j|].
  cbn [jvp_loop] in H.
  destruct (if b then _ else _) as [x| | |] eqn:X; try discriminate. cbn [rbind] in H.
  destruct (jvp_loop p nargs dimout tag (k0 + 1) sigs needs) as [cl| | |] eqn:L; try discriminate. cbn [rbind] in H.
  injection H as <-. destruct j as [|j].
  - cbn in N. injection N as ->. destruct b; [|discriminate]. unfold jvp_one in X.
    destruct (get_type s (Some k0)) as [ar| | |] eqn:G; try discriminate. cbn [rbind] in X.
    destruct (ar_pos ar) as [pos|] eqn:P; [|discriminate]. cbn [rbind] in X. injection X as <-.
    exists s, ar. rewrite Z.add_0_r. cbn. rewrite P. auto 10.
  - cbn in N. destruct (IH _ _ _ _ _ _ _ _ _ L N) as (s' & ar' & Y). exists s', ar'. cbn [nth_error].
    replace (k0 + Z.of_nat (S j))%Z with (k0 + 1 + Z.of_nat j)%Z by lia. exact Y.
Qed.

(** What the engine makes of the text of a gradient. *)
Lemma saved_makes : forall kw p q R v eta d2 c2 d3 c3 n1 d1 c1 (n2 n3 : Z),
  kw = "Grad_WithSavedForward" \/ kw = "Diff_WithSavedForward" ->
  engine_makes p R ->
  v = var_text n1 d1 c1 -> eta = var_text n2 d2 c2 ->
  p_formula q = saved_text kw (p_formula p) v eta (var_text n3 d3 c3) ->
  p_aliases q = (p_aliases p ++ [eta; var_text n3 d3 c3])%list ->
  (1 <= d1)%Z -> (0 <= c1)%Z -> (1 <= d2)%Z -> (0 <= c2)%Z -> (1 <= d3)%Z -> (0 <= c3)%Z ->
  forall R', engine_makes q R' <->
    (if String.eqb kw "Grad_WithSavedForward" then red_DiffT else red_Diff) R (Var n1 (Z.to_nat d1) (Z.to_nat c1))
      (Var n2 (Z.to_nat d2) (Z.to_nat c2)) (Var n3 (Z.to_nat d3) (Z.to_nat c3)) = Ok R'.
Proof.
  intros kw p q R v eta d2 c2 d3 c3 n1 d1 c1 n2 n3 K (al & nm & e & A & D & X & V) -> -> F L H1 H2 H3 H4 H5 H6 R'.
  assert (I : PyReadSpec.identifier kw) by (destruct K as [-> | ->]; (split; [reflexivity|]); intros x; cbn [has]; intros Y;
      repeat (apply orb_true_iff in Y; destruct Y as [Y|Y]; [apply Ascii.eqb_eq in Y; subst x; reflexivity|]); discriminate Y).
  assert (X' := saved_read kw _ _ n1 d1 c1 n2 d2 c2 n3 d3 c3 I X). rewrite <- F in X'.
  assert (A' : engine_aliases 0 None None (p_aliases q) = Ok al) by (rewrite L, engine_plain; exact A).
  assert (W : red_value nm (PCall (PName kw) [e; vtree n1 d1 c1; vtree n2 d2 c2; vtree n3 d3 c3]) =
    (if String.eqb kw "Grad_WithSavedForward" then red_DiffT else red_Diff) R (Var n1 (Z.to_nat d1) (Z.to_nat c1))
      (Var n2 (Z.to_nat d2) (Z.to_nat c2)) (Var n3 (Z.to_nat d3) (Z.to_nat c3))).
  { cbn [red_value]. rewrite V, !value_var by assumption. cbn [rbind as_formula].
    destruct K as [-> | ->]; reflexivity. }
  rewrite <- W. split.
  - intros (al' & nm' & e' & B & D' & Y & V'). rewrite A' in B. injection B as <-.
    assert (nm' = nm) as -> by (eapply dictionary_unique; eassumption).
    rewrite (reads_unique _ _ _ X' Y). exact V'.
  - intros V'. exists al, nm, (PCall (PName kw) [e; vtree n1 d1 c1; vtree n2 d2 c2; vtree n3 d3 c3]). auto.
Qed.

(** ** Alignment *)

Lemma get_types_app : forall l1 l2 k l, get_types k (l1 ++ l2)%list = Ok l ->
  exists a b, get_types k l1 = Ok a /\ get_types (k + Z.of_nat (List.length l1)) l2 = Ok b /\ l = (a ++ b)%list /\ List.length a = List.length l1.
Proof.
  induction l1 as [|s l1 IH]; intros l2 k l H.
  - exists [], l. cbn. rewrite Z.add_0_r. auto.
  - cbn [app get_types] in H. destruct (get_type s (Some k)) as [x| | |] eqn:G; try discriminate. cbn [rbind] in H.
    destruct (get_types (k + 1) (l1 ++ l2)%list) as [y| | |] eqn:Y; try discriminate. cbn [rbind] in H. injection H as <-.
    destruct (IH _ _ _ Y) as (a & b & A & B & -> & L). exists (x :: a), b. cbn [get_types]. rewrite G. cbn [rbind]. rewrite A.
    cbn [rbind List.length]. replace (k + Z.of_nat (S (List.length l1)))%Z with (k + 1 + Z.of_nat (List.length l1))%Z by lia.
    repeat split; auto.
Qed.

Lemma get_types_nth : forall l k r j s, get_types k l = Ok r -> nth_error l j = Some s ->
  exists a, get_type s (Some (k + Z.of_nat j)%Z) = Ok a /\ nth_error r j = Some a.
Proof.
  induction l as [|x l IH]; intros k r j s H N; [now destruct j|].
  cbn [get_types] in H. destruct (get_type x (Some k)) as [a| | |] eqn:G; try discriminate. cbn [rbind] in H.
  destruct (get_types (k + 1) l) as [y| | |] eqn:Y; try discriminate. cbn [rbind] in H. injection H as <-.
  destruct j as [|j]; cbn in N.
  - injection N as <-. exists a. rewrite Z.add_0_r. auto.
  - destruct (IH _ _ _ _ Y N) as (b & B & C). exists b.
    replace (k + Z.of_nat (S j))%Z with (k + 1 + Z.of_nat j)%Z by lia. auto.
Qed.

Lemma type_of_var : forall n d c k, (0 <= n)%Z -> (0 <= d)%Z -> (0 <= c)%Z ->
  exists nm, get_type (var_text n d c) (Some k) = Ok {| ar_name := nm; ar_cat := c; ar_dim := d; ar_pos := Some n |}.
Proof.
  intros n d c k Hn Hd Hc. destruct (get_type_text (Positional n d c) (var_text n d c) k) as (nm & E).
  - repeat split; assumption.
  - cbn [text]. fold (var_text n d c). rewrite <- (var_spaces n d c) at 2. apply no_spaces_spaced.
  - exists nm. exact E.
Qed.

Lemma aligned_front : forall decl l l', aligned decl (l ++ l')%list -> aligned decl l.
Proof.
  intros decl l l' (r & H & P). destruct (get_types_app _ _ _ _ H) as (a & b & A & B & -> & L).
  exists a. split; [exact A|]. intros k x Hk. apply P. rewrite nth_error_app1; [exact Hk|]. apply nth_error_Some. congruence.
Qed.

Lemma aligned_app : forall decl l d1 c1 d2 c2, (0 <= d1)%Z -> (0 <= c1)%Z -> (0 <= d2)%Z -> (0 <= c2)%Z ->
  let n := Z.of_nat (List.length l) in
  aligned decl (l ++ [var_text n d1 c1; var_text (n + 1) d2 c2])%list ->
  aligned decl l /\ decl n = (Z.to_nat d1, Z.to_nat c1) /\ decl (n + 1)%Z = (Z.to_nat d2, Z.to_nat c2).
Proof.
  intros decl l d1 c1 d2 c2 D1 C1 D2 C2 n (r & H & P).
  destruct (get_types_app _ _ _ _ H) as (a & b & A & B & -> & L). split; [|split].
  - exists a. split; [exact A|]. intros k x Hk. apply P. rewrite nth_error_app1; [exact Hk|].
    apply nth_error_Some. congruence.
  - rewrite Z.add_0_l in B. fold n in B. cbn [get_types] in B.
    destruct (type_of_var n d1 c1 n) as (nm & E); try assumption; [lia|]. rewrite E in B. cbn [rbind] in B.
    destruct (get_type (var_text (n + 1) d2 c2) (Some (n + 1)%Z)) as [y| | |]; try discriminate. cbn [rbind] in B.
    injection B as <-. destruct (P (List.length l) {| ar_name := nm; ar_cat := c1; ar_dim := d1; ar_pos := Some n |}) as (_ & _ & _ & Q).
    + rewrite nth_error_app2 by lia. rewrite L, Nat.sub_diag. reflexivity.
    + exact Q.
  - rewrite Z.add_0_l in B. fold n in B. cbn [get_types] in B.
    destruct (get_type (var_text n d1 c1) (Some n)) as [y| | |]; try discriminate. cbn [rbind] in B.
    destruct (type_of_var (n + 1) d2 c2 (n + 1)) as (nm & E); try assumption; [lia|]. rewrite E in B. cbn [rbind] in B.
    injection B as <-.
    destruct (P (S (List.length l)) {| ar_name := nm; ar_cat := c2; ar_dim := d2; ar_pos := Some (n + 1)%Z |}) as (_ & _ & _ & Q).
    + rewrite nth_error_app2 by lia. rewrite L. replace (S (List.length l) - List.length l) with 1 by lia. reflexivity.
    + replace (Z.of_nat (S (List.length l))) with (n + 1)%Z in Q by lia. exact Q.
Qed.

(** ** Regular formulas *)

Section Regular.
Variables (decl : KernelSum.declaration) (A : arguments) (M N : nat).
Hypothesis HM : 0 < M.
Hypothesis HN : 0 < N.

Lemma regular_var : forall n d c, decl n = (d, c) -> 1 <= d -> regular decl A M N (Var n d c).
Proof.
  intros n d c E D. split; [|split; [|split]]; try exact Logic.I; [|exact E|intros; exact Logic.I].
  split; [|exact Logic.I]. cbn. destruct d; [lia|reflexivity].
Qed.

Lemma regular_grad : forall f g i d c h, DiffT f (Var i d c) g = Ok h -> decl i = (d, c) -> 1 <= d ->
  regular decl A M N f -> regular decl A M N g -> dim g = dim f -> regular decl A M N h.
Proof.
  intros f g i d c h E Hi Hd (Wf & Df & Uf & Sf) (Wg & Dg & Ug & Sg) D.
  assert (X : forall a b, a < M -> b < N -> wf h /\ dim h = d /\ unmixed h /\ smooth (point decl A a b) h).
  { intros a b Ha Hb. eapply DiffT_smooth; eauto. eapply declared_consistent; eauto. }
  destruct (X 0 0 HM HN) as (W & _ & U & _). split; [exact W|]. split; [|split; [exact U|]].
  - apply declared_all. eapply DiffT_vars; [|exact E|apply declared_all, Df|apply declared_all, Dg].
    intros y. destruct y; exact Logic.I.
  - intros a b Ha Hb. apply (X a b Ha Hb).
Qed.

Lemma regular_summand : forall F G q D t f, lse_summand F G (Var q D t) = Ok f -> dim F = 1 -> 1 <= D -> decl q = (D, t) ->
  regular decl A M N F -> regular decl A M N G -> regular decl A M N f /\ dim f = dim G.
Proof.
  intros F G q D t f E DF HD Hq (WF & dF & UF & SF) (WG & dG & UG & SG).
  destruct (summand_ok F G _ _ _ f E WF WG DF HD) as (W & Dm & V). split; [|exact Dm].
  split; [exact W|]. split; [|split].
  - apply declared_all. eapply summand_everywhere; [apply declared1_arith|exact E| | | |].
    + apply declared_all, dF. + apply declared_all, dG. + exact Hq. + intros; exact Logic.I.
  - apply unmixed_all. eapply summand_everywhere; [apply unmixed1_arith|exact E| | | |].
    + apply unmixed_all, UF. + apply unmixed_all, UG. + exact Logic.I. + intros; exact Logic.I.
  - intros i j Hi Hj. apply (V smooth_doms smooth_arith_ok smooth_exp); [apply SF|apply SG]; assumption.
Qed.

Lemma regular_pos : forall R, regular_red decl A M N R -> (1 <= red_dim R)%Z /\ (0 <= red_tag R <= 1)%Z.
Proof.
  clear HM HN. intros [r|F G t|d t|o k]; cbn [regular_red red_dim red_tag].
  - intros (T & W & _). assert (D := dim_pos _ W). unfold zdim. lia.
  - intros (T & (W & _) & _). assert (D := dim_pos _ W). unfold zdim. lia.
  - lia.
  - tauto.
Qed.

Lemma mod_small : forall c, c <= 2 -> Nat.modulo c 2 <= 1.
Proof. intros c H. assert (X := Nat.mod_upper_bound c 2). lia. Qed.

Lemma regular_DiffT : forall R i d c n R', red_DiffT R (Var i d c) (Var n (Z.to_nat (red_dim R)) (Z.to_nat (red_tag R)))
    (Var (n + 1) (Z.to_nat (red_dim R)) (Z.to_nat (red_tag R))) = Ok R' ->
  decl i = (d, c) -> 1 <= d -> c <= 2 -> decl n = (Z.to_nat (red_dim R), Z.to_nat (red_tag R)) ->
  decl (n + 1)%Z = (Z.to_nat (red_dim R), Z.to_nat (red_tag R)) ->
  regular_red decl A M N R -> regular_red decl A M N R'.
Proof.
  intros R i d c n R' E Hi Hd Hc Hn Hn1 Q. assert (P := regular_pos R Q).
  destruct R as [r|F G t|d0 t|o k]; cbn [red_DiffT] in E.
  - destruct Q as [T Q]. unfold Sum_DiffT in E.
    destruct (DiffT (sformula r) _ _) as [h| | |] eqn:H; try discriminate. cbn [rbind] in E. injection E as <-.
    split; [apply mod_small, Hc|]. cbn [sformula].
    eapply regular_grad; [exact H|exact Hi|exact Hd|exact Q| |].
    + apply regular_var; [exact Hn|]. cbn [red_dim] in *. lia.
    + cbn [dim red_dim]. unfold zdim. lia.
  - destruct Q as (T & QF & QG). unfold lse_DiffT, lse_reduction in E.
    destruct (dim F =? 1) eqn:DF; [|discriminate]. apply Nat.eqb_eq in DF. cbn [rbind] in E.
    destruct (lse_summand F G _) as [f| | |] eqn:S; try discriminate. cbn [rbind] in E.
    destruct (mk _) as [gS| | |] eqn:K; try discriminate. cbn [rbind] in E. apply mk_ok in K as [-> NK].
    destruct (regular_summand _ _ _ _ _ _ S DF ltac:(lia) Hn1 QF QG) as [Qf Df].
    unfold Sum_DiffT in E. cbn [sformula stagI] in E.
    destruct (DiffT f _ _) as [h| | |] eqn:H; try discriminate. cbn [rbind] in E. injection E as <-.
    split; [apply mod_small, Hc|]. cbn [sformula].
    eapply regular_grad; [exact H|exact Hi|exact Hd|exact Qf| |].
    + destruct (regular_var n _ _ Hn ltac:(lia)) as (W1 & W2 & W3 & W4).
      split; [split; [exact NK|exact W1]|]. split; [exact W2|]. split; [exact W3|]. intros a b Ha Hb. exact (W4 a b Ha Hb).
    + cbn [dim]. congruence.
  - injection E as <-. split; [exact Hd|apply mod_small, Hc].
  - destruct (existsb _ _); [|discriminate]. injection E as <-. split; [exact Hd|apply mod_small, Hc].
Qed.

(** ** Passes *)

Lemma pass_facts : forall p R needs k a, pass p R needs k a ->
  exists s ar, nth_error (p_aliases p) k = Some s /\ get_type s (Some (Z.of_nat k)) = Ok ar /\
    ar_pos ar = Some (a_pos a) /\ ar_dim ar = a_dim a /\ ar_cat ar = a_cat a /\
    let n := Z.of_nat (List.length needs) in
    p_formula (a_params a) = saved_text "Grad_WithSavedForward" (p_formula p) (var_text (a_pos a) (a_dim a) (a_cat a))
      (var_text n (red_dim R) (red_tag R)) (var_text (n + 1) (red_dim R) (red_tag R)) /\
    p_aliases (a_params a) = (p_aliases p ++ [var_text n (red_dim R) (red_tag R); var_text (n + 1) (red_dim R) (red_tag R)])%list.
Proof.
  intros p R needs k a (E & L & calls & p' & B & K). unfold backward_calls in B.
  destruct (check_AD_supported (p_formula p)); try discriminate. cbn [rbind] in B.
  destruct (loop_call _ _ _ _ _ _ _ _ _ _ _ B K) as (s & ar & X1 & X2 & X3 & X). rewrite Z.add_0_l in X3.
  exists s, ar. tauto.
Qed.

Lemma pass_text : forall p R needs k a, pass p R needs k a -> (1 <= a_dim a)%Z -> (0 <= a_cat a)%Z -> (1 <= red_dim R)%Z ->
  (0 <= red_tag R)%Z -> forall R', engine_makes (a_params a) R' <->
    red_DiffT R (Var (a_pos a) (Z.to_nat (a_dim a)) (Z.to_nat (a_cat a)))
      (Var (Z.of_nat (List.length needs)) (Z.to_nat (red_dim R)) (Z.to_nat (red_tag R)))
      (Var (Z.of_nat (List.length needs) + 1) (Z.to_nat (red_dim R)) (Z.to_nat (red_tag R))) = Ok R'.
Proof.
  intros p R needs k a Q D C D' C' R'. destruct (pass_facts _ _ _ _ _ Q) as (s & ar & _ & _ & _ & _ & _ & F & L).
  destruct Q as [E _].
  exact (saved_makes "Grad_WithSavedForward" p (a_params a) R _ _ _ _ _ _ _ _ _ _ _ (or_introl eq_refl) E eq_refl eq_refl F L D C D' C' D' C' R').
Qed.

Lemma pass_aligned : forall p R needs k a, pass p R needs k a -> regular_red decl A M N R ->
  aligned decl (p_aliases (a_params a)) ->
  aligned decl (p_aliases p) /\ a_pos a = Z.of_nat k /\ (1 <= a_dim a)%Z /\ (0 <= a_cat a <= 2)%Z /\
  decl (Z.of_nat k) = (Z.to_nat (a_dim a), Z.to_nat (a_cat a)) /\
  let n := Z.of_nat (List.length needs) in
  decl n = (Z.to_nat (red_dim R), Z.to_nat (red_tag R)) /\ decl (n + 1)%Z = (Z.to_nat (red_dim R), Z.to_nat (red_tag R)).
Proof.
  clear HM HN. intros p R needs k a Q G H. destruct (regular_pos R G) as [D T].
  destruct (pass_facts _ _ _ _ _ Q) as (s & ar & N1 & N2 & P1 & P2 & P3 & F & L).
  destruct Q as (_ & EL & _). rewrite EL in *. rewrite L in H.
  destruct (aligned_app decl _ (red_dim R) (red_tag R) (red_dim R) (red_tag R) ltac:(lia) ltac:(lia) ltac:(lia) ltac:(lia) H) as (H1 & H2 & H3).
  split; [exact H1|]. destruct H1 as (l & G1 & G2).
  destruct (get_types_nth _ _ _ _ _ G1 N1) as (x & X1 & X2). rewrite Z.add_0_l, N2 in X1. injection X1 as <-.
  destruct (G2 _ _ X2) as (Y1 & Y2 & Y3 & Y4). rewrite P1 in Y1. injection Y1 as ->. rewrite P2, P3 in *. auto 10.
Qed.

Lemma orders_regular : forall p R0 q, engine_makes p R0 -> regular_red decl A M N R0 -> orders p q ->
  aligned decl (p_aliases q) -> forall R, engine_makes q R -> regular_red decl A M N R.
Proof.
  intros p R0 q E0 G0 O. induction O as [|q R needs k a O IH Q]; intros HA R' E.
  - rewrite (makes_unique _ _ _ E E0). exact G0.
  - assert (GR : regular_red decl A M N R).
    { apply IH; [|apply Q].
      destruct (pass_facts _ _ _ _ _ Q) as (s & ar & _ & _ & _ & _ & _ & _ & L). rewrite L in HA. eapply aligned_front, HA. }
    destruct (pass_aligned _ _ _ _ _ Q GR HA) as (_ & P & D & C & DK & DN & DN1).
    destruct (regular_pos R GR) as [D' T']. apply (pass_text _ _ _ _ _ Q) in E; [|lia..].
    eapply regular_DiffT; [exact E| | | | | |]; try assumption; [rewrite P; exact DK|lia|lia].
Qed.

Lemma pass_front : forall p R needs k a, pass p R needs k a -> aligned decl (p_aliases (a_params a)) -> aligned decl (p_aliases p).
Proof.
  intros p R needs k a Q HA. destruct (pass_facts _ _ _ _ _ Q) as (s & ar & _ & _ & _ & _ & _ & _ & L). rewrite L in HA.
  eapply aligned_front, HA.
Qed.

Lemma orders_gradient : forall p R0 q r needs k a R', engine_makes p R0 -> regular_red decl A M N R0 -> orders p q ->
  pass q (RSum r) needs k a -> aligned decl (p_aliases (a_params a)) -> engine_makes (a_params a) R' ->
  exists rd, R' = RSum rd /\ gradient_of decl A M N r (Z.of_nat (List.length needs)) (Z.of_nat k) rd.
Proof.
  intros p R0 q r needs k a R' E0 G0 O Q HA E.
  assert (GR : regular_red decl A M N (RSum r)).
  { eapply orders_regular; [exact E0|exact G0|exact O| |apply Q]. eapply pass_front; eassumption. }
  destruct (pass_aligned _ _ _ _ _ Q GR HA) as (_ & P & D & C & DK & DN & _).
  destruct (regular_pos _ GR) as [D' T']. apply (pass_text _ _ _ _ _ Q) in E; [|lia..].
  rewrite P in E. cbn [red_DiffT] in E. set (n := Z.of_nat (List.length needs)) in *.
  destruct (Sum_DiffT r _ _) as [rd| | |] eqn:S; try discriminate. cbn [rbind] in E. injection E as <-.
  exists rd. split; [reflexivity|]. unfold gradient_of. rewrite DK. intros H.
  cbn [regular_red] in GR. destruct GR as (T & W & DC & U & SM). cbn [red_dim red_tag] in *.
  unfold zdim in *. rewrite !Nat2Z.id in *. set (d := Z.to_nat (a_dim a)) in *. set (c := Z.to_nat (a_cat a)) in *.
  assert (B : backward decl A M N {| sformula := sformula r; stagI := stagI r |} n (Z.of_nat k) =
              Ok (collapsed (Z.of_nat c) M (reduce_sum decl A M N rd))).
  { unfold backward. rewrite DK. cbn [sformula stagI]. destruct r as [f t]. cbn [sformula stagI] in *. rewrite S.
    unfold collapsed. f_equal. destruct (Nat.eqb_spec c 2) as [->|Ne]; [reflexivity|].
    destruct (Z.eqb_spec (Z.of_nat c) 2); [lia|reflexivity]. }
  eapply kernel_sum_gradient_output; [exact DK|lia|lia|exact T|exact W|exact DC|exact U|exact DN|apply dim_pos, W|exact SM|exact B].
Qed.

(** The gradients of constant reductions are zero. *)
Lemma orders_zero : forall p R0 q d t needs k a R', engine_makes p R0 -> regular_red decl A M N R0 -> orders p q ->
  pass q (RZero d t) needs k a -> aligned decl (p_aliases (a_params a)) -> engine_makes (a_params a) R' ->
  R' = RZero (Z.to_nat (a_dim a)) (Nat.modulo (Z.to_nat (a_cat a)) 2).
Proof.
  intros p R0 q d t needs k a R' E0 G0 O Q HA E.
  assert (GR : regular_red decl A M N (RZero d t)).
  { eapply orders_regular; [exact E0|exact G0|exact O| |apply Q]. eapply pass_front; eassumption. }
  destruct (pass_aligned _ _ _ _ _ Q GR HA) as (_ & P & D & C & DK & DN & _).
  destruct (regular_pos _ GR) as [D' T']. apply (pass_text _ _ _ _ _ Q) in E; [|lia..].
  cbn [red_DiffT] in E. congruence.
Qed.

(** ** Tangents *)

Lemma jvp_facts : forall p R given k a, jvp_pass p R given k a ->
  exists s ar, nth_error (p_aliases p) k = Some s /\ get_type s (Some (Z.of_nat k)) = Ok ar /\
    ar_pos ar = Some (a_pos a) /\ ar_dim ar = a_dim a /\ ar_cat ar = a_cat a /\
    let n := Z.of_nat (List.length given) in
    p_formula (a_params a) = saved_text "Diff_WithSavedForward" (p_formula p) (var_text (a_pos a) (a_dim a) (a_cat a))
      (var_text n (a_dim a) (a_cat a)) (var_text (n + 1) (red_dim R) (red_tag R)) /\
    p_aliases (a_params a) = (p_aliases p ++ [var_text n (a_dim a) (a_cat a); var_text (n + 1) (red_dim R) (red_tag R)])%list.
Proof.
  intros p R given k a (E & L & calls & B & K). unfold jvp_calls in B.
  destruct (check_AD_supported (p_formula p)); try discriminate. cbn [rbind] in B.
  destruct (jvp_loop_call _ _ _ _ _ _ _ _ _ _ B K) as (s & ar & X1 & X2 & X3 & X). rewrite Z.add_0_l in X3.
  exists s, ar. tauto.
Qed.

Lemma jvp_text : forall p R given k a, jvp_pass p R given k a -> (1 <= a_dim a)%Z -> (0 <= a_cat a)%Z -> (1 <= red_dim R)%Z ->
  (0 <= red_tag R)%Z -> forall R', engine_makes (a_params a) R' <->
    red_Diff R (Var (a_pos a) (Z.to_nat (a_dim a)) (Z.to_nat (a_cat a)))
      (Var (Z.of_nat (List.length given)) (Z.to_nat (a_dim a)) (Z.to_nat (a_cat a)))
      (Var (Z.of_nat (List.length given) + 1) (Z.to_nat (red_dim R)) (Z.to_nat (red_tag R))) = Ok R'.
Proof.
  intros p R given k a Q D C D' C' R'. destruct (jvp_facts _ _ _ _ _ Q) as (s & ar & _ & _ & _ & _ & _ & F & L).
  destruct Q as [E _].
  exact (saved_makes "Diff_WithSavedForward" p (a_params a) R _ _ _ _ _ _ _ _ _ _ _ (or_intror eq_refl) E eq_refl eq_refl F L D C D C D' C' R').
Qed.

Lemma sum_tangent : forall r nargs pos d c rd, Sum_Diff r (Var pos d c) (Var nargs d c) = Ok rd ->
  decl pos = (d, c) -> decl nargs = (d, c) -> 1 <= d -> stagI r <= 1 -> regular decl A M N (sformula r) ->
  tangent_of decl A M N r nargs pos rd.
Proof.
  intros [f t] nargs pos d c rd E Hp Hn Hd T (W & DC & U & SM) n m Kn Km. unfold Sum_Diff in E. cbn [sformula stagI] in *.
  destruct (Diff f _ _) as [h| | |] eqn:Eh; try discriminate. cbn [rbind] in E. injection E as <-.
  assert (Wu : wf (Var nargs d c)) by (split; [cbn; destruct d; [lia|reflexivity]|exact Logic.I]).
  destruct (diff_main f pos d c (Var nargs d c) h Eh Hd W Wu eq_refl) as (_ & _ & Q); auto.
  { apply declared_consistent with decl; assumption. }
  assert (EN : forall i j, i < M -> j < N ->
    d0 (fun s => eval f (point decl (move_arg pos (A nargs) A s) i j) m) (eval h (point decl A i j) m)).
  { intros i j Hi Hj. destruct (Q (point decl A i j)) as [_ Qk]; [apply SM; assumption|exact Logic.I|].
    specialize (Qk m Km). unfold directional in Qk.
    assert (EU : eval (Var nargs d c) (point decl A i j) = A nargs (row c i j)).
    { apply FunctionalExtensionality.functional_extensionality; intros q. cbn. unfold point. rewrite Hn. reflexivity. }
    rewrite EU in Qk. eapply d0_ext; [|exact Qk]. intros s. cbv beta.
    rewrite (moved_point decl A i j pos (A nargs) s c) by (rewrite Hp; reflexivity). reflexivity. }
  change (d0 (fun s => reduce_sum decl (move_arg pos (A nargs) A s) M N {| sformula := f; stagI := t |} n m)
            (reduce_sum decl A M N {| sformula := h; stagI := t |} n m)).
  unfold reduce_sum. cbn [sformula stagI]. destruct t as [|[|]]; [| |lia]; cbn [rows] in Kn.
  - apply (d0_rsum N (fun j s => eval f (point decl (move_arg pos (A nargs) A s) n j) m)). intros j Hj. apply EN; assumption.
  - apply (d0_rsum M (fun i s => eval f (point decl (move_arg pos (A nargs) A s) i n) m)). intros i Hi. apply EN; assumption.
Qed.

Lemma orders_tangent : forall p R0 q r given k a R', engine_makes p R0 -> regular_red decl A M N R0 -> orders p q ->
  jvp_pass q (RSum r) given k a -> aligned decl (p_aliases (a_params a)) -> engine_makes (a_params a) R' ->
  exists rd, R' = RSum rd /\ tangent_of decl A M N r (Z.of_nat (List.length given)) (Z.of_nat k) rd.
Proof.
  intros p R0 q r given k a R' E0 G0 O Q HA E.
  destruct (jvp_facts _ _ _ _ _ Q) as (s & ar & N1 & N2 & P1 & P2 & P3 & F & L).
  assert (HQ : aligned decl (p_aliases q)) by (rewrite L in HA; eapply aligned_front, HA).
  assert (GR : regular_red decl A M N (RSum r)) by (eapply orders_regular; [exact E0|exact G0|exact O|exact HQ|apply Q]).
  destruct (regular_pos _ GR) as [D' T']. destruct HQ as (l & G1 & G2).
  destruct (get_types_nth _ _ _ _ _ G1 N1) as (x & X1 & X2). rewrite Z.add_0_l, N2 in X1. injection X1 as <-.
  destruct (G2 _ _ X2) as (Y1 & Y2 & Y3 & Y4). rewrite P1 in Y1. injection Y1 as Y1. rewrite P2, P3 in *.
  assert (LE : List.length given = List.length (p_aliases q)) by apply Q.
  apply (jvp_text _ _ _ _ _ Q) in E; [|lia..]. rewrite L, LE in HA. rewrite LE in *.
  destruct (aligned_app decl _ (a_dim a) (a_cat a) (red_dim (RSum r)) (red_tag (RSum r)) ltac:(lia) ltac:(lia) ltac:(lia) ltac:(lia) HA)
    as (_ & H2 & _).
  rewrite Y1 in E. cbn [red_Diff] in E.
  destruct (Sum_Diff r _ _) as [rd| | |] eqn:S; try discriminate. cbn [rbind] in E. injection E as <-.
  exists rd. split; [reflexivity|]. cbn [regular_red] in GR. destruct GR as [T GR].
  eapply sum_tangent; [exact S|exact Y4|exact H2|lia|exact T|exact GR].
Qed.
End Regular.

(** ** Log-sum-exp *)
Lemma lse_pass : forall decl A M N p F G t needs k a R', pass p (RLse F G t) needs k a ->
  regular_red decl A M N (RLse F G t) -> aligned decl (p_aliases (a_params a)) -> engine_makes (a_params a) R' ->
  exists rd, R' = RSum rd /\ lse_backward decl A M N F G t (Z.of_nat (List.length needs)) (Z.of_nat k) =
    Ok (collapsed (a_cat a) M (reduce_sum decl A M N rd)).
Proof.
  intros decl A M N p F G t needs k a R' Q GR HA E.
  destruct (pass_aligned decl A M N _ _ _ _ _ Q GR HA) as (_ & P & D & C & DK & DN & _).
  destruct (regular_pos decl A M N _ GR) as [D' T']. apply (pass_text _ _ _ _ _ Q) in E; [|lia..].
  rewrite P in E. cbn [red_DiffT] in E. unfold lse_backward. rewrite DK.
  assert (X : dim F = 1).
  { unfold lse_DiffT, lse_reduction in E. destruct (dim F =? 1) eqn:DF; [|discriminate]. now apply Nat.eqb_eq in DF. }
  cbn [red_dim red_tag] in E. unfold zdim in E. rewrite Nat2Z.id in E. rewrite X in E.
  replace (Z.to_nat (Z.of_nat 1 + Z.of_nat (dim G))) with (1 + dim G) in E by lia.
  destruct (lse_DiffT F G t _ _ _) as [rd| | |]; try discriminate. cbn [rbind] in *. injection E as <-.
  exists rd. split; [reflexivity|]. f_equal. unfold collapsed.
  destruct (Z.eqb_spec (a_cat a) 2) as [->|Ne]; [reflexivity|].
  destruct (Nat.eqb_spec (Z.to_nat (a_cat a)) 2); [lia|reflexivity].
Qed.

(** ** Cases *)

Ltac read := eexists; exists 60; split; [reflexivity|]; intros m L;
  do 60 (destruct m; [exfalso; repeat apply le_S_n in L; inversion L|]); reflexivity.
Ltac named := eapply D_named; [reflexivity|reflexivity|read|reflexivity|].

Definition case_params : params :=
  {| p_formula := "Sum_Reduction(Square(x)*y,0)"; p_aliases := ["x=Vi(0,1)"; "y=Vj(1,1)"]; p_highdim := FNone |}.
Definition case_red : sum_reduction := {| sformula := Bin BMult (Un USquare (Var 0 1 0)) (Var 1 1 1); stagI := 0 |}.
Definition case_decl : KernelSum.declaration := fun a => if (a =? 1)%Z then (1, 1) else (1, 0).
Definition case_first : params :=
  {| p_formula := "Grad_WithSavedForward(Sum_Reduction(Square(x)*y,0),Var(0,1,0),Var(2,1,0),Var(3,1,0))";
     p_aliases := ["x=Vi(0,1)"; "y=Vj(1,1)"; "Var(2,1,0)"; "Var(3,1,0)"]; p_highdim := FNone |}.
Definition case_second : params :=
  {| p_formula := "Grad_WithSavedForward(" ++ p_formula case_first ++ ",Var(1,1,1),Var(4,1,0),Var(5,1,0))";
     p_aliases := ["x=Vi(0,1)"; "y=Vj(1,1)"; "Var(2,1,0)"; "Var(3,1,0)"; "Var(4,1,0)"; "Var(5,1,0)"]; p_highdim := FNone |}.
Lemma case_makes : engine_makes case_params (RSum case_red).
Proof.
  eexists _, _, (PCall (PName "Sum_Reduction") [PBin SStar (PCall (PName "Square") [PName "x"]) (PName "y"); PNum 0]).
  split; [reflexivity|]. split; [named; named; apply D_nil|]. split; [read|lazy; reflexivity].
Qed.
Lemma case_pass : pass case_params (RSum case_red) [true; true] 0
  {| a_pos := 0; a_dim := 1; a_cat := 0; a_params := case_first |}.
Proof. split; [exact case_makes|]. split; [reflexivity|]. eexists _, _. split; reflexivity. Qed.
Definition case_red1 : sum_reduction :=
  {| sformula := Bin BMult (Int 2) (Bin BMult (Bin BMult (Var 1 1 1) (Var 2 1 0)) (Var 0 1 0)); stagI := 0 |}.
Definition case_red2 : sum_reduction :=
  {| sformula := Bin BMult (Int 2) (Bin BMult (Var 2 1 0) (Bin BMult (Var 0 1 0) (Var 4 1 0))); stagI := 1 |}.
Lemma case_makes1 : engine_makes case_first (RSum case_red1).
Proof. apply (pass_text _ _ _ _ _ case_pass); [cbn; lia..|]. lazy. reflexivity. Qed.
Lemma case_pass1 : pass case_first (RSum case_red1) [false; true; true; false] 1
  {| a_pos := 1; a_dim := 1; a_cat := 1; a_params := case_second |}.
Proof. split; [exact case_makes1|]. split; [reflexivity|]. eexists _, _. split; reflexivity. Qed.
Lemma case_makes2 : engine_makes case_second (RSum case_red2).
Proof. apply (pass_text _ _ _ _ _ case_pass1); [cbn; lia..|]. lazy. reflexivity. Qed.
Lemma case_aligned : aligned case_decl (p_aliases case_second).
Proof.
  eexists. split; [reflexivity|]. intros k a H.
  do 6 (destruct k as [|k]; [cbn in H; injection H as <-; cbn; repeat split; lia|]). destruct k; discriminate H.
Qed.
Lemma case_regular : forall A M N, regular_red case_decl A M N (RSum case_red).
Proof. intros A M N. split; [cbn; lia|]. repeat split. Qed.
Lemma case_orders : orders case_params case_first.
Proof. exact (O_next _ _ _ _ _ _ (O_first _) case_pass). Qed.

Definition case_tangent : params :=
  {| p_formula := "Diff_WithSavedForward(" ++ p_formula case_first ++ ",Var(0,1,0),Var(4,1,0),Var(5,1,0))";
     p_aliases := p_aliases case_second; p_highdim := FNone |}.
Lemma case_jvp : jvp_pass case_first (RSum case_red1) [true; false; false; false] 0
  {| a_pos := 0; a_dim := 1; a_cat := 0; a_params := case_tangent |}.
Proof. split; [exact case_makes1|]. split; [reflexivity|]. eexists. split; reflexivity. Qed.
Lemma case_makes3 : exists r, engine_makes case_tangent (RSum r) /\ stagI r = 0.
Proof. eexists. split; [apply (jvp_text _ _ _ _ _ case_jvp); [cbn; lia..|]; lazy; reflexivity|reflexivity]. Qed.

Definition lse_params : params :=
  {| p_formula := "Max_SumShiftExpWeight_Reduction(x,0,y)"; p_aliases := ["x=Vi(0,1)"; "y=Vj(1,1)"]; p_highdim := FNone |}.
Definition lse_second : params :=
  {| p_formula := "Grad_WithSavedForward(Max_SumShiftExpWeight_Reduction(x,0,y),Var(0,1,0),Var(2,2,0),Var(3,2,0))";
     p_aliases := ["x=Vi(0,1)"; "y=Vj(1,1)"; "Var(2,2,0)"; "Var(3,2,0)"]; p_highdim := FNone |}.
Lemma lse_makes : engine_makes lse_params (RLse (Var 0 1 0) (Var 1 1 1) 0).
Proof.
  eexists _, _, (PCall (PName "Max_SumShiftExpWeight_Reduction") [PName "x"; PNum 0; PName "y"]).
  split; [reflexivity|]. split; [named; named; apply D_nil|]. split; [read|lazy; reflexivity].
Qed.
Lemma lse_case_pass : pass lse_params (RLse (Var 0 1 0) (Var 1 1 1) 0) [true; true] 0
  {| a_pos := 0; a_dim := 1; a_cat := 0; a_params := lse_second |}.
Proof. split; [exact lse_makes|]. split; [reflexivity|]. eexists _, _. split; reflexivity. Qed.
Lemma lse_makes1 : exists r, engine_makes lse_second (RSum r).
Proof. eexists. apply (pass_text _ _ _ _ _ lse_case_pass); [cbn; lia..|]. lazy. reflexivity. Qed.

Definition arg_params : params :=
  {| p_formula := "ArgMin_Reduction(x*y,0)"; p_aliases := ["x=Vi(0,1)"; "y=Vj(1,1)"]; p_highdim := FNone |}.
Definition arg_first : params :=
  {| p_formula := "Grad_WithSavedForward(ArgMin_Reduction(x*y,0),Var(0,1,0),Var(2,1,0),Var(3,1,0))";
     p_aliases := ["x=Vi(0,1)"; "y=Vj(1,1)"; "Var(2,1,0)"; "Var(3,1,0)"]; p_highdim := FNone |}.
Definition arg_second : params :=
  {| p_formula := "Grad_WithSavedForward(" ++ p_formula arg_first ++ ",Var(1,1,1),Var(4,1,0),Var(5,1,0))";
     p_aliases := p_aliases case_second; p_highdim := FNone |}.
Lemma arg_makes : exists o, engine_makes arg_params (ROther o None) /\ ro_id o = "ArgMin_Reduction" /\
  (forall A M N, regular_red case_decl A M N (ROther o None)) /\
  pass arg_params (ROther o None) [true; true] 0 {| a_pos := 0; a_dim := 1; a_cat := 0; a_params := arg_first |} /\
  engine_makes arg_first (RZero 1 0).
Proof.
  assert (X : exists o, engine_makes arg_params (ROther o None) /\ ro_id o = "ArgMin_Reduction" /\ ro_dim o = 1%Z /\ ro_tag o = 0%Z).
  { eexists. split; [|split; [|split]].
    - eexists _, _, (PCall (PName "ArgMin_Reduction") [PBin SStar (PName "x") (PName "y"); PNum 0]).
      split; [reflexivity|]. split; [named; named; apply D_nil|]. split; [read|lazy; reflexivity].
    - reflexivity. - reflexivity. - reflexivity. }
  destruct X as (o & E & I & D & T). exists o. split; [exact E|]. split; [exact I|].
  assert (P : pass arg_params (ROther o None) [true; true] 0 {| a_pos := 0; a_dim := 1; a_cat := 0; a_params := arg_first |}).
  { split; [exact E|]. split; [reflexivity|]. cbn [red_dim red_tag]. rewrite D, T. eexists _, _. split; reflexivity. }
  split; [cbn; intros; rewrite D, T; lia|]. split; [exact P|].
  apply (pass_text _ _ _ _ _ P); cbn [a_dim a_cat a_params red_dim red_tag]; rewrite ?D, ?T; try lia.
  cbn [red_DiffT]. rewrite I. reflexivity.
Qed.
Lemma arg_pass : pass arg_first (RZero 1 0) [true; true; false; false] 1
  {| a_pos := 1; a_dim := 1; a_cat := 1; a_params := arg_second |}.
Proof. destruct arg_makes as (o & _ & _ & _ & _ & E). split; [exact E|]. split; [reflexivity|]. eexists _, _. split; reflexivity. Qed.
Lemma arg_makes2 : engine_makes arg_second (RZero 1 1).
Proof. apply (pass_text _ _ _ _ _ arg_pass); [cbn; lia..|]. reflexivity. Qed.

(** ** Explicit positions in another order than the places *)

Definition perm_params : params :=
  {| p_formula := "Sum_Reduction(x*y,0)"; p_aliases := ["x=Vi(1,1)"; "y=Vj(0,1)"]; p_highdim := FNone |}.
Definition perm_red : sum_reduction := {| sformula := Bin BMult (Var 1 1 0) (Var 0 1 1); stagI := 0 |}.
Definition perm_decl : KernelSum.declaration := fun a => if (a =? 0)%Z then (1, 1) else (1, 0).
Definition perm_args : arguments := fun a _ _ => if (a =? 0)%Z then 5%R else if (a =? 1)%Z then 3%R else 1%R.
Definition perm_second : params :=
  {| p_formula := "Grad_WithSavedForward(Sum_Reduction(x*y,0),Var(1,1,0),Var(2,1,0),Var(3,1,0))";
     p_aliases := ["x=Vi(1,1)"; "y=Vj(0,1)"; "Var(2,1,0)"; "Var(3,1,0)"]; p_highdim := FNone |}.
Lemma perm_makes : engine_makes perm_params (RSum perm_red).
Proof.
  eexists _, _, (PCall (PName "Sum_Reduction") [PBin SStar (PName "x") (PName "y"); PNum 0]).
  split; [reflexivity|]. split; [named; named; apply D_nil|]. split; [read|lazy; reflexivity].
Qed.
Lemma perm_pass : pass perm_params (RSum perm_red) [true; true] 0
  {| a_pos := 1; a_dim := 1; a_cat := 0; a_params := perm_second |}.
Proof. split; [exact perm_makes|]. split; [reflexivity|]. eexists _, _. split; reflexivity. Qed.
Lemma perm_makes1 : engine_makes perm_second (RSum {| sformula := Bin BMult (Var 0 1 1) (Var 2 1 0); stagI := 0 |}).
Proof. apply (pass_text _ _ _ _ _ perm_pass); [cbn; lia..|]. lazy. reflexivity. Qed.

Lemma permuted : exists decl A p r needs a rd,
  pass p (RSum r) needs 0 a /\ regular_red decl A 1 1 (RSum r) /\
  (exists l, get_types 0 (p_aliases p) = Ok l /\ forall x, In x l -> exists z, ar_pos x = Some z /\
     decl z = (Z.to_nat (ar_dim x), Z.to_nat (ar_cat x))) /\
  engine_makes (a_params a) (RSum rd) /\
  ~ gradient_of decl A 1 1 r (Z.of_nat (List.length needs)) 0 rd.
Proof.
  exists perm_decl, perm_args, perm_params, perm_red, [true; true], {| a_pos := 1; a_dim := 1; a_cat := 0; a_params := perm_second |},
    {| sformula := Bin BMult (Var 0 1 1) (Var 2 1 0); stagI := 0 |}.
  split; [exact perm_pass|]. split; [split; [cbn; lia|repeat split]|]. split; [|split; [exact perm_makes1|]].
  - eexists. split; [reflexivity|]. intros x [<- | [<- | []]]; eexists; split; reflexivity.
  - intros G. unfold gradient_of in G. cbn [perm_decl Z.eqb] in G. specialize (G (fun _ _ => 1%R)).
    match type of G with derivable_pt_lim ?f 0 ?l => assert (E : l = 5%R) by
      (cbn [rows total inner]; unfold collapsed; cbn [Z.of_nat Z.eqb]; unfold reduce_sum; cbn; unfold point, perm_args; cbn; ring);
      assert (D : derivable_pt_lim f 0 3%R) end.
    { apply (d0_ext (fun t => (15 + 3 * t)%R)).
      - intros t. unfold summed_output. cbn [rows total inner]. unfold reduce_sum. cbn. unfold point, move_arg, perm_args. cbn. ring.
      - assert (Y := derivable_pt_lim_plus (fct_cte 15) (mult_real_fct 3 id) 0%R 0%R (3 * 1)%R (derivable_pt_lim_const 15 0)
          (derivable_pt_lim_scal id 3 0 1 (derivable_pt_lim_id 0))). replace (0 + 3 * 1)%R with 3%R in Y by ring. exact Y. }
    assert (X := eq_trans (eq_sym E) (uniqueness_limite _ _ _ _ G D)). lra.
Qed.

(** ** The flag *)
Lemma flag_lost : exists p dimout tag calls p' tangents a b,
  p_highdim p = FInt 1 /\ backward_calls p dimout tag [true; true] = Ok (calls, p') /\
  jvp_calls p dimout tag [true; true] = Ok tangents /\
  nth_error calls 1 = Some (Some a) /\ nth_error tangents 1 = Some (Some b) /\ a_pos a = 1%Z /\ a_pos b = 1%Z /\
  p_highdim (a_params a) = FNone /\ p_highdim (a_params b) = FInt 2 /\ p_highdim p' = FNone.
Proof.
  exists {| p_formula := "Sum_Reduction(Exp(x)*y,0)"; p_aliases := ["x=Vi(0,1)"; "y=Vj(1,200)"]; p_highdim := FInt 1 |}, 200%Z, 0%Z.
  do 5 eexists. split; [reflexivity|]. split; [reflexivity|]. split; [reflexivity|]. split; [reflexivity|].
  split; [reflexivity|]. repeat split.
Qed.
