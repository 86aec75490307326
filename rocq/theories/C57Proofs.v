(** * Tensors carry the expressions of their terms; reductions are read. *)

From Coq Require Import ZArith Lia List Bool Ascii String.
From Verif Require Import Result Keys KeySpec Aliases C22Proofs C26Proofs Formula FormulaSpec Simplify Build C01Proofs LazyTensors Methods
  MethodsSpec LazySpec LazyProofs C27Proofs C42More PyRead PyReadSpec PyReadProofs C55Proofs C55More Layout RedText RedTextSpec.
Import ListNotations.
Open Scope string_scope.

(** ** Separators *)

Lemma separator_nil : separator "".
Proof. now apply no_V_separator. Qed.

Lemma separator_cons : forall c s, c <> "V"%char -> separator s -> separator (String c s).
Proof.
  intros c s N S. change (String c s) with (String c "" ++ s). apply separator_app; auto.
  apply no_V_separator. cbn [has]. rewrite orb_false_r. apply Ascii.eqb_neq. congruence.
Qed.

Lemma separator_V : forall c s, c <> "a"%char -> separator (String c s) -> separator (String "V" (String c s)).
Proof.
  intros c s N (A & B & C). split; [|split].
  - intros [|d x] y E; cbn in E; inversion E; [congruence|]. subst d. apply (A x y). cbn. congruence.
  - intros [|d x] E; cbn in E; inversion E; subst d. apply (B x). congruence.
  - intros [|d x] E; cbn in E; inversion E; [congruence|]. subst d. apply (C x). congruence.
Qed.

Ltac sepc := repeat first [exact separator_nil | apply separator_cons; [discriminate|] | apply separator_V; [discriminate|]].

Lemma separator_params : forall p ps b, separator p -> separator b ->
  separator (String.concat "" (map (fun q => p ++ q) (map str_int ps)) ++ b).
Proof.
  intros p ps b P B. induction ps as [|k ps IH]; [exact B|]. cbn [map]. rewrite concat_cons, !app_assoc_s.
  apply separator_app; auto. apply separator_app; auto. apply no_V_separator. apply str_int_V.
Qed.

Lemma separator_ints_text : forall p, separator (ints_text p).
Proof.
  intros p. unfold ints_text. apply separator_cons; [discriminate|].
  destruct p as [|z p]; [cbn [append map String.concat]; sepc|]. cbn [map]. rewrite concat_sep, app_assoc_s.
  apply separator_app; [apply no_V_separator, str_int_V|]. apply separator_params; sepc.
Qed.
Lemma separator_lists : forall ps b, separator b ->
  separator (String.concat "" (map (fun q => ", " ++ q) (map ints_text ps)) ++ b).
Proof.
  intros ps b B. induction ps as [|k ps IH]; [exact B|]. cbn [map]. rewrite concat_cons, !app_assoc_s.
  apply separator_cons; [discriminate|]. apply separator_cons; [discriminate|]. apply separator_app; auto.
  apply separator_ints_text.
Qed.

(** ** Tensors and their terms *)

(** The tensors and the symbolic variables of a term are those of the symbolic tensor. *)
Definition holds (l : lazy) (t : term) : Prop :=
  (forall i, In i (map t_id (variables l)) <-> In i (map fst (tensors (as_expr t))))
  /\ (forall i, In i (map (fun s => fst (fst s)) (symbolic l)) <-> In i (symbols (as_expr t))).

Lemma holds_un : forall l t op d a b op' ps, holds l t -> holds (unary l op d a b) (T1 op' t ps).
Proof. intros l t op d a b op' ps H. exact H. Qed.

Lemma holds_bin : forall l o op is_op d dc opt rv r t u e a b c, binary l o op is_op d dc opt rv = Ok r ->
  holds l t -> holds o u ->
  as_expr e = EBin a (as_expr t) b (as_expr u) c \/ as_expr e = EBin a (as_expr u) b (as_expr t) c -> holds r e.
Proof.
  intros l o op is_op d dc opt rv r t u e a b c E [A1 A2] [B1 B2] X. apply binary_ok in E. destruct E as (V & S & _).
  unfold holds. rewrite V, S. destruct X as [-> | ->]; cbn [tensors symbols]; split; intros i;
    rewrite ?map_app, ?in_app_iff, ?A1, ?A2, ?B1, ?B2; tauto.
Qed.

Lemma holds_ter : forall l o1 o2 op d dc opt r t u v op', ternary l o1 o2 op d dc opt = Ok r ->
  holds l t -> holds o1 u -> holds o2 v -> holds r (T3 op' t u v).
Proof.
  intros l o1 o2 op d dc opt r t u v op' E [A1 A2] [B1 B2] [C1 C2]. unfold ternary in E.
  destruct (match dc with DSame => _ | _ => _ end); [|discriminate].
  apply rbind_ok in E. destruct E as (o & J & E). apply join_ok in J, E.
  destruct J as (_ & V' & S'), E as (_ & V & S). rewrite V' in V. rewrite S' in S.
  unfold holds. rewrite V, S. cbn [as_expr tensors symbols]. split; intros i;
    rewrite ?map_app, ?in_app_iff, ?A1, ?A2, ?B1, ?B2, ?C1, ?C2; tauto.
Qed.

Lemma array_variables : forall dt id sh ax l, lt_array dt id sh ax = Ok l -> map t_id (variables l) = [id] /\ symbolic l = [].
Proof.
  intros dt id sh ax l E. unfold lt_array in E.
  apply rbind_ok in E. destruct E as ([[sh1 ax1] batch] & _ & E).
  apply rbind_ok in E. destruct E as (d & _ & E).
  destruct (Nat.leb 2 (List.length sh1) && _)%bool.
  - destruct ax1 as [a|]; [|discriminate].
    destruct ((a =? 0)%Z || (a =? 1)%Z)%bool; [|discriminate].
    apply rbind_ok in E. destruct E as (n & _ & E). injection E as <-. auto.
  - destruct ax1 as [a|]; [destruct (a =? 2)%Z; [|discriminate]|]; injection E as <-; auto.
Qed.

Ltac hb := match goal with H : _ = Ok ?r |- holds ?r _ => eapply holds_bin; [exact H|eassumption|eassumption|] end.
Lemma made_holds : forall l t, made l t -> holds l t.
Proof.
  intros l t H. induction H.
  - split; intros j; cbn; tauto.
  - split; intros j; cbn; tauto.
  - split; intros j; cbn; tauto.
  - destruct (array_variables _ _ _ _ _ H) as [V S]. unfold holds. rewrite V, S. split; intros j; cbn; tauto.
  - exact IHmade.
  - unfold m_pow. destruct (k =? 2)%Z; exact IHmade.
  - exact IHmade.
  - exact IHmade.
  - exact IHmade.
  - unfold m_elem in H0. destruct (_ || _)%bool; [discriminate|]. injection H0 as <-. exact IHmade.
  - unfold m_extract in H0. repeat (destruct (_ || _)%bool; [discriminate|]). injection H0 as <-. exact IHmade.
  - unfold m_slice, m_extract in H0. repeat (destruct (_ || _)%bool; [discriminate|]). injection H0 as <-. exact IHmade.
  - unfold m_slice, m_extract in H0. repeat (destruct (_ || _)%bool; [discriminate|]). injection H0 as <-. exact IHmade.
  - unfold m_slice, m_extract in H0. repeat (destruct (_ || _)%bool; [discriminate|]). injection H0 as <-. exact IHmade.
  - unfold m_one_hot in H0. destruct (negb _); [discriminate|]. injection H0 as <-. exact IHmade.
  - hb; left; reflexivity.
  - hb; right; reflexivity.
  - hb; left; reflexivity.
  - hb; right; reflexivity.
  - hb; left; reflexivity.
  - unfold m_powf in H1. destruct (_ || _)%bool; [|discriminate]. hb; left; reflexivity.
  - hb; left; reflexivity.
  - unfold m_weightedsqnorm in H1. destruct (_ || _)%bool; [|discriminate].
    hb; right; reflexivity.
  - hb; left; reflexivity.
  - hb; left; reflexivity.
  - hb; left; reflexivity.
  - unfold m_matvec in H1. destruct (_ =? _)%Z; [discriminate|]. hb; left; reflexivity.
  - unfold m_vecmat in H1. destruct (_ =? _)%Z; [discriminate|]. hb; left; reflexivity.
  - hb; left; reflexivity.
  - unfold m_tensordot in H1. apply rbind_ok in H1. destruct H1 as (d & _ & H1).
    hb; left; reflexivity.
  - unfold m_tensordot in H1. apply rbind_ok in H1. destruct H1 as (d & _ & H1).
    hb; left; reflexivity.
  - hb; left; reflexivity.
  - hb; left; reflexivity.
  - match goal with H : _ = Ok ?r |- holds ?r _ => eapply holds_ter; [exact H|eassumption..] end.
  - match goal with H : _ = Ok ?r |- holds ?r _ => eapply holds_ter; [exact H|eassumption..] end.
Qed.

(** Addresses are natural numbers, symbolic variables have a category. *)
Definition sound (l : lazy) : Prop :=
  (forall v, In v (variables l) -> (0 <= t_id v)%Z) /\ (forall s, In s (symbolic l) -> category (snd s)).

Lemma sound_bin : forall l o op is_op d dc opt rv r, binary l o op is_op d dc opt rv = Ok r -> sound r ->
  sound l /\ sound o.
Proof.
  intros l o op is_op d dc opt rv r E [P Q]. apply binary_ok in E. destruct E as (V & S & _). rewrite V in P. rewrite S in Q.
  repeat split; intros x I; first [apply P | apply Q]; apply in_or_app; auto.
Qed.
Lemma sound_ter : forall l o1 o2 op d dc opt r, ternary l o1 o2 op d dc opt = Ok r -> sound r ->
  sound l /\ sound o1 /\ sound o2.
Proof.
  intros l o1 o2 op d dc opt r E [P Q]. unfold ternary in E.
  destruct (match dc with DSame => _ | _ => _ end); [|discriminate].
  apply rbind_ok in E. destruct E as (o & J & E). apply join_ok in J, E.
  destruct J as (_ & V' & S'), E as (_ & V & S). rewrite V' in V. rewrite S' in S. rewrite V in P. rewrite S in Q.
  repeat split; intros x I; first [apply P | apply Q]; rewrite !in_app_iff; auto.
Qed.

Lemma wf_t1 : forall op t ps, separator op -> well_formed (as_expr t) -> well_formed (as_expr (T1 op t ps)).
Proof.
  intros op t ps S W. cbn [as_expr well_formed]. split; [apply separator_app; auto; sepc|]. split; auto.
  apply separator_params; sepc.
Qed.
Lemma wf_t2 : forall op t u ps, separator op -> well_formed (as_expr t) -> well_formed (as_expr u) ->
  well_formed (as_expr (T2 op t u ps)).
Proof.
  intros op t u ps S W V. cbn [as_expr well_formed]. split; [apply separator_app; auto; sepc|].
  split; [sepc|]. split; [apply separator_params; sepc|auto].
Qed.
Lemma wf_tdot : forall op t u ps, separator op -> well_formed (as_expr t) -> well_formed (as_expr u) ->
  well_formed (as_expr (TDot op t u ps)).
Proof.
  intros op t u ps S W V. cbn [as_expr well_formed]. split; [apply separator_app; auto; sepc|].
  split; [sepc|]. split; [apply separator_lists; sepc|auto].
Qed.
Lemma wf_top : forall op t u, separator op -> well_formed (as_expr t) -> well_formed (as_expr u) ->
  well_formed (as_expr (TOp op t u)).
Proof.
  intros op t u S W V. cbn [as_expr well_formed]. split; [sepc|].
  split; [|split; [sepc|auto]]. apply separator_cons; [discriminate|]. cbn [append]. apply separator_app; auto. sepc.
Qed.
Lemma wf_t3 : forall op t u v, separator op -> well_formed (as_expr t) -> well_formed (as_expr u) -> well_formed (as_expr v) ->
  well_formed (as_expr (T3 op t u v)).
Proof.
  intros op t u v S W V X. cbn [as_expr well_formed]. split; [apply separator_app; auto; sepc|].
  split; [sepc|]. split; [sepc|]. split; [sepc|auto].
Qed.

Ltac sb := match goal with H : _ = Ok ?r, S : sound ?r |- _ => destruct (sound_bin _ _ _ _ _ _ _ _ _ H S) end.
Ltac st := match goal with H : _ = Ok ?r, S : sound ?r |- _ => destruct (sound_ter _ _ _ _ _ _ _ _ H S) as (? & ? & ?) end.

Lemma last_pos : forall sh, Forall (fun s => (1 <= s)%Z) sh -> (0 <= last sh 1)%Z.
Proof. intros sh H. induction H as [|a sh A F IH]; [cbn; lia|]. destruct sh; cbn in *; lia. Qed.

Lemma made_well_formed : forall l t, made l t -> sound l -> well_formed (as_expr t).
Proof.
  intros l t H. induction H; intros S.
  - cbn [as_expr well_formed]. split; [lia|]. apply (proj2 S (i, d, c)). cbn. auto.
  - cbn [as_expr well_formed]. apply separator_app; [sepc|]. apply separator_app; [apply no_V_separator, str_int_V|sepc].
  - cbn [as_expr well_formed]. split; [|split; [lia|right; right; reflexivity]].
    apply (proj1 S _ (or_introl eq_refl)).
  - cbn [as_expr well_formed]. split; [|split; [subst d; now apply last_pos|exact (array_axis _ _ _ _ _ _ H H2)]].
    destruct (array_variables _ _ _ _ _ H) as [V _].
    destruct (variables l) as [|v r] eqn:E; [discriminate|]. injection V as <- _. apply (proj1 S v). rewrite E. now left.
  - apply wf_t1; auto. destruct m; sepc.
  - unfold m_pow in S. destruct (k =? 2)%Z; apply wf_t1; auto; sepc.
  - apply wf_t1; auto; sepc.
  - apply wf_t1; auto; sepc.
  - apply wf_t1; auto. destruct m; sepc.
  - unfold m_elem in H0. destruct (_ || _)%bool; [discriminate|]. injection H0 as <-. apply wf_t1; auto; sepc.
  - unfold m_extract in H0. repeat (destruct (_ || _)%bool; [discriminate|]). injection H0 as <-. apply wf_t1; auto; sepc.
  - unfold m_slice, m_extract in H0. repeat (destruct (_ || _)%bool; [discriminate|]). injection H0 as <-. apply wf_t1; auto; sepc.
  - unfold m_slice, m_extract in H0. repeat (destruct (_ || _)%bool; [discriminate|]). injection H0 as <-. apply wf_t1; auto; sepc.
  - unfold m_slice, m_extract in H0. repeat (destruct (_ || _)%bool; [discriminate|]). injection H0 as <-. apply wf_t1; auto; sepc.
  - unfold m_one_hot in H0. destruct (negb _); [discriminate|]. injection H0 as <-. apply wf_t1; auto; sepc.
  - sb. apply wf_top; auto. destruct m; sepc.
  - sb. apply wf_top; auto. destruct m; sepc.
  - sb. apply wf_top; auto. sepc.
  - sb. apply wf_top; auto. sepc.
  - sb. apply wf_t2; auto. destruct m; sepc.
  - unfold m_powf in H1. destruct (_ || _)%bool; [|discriminate]. sb. apply wf_t2; auto. sepc.
  - sb. apply wf_t2; auto. sepc.
  - unfold m_weightedsqnorm in H1. destruct (_ || _)%bool; [|discriminate]. sb. apply wf_t2; auto. sepc.
  - sb. apply wf_t2; auto. sepc.
  - sb. apply wf_t2; auto. sepc.
  - sb. apply wf_t2; auto. sepc.
  - unfold m_matvec in H1. destruct (_ =? _)%Z; [discriminate|]. sb. apply wf_t2; auto. sepc.
  - unfold m_vecmat in H1. destruct (_ =? _)%Z; [discriminate|]. sb. apply wf_t2; auto. sepc.
  - sb. apply wf_t2; auto. sepc.
  - unfold m_tensordot in H1. apply rbind_ok in H1. destruct H1 as (d & _ & H1). sb. apply wf_tdot; auto. sepc.
  - unfold m_tensordot in H1. apply rbind_ok in H1. destruct H1 as (d & _ & H1). sb. apply wf_tdot; auto. sepc.
  - sb. apply wf_tdot; auto. sepc.
  - sb. apply wf_t2; auto. sepc.
  - st. apply wf_t3; auto. destruct m; sepc.
  - st. apply wf_t3; auto. sepc.
Qed.

Lemma made_carries : forall l t, made l t -> sound l -> carries l (as_expr t).
Proof.
  intros l t M S. destruct (made_holds l t M) as [V Y]. split; [|split; [|split]].
  - symmetry. now apply (numbered_read (fun i => i) l t).
  - now apply (made_well_formed l).
  - intros u I. apply V. now apply in_map.
  - intros i I. now apply Y.
Qed.

Lemma computes_symbolic : forall l f, computes l f -> forall s, In s (symbolic l) -> category (snd s).
Proof.
  assert (B : forall l o op is_op d dc opt rv r, binary l o op is_op d dc opt rv = Ok r ->
    (forall s, In s (symbolic l) -> category (snd s)) -> (forall s, In s (symbolic o) -> category (snd s)) ->
    forall s, In s (symbolic r) -> category (snd s)).
  { intros l o op is_op d dc opt rv r E P Q s. apply binary_ok in E. destruct E as (_ & -> & _).
    rewrite in_app_iff. intros [I|I]; auto. }
  assert (T : forall l o1 o2 op d dc opt r, ternary l o1 o2 op d dc opt = Ok r ->
    (forall s, In s (symbolic l) -> category (snd s)) -> (forall s, In s (symbolic o1) -> category (snd s)) ->
    (forall s, In s (symbolic o2) -> category (snd s)) -> forall s, In s (symbolic r) -> category (snd s)).
  { intros l o1 o2 op d dc opt r E P Q R s. unfold ternary in E.
    destruct (match dc with DSame => _ | _ => _ end); [|discriminate].
    apply rbind_ok in E. destruct E as (o & J & E). apply join_ok in J, E.
    destruct J as (_ & _ & S'), E as (_ & _ & ->). rewrite S', !in_app_iff. intros [I|[I|I]]; auto. }
  intros l f H. induction H; try exact IHcomputes.
  - intros s [<-|[]]. assumption.
  - intros s [].
  - intros s [].
  - destruct (array_variables _ _ _ _ _ H) as [_ ->]. intros s [].
  - unfold m_pow. destruct (k =? 2)%Z; exact IHcomputes.
  - unfold m_elem in H0. destruct (_ || _)%bool; [discriminate|]. injection H0 as <-. exact IHcomputes.
  - unfold m_extract in H0. repeat (destruct (_ || _)%bool; [discriminate|]). injection H0 as <-. exact IHcomputes.
  - unfold m_slice, m_extract in H0. repeat (destruct (_ || _)%bool; [discriminate|]). injection H0 as <-. exact IHcomputes.
  - unfold m_one_hot in H0. destruct (negb _); [discriminate|]. injection H0 as <-. exact IHcomputes.
  - eapply B; [exact H1|..]; assumption.
  - eapply B; [exact H1|..]; assumption.
  - eapply B; [exact H1|..]; assumption.
  - eapply B; [exact H1|..]; assumption.
  - eapply B; [exact H1|..]; assumption.
  - unfold m_powf in H1. destruct (_ || _)%bool; [|discriminate]. eapply B; [exact H1|..]; assumption.
  - eapply B; [exact H1|..]; assumption.
  - unfold m_weightedsqnorm in H1. destruct (_ || _)%bool; [|discriminate]. eapply B; [exact H1|..]; assumption.
  - eapply B; [exact H1|..]; assumption.
  - unfold m_matvec in H1. destruct (_ =? _)%Z; [discriminate|]. eapply B; [exact H1|..]; assumption.
  - unfold m_vecmat in H1. destruct (_ =? _)%Z; [discriminate|]. eapply B; [exact H1|..]; assumption.
  - eapply B; [exact H1|..]; assumption.
  - eapply T; [exact H2|..]; assumption.
Qed.

(** ** Reading the text of a reduction *)

Lemma ev_term0 : forall t r, well_named t -> stops 0 r -> Ev (fun n => parse n 0 (tokens t ++ r)%list) (tree t) r.
Proof.
  intros t r W S. apply (ev_from 6); auto; [lia| |].
  - apply ev_tokens; auto. apply (stops_le 0); [lia|exact S].
  - intros _. apply tokens_first.
Qed.

(** A formula, integers and a second formula. *)
Lemma call_read : forall op f t ps g u, identifier op -> well_named t -> well_named u ->
  lexed f (tokens t) -> lexed g (tokens u) ->
  reads (op ++ "(" ++ f ++ String.concat "" (map (fun p => "," ++ str_int p) ps) ++ "," ++ g ++ ")")
    (PCall (PName op) (tree t :: map literal ps ++ [tree u])%list).
Proof.
  intros op f t ps g u I W V F G.
  assert (G' : lexed ("," ++ g ++ ")") ([K SComma] ++ tokens u ++ [K SRPar])%list).
  { apply lexed_app; [exact lexed_comma|]. apply lexed_app; auto. exact lexed_rpar. }
  destruct (lexed_params "," ps ("," ++ g ++ ")") ([K SComma] ++ tokens u ++ [K SRPar])%list) as [_ L]; auto.
  { split; [discriminate|reflexivity]. }
  apply (reads_ev _ (KName op :: K SLPar :: tokens t ++ ptokens ps ++ [K SComma] ++ tokens u ++ [K SRPar])%list).
  - apply lexed_all. apply lexed_call; auto. apply lexed_app; auto.
  - apply (ev_from 6); [lia| |exact Logic.I|intros _; exact Logic.I]. apply call_tree; [exact Logic.I|].
    assert (M : Ev (fun n => more n SRPar (ptokens ps ++ [K SComma] ++ tokens u ++ [K SRPar])%list)
                   (map literal ps ++ [tree u])%list []
                /\ stops 0 (ptokens ps ++ [K SComma] ++ tokens u ++ [K SRPar])%list).
    { clear L. induction ps as [|p ps [IH IS]].
      - split; [|exact Logic.I]. cbn [ptokens flat_map app map].
        eapply ev_more; [now left|apply ev_term0; auto; exact Logic.I|apply ev_more_nil].
      - cbn [ptokens flat_map map]. fold (ptokens ps). rewrite <- !app_comm_cons, <- app_assoc. split; [|exact Logic.I].
        eapply ev_more; [now left|apply ev_int0; exact IS|exact IH]. }
    destruct M as [M1 M2].
    eapply ev_items; [now left|apply tokens_first|apply ev_term0; auto|exact M1].
Qed.

Lemma written_nonempty : forall t, written t <> "".
Proof.
  intros t. destruct t; cbn [written append]; try discriminate; destruct op; discriminate.
Qed.

Lemma highdim_in : forall l F, computes l F -> forall k v, rec_highdim l = Some (k, v) -> incl (variables v) (variables l).
Proof.
  assert (B : forall l o op is_op d dc opt rv r, binary l o op is_op d dc opt rv = Ok r ->
    forall k v, rec_highdim r = Some (k, v) -> incl (variables v) (variables r)).
  { intros l o op is_op d dc opt rv r E k v H. destruct (binary_ok _ _ _ _ _ _ _ _ _ E) as (-> & _). unfold binary in E.
    destruct (check_dims _ _ _); [|discriminate]. destruct (if rv then _ else _) as [lf rf].
    apply rbind_ok in E. destruct E as (j & _ & E). injection E as <-. cbn [rec_highdim] in H.
    destruct (_ && _)%bool; [|discriminate]. injection H as _ <-. apply incl_appr, incl_refl. }
  assert (J : forall l o f d r, join l o f d = Ok r -> rec_highdim r = None).
  { intros l o f d r E. unfold join in E. do 5 (apply rbind_ok in E; destruct E as (? & _ & E)). now injection E as <-. }
  assert (T : forall l o1 o2 op d dc opt r, ternary l o1 o2 op d dc opt = Ok r -> rec_highdim r = None).
  { intros l o1 o2 op d dc opt r E. unfold ternary in E.
    destruct (match dc with DSame => _ | _ => _ end); [|discriminate].
    apply rbind_ok in E. destruct E as (o & _ & E). now apply J in E. }
  assert (A : forall dt id sh ax l, lt_array dt id sh ax = Ok l -> rec_highdim l = None).
  { intros dt id sh ax l E. unfold lt_array in E.
    apply rbind_ok in E. destruct E as ([[sh1 ax1] batch] & _ & E).
    apply rbind_ok in E. destruct E as (d & _ & E).
    destruct (Nat.leb 2 (List.length sh1) && _)%bool.
    - destruct ax1 as [a|]; [|discriminate].
      destruct ((a =? 0)%Z || (a =? 1)%Z)%bool; [|discriminate].
      apply rbind_ok in E. destruct E as (n & _ & E). now injection E as <-.
    - destruct ax1 as [a|]; [destruct (a =? 2)%Z; [|discriminate]|]; now injection E as <-. }
  intros l F H. induction H; intros k' v' HD; try discriminate.
  - now rewrite (A _ _ _ _ _ H) in HD.
  - unfold m_pow in HD. destruct (k =? 2)%Z; discriminate.
  - unfold m_elem in H0. destruct (_ || _)%bool; [discriminate|]. now injection H0 as <-.
  - unfold m_extract in H0. repeat (destruct (_ || _)%bool; [discriminate|]). now injection H0 as <-.
  - unfold m_slice, m_extract in H0. repeat (destruct (_ || _)%bool; [discriminate|]). now injection H0 as <-.
  - unfold m_one_hot in H0. destruct (negb _); [discriminate|]. now injection H0 as <-.
  - eapply B; eassumption.
  - eapply B; eassumption.
  - eapply B; eassumption.
  - eapply B; eassumption.
  - eapply B; eassumption.
  - unfold m_powf in H1. destruct (_ || _)%bool; [|discriminate]. eapply B; eassumption.
  - eapply B; eassumption.
  - unfold m_weightedsqnorm in H1. destruct (_ || _)%bool; [|discriminate]. eapply B; eassumption.
  - eapply B; eassumption.
  - unfold m_matvec in H1. destruct (_ =? _)%Z; [discriminate|]. eapply B; eassumption.
  - unfold m_vecmat in H1. destruct (_ =? _)%Z; [discriminate|]. eapply B; eassumption.
  - eapply B; eassumption.
  - now rewrite (T _ _ _ _ _ _ _ _ H2) in HD.
Qed.

(** ** What is made of the text *)

Lemma eval_all : forall names l, evaluate_all names l = ev_list names l.
Proof. intros names l. induction l as [|a l IH]; [reflexivity|]. cbn [evaluate_all]. rewrite IH. reflexivity. Qed.

Lemma one_and : forall names e G, agrees (evaluate names e) (build G) ->
  agrees (evaluate names (PCall (PName "Concat") [PCall (PName "IntCst") [literal 1]; e])) (build (Cat (Int 1) G)).
Proof.
  intros names e G A. rewrite ev_call, !ev_list_cons, ev_call.
  change (ev_list names [literal 1]) with (ev_list names (map literal [1%Z])). rewrite ev_literals. cbn [rbind map].
  change (call "IntCst" [VZ 1]) with (Ok (VF (IntCst 1))). cbn [rbind]. cbn [build]. cbn [rbind].
  rewrite rbind_assoc. rewrite rbind_assoc. apply agrees_bind; auto. intros h _. cbn [ev_list rbind]. apply agrees_lift.
Qed.

Lemma makes_simple : forall name T c a F d dr,
  well_named T -> (forall names, agrees (evaluate names (tree T)) (build F)) -> wf F -> identifier name ->
  is_lse name = false -> c = (1 - a)%Z ->
  (forall f, zdim f = Z.of_nat (dim F) -> make2 name f c = Ok (simple name f c d dr)) ->
  makes (name ++ "(" ++ written T ++ "," ++ str_int c ++ ")") None false a F name F d.
Proof.
  intros name T c a F d dr WT A W I L C M. exists (tree (T1 name T [c])). split.
  { replace (name ++ "(" ++ written T ++ "," ++ str_int c ++ ")") with (written (T1 name T [c])).
    - apply written_read. cbn [well_named]. auto.
    - cbn [written map]. rewrite !concat_cons. cbn [String.concat]. now rewrite ?app_nil_r_s, !app_assoc_s. }
  intros names. cbn [tree get_reduction]. rewrite eval_all, ev_list_cons, ev_literals. specialize (A names).
  destruct (agrees_inv _ _ A) as [(x & E & B)|[B N]].
  - rewrite E. cbn [rbind map construct]. rewrite L.
    assert (D : zdim x = Z.of_nat (dim F)). { unfold zdim. f_equal. apply (build_value F x W B). }
    rewrite (M x D). cbn [rbind]. split.
    + intros o k' H. injection H as <- <-. cbn. assert (Q := build_value F x W B). repeat (split; [auto; fail|]). discriminate.
    + intros h H _. eexists. split; [reflexivity|]. cbn. congruence.
  - split.
    + intros o k' H. destruct (evaluate names (tree T)) as [v| | |]; [destruct (N v eq_refl)|discriminate..].
    + intros h H. now rewrite H in B.
Qed.

Lemma makes_k : forall name T k c a F d dr,
  well_named T -> (forall names, agrees (evaluate names (tree T)) (build F)) -> wf F -> identifier name ->
  c = (1 - a)%Z ->
  (forall f, zdim f = Z.of_nat (dim F) -> make3 name f k c = Ok (simple name f c d dr, k)) ->
  makes (name ++ "(" ++ written T ++ "," ++ str_int k ++ "," ++ str_int c ++ ")") (Some k) false a F name F d.
Proof.
  intros name T k c a F d dr WT A W I C M. exists (tree (T1 name T [k; c])). split.
  { replace (name ++ "(" ++ written T ++ "," ++ str_int k ++ "," ++ str_int c ++ ")") with (written (T1 name T [k; c])).
    - apply written_read. cbn [well_named]. auto.
    - cbn [written map]. rewrite !concat_cons. cbn [String.concat]. now rewrite ?app_nil_r_s, !app_assoc_s. }
  intros names. cbn [tree get_reduction]. rewrite eval_all, ev_list_cons, ev_literals. specialize (A names).
  destruct (agrees_inv _ _ A) as [(x & E & B)|[B N]].
  - rewrite E. cbn [rbind map construct].
    assert (D : zdim x = Z.of_nat (dim F)). { unfold zdim. f_equal. apply (build_value F x W B). }
    rewrite (M x D). cbn [rbind fst snd]. split.
    + intros o k' H. injection H as <- <-. cbn. assert (Q := build_value F x W B). repeat (split; [auto; fail|]). discriminate.
    + intros h H _. eexists. split; [reflexivity|]. cbn. congruence.
  - split.
    + intros o k' H. destruct (evaluate names (tree T)) as [v| | |]; [destruct (N v eq_refl)|discriminate..].
    + intros h H. now rewrite H in B.
Qed.

(** Sums of exponentials; the weights are given, or the constant one. *)
Lemma makes_exp : forall name x e T c a F G d,
  is_lse name = true -> c = (1 - a)%Z ->
  (forall names, agrees (evaluate names (tree T)) (build F)) -> wf F -> wf G ->
  reads x e ->
  (e = PCall (PName name) [tree T; literal c] /\ G = Int 1
   \/ exists w, e = PCall (PName name) [tree T; literal c; w] /\ forall names, agrees (evaluate names w) (build G)) ->
  d = (1 + Z.of_nat (dim G))%Z ->
  makes x None true a F "Max_SumShiftExpWeight_Reduction" (Cat F G) d.
Proof.
  intros name x e T c a F G d L C A W WG R S D. exists e. split; auto. intros names.
  assert (Z : (forall o k', get_reduction names None e = Ok (o, k') ->
      exists f g, build F = Ok f /\ build G = Ok g /\ make_lse name f c g = Ok o /\ k' = None)
    /\ (forall f g o, build F = Ok f -> build G = Ok g -> make_lse name f c g = Ok o ->
        get_reduction names None e = Ok (o, None))).
  { specialize (A names). destruct S as [[-> ->]|(w & -> & B)].
    - cbn [get_reduction]. rewrite eval_all, ev_list_cons.
      change (ev_list names [literal c]) with (ev_list names (map literal [c])). rewrite ev_literals.
      destruct (agrees_inv _ _ A) as [(f & E & Bf)|[Bf N]].
      + rewrite E. cbn [rbind map construct]. rewrite L. split.
        * intros o k' H. exists f, (IntCst 1). repeat split; auto; destruct (make_lse name f c (IntCst 1)); cbn in H; congruence.
        * intros f' g o F' G' H. cbn in G'. rewrite Bf in F'. injection F' as <-. injection G' as <-. change (Int 1) with (IntCst 1) in H.
          rewrite H. reflexivity.
      + split.
        * intros o k' H. destruct (evaluate names (tree T)) as [v| | |]; [destruct (N v eq_refl)|discriminate..].
        * intros f g o H. now rewrite H in Bf.
    - specialize (B names). cbn [get_reduction]. rewrite eval_all, !ev_list_cons, eval_literal.
      destruct (agrees_inv _ _ A) as [(f & E & Bf)|[Bf N]].
      + rewrite E. cbn [rbind]. destruct (agrees_inv _ _ B) as [(g & E' & Bg)|[Bg N]].
        * rewrite E'. cbn [rbind ev_list construct]. split.
          -- intros o k' H. exists f, g. repeat split; auto; destruct (make_lse name f c g); cbn in H; congruence.
          -- intros f' g' o F' G' H. rewrite Bf in F'. rewrite Bg in G'. injection F' as <-. injection G' as <-.
             rewrite H. reflexivity.
        * split.
          -- intros o k' H. destruct (evaluate names w) as [v| | |]; [destruct (N v eq_refl)|discriminate..].
          -- intros f' g o _ H. now rewrite H in Bg.
      + split.
        * intros o k' H. destruct (evaluate names (tree T)) as [v| | |]; [destruct (N v eq_refl)|discriminate..].
        * intros f g o H. now rewrite H in Bf. }
  destruct Z as [Z1 Z2]. unfold is_lse in L. split.
  - intros o k' H. destruct (Z1 o k' H) as (f & g & Bf & Bg & M & ->). unfold make_lse in M. rewrite L in M.
    destruct (Nat.eqb_spec (dim f) 1) as [O|]; [cbn [negb] in M|discriminate].
    apply rbind_ok in M. destruct M as (h & K & M). injection M as <-. cbn [build]. rewrite Bf, Bg. cbn [rbind simple ro_id ro_formula ro_child ro_tag ro_dim].
    assert (Df := proj1 (proj2 (build_value F f W Bf))). assert (Dg := proj1 (proj2 (build_value G g WG Bg))).
    split; [reflexivity|]. split; [reflexivity|]. split; [exact K|]. split.
    { apply build_value; [cbn [wf]; auto|]. cbn [build]. now rewrite Bf, Bg. }
    repeat split; auto; [unfold zdim; lia|intros _; congruence].
  - intros h H O. cbn [build] in H. apply rbind_ok in H. destruct H as (f & Bf & H). apply rbind_ok in H.
    destruct H as (g & Bg & H). assert (Df := proj1 (proj2 (build_value F f W Bf))). rewrite (O eq_refl) in Df.
    eexists. split; [apply (Z2 f g _ Bf Bg); unfold make_lse; rewrite L, Df; cbn [Nat.eqb negb]; rewrite H; reflexivity|].
    reflexivity.
Qed.

Lemma existsb_in : forall op l, existsb (String.eqb op) l = true -> In op l.
Proof. intros op l H. apply existsb_exists in H. destruct H as (x & I & E). apply String.eqb_eq in E. now subst. Qed.

Lemma axis_cat : forall a, a = 0%Z \/ a = 1%Z -> axis2cat a = Ok (1 - a)%Z.
Proof. intros a [-> | ->]; reflexivity. Qed.

Lemma red_core : forall op k a T OU x F OG cls phi d,
  a = 0%Z \/ a = 1%Z -> well_named T -> (forall names, agrees (evaluate names (tree T)) (build F)) -> wf F ->
  match OU, OG with
  | Some U, Some G => well_named U /\ (forall names, agrees (evaluate names (tree U)) (build G)) /\ wf G
  | None, None => True
  | _, _ => False
  end ->
  red_text op (written T) k a (match OU with Some U => written U | None => "" end) = Ok x ->
  wanted op k F OG = Some (cls, phi, d) ->
  makes x k (exponential op) a F cls phi d.
Proof.
  intros op k a T OU x F OG cls phi d HA WT A W HU R H. unfold red_text in R.
  assert (C := axis_cat a HA). unfold wanted in H. destruct k as [k|], OG as [G|]; try discriminate.
  - destruct OU; [contradiction|]. cbn [String.eqb negb] in R.
    destruct (Z.eqb_spec k 0) as [|NK]; [discriminate|]. rewrite C in R.
    destruct (existsb (String.eqb op) ["KMin"; "ArgKMin"]) eqn:B1.
    + injection H as <- <- <-. apply existsb_in in B1.
      destruct B1 as [<-|[<-|[]]]; cbn [append] in *; cbn in R; injection R as <-; rewrite app_nil_r_s || idtac.
      * eapply (makes_k "KMin_Reduction"); eauto; [ident|]. intros f D. unfold make3. rewrite D. reflexivity.
      * eapply (makes_k "ArgKMin_Reduction"); eauto; [ident|]. intros f D. unfold make3. rewrite D. reflexivity.
    + destruct (String.eqb_spec op "KMin_ArgKMin") as [->|]; [|discriminate]. injection H as <- <- <-.
      cbn in R. injection R as <-.
      eapply (makes_k "KMin_ArgKMin_Reduction"); eauto; [ident|]. intros f D. unfold make3. rewrite D. reflexivity.
  - destruct OU as [U|]; [|contradiction]. destruct HU as (WU & AU & WG).
    assert (NE : negb (String.eqb (written U) "") = true).
    { destruct (String.eqb_spec (written U) ""); auto. destruct (written_nonempty U); auto. }
    rewrite NE in R. rewrite C in R.
    destruct (existsb (String.eqb op) ["LogSumExp"; "LogSumExpWeight"]) eqn:B1.
    + injection H as <- <- <-.
      assert (X : x = "Max_SumShiftExpWeight_Reduction" ++ "(" ++ written T
                ++ String.concat "" (map (fun p => "," ++ str_int p) [(1 - a)%Z]) ++ "," ++ written U ++ ")"
              /\ exponential op = true).
      { apply existsb_in in B1. destruct B1 as [<-|[<-|[]]]; (split; [|reflexivity]); unfold preprocess in R;
          cbn [is_one_of existsb String.eqb Ascii.eqb Bool.eqb orb] in R; cbn [rbind] in R; injection R as <-;
          cbn [map String.concat append]; now rewrite ?app_assoc_s. }
      destruct X as [-> ->].
      eapply (makes_exp "Max_SumShiftExpWeight_Reduction"); [reflexivity|reflexivity|exact A|exact W|exact WG|apply (call_read _ _ T [(1 - a)%Z] _ U); [ident|exact WT|exact WU|now apply lexed_written..]|
        right; eexists; split; [reflexivity|exact AU]|reflexivity].
    + destruct (existsb (String.eqb op) ["SumSoftMaxWeight"; "SoftMax"]) eqn:B2; [|discriminate].
      assert (D : d = (2 + Z.of_nat (dim G))%Z) by congruence. injection H as <- <- _. subst d.
      assert (X : x = "Max_SumShiftExpWeight_Reduction" ++ "(" ++ written T
                ++ String.concat "" (map (fun p => "," ++ str_int p) [(1 - a)%Z]) ++ ","
                ++ ("Concat(IntCst(1)," ++ written U ++ ")") ++ ")"
              /\ exponential op = true).
      { apply existsb_in in B2. destruct B2 as [<-|[<-|[]]]; (split; [|reflexivity]); unfold preprocess in R;
          cbn [is_one_of existsb String.eqb Ascii.eqb Bool.eqb orb] in R; cbn [rbind] in R; injection R as <-;
          cbn [map String.concat append]; rewrite ?app_assoc_s; cbn [append]; now rewrite ?app_assoc_s. }
      destruct X as [-> ->].
      eapply (makes_exp "Max_SumShiftExpWeight_Reduction"); [reflexivity|reflexivity|exact A|exact W|cbn [wf]; tauto| |
        right; eexists; split; [reflexivity|exact (fun n => one_and n _ _ (AU n))]|cbn [dim]; lia].
      apply (call_read _ _ T [(1 - a)%Z] _ (T2 "Concat" (TInt 1) U [])); [ident|exact WT| | |].
      * cbn [well_named]. split; [ident|]. auto.
      * now apply lexed_written.
      * cbn [tokens]. change ("Concat(IntCst(1)," ++ written U ++ ")") with ("Concat" ++ "(" ++ "IntCst(1)" ++ "," ++ written U ++ ")").
        apply lexed_call; [ident|].
        change (K SComma :: tokens U ++ ptokens [] ++ [K SRPar])%list with ([K SComma] ++ tokens U ++ [K SRPar])%list.
        apply lexed_app; [exact (lexed_written (TInt 1) I)|]. apply lexed_app; [exact lexed_comma|].
        apply lexed_app; [now apply lexed_written|exact lexed_rpar].
  - destruct OU; [contradiction|]. cbn [String.eqb negb] in R. rewrite C in R.
    destruct (existsb (String.eqb op) ["Sum"; "Min"; "Max"; "ArgMin"; "ArgMax"]) eqn:B1.
    + injection H as <- <- <-. apply existsb_in in B1.
      destruct B1 as [<-|[<-|[<-|[<-|[<-|[]]]]]]; cbn in R; injection R as <-.
      * eapply (makes_simple "Sum_Reduction"); eauto; [ident|]. intros f D. unfold make2. rewrite D. reflexivity.
      * eapply (makes_simple "Min_Reduction"); eauto; [ident|]. intros f D. unfold make2. rewrite D. reflexivity.
      * eapply (makes_simple "Max_Reduction"); eauto; [ident|]. intros f D. unfold make2. rewrite D. reflexivity.
      * eapply (makes_simple "ArgMin_Reduction"); eauto; [ident|]. intros f D. unfold make2. rewrite D. reflexivity.
      * eapply (makes_simple "ArgMax_Reduction"); eauto; [ident|]. intros f D. unfold make2. rewrite D. reflexivity.
    + destruct (existsb (String.eqb op) ["Min_ArgMin"; "Max_ArgMax"]) eqn:B2.
      * injection H as <- <- <-. apply existsb_in in B2.
        destruct B2 as [<-|[<-|[]]]; cbn in R; injection R as <-.
        -- eapply (makes_simple "Min_ArgMin_Reduction"); eauto; [ident|]. intros f D. unfold make2. rewrite D. reflexivity.
        -- eapply (makes_simple "Max_ArgMax_Reduction"); eauto; [ident|]. intros f D. unfold make2. rewrite D. reflexivity.
      * destruct (String.eqb_spec op "LogSumExp") as [->|]; [|discriminate]. injection H as <- <- <-.
        cbn in R. injection R as <-.
        eapply (makes_exp "Max_SumShiftExp_Reduction"); [reflexivity|reflexivity|exact A|exact W|cbn [wf]; tauto| |left; split; reflexivity|reflexivity].
        replace (String.append "Max_SumShiftExp_Reduction(" (written T ++ "," ++ str_int (1 - a) ++ ")"))
          with (written (T1 "Max_SumShiftExp_Reduction" T [(1 - a)%Z])).
        -- apply (written_read (T1 "Max_SumShiftExp_Reduction" T [(1 - a)%Z])). cbn [well_named]. split; [ident|auto].
        -- cbn [written map String.concat append]. now rewrite ?app_assoc_s.
Qed.

Lemma reduction_meaning : forall l F op w k ax x args hd,
  computes l F -> (forall s, wf (F s)) -> (forall o G, w = Some (o, G) -> computes o G /\ forall s, wf (G s)) ->
  lt_reduction l op (option_map fst w) k ax = Ok (Ready x args hd) ->
  let vs := all_variables l (option_map fst w) in
  let start := new_variable_index (all_symbolic l (option_map fst w)) in
  (forall v, In v vs -> (0 <= t_id v)%Z /\ ~ (start <= t_id v < start + Z.of_nat (List.length vs))%Z) ->
  exists s,
    NoDup (map t_id args) /\ (forall i, In i (map t_id args) <-> In i (map t_id vs))
    /\ (forall p v, nth_error args p = Some v -> s (t_id v) = (start + Z.of_nat p)%Z)
    /\ hd = option_map (fun v => s (t_id v)) (highdim op l)
    /\ (forall p, hd = Some p -> exists q, (q < List.length args)%nat /\ p = (start + Z.of_nat q)%Z)
    /\ forall cls phi d, wanted op k (F s) (option_map (fun g => snd g s) w) = Some (cls, phi, d) ->
       makes x k (exponential op) (ax - nbatchdims l) (F s) cls phi d.
Proof.
  intros l F op w k ax x args hd C W CW R vs start V.
  destruct (computes_made l F C) as (t & M & FT).
  assert (OW : exists u,
    match w, u with
    | Some (o, G), Some u => made o u /\ (forall s, engine_term (numbered_term s u) /\ as_formula (numbered_term s u) = Some (G s))
                             /\ (forall s, wf (G s))
    | None, None => True
    | _, _ => False
    end).
  { destruct w as [[o G]|]; [|exists None; exact Logic.I]. destruct (CW o G eq_refl) as [Co Wo].
    destruct (computes_made o G Co) as (u & Mu & Fu). exists (Some u). auto. }
  destruct OW as [u HU].
  assert (SL : sound l).
  { split; [|now apply computes_symbolic with (1 := C)]. intros v I. apply V. unfold vs, all_variables. apply in_or_app. auto. }
  assert (CL := made_carries l t M SL).
  assert (SU : forall o G u', w = Some (o, G) -> u = Some u' -> carries o (as_expr u')).
  { intros o G u' -> ->. destruct HU as (Mu & _ & _). apply made_carries; auto. destruct (CW o G eq_refl) as [Co _]. split.
    - intros v I. apply V. unfold vs, all_variables. apply in_or_app. auto.
    - now apply computes_symbolic with (1 := Co). }
  unfold lt_reduction in R.
  set (a := (ax - nbatchdims l)%Z) in *.
  destruct ((a =? 0)%Z || (a =? 1)%Z)%bool eqn:EA; [|discriminate].
  assert (HA : a = 0%Z \/ a = 1%Z). { apply orb_true_iff in EA. destruct EA as [E|E]; apply Z.eqb_eq in E; auto. }
  apply rbind_ok in R. destruct R as ([[[[nb sv] vs'] f2] dt] & J & R).
  assert (J' : sv = all_symbolic l (option_map fst w) /\ vs' = vs
               /\ f2 = text2 (option_map as_expr u)).
  { destruct w as [[o G]|]; cbn [option_map fst] in *.
    - apply rbind_ok in J. destruct J as (r & JJ & J). apply join_ok in JJ. destruct JJ as (_ & V1 & S1). injection J as _ <- <- <- _.
      destruct u as [u|]; [|contradiction]. repeat split; auto.
      destruct (SU o G u eq_refl eq_refl) as [-> _]. reflexivity.
    - destruct u; [contradiction|]. injection J as _ <- <- <- _. unfold vs, all_variables, all_symbolic. now rewrite !app_nil_r. }
  destruct J' as (-> & -> & ->). clear J.
  set (go := fun h : option Z =>
    match dt with
    | None => Ok NoData
    | Some _ =>
        do r <- fixvariables nb true (all_symbolic l (option_map fst w)) vs (formula l) (text2 (option_map as_expr u)) h ;
        let '(f', f2', args, hd') := r in
        do t <- red_text op f' k a f2' ;
        Ok (Ready t args hd')
    end).
  assert (G : exists h, go h = Ok (Ready x args hd) /\ (forall i, h = Some i -> In i (map t_id vs))
              /\ h = option_map t_id (highdim op l)).
  { destruct (if String.eqb op "Sum" then rec_highdim l else None) as [[k' v]|] eqn:RH.
    - destruct (match axis v with Some b => (a =? b)%Z | None => false end); [|discriminate].
      destruct (variables v) as [|y ys] eqn:EV; [discriminate|]. exists (Some (t_id y)). split; [exact R|].
      split; [|unfold highdim; rewrite RH, EV; reflexivity]. intros i E. injection E as <-. destruct (String.eqb op "Sum"); [|discriminate].
      apply in_map. unfold vs, all_variables. apply in_or_app. left. apply (highdim_in l F C _ _ RH). rewrite EV. now left.
    - exists None. split; [exact R|]. split; [discriminate|]. unfold highdim. now rewrite RH. }
  destruct G as (h & G & Hh & HD). unfold go in G. clear go R. destruct dt as [dt|]; [|discriminate].
  destruct CL as (FL & WFl & TL & YL). rewrite FL in G.
  destruct (numbering nb (all_symbolic l (option_map fst w)) vs (as_expr t) (option_map as_expr u) h) as (sel & s & I1 & N1 & T1' & P1 & FX & _).
  { exact WFl. }
  { intros y E. destruct u as [u|]; [|discriminate]. injection E as <-. destruct w as [[o G']|]; [|contradiction].
    apply (SU o G' u eq_refl eq_refl). }
  { intros i E. unfold all_tensors in E. unfold vs, all_variables. rewrite map_app. apply in_or_app. apply in_app_or in E.
    destruct E as [E|E]; [left; now apply TL|right]. destruct u as [u|]; [|contradiction]. destruct w as [[o G']|]; [|contradiction].
    apply (SU o G' u eq_refl eq_refl). exact E. }
  { intros i E. unfold all_symbols in E. unfold all_symbolic. rewrite map_app. apply in_or_app. apply in_app_or in E.
    destruct E as [E|E]; [left; now apply YL|right]. destruct u as [u|]; [|contradiction]. destruct w as [[o G']|]; [|contradiction].
    apply (SU o G' u eq_refl eq_refl). exact E. }
  { exact Hh. }
  { intros v I. apply V. exact I. }
  rewrite FX in G. cbn [rbind] in G. apply rbind_ok in G. destruct G as (x' & RT & G). injection G as <- <- <-.
  exists s.
  assert (TI : forall l0, map t_id (map (with_batch nb (all_tensors (as_expr t) (option_map as_expr u))) l0) = map t_id l0).
  { intros l0. rewrite map_map. apply map_ext. reflexivity. }
  assert (IFF : forall i, In i (map t_id sel) <-> In i (map t_id vs)).
  { intros i. rewrite T1'. unfold vs, all_variables, all_tensors. rewrite !map_app, !in_app_iff.
    destruct (made_holds l t M) as [Hl _]. rewrite <- Hl.
    destruct w as [[o G']|], u as [u|]; try contradiction; cbn [option_map fst]; [|reflexivity].
    destruct HU as (Mu & _). destruct (made_holds o u Mu) as [Ho _]. now rewrite <- Ho. }
  rewrite TI. split; [exact N1|]. split; [exact IFF|]. split; [|split; [|split]].
  - intros p v E. rewrite nth_error_map in E. destruct (nth_error sel p) as [v'|] eqn:E'; [|discriminate]. injection E as <-.
    cbn [with_batch t_id]. now apply P1.
  - rewrite HD. now destruct (highdim op l).
  - intros p E. destruct h as [h|]; [|discriminate]. injection E as <-.
    assert (I := Hh h eq_refl). rewrite <- IFF in I. apply in_map_iff in I. destruct I as (v & <- & I).
    apply In_nth_error in I. destruct I as [q Q]. exists q. rewrite map_length. split.
    + apply nth_error_Some. congruence.
    + now apply P1.
  - intros cls phi d WA. destruct (FT s) as [ET AT].
    apply (red_core op k a (numbered_term s t) (option_map (numbered_term s) u) x' (F s) (option_map (fun g => snd g s) w)); auto.
    + apply numbered_named. now apply (made_well_named l).
    + intros names. now apply eval_tree.
    + destruct w as [[o G']|], u as [u|]; try contradiction; cbn [option_map snd]; auto. destruct HU as (Mu & Fu & Wu).
      split; [apply numbered_named; now apply (made_well_named o)|]. split; auto. intros names.
      destruct (Fu s). now apply eval_tree.
    + rewrite <- RT. rewrite rename_expr, text_written. f_equal.
      destruct u as [u|]; cbn [option_map text2]; [|reflexivity]. now rewrite rename_expr, text_written.
Qed.

(** ** Names that are accepted elsewhere only *)

Lemma no_class : forall op f a x, In op ["MinArgMin"; "MaxArgMax"; "KMinArgKMin"] -> a = 0%Z \/ a = 1%Z -> well_named f ->
  forall k, red_text op (written f) k a "" = Ok x ->
  exists e, reads x e /\ forall names factorize r, get_reduction names factorize e <> Ok r.
Proof.
  intros op f a x I HA W k R. unfold red_text in R. cbn [String.eqb negb] in R. rewrite (axis_cat a HA) in R.
  set (ps := match k with Some k => if (k =? 0)%Z then [(1 - a)%Z] else [k; (1 - a)%Z] | None => [(1 - a)%Z] end).
  assert (X : x = written (T1 (op ++ "_Reduction") f ps)).
  { unfold ps. destruct I as [<-|[<-|[<-|[]]]]; cbn in R; destruct k as [k|]; try destruct (k =? 0)%Z; injection R as <-;
      cbn [written map]; rewrite !concat_cons; cbn [String.concat]; rewrite ?app_nil_r_s, ?app_assoc_s; reflexivity. }
  exists (tree (T1 (op ++ "_Reduction") f ps)). split.
  - rewrite X. apply written_read. cbn [well_named]. split; auto. destruct I as [<-|[<-|[<-|[]]]]; ident.
  - intros names factorize r H. cbn [tree get_reduction] in H. rewrite eval_all, ev_list_cons, ev_literals in H.
    destruct (evaluate names (tree f)) as [v| | |]; try discriminate. cbn [rbind] in H. unfold ps in H.
    destruct I as [<-|[<-|[<-|[]]]]; destruct v, k as [k|]; try destruct (k =? 0)%Z; cbn in H; discriminate.
Qed.

Lemma zero_left_out : forall op f a g, red_text op f (Some 0%Z) a g = red_text op f None a g.
Proof. reflexivity. Qed.
Lemma zero_fails : forall f a x, a = 0%Z \/ a = 1%Z -> well_named f -> red_text "KMin" (written f) (Some 0%Z) a "" = Ok x ->
  exists e, reads x e /\ forall names factorize r, get_reduction names factorize e <> Ok r.
Proof.
  intros f a x HA W R. unfold red_text in R. rewrite (axis_cat a HA) in R. cbn in R. injection R as <-.
  exists (tree (T1 "KMin_Reduction" f [(1 - a)%Z])). split.
  - replace (String.append "KMin_Reduction(" (written f ++ String "," (str_int (1 - a) ++ ")")))
      with (written (T1 "KMin_Reduction" f [(1 - a)%Z])).
    + apply (written_read (T1 "KMin_Reduction" f [(1 - a)%Z])). cbn [well_named]. split; auto. ident.
    + cbn [written map String.concat append]. now rewrite ?app_assoc_s.
  - intros names factorize r H. cbn [tree get_reduction] in H. rewrite eval_all, ev_list_cons, ev_literals in H.
    destruct (evaluate names (tree f)) as [v| | |]; try discriminate. cbn [rbind] in H. destruct v; cbn in H; discriminate.
Qed.

(** The option that factorizes formulas changes the child, not what is compiled. *)
Lemma factorized : forall names a e, match get_reduction names None e with
  | Ok (o, k) => exists o', get_reduction names (Some a) e = Ok (o', k) /\ compiled o' = compiled o /\ ro_child o' = a (ro_child o)
  | _ => forall r, get_reduction names (Some a) e <> Ok r
  end.
Proof.
  intros names a e. destruct e as [| | | | | |g l| |]; cbn [get_reduction]; try (intros r; discriminate).
  destruct g; try (intros r; discriminate).
  destruct (evaluate_all names l) as [v| | |]; cbn [rbind]; try (intros r; discriminate).
  destruct (construct s v) as [[o k]| | |]; cbn [rbind]; try (intros r; discriminate).
  eexists. split; [reflexivity|]. split; reflexivity.
Qed.
