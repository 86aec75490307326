From Coq Require Import ZArith List Bool Ascii String Lia.
From Verif Require Import Keys KeySpec C22Proofs History HistorySpec.
Import ListNotations.
Open Scope string_scope.

Lemma assoc_cons : forall A k k' (a : A) l,
  assoc k ((k', a) :: l) = if string_dec k k' then Some a else assoc k l.
Proof. reflexivity. Qed.

Section Proofs.
  Variable parsed : Type.
  Variable parse : string -> list string -> bool -> parsed.
  Variable printed : parsed -> string.
  Variable cpu_class : scheme -> parsed -> string.
  Variable gpu_class : scheme -> bool -> bool -> bool -> parsed -> string.
  Variable code : string -> parsed -> request -> string.
  Variable digest : string -> string.
  Variable lambda_text : string.
  Variable import_flags : string.
  Variable request_of : load -> request.

  Hypothesis classes_cpu : forall s p, class_text (cpu_class s p).
  Hypothesis classes_gpu : forall s a b c p, class_text (gpu_class s a b c p).
  Hypothesis printed_ok : forall p, printed_text (printed p).
  Hypothesis printing : forall f a b b',
    printed (parse f a b) = printed (parse f a b') -> parse f a b = parse f a b'.
  Hypothesis import_ok : flags_ok import_flags.

  Notation state := (state parsed).
  Notation get_reduction := (get_reduction parsed parse digest).
  Notation get_dll := (get_dll parsed parse printed cpu_class gpu_class code digest import_flags).
  Notation dll_impl := (dll_impl parsed parse printed cpu_class gpu_class code digest import_flags).
  Notation generate := (generate parsed printed code digest import_flags).
  Notation load_module := (load_module parsed parse printed cpu_class gpu_class code digest
                             lambda_text import_flags request_of).
  Notation compile := (compile parsed).
  Notation step := (step parsed parse printed cpu_class gpu_class code digest
                             lambda_text import_flags request_of).
  Notation run := (run parsed parse printed cpu_class gpu_class code digest
                             lambda_text import_flags request_of).
  Notation wanted_parsed := (wanted_parsed parsed parse).
  Notation wanted_class := (wanted_class parsed parse cpu_class gpu_class).
  Notation wanted_code := (wanted_code parsed parse cpu_class gpu_class code).
  Notation text_of := (text_of parsed parse cpu_class gpu_class printed import_flags).
  Notation collision_free := (collision_free parsed parse cpu_class gpu_class printed digest
                                import_flags).
  Notation requests_of := (requests_of request_of).

  Definition wanted_name (r : request) (b : bool) : string := hash_name digest (text_of r b).

  Definition wanted_dll (r : request) (b : bool) : dll parsed :=
    {| dll_name := wanted_name r b; dll_class := wanted_class r b;
       dll_parsed := wanted_parsed r b |}.

  Lemma wanted_class_text : forall r b, class_text (wanted_class r b).
  Proof.
    intros r b. unfold HistorySpec.wanted_class. destruct (is_gpu (rq_scheme r)); auto.
  Qed.

  Section Universe.
    (** All the requests of the history. *)
    Variable U : list request.
    Hypothesis U_adm : forall r, In r U -> admissible r.
    Hypothesis U_alias : forall r, In r U ->
      Forall (fun s => has "["%char s = false) (rq_aliases r).
    Hypothesis U_uniform : uniform_options U.
    Hypothesis U_free : collision_free U.

    (** Options never set keep their default value. *)
    Definition kept (field : request -> Z) (default value : bool) : Prop :=
      (forall r, In r U -> is_gpu (rq_scheme r) = true -> field r = (-1)%Z) -> value = default.

    Record good (s : state) : Prop := {
      g_chunk : kept rq_chunks true (st_chunk _ s);
      g_final : kept rq_final true (st_final _ s);
      g_high : kept rq_highdim false (st_highdim _ s);
      g_flags : flags_ok (st_flags _ s);
      g_red : forall k p, assoc k (st_reductions _ s) = Some p ->
        exists r b, In r U /\ k = hash_name digest (reduction_text (rq_formula r) (rq_aliases r) b)
          /\ p = wanted_parsed r b;
      g_table : forall k d, assoc k (st_table _ s) = Some d ->
        exists r fl b, In r U /\ flags_ok fl /\ k = request_key r fl b /\ d = wanted_dll r b
          /\ assoc (dll_name _ d) (st_files _ s) = Some (wanted_code r b);
      g_files : forall n c, assoc n (st_files _ s) = Some c ->
        exists r b, In r U /\ n = wanted_name r b /\ c = wanted_code r b }.

    Lemma parsed_agree : forall r r' b b', In r U -> In r' U ->
      hash_name digest (reduction_text (rq_formula r) (rq_aliases r) b)
      = hash_name digest (reduction_text (rq_formula r') (rq_aliases r') b') ->
      wanted_parsed r b = wanted_parsed r' b'.
    Proof.
      intros r r' b b' H H' E. apply (proj1 U_free) in E; [|assumption..].
      apply reduction_texts_distinct in E;
        [|now destruct (U_adm _ H)|now destruct (U_adm _ H')].
      destruct E as [E1 [E2 ->]]. unfold HistorySpec.wanted_parsed. now rewrite E1, E2.
    Qed.

    Lemma names_agree : forall r r' b b', In r U -> In r' U ->
      wanted_name r b = wanted_name r' b' -> wanted_code r b = wanted_code r' b'.
    Proof.
      intros r r' b b' H H' E. apply (proj2 U_free) in E; [|assumption..].
      unfold HistorySpec.text_of in E.
      apply module_texts_distinct in E; auto using wanted_class_text.
      destruct E as [Ec [Ep [E1 [E2 [E3 [E4 [E5 [E6 [E7 [E8 [E9 [E10 [E11 E12]]]]]]]]]]]]].
      unfold HistorySpec.wanted_code. rewrite Ec.
      unfold HistorySpec.wanted_parsed in *. rewrite E1, E2 in Ep |- *.
      apply printing in Ep. rewrite Ep. unfold sent.
      now rewrite E1, E2, E3, E4, E5, E6, E7, E8, E9, E10, E11, E12.
    Qed.

    Lemma get_reduction_good : forall r s p s', In r U -> good s ->
      get_reduction (rq_formula r) (rq_aliases r) s = (p, s') ->
      good s' /\ p = wanted_parsed r (st_factorize _ s)
      /\ st_factorize _ s' = st_factorize _ s /\ st_flags _ s' = st_flags _ s
      /\ st_chunk _ s' = st_chunk _ s /\ st_final _ s' = st_final _ s
      /\ st_highdim _ s' = st_highdim _ s /\ st_table _ s' = st_table _ s
      /\ st_files _ s' = st_files _ s /\ st_loads _ s' = st_loads _ s
      /\ st_modules _ s' = st_modules _ s.
    Proof.
      intros r s p s' H G E. unfold History.get_reduction in E.
      destruct (assoc (hash_name digest
         (reduction_text (rq_formula r) (rq_aliases r) (st_factorize _ s))) (st_reductions _ s))
        eqn:A.
      - injection E as <- <-. destruct (g_red s G _ _ A) as [r' [b [H' [Ek Ep]]]].
        split; [exact G|]. split; [|auto 10].
        rewrite Ep. now apply parsed_agree.
      - injection E as <- <-. split; [|cbn; auto 12].
        destruct G as [G1 G2 G3 G4 G5 G6 G7]. constructor; cbn; auto.
        intros k p Hk. destruct (string_dec k _) as [->|N]; [|now apply G5].
        injection Hk as <-. exists r, (st_factorize _ s). auto.
    Qed.

    Lemma set_options_good : forall r s, In r U -> is_gpu (rq_scheme r) = true -> good s ->
      good (set_options _ r s).
    Proof.
      intros r s H Hg [G1 G2 G3 G4 G5 G6 G7].
      assert (K : forall field d v, kept field d v ->
                  kept field d (set_option v (field r))).
      { intros field d v Kp A. rewrite (A r H Hg). cbn. now apply Kp. }
      constructor; cbn; auto.
    Qed.

    Lemma option_in_force : forall field d v r, In r U -> is_gpu (rq_scheme r) = true ->
      uniform field U -> kept field d v ->
      set_option v (field r) = option_value d (field r).
    Proof.
      intros field d v r H Hg [A|A] K.
      - rewrite (A r H Hg). cbn. now apply K.
      - destruct (A r H Hg) as [-> | ->]; reflexivity.
    Qed.

    Lemma generate_good : forall r b s d s', In r U -> good s ->
      generate (wanted_class r b) (wanted_parsed r b) r s = (d, s') ->
      good s' /\ d = wanted_dll r b
      /\ assoc (wanted_name r b) (st_files _ s') = Some (wanted_code r b)
      /\ st_factorize _ s' = st_factorize _ s /\ st_flags _ s' = st_flags _ s
      /\ st_table _ s' = st_table _ s /\ st_loads _ s' = st_loads _ s
      /\ st_modules _ s' = st_modules _ s
      /\ (forall n c, assoc n (st_files _ s) = Some c -> assoc n (st_files _ s') = Some c).
    Proof.
      intros r b s d s' H G E. unfold History.generate in E.
      change (module_name parsed printed digest import_flags (wanted_class r b)
                (wanted_parsed r b) r) with (wanted_name r b) in E.
      destruct (assoc (wanted_name r b) (st_files _ s)) as [c|] eqn:A.
      - injection E as <- <-. split; [exact G|]. split; [reflexivity|].
        split; [|auto 10]. destruct (g_files s G _ _ A) as [r' [b' [H' [En Ec]]]].
        rewrite A, Ec. f_equal. symmetry. now apply names_agree.
      - injection E as <- <-. split; [|split; [reflexivity|]].
        + destruct G as [G1 G2 G3 G4 G5 G6 G7]. constructor; cbn; auto.
          * intros k d Hk. destruct (G6 k d Hk) as [r0 [fl [b0 [Q1 [Q2 [Q3 [Q4 Q5]]]]]]].
            exists r0, fl, b0. split; [exact Q1|]. split; [exact Q2|].
            split; [exact Q3|]. split; [exact Q4|].
            destruct (string_dec (dll_name _ d) (wanted_name r b)) as [E|N]; [|exact Q5].
            rewrite E in Q5. congruence.
          * intros n c Hn. destruct (string_dec n (wanted_name r b)) as [->|N]; [|now apply G7].
            injection Hn as <-. now exists r, b.
        + cbn. destruct (string_dec (wanted_name r b) (wanted_name r b)); [|congruence].
          repeat split; auto. intros n c Hn.
          destruct (string_dec n (wanted_name r b)) as [->|N]; [congruence|exact Hn].
    Qed.

    Lemma dll_impl_good : forall r s d s', In r U -> good s ->
      dll_impl r s = (d, s') ->
      good s' /\ d = wanted_dll r (st_factorize _ s)
      /\ assoc (wanted_name r (st_factorize _ s)) (st_files _ s')
         = Some (wanted_code r (st_factorize _ s))
      /\ st_factorize _ s' = st_factorize _ s /\ st_flags _ s' = st_flags _ s
      /\ st_table _ s' = st_table _ s /\ st_loads _ s' = st_loads _ s
      /\ st_modules _ s' = st_modules _ s
      /\ (forall n c, assoc n (st_files _ s) = Some c -> assoc n (st_files _ s') = Some c).
    Proof.
      intros r s d s' H G E. unfold History.dll_impl in E.
      destruct (is_gpu (rq_scheme r)) eqn:Hg.
      - destruct (get_reduction (rq_formula r) (rq_aliases r) (set_options parsed r s))
          as [p s1] eqn:E1.
        apply get_reduction_good in E1; [|assumption|now apply set_options_good].
        destruct E1 as [G1 [Ep [Q1 [Q2 [Q3 [Q4 [Q5 [Q6 [Q7 [Q8 Q9]]]]]]]]]].
        cbn [set_options st_factorize st_flags st_chunk st_final st_highdim st_table
             st_files st_loads st_modules] in *.
        assert (C : gpu_class (rq_scheme r) (st_chunk parsed s1) (st_final parsed s1)
                      (st_highdim parsed s1) p = wanted_class r (st_factorize _ s)).
        { unfold HistorySpec.wanted_class. rewrite Hg, Q3, Q4, Q5, Ep.
          destruct U_uniform as [U1 [U2 U3]], G as [K1 K2 K3 _ _ _ _].
          rewrite (option_in_force rq_chunks true _ r H Hg U1 K1).
          rewrite (option_in_force rq_final true _ r H Hg U2 K2).
          rewrite (option_in_force rq_highdim false _ r H Hg U3 K3). reflexivity. }
        rewrite C, Ep in E. apply generate_good in E; [|assumption..].
        destruct E as [R1 [R2 [R3 [R4 [R5 [R6 [R7 [R8 R9]]]]]]]].
        do 3 (split; [assumption|]). do 5 (split; [congruence|]).
        intros n c Hn. apply R9. now rewrite Q7.
      - destruct (get_reduction (rq_formula r) (rq_aliases r) s) as [p s1] eqn:E1.
        apply get_reduction_good in E1; [|assumption..].
        destruct E1 as [G1 [Ep [Q1 [Q2 [Q3 [Q4 [Q5 [Q6 [Q7 [Q8 Q9]]]]]]]]]].
        assert (C : cpu_class (rq_scheme r) p = wanted_class r (st_factorize _ s)).
        { unfold HistorySpec.wanted_class. now rewrite Hg, Ep. }
        rewrite C, Ep in E. apply generate_good in E; [|assumption..].
        destruct E as [R1 [R2 [R3 [R4 [R5 [R6 [R7 [R8 R9]]]]]]]].
        do 3 (split; [assumption|]). do 5 (split; [congruence|]).
        intros n c Hn. apply R9. now rewrite Q7.
    Qed.

    Lemma get_dll_good : forall r s d s', In r U -> good s ->
      get_dll r s = (d, s') ->
      good s' /\ d = wanted_dll r (st_factorize _ s)
      /\ assoc (wanted_name r (st_factorize _ s)) (st_files _ s')
         = Some (wanted_code r (st_factorize _ s))
      /\ st_factorize _ s' = st_factorize _ s /\ st_flags _ s' = st_flags _ s
      /\ st_loads _ s' = st_loads _ s /\ st_modules _ s' = st_modules _ s
      /\ (forall n c, assoc n (st_files _ s) = Some c -> assoc n (st_files _ s') = Some c).
    Proof.
      intros r s d s' H G E. unfold History.get_dll in E.
      destruct (assoc (request_key r (st_flags _ s) (st_factorize _ s)) (st_table _ s)) as [d0|]
        eqn:A.
      - injection E as <- <-. destruct (g_table s G _ _ A) as [r' [fl [b [H' [Fl [Ek [Ed Ef]]]]]]].
        apply requests_distinct in Ek; auto; [|exact (g_flags s G)].
        destruct Ek as [-> [_ ->]]. subst d0. split; [exact G|]. auto 10.
      - destruct (dll_impl r s) as [d1 s1] eqn:E1. apply dll_impl_good in E1; [|assumption..].
        destruct E1 as [R1 [R2 [R3 [R4 [R5 [R6 [R7 [R8 R9]]]]]]]].
        injection E as <- <-. cbn. repeat split; try assumption.
        + exact (g_chunk _ R1).
        + exact (g_final _ R1).
        + exact (g_high _ R1).
        + exact (g_flags _ R1).
        + exact (g_red _ R1).
        + intros k d Hk. cbn in Hk. destruct (string_dec k _) as [->|N].
          * injection Hk as <-. exists r, (st_flags _ s), (st_factorize _ s).
            split; [exact H|]. split; [exact (g_flags s G)|]. split; [reflexivity|].
            split; [exact R2|]. cbn. rewrite R2. exact R3.
          * exact (g_table _ R1 k d Hk).
        + exact (g_files _ R1).
    Qed.

    Lemma compile_files : forall d s c s', compile d s = (c, s') ->
      st_factorize _ s' = st_factorize _ s /\ st_flags _ s' = st_flags _ s
      /\ st_chunk _ s' = st_chunk _ s /\ st_final _ s' = st_final _ s
      /\ st_highdim _ s' = st_highdim _ s /\ st_reductions _ s' = st_reductions _ s
      /\ st_table _ s' = st_table _ s
      /\ st_files _ s' = st_files _ s /\ st_loads _ s' = st_loads _ s.
    Proof.
      intros d s c s' E. unfold History.compile in E.
      destruct (assoc (dll_name _ d) (st_modules _ s)) as [[c0 fl]|].
      - injection E as <- <-. auto 12.
      - injection E as <- <-. cbn. auto 12.
    Qed.

    Lemma good_same : forall s s' : state,
      good s -> flags_ok (st_flags _ s') ->
      st_chunk _ s' = st_chunk _ s -> st_final _ s' = st_final _ s ->
      st_highdim _ s' = st_highdim _ s -> st_reductions _ s' = st_reductions _ s ->
      st_table _ s' = st_table _ s -> st_files _ s' = st_files _ s -> good s'.
    Proof.
      intros s s' [G1 G2 G3 G4 G5 G6 G7] Ff E3 E4 E5 E6 E7 E8.
      constructor; [rewrite E3|rewrite E4|rewrite E5| |rewrite E6|rewrite E7, E8|rewrite E8];
        assumption.
    Qed.

    Lemma load_good : forall l s c s', In (request_of l) U -> good s ->
      load_module l s = (c, s') -> good s' /\ st_factorize _ s' = st_factorize _ s
        /\ st_flags _ s' = st_flags _ s.
    Proof.
      intros l s c s' H G E. unfold History.load_module in E.
      destruct (assoc (load_key l lambda_text) (st_loads _ s)) as [c0|].
      - injection E as <- <-. auto.
      - destruct (get_dll (request_of l) s) as [d s1] eqn:E1.
        apply get_dll_good in E1; [|assumption..].
        destruct E1 as [R1 [R2 [R3 [R4 [R5 _]]]]].
        destruct (compile d s1) as [c2 s2] eqn:E2. apply compile_files in E2.
        destruct E2 as [Q1 [Q2 [Q3 [Q4 [Q5 [Q6 [Q7 [Q8 Q9]]]]]]]].
        injection E as <- <-. cbn. split; [|split; congruence].
        eapply good_same; [exact R1|..]; cbn; try assumption.
        rewrite Q2. exact (g_flags _ R1).
    Qed.

    Lemma start_good : good (start parsed import_flags).
    Proof. constructor; cbn; auto; try discriminate; intros _; reflexivity. Qed.

    Definition event_ok (e : event) : Prop :=
      match e with
      | CallDll r => In r U
      | CallLoad l => In (request_of l) U
      | SetFlags fl => flags_ok fl
      | _ => True
      end.

    Lemma step_good : forall s e, event_ok e -> good s -> good (step s e).
    Proof.
      intros s e He G. destruct e as [b|fl|r|l|]; cbn [History.step].
      - eapply good_same; [exact G|..]; try reflexivity. exact (g_flags _ G).
      - eapply good_same; [exact G|..]; try reflexivity. exact He.
      - destruct (get_dll r s) as [d s'] eqn:E. apply get_dll_good in E; [|assumption..].
        cbn. now destruct E.
      - destruct (load_module l s) as [c s'] eqn:E. apply load_good in E; [|assumption..].
        now destruct E.
      - destruct G as [G1 G2 G3 G4 G5 G6 G7]. constructor; cbn; auto; discriminate.
    Qed.

    Lemma steps_good : forall h s, Forall event_ok h -> good s -> good (fold_left step h s).
    Proof.
      induction h as [|e h IH]; intros s H G; [exact G|]. inversion H; subst.
      cbn. apply IH; [assumption|]. now apply step_good.
    Qed.
  End Universe.

  Lemma events_ok : forall h U, incl (requests_of h) U ->
    Forall flags_ok (flags_of h) -> Forall (event_ok U) h.
  Proof.
    induction h as [|e h IH]; intros U I F; constructor.
    - destruct e; cbn; auto.
      + cbn in F. now inversion F.
      + apply I. now left.
      + apply I. now left.
    - apply IH.
      + intros r Hr. apply I. cbn. apply in_or_app. now right.
      + cbn in F. apply Forall_app in F. now destruct F.
  Qed.

  Lemma get_reduction_af : forall f a s, st_factorize _ (snd (get_reduction f a s)) = st_factorize _ s.
  Proof.
    intros. unfold History.get_reduction. now destruct (assoc _ _).
  Qed.

  Lemma get_dll_af : forall r s, st_factorize _ (snd (get_dll r s)) = st_factorize _ s.
  Proof.
    intros r s. unfold History.get_dll. destruct (assoc _ _); [reflexivity|].
    destruct (dll_impl r s) as [d s1] eqn:E. cbn.
    unfold History.dll_impl in E.
    match type of E with (let (_, _) := ?g in _) = _ =>
      assert (A := get_reduction_af (rq_formula r) (rq_aliases r)
        (if is_gpu (rq_scheme r) then set_options parsed r s else s)) end.
    destruct (get_reduction (rq_formula r) (rq_aliases r)
       (if is_gpu (rq_scheme r) then set_options parsed r s else s)) as [p s2].
    cbn in A. unfold History.generate in E.
    assert (st_factorize _ s1 = st_factorize _ s2).
    { destruct (assoc _ _) in E; injection E as _ <-; reflexivity. }
    rewrite H, A. now destruct (is_gpu (rq_scheme r)).
  Qed.

  Lemma load_af : forall l s, st_factorize _ (snd (load_module l s)) = st_factorize _ s.
  Proof.
    intros l s. unfold History.load_module. destruct (assoc _ _); [reflexivity|].
    assert (A := get_dll_af (request_of l) s). destruct (get_dll (request_of l) s) as [d s1].
    cbn in A. destruct (compile d s1) as [c s2] eqn:E. apply compile_files in E.
    destruct E as [E _]. cbn. congruence.
  Qed.

  Lemma run_factorize : forall h, st_factorize _ (run h) = last_factorize h.
  Proof.
    intros h. unfold History.run, last_factorize.
    change false with (st_factorize _ (start parsed import_flags)) at 1.
    generalize (start parsed import_flags) as s.
    induction h as [|e h IH]; intros s; [reflexivity|]. cbn [fold_left]. rewrite IH. f_equal.
    destruct e; cbn [History.step]; auto using get_dll_af, load_af.
  Qed.

  (** Direct calls: the module found corresponds to the options in force. *)
  Lemma dll_history : forall h r d s',
    let U := requests_of (h ++ [CallDll r]) in
    (forall r, In r U -> admissible r) ->
    (forall r, In r U -> Forall (fun s => has "["%char s = false) (rq_aliases r)) ->
    uniform_options U -> collision_free U -> Forall flags_ok (flags_of h) ->
    get_dll r (run h) = (d, s') ->
    let b := last_factorize h in
    dll_parsed _ d = wanted_parsed r b /\ dll_class _ d = wanted_class r b
    /\ assoc (dll_name _ d) (st_files _ s') = Some (wanted_code r b).
  Proof.
    intros h r d s' U HU HA HO HF Hfl E b.
    assert (Hr : In r U).
    { unfold U, HistorySpec.requests_of. rewrite flat_map_app. apply in_or_app. right. now left. }
    assert (G : good U (run h)).
    { unfold History.run. apply steps_good; auto.
      - apply events_ok; [|exact Hfl]. unfold U, HistorySpec.requests_of. rewrite flat_map_app.
        apply incl_appl. apply incl_refl.
      - now apply start_good. }
    destruct (get_dll_good U HU HA HO HF r (run h) d s' Hr G E) as [_ [-> [Q _]]].
    unfold b. rewrite <- run_factorize. cbn. auto.
  Qed.

  (** ** Calls of the front-ends *)

  Section Loads.
    Variable U : list request.
    Variable L : list load.
    Hypothesis U_adm : forall r, In r U -> admissible r.
    Hypothesis U_alias : forall r, In r U ->
      Forall (fun s => has "["%char s = false) (rq_aliases r).
    Hypothesis U_uniform : uniform_options U.
    Hypothesis U_free : collision_free U.
    Hypothesis L_adm : forall l, In l L -> admissible_load l.
    Hypothesis L_U : forall l, In l L -> In (request_of l) U.

    Definition wanted_compiled (r : request) : compiled parsed :=
      {| cm_dll := wanted_dll r false; cm_code := wanted_code r false;
         cm_flags := import_flags |}.

    Record steady (s : state) : Prop := {
      t_good : good U s;
      t_af : st_factorize _ s = false;
      t_flags : st_flags _ s = import_flags;
      t_loads : forall k c, assoc k (st_loads _ s) = Some c ->
        exists l, In l L /\ k = load_key l lambda_text /\ c = wanted_compiled (request_of l);
      t_modules : forall n c fl, assoc n (st_modules _ s) = Some (c, fl) ->
        fl = import_flags /\ exists r, In r U /\ n = wanted_name r false
                                     /\ c = wanted_code r false }.

    Lemma load_steady : forall l s c s', In l L -> steady s ->
      load_module l s = (c, s') -> steady s' /\ c = wanted_compiled (request_of l).
    Proof.
      intros l s c s' Hl T E.
      assert (G := E). apply (load_good U U_adm U_alias U_uniform U_free) in G;
        [|now apply L_U|exact (t_good s T)].
      destruct G as [G [Af Fl]]. rewrite (t_af s T) in Af. rewrite (t_flags s T) in Fl.
      unfold History.load_module in E.
      destruct (assoc (load_key l lambda_text) (st_loads _ s)) as [c0|] eqn:A.
      - injection E as <- <-. split; [exact T|].
        destruct (t_loads s T _ _ A) as [l' [Hl' [Ek ->]]].
        apply loads_distinct in Ek; auto. destruct Ek as [-> _]. reflexivity.
      - destruct (get_dll (request_of l) s) as [d s1] eqn:E1.
        apply (get_dll_good U U_adm U_alias U_uniform U_free) in E1;
          [|now apply L_U|exact (t_good s T)].
        rewrite (t_af s T) in E1.
        destruct E1 as [R1 [R2 [R3 [R4 [R5 [R6 [R7 R8]]]]]]].
        rewrite (t_flags s T) in R5.
        assert (C : exists s2, compile d s1 = (wanted_compiled (request_of l), s2)
                /\ forall n c fl, assoc n (st_modules _ s2) = Some (c, fl) ->
                     fl = import_flags /\ exists r, In r U /\ n = wanted_name r false
                                     /\ c = wanted_code r false).
        { unfold History.compile. subst d. cbn [wanted_dll dll_name].
          destruct (assoc (wanted_name (request_of l) false) (st_modules _ s1)) as [[c1 fl]|] eqn:M.
          - rewrite R7 in M. destruct (t_modules s T _ _ _ M) as [-> [r' [Hr' [En Ec]]]].
            exists s1. split.
            + unfold wanted_compiled. rewrite Ec. f_equal. f_equal. symmetry.
              apply (names_agree U U_adm U_alias U_free); auto.
            + rewrite R7. exact (t_modules s T).
          - rewrite R3, R5. eexists. split; [reflexivity|]. cbn. intros n c1 fl1 Hn.
            destruct (string_dec n _) as [->|N].
            + injection Hn as <- <-. split; [reflexivity|].
              exists (request_of l). auto.
            + rewrite R7 in Hn. exact (t_modules s T _ _ _ Hn). }
        destruct C as [s2 [C1 C2]]. rewrite C1 in E. assert (Cf := compile_files _ _ _ _ C1).
        destruct Cf as [Q1 [Q2 [Q3 [Q4 [Q5 [Q6 [Q7 [Q8 Q9]]]]]]]].
        injection E as <- <-. split; [|reflexivity]. constructor; auto; cbn.
        intros k c2 Hk. destruct (string_dec k _) as [->|N].
        + injection Hk as <-. exists l. auto.
        + rewrite Q9, R6 in Hk. exact (t_loads s T k c2 Hk).
    Qed.

    Definition event_steady (e : event) : Prop :=
      match e with
      | CallDll r => In r U
      | CallLoad l => In l L
      | Clean => True
      | _ => False
      end.

    Lemma step_steady : forall s e, event_steady e -> steady s -> steady (step s e).
    Proof.
      intros s e He T. destruct e as [b|fl|r|l|]; cbn [History.step]; try contradiction.
      - destruct (get_dll r s) as [d s'] eqn:E.
        apply (get_dll_good U U_adm U_alias U_uniform U_free) in E; [|assumption|exact (t_good s T)].
        destruct E as [R1 [R2 [R3 [R4 [R5 [R6 [R7 R8]]]]]]]. cbn [snd].
        constructor; auto.
        + rewrite R4. exact (t_af s T).
        + rewrite R5. exact (t_flags s T).
        + rewrite R6. exact (t_loads s T).
        + rewrite R7. exact (t_modules s T).
      - destruct (load_module l s) as [c s'] eqn:E. apply load_steady in E; [|assumption..].
        now destruct E.
      - constructor; cbn; try discriminate.
        + exact (step_good U U_adm U_alias U_uniform U_free s Clean I (t_good s T)).
        + exact (t_af s T).
        + exact (t_flags s T).
    Qed.

    Lemma steps_steady : forall h s, Forall event_steady h -> steady s ->
      steady (fold_left step h s).
    Proof.
      induction h as [|e h IH]; intros s H T; [exact T|]. inversion H; subst.
      cbn. apply IH; [assumption|]. now apply step_steady.
    Qed.

    Lemma start_steady : steady (start parsed import_flags).
    Proof. constructor; cbn; auto; try discriminate. now apply start_good. Qed.
  End Loads.

  Lemma load_history : forall h l c s',
    let U := requests_of (h ++ [CallLoad l]) in
    let L := loads_of (h ++ [CallLoad l]) in
    (forall r, In r U -> admissible r) ->
    (forall l, In l L -> admissible_load l) ->
    (forall r, In r U -> Forall (fun s => has "["%char s = false) (rq_aliases r)) ->
    uniform_options U -> collision_free U -> no_change h ->
    load_module l (run h) = (c, s') ->
    dll_parsed _ (cm_dll _ c) = wanted_parsed (request_of l) false
    /\ cm_code _ c = wanted_code (request_of l) false
    /\ cm_flags _ c = import_flags.
  Proof.
    intros h l c s' U L HU HL HA HO HF Hn E.
    assert (Hl : In l L).
    { unfold L, loads_of. rewrite flat_map_app. apply in_or_app. right. now left. }
    assert (LU : forall l, In l L -> In (request_of l) U).
    { intros l0 H0. unfold L, loads_of in H0. unfold U, HistorySpec.requests_of.
      apply in_flat_map in H0. destruct H0 as [e [He H0]]. apply in_flat_map. exists e.
      split; [exact He|]. destruct e; try contradiction. destruct H0 as [->|[]]. now left. }
    assert (T : steady U L (run h)).
    { unfold History.run. apply steps_steady; auto.
      - apply Forall_forall. intros e He.
        assert (He' : In e (h ++ [CallLoad l])) by (apply in_or_app; now left).
        specialize (Hn e He). destruct e; cbn; auto.
        + apply in_flat_map. exists (CallDll r). split; [exact He'|now left].
        + apply in_flat_map. exists (CallLoad l0). split; [exact He'|now left].
      - apply start_steady; auto. }
    destruct (load_steady U L HU HA HO HF HL LU l (run h) c s' Hl T E) as [_ ->].
    cbn. auto.
  Qed.

  (** ** Refutations *)

  Lemma option_set : forall d v, choice v -> set_option d v = option_value d v.
  Proof. intros d v [E | [E | E] ]; subst v; reflexivity. Qed.

  (** First call of a session. *)
  Lemma first_call : forall r, admissible r -> exists s1,
    get_dll r (start parsed import_flags) = (wanted_dll r false, s1)
    /\ st_factorize _ s1 = false /\ st_flags _ s1 = import_flags
    /\ st_chunk _ s1 = (if is_gpu (rq_scheme r) then option_value true (rq_chunks r) else true)
    /\ st_final _ s1 = (if is_gpu (rq_scheme r) then option_value true (rq_final r) else true)
    /\ st_highdim _ s1 = (if is_gpu (rq_scheme r) then option_value false (rq_highdim r) else false)
    /\ st_reductions _ s1 =
         [(hash_name digest (reduction_text (rq_formula r) (rq_aliases r) false),
           wanted_parsed r false)]
    /\ st_table _ s1 = [(request_key r import_flags false, wanted_dll r false)]
    /\ st_files _ s1 = [(wanted_name r false, wanted_code r false)]
    /\ st_loads _ s1 = [] /\ st_modules _ s1 = [].
  Proof.
    intros r A. unfold History.get_dll. cbn [start st_table assoc].
    destruct A as [_ [C1 [C2 [C3 _]]]].
    unfold History.dll_impl, wanted_dll, wanted_name, HistorySpec.text_of,
      HistorySpec.wanted_code, HistorySpec.wanted_class.
    rewrite <- (option_set true (rq_chunks r)), <- (option_set true (rq_final r)),
      <- (option_set false (rq_highdim r)) by assumption.
    destruct (is_gpu (rq_scheme r)); unfold History.get_reduction, History.generate,
      module_name, set_options; cbn [start st_reductions st_files st_factorize st_flags
        st_chunk st_final st_highdim st_table st_loads st_modules assoc].
    - eexists. split; [reflexivity|].
      cbn [start st_reductions st_files st_factorize st_flags
        st_chunk st_final st_highdim st_table st_loads st_modules].
      do 9 (split; [reflexivity|]). reflexivity.
    - eexists. split; [reflexivity|].
      cbn [start st_reductions st_files st_factorize st_flags
        st_chunk st_final st_highdim st_table st_loads st_modules].
      do 9 (split; [reflexivity|]). reflexivity.
  Qed.

  Definition first_compiled (r : request) : compiled parsed :=
    {| cm_dll := wanted_dll r false; cm_code := wanted_code r false;
       cm_flags := import_flags |}.

  Lemma first_load : forall l, admissible (request_of l) -> exists s1,
    let r := request_of l in
    load_module l (start parsed import_flags) = (first_compiled r, s1)
    /\ st_factorize _ s1 = false /\ st_flags _ s1 = import_flags
    /\ st_reductions _ s1 =
         [(hash_name digest (reduction_text (rq_formula r) (rq_aliases r) false),
           wanted_parsed r false)]
    /\ st_table _ s1 = [(request_key r import_flags false, wanted_dll r false)]
    /\ st_files _ s1 = [(wanted_name r false, wanted_code r false)]
    /\ st_loads _ s1 = [(load_key l lambda_text, first_compiled r)]
    /\ st_modules _ s1 = [(wanted_name r false, (wanted_code r false, import_flags))].
  Proof.
    intros l A. cbn zeta. unfold History.load_module. cbn [start st_loads assoc].
    destruct (first_call (request_of l) A)
      as [s1 [E [E1 [E2 [E3 [E4 [E5 [E6 [E7 [E8 [E9 E10]]]]]]]]]]].
    rewrite E. unfold History.compile. rewrite E10. cbn [assoc wanted_dll dll_name].
    rewrite E8, assoc_cons. destruct (string_dec _ _) as [_|N]; [|congruence].
    rewrite E2. eexists. split; [reflexivity|]. cbn [st_reductions st_files st_factorize st_flags
        st_chunk st_final st_highdim st_table st_loads st_modules].
    rewrite E9. do 6 (split; [assumption || reflexivity|]). reflexivity.
  Qed.

  (** The factorisation is switched on between two calls of a front-end. *)
  Lemma stale_factorize : forall l c s', admissible (request_of l) ->
    parse (rq_formula (request_of l)) (rq_aliases (request_of l)) true
    <> parse (rq_formula (request_of l)) (rq_aliases (request_of l)) false ->
    load_module l (run [CallLoad l; SetFactorize true]) = (c, s') ->
    st_factorize _ (run [CallLoad l; SetFactorize true]) = true
    /\ dll_parsed _ (cm_dll _ c) <> wanted_parsed (request_of l) true.
  Proof.
    intros l c s' A N E. split; [apply run_factorize|]. revert E.
    unfold History.run. cbn [fold_left History.step].
    destruct (first_load l A) as [s1 [E [E1 [E2 [E3 [E4 [E5 [E6 E7]]]]]]]]. rewrite E. cbn [snd].
    unfold History.load_module. cbn [st_loads]. rewrite E6, assoc_cons.
    destruct (string_dec _ _) as [_|M]; [|congruence].
    intros F. injection F as <- _. cbn. unfold HistorySpec.wanted_parsed. congruence.
  Qed.

  (** The compilation flags are changed between two calls, possibly by different
      front-ends. *)
  Lemma stale_flags : forall l l' fl c s',
    fl <> import_flags -> request_of l' = request_of l ->
    admissible (request_of l) -> flags_ok fl ->
    is_gpu (rq_scheme (request_of l)) = false ->
    load_module l' (run [CallLoad l; SetFlags fl]) = (c, s') ->
    st_flags _ (run [CallLoad l; SetFlags fl]) = fl /\ cm_flags _ c <> fl.
  Proof.
    intros l l' fl c s' N R A F G. split; [reflexivity|]. revert H.
    unfold History.run. cbn [fold_left History.step].
    destruct (first_load l A) as [s1 [E [E1 [E2 [E3 [E4 [E5 [E6 E7]]]]]]]]. rewrite E. cbn [snd].
    unfold History.load_module. cbn [st_loads]. rewrite E6, assoc_cons.
    destruct (string_dec _ _) as [_|M].
    { intros Q. injection Q as <- _. cbn. congruence. }
    cbn [assoc]. rewrite R. unfold History.get_dll. cbn [st_table st_flags st_factorize].
    rewrite E4, E1, assoc_cons. destruct (string_dec _ _) as [Q|_].
    { exfalso. apply requests_distinct in Q; auto. destruct Q as [_ [Q _]]. congruence. }
    cbn [assoc]. unfold History.dll_impl. rewrite G. unfold History.get_reduction.
    cbn [st_reductions st_factorize]. rewrite E3, assoc_cons.
    destruct (string_dec _ _) as [_|Q]; [|congruence].
    unfold History.generate. cbn [st_files]. rewrite E5, assoc_cons.
    destruct (string_dec _ _) as [_|Q].
    - unfold History.compile. cbn [st_modules dll_name]. rewrite E7, assoc_cons.
      destruct (string_dec _ _) as [_|Q].
      + intros Q. injection Q as <- _. cbn. congruence.
      + exfalso. apply Q. unfold wanted_name, HistorySpec.text_of, HistorySpec.wanted_class.
        rewrite G. reflexivity.
    - exfalso. apply Q. unfold wanted_name, HistorySpec.text_of, HistorySpec.wanted_class.
      rewrite G. reflexivity.
  Qed.

  Lemma stale_chunks : forall r d s', admissible r ->
    is_gpu (rq_scheme r) = true -> rq_chunks r = 0%Z ->
    let p := parse (rq_formula r) (rq_aliases r) false in
    let f := option_value true (rq_final r) in
    let h := option_value false (rq_highdim r) in
    gpu_class (rq_scheme r) true f h p <> gpu_class (rq_scheme r) false f h p ->
    get_dll (default_chunks r) (run [CallDll r]) = (d, s') ->
    dll_class _ d <> wanted_class (default_chunks r) false
    /\ dll_class _ (fst (get_dll (default_chunks r) (run []))) = wanted_class (default_chunks r) false.
  Proof.
    intros r d s' A G C p f h N E.
    assert (A' : admissible (default_chunks r)).
    { destruct A as [F [_ [C2 [C3 [T1 [T2 [T3 T4]]]]]]]. unfold admissible. cbn.
      do 1 (split; [assumption|]). split; [now left|]. auto 8. }
    split.
    2:{ destruct (first_call (default_chunks r) A') as [s1 [E1 _]].
        unfold History.run. cbn [fold_left]. rewrite E1. reflexivity. }
    revert E. unfold History.run. cbn [fold_left History.step].
    destruct (first_call r A) as [s1 [E [E1 [E2 [E3 [E4 [E5 [E6 [E7 [E8 _]]]]]]]]]].
    rewrite E. cbn [snd]. unfold History.get_dll. rewrite E1, E2, E7, assoc_cons.
    destruct (string_dec _ _) as [Q|_].
    { exfalso. apply requests_distinct in Q; auto. destruct Q as [Q _].
      apply (f_equal rq_chunks) in Q. cbn in Q. rewrite C in Q. discriminate. }
    cbn [assoc]. unfold History.dll_impl.
    replace (is_gpu (rq_scheme (default_chunks r))) with true by (symmetry; exact G).
    unfold History.get_reduction. cbn [set_options st_reductions st_factorize].
    rewrite E1, E6. cbn [default_chunks rq_formula rq_aliases]. rewrite assoc_cons.
    destruct (string_dec _ _) as [_|Q]; [|congruence].
    unfold History.generate.
    cbn [st_chunk st_final st_highdim set_options st_files default_chunks rq_chunks rq_final
         rq_highdim rq_scheme].
    rewrite E3, E4, E5, G, C. change (set_option (option_value true 0) (-1)) with false.
    assert (I : forall d v, set_option (option_value d v) v = option_value d v
                            \/ ~ choice v).
    { intros d0 v. destruct (Z.eq_dec v (-1)) as [->|]; [now left|].
      destruct (Z.eq_dec v 0) as [->|]; [now left|].
      destruct (Z.eq_dec v 1) as [->|]; [now left|].
      right. intros [H|[H|H]]; congruence. }
    destruct A as [_ [_ [C2 [C3 _]]]].
    destruct (I true (rq_final r)) as [->|H]; [|contradiction].
    destruct (I false (rq_highdim r)) as [->|H]; [|contradiction].
    assert (W : wanted_class (default_chunks r) false = gpu_class (rq_scheme r) true f h p).
    { unfold HistorySpec.wanted_class. cbn [default_chunks rq_scheme]. rewrite G. reflexivity. }
    rewrite W.
    match goal with |- context [assoc ?n ?l] => destruct (assoc n l) end;
      intros Q; injection Q as <- _; cbn; fold f h; unfold HistorySpec.wanted_parsed; fold p;
      congruence.
  Qed.
End Proofs.

(** ** A concrete session: one formula, parsed with and without factorisation. *)

Definition demo_request (ch : Z) : request :=
  {| rq_scheme := GpuReduc1D; rq_formula := "Sum_Reduction((x * y) + (x * y),1)"; rq_chunks := ch;
     rq_final := -1; rq_highdim := -1; rq_aliases := ["x=Vi(0,3)"; "y=Vj(1,3)"];
     rq_nargs := 2; rq_dtype := TFloat; rq_acc := AFloat; rq_sum := DirectSum;
     rq_hostdevice := 0; rq_cpugpu := 0; rq_1d2d := 0; rq_half := false; rq_fast := 1;
     rq_device := 0 |}.

Definition demo_parse (f : string) (a : list string) (b : bool) : bool := b.
Definition demo_printed (b : bool) : string := if b then "let(x*y)" else "(x*y+x*y)".
Definition demo_gpu (s : scheme) (c f h : bool) (p : bool) : string :=
  if c then "<class 'GpuReduc1D_chunks'>" else "<class 'GpuReduc1D'>".
Definition demo_cpu (s : scheme) (p : bool) : string := "<class 'CpuReduc'>".
Definition demo_code (c : string) (p : bool) (r : request) : string := c ++ demo_printed p.

Definition demo_text (ch : Z) (b : bool) : string :=
  module_text (demo_gpu GpuReduc1D (option_value true ch) true false b) (demo_printed b)
    (demo_request ch) " -O3".

(** A digest without collision on the texts of the session. *)
Definition demo_digest (t : string) : string :=
  if string_dec t (demo_text 0 false) then "0f"
  else if string_dec t (demo_text 0 true) then "0t"
  else if string_dec t (demo_text 1 false) then "1f"
  else if string_dec t (demo_text 1 true) then "1t"
  else if string_dec t (reduction_text (rq_formula (demo_request 0))
                          (rq_aliases (demo_request 0)) true) then "rt"
  else "rf".

Definition demo_request_of (l : load) : request := demo_request 1.

Lemma demo_free :
  collision_free bool demo_parse demo_cpu demo_gpu demo_printed demo_digest " -O3"
    [demo_request 1; demo_request 0; demo_request 1].
Proof.
  split; intros r r' b b' [<-|[<-|[<-|[]]]] [<-|[<-|[<-|[]]]]; destruct b, b'; cbv zeta; intros E;
    try reflexivity; exfalso; vm_compute in E; discriminate.
Qed.

Lemma demo_admissible : forall ch, choice ch -> admissible (demo_request ch).
Proof.
  intros ch C. split.
  - exists "Sum_Reduction", "(x * y) + (x * y),1". repeat split.
  - cbn. unfold choice, tag in *. auto 20.
Qed.

Definition demo_load (lang : language) : load :=
  {| ld_cpugpu := 0; ld_1d2d := 0; ld_hostdevice := 0; ld_ranges := false; ld_device := 0;
     ld_formula := rq_formula (demo_request 1); ld_aliases := rq_aliases (demo_request 1);
     ld_nargs := 2; ld_dtype := P32; ld_lang := lang;
     ld_options := {| op_acc := "float32"; op_sum := DirectSum; op_fast := 1; op_chunks := 1;
                      op_highdim := -1 |} |}.

Lemma demo_load_admissible : forall lang, admissible_load (demo_load lang).
Proof.
  intros lang. split.
  - exists "Sum_Reduction", "(x * y) + (x * y),1". repeat split.
  - cbn. unfold tag. auto.
Qed.

(** The same request for the CPU. *)
Definition demo_cpu_request (l : load) : request :=
  {| rq_scheme := CpuReduc; rq_formula := rq_formula (demo_request 1); rq_chunks := 1;
     rq_final := -1; rq_highdim := -1; rq_aliases := rq_aliases (demo_request 1);
     rq_nargs := 2; rq_dtype := TFloat; rq_acc := AFloat; rq_sum := DirectSum;
     rq_hostdevice := 0; rq_cpugpu := 0; rq_1d2d := 0; rq_half := false; rq_fast := 1;
     rq_device := 0 |}.

Lemma demo_uniform : uniform_options [demo_request 1; demo_request 0; demo_request 1].
Proof.
  unfold uniform_options, uniform. repeat split.
  - right. unfold tag. intros r [<-|[<-|[<-|[]]]] _; auto.
  - left. intros r [<-|[<-|[<-|[]]]] _; reflexivity.
  - left. intros r [<-|[<-|[<-|[]]]] _; reflexivity.
Qed.

Lemma demo_classes : forall s c f h p, class_text (demo_gpu s c f h p).
Proof.
  intros s c f h p. destruct c.
  - exists "<class 'GpuReduc1D_chunks'". split; reflexivity.
  - exists "<class 'GpuReduc1D'". split; reflexivity.
Qed.

Lemma demo_cpu_classes : forall s p, class_text (demo_cpu s p).
Proof. intros s p. exists "<class 'CpuReduc'". split; reflexivity. Qed.

Lemma demo_printed_ok : forall p, printed_text (demo_printed p).
Proof. intros [|]; [exists "let(x*y"|exists "(x*y+x*y"]; now left. Qed.

Lemma demo_printing : forall f a b b',
  demo_printed (demo_parse f a b) = demo_printed (demo_parse f a b') ->
  demo_parse f a b = demo_parse f a b'.
Proof. intros f a [|] [|]; cbn; congruence. Qed.
