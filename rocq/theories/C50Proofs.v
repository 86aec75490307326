(** * Proofs about linear systems given by symbolic tensors. *)

From Coq Require Import ZArith Lia List Bool Ascii String.
From Verif Require Import Result Keys KeySpec Folder Aliases AliasSpec Broadcast LazyTensors LazySpec LazyProofs C22Proofs C26Proofs
  C27Proofs LazySolve.
Import ListNotations.
Open Scope string_scope.

(** ** The position of the unknown *)

Lemma alias_text : forall i d c, category c ->
  py_replace "VarSymb" "Var" (text (ESym i d c)) = text (EVar i d c).
Proof.
  intros i d c C. unfold py_replace.
  assert (O : on_var (replacer "VarSymb" "Var")).
  { intros s H. unfold replacer. rewrite not_prefix; auto. intros r E.
    apply (H ("Symb" ++ r)). now rewrite E. }
  pose proof (acts_matched (replacer "VarSymb" "Var") true i d (str_int c) "" "arSymb" "Var"
    ("(" ++ str_int i ++ "," ++ str_int d ++ "," ++ str_int c ++ ")") O) as X.
  cbn [show keyword] in X. cbn [text]. unfold numbered.
  change (fun t => if prefix "VarSymb" t then Some ("Var", String.length "VarSymb") else None)
    with (replacer "VarSymb" "Var").
  rewrite app_nil_r_s in X. rewrite X.
  - cbn [sub_from]. now rewrite app_nil_r_s.
  - reflexivity.
  - apply no_V_separator. rewrite !has_app, !str_int_V. reflexivity.
  - unfold replacer. change ("VarSymb" ++ ?x) with ("VarSymb" ++ x). rewrite prefix_app. reflexivity.
Qed.

Lemma position_read : forall i d c, (0 <= i)%Z ->
  varinv_position (Some (text (EVar i d c))) = Ok i.
Proof.
  intros i d c H. destruct (str_int_digits i H) as [D _]. unfold varinv_position. cbn [text].
  unfold numbered. change ("Var" ++ "(" ++ ?x) with ("Var(" ++ x). rewrite strip_prefix_app.
  rewrite (take_while_all digit (str_int i)); [|exact D|reflexivity].
  cbn [append]. now apply py_int_str.
Qed.

(** ** The variable of high dimension is not a tensor *)

Lemma relabel_highdim : forall nb ty vs i f f2 h a b c k,
  (forall v, In v vs -> t_id v <> h) ->
  relabel nb ty vs i f f2 None = Ok (a, b, c, k) ->
  k = None /\ relabel nb ty vs i f f2 (Some h) = Ok (a, b, c, Some h).
Proof.
  intros nb ty. induction vs as [|v vs IH]; intros i f f2 h a b c k N E.
  - cbn [relabel] in *. injection E as <- <- <- <-. auto.
  - cbn [relabel] in *. destruct (contains _ _).
    + destruct (Z.eqb_spec h (t_id v)) as [->|_]; [exfalso; now apply (N v); [left|]|].
      destruct (match t_data v with Array a => _ | Floats n => _ end) as [sh|n].
      * destruct (search_cat _ _); [|discriminate].
        destruct (relabel nb ty vs (i + 1) _ _ None) as [[[[a' b'] c'] k']| | |] eqn:R;
          try discriminate.
        injection E as <- <- <- <-. eapply IH in R; [|intros w W; apply N; now right].
        destruct R as [-> ->]. auto.
      * destruct (relabel nb ty vs (i + 1) _ _ None) as [[[[a' b'] c'] k']| | |] eqn:R;
          try discriminate.
        injection E as <- <- <- <-. eapply IH in R; [|intros w W; apply N; now right].
        destruct R as [-> ->]. auto.
    + eapply IH; eauto. intros w W; apply N; now right.
Qed.

Lemma fix_highdim : forall nb ty sv vs f h a b c k,
  (forall x v, h = Some x -> In v vs -> t_id v <> x) ->
  fixvariables nb ty sv vs f "" None = Ok (a, b, c, k) ->
  fixvariables nb ty sv vs f "" h = Ok (a, b, c, h).
Proof.
  intros nb ty sv vs f h a b c k N E. unfold fixvariables in *.
  destruct (relabel nb ty vs _ f "" None) as [[[[a' b'] c'] k']| | |] eqn:R; try discriminate.
  destruct h as [x|].
  - eapply (relabel_highdim _ _ _ _ _ _ x) in R; [|intros v I; exact (N x v eq_refl I)].
    destruct R as [-> R]. rewrite R. injection E as <- <- <- <-. reflexivity.
  - rewrite R. injection E as <- <- <- <-.
    assert (K : k' = None).
    { clear - R. revert R. generalize (new_variable_index sv), f, "", a', b', c', k'.
      induction vs as [|v vs IH]; intros i f0 g a1 b1 c1 k1 R; cbn [relabel] in R.
      - now injection R.
      - destruct (contains _ _); [|now apply IH in R].
        destruct (match t_data v with Array a => _ | Floats n => _ end) as [sh|n].
        + destruct (search_cat _ _); [|discriminate].
          destruct (relabel nb ty vs (i + 1) _ _ None) as [[[[a2 b2] c2] k2]| | |] eqn:X;
            try discriminate. injection R as _ _ _ <-. now apply IH in X.
        + destruct (relabel nb ty vs (i + 1) _ _ None) as [[[[a2 b2] c2] k2]| | |] eqn:X;
            try discriminate. injection R as _ _ _ <-. now apply IH in X. }
    now rewrite K.
Qed.

(** ** Expressions without symbolic variables *)

Lemma value_symbols : forall V (m : meaning V) var sym sym' e, symbols e = [] ->
  value m var sym e = value m var sym' e.
Proof.
  intros V m var sym sym'.
  induction e; cbn [symbols value]; intros H; try discriminate; auto.
  - now rewrite IHe.
  - apply app_eq_nil in H. destruct H. now rewrite IHe1, IHe2.
  - apply app_eq_nil in H. destruct H as [H1 H]. apply app_eq_nil in H. destruct H.
    now rewrite IHe1, IHe2, IHe3.
Qed.

(** ** What is prepared *)

(** A tensor with data, whose expression is given. *)
Lemma fixed_ok : forall r e dt h,
  formula r = text e -> well_formed e ->
  (forall u, In u (tensors e) -> In (fst u) (map t_id (variables r))) ->
  (forall i, In i (symbols e) -> In i (map (fun s => fst (fst s)) (symbolic r))) ->
  dtype r = Some dt ->
  (forall x v, h = Some x -> In v (variables r) -> t_id v <> x) ->
  (forall v, In v (variables r) ->
     ~ (new_variable_index (symbolic r) <= t_id v
        < new_variable_index (symbolic r) + Z.of_nat (List.length (variables r)))%Z) ->
  exists sel s g,
    incl sel (variables r) /\ NoDup (map t_id sel)
    /\ (forall i, In i (map t_id sel) <-> In i (map fst (tensors e)))
    /\ (forall k v, nth_error sel k = Some v ->
          s (t_id v) = (new_variable_index (symbolic r) + Z.of_nat k)%Z)
    /\ fixed r h = Ok (g, h)
    /\ formula g = text (rename s e) /\ dtype g = Some dt
    /\ variables g = map (with_batch (nbatchdims r) (tensors e)) sel
    /\ forall (V A : Type) (m : meaning V) (read : option A -> Z -> Z -> V) (mem : Z -> A)
              (given : list A) sym,
         Z.of_nat (List.length given) = new_variable_index (symbolic r) ->
         value m (fun p => read (argument (given ++ map (fun v => mem (t_id v)) sel)%list p)) sym
           (rename s e)
         = value m (fun i => read (Some (mem i))) (fun p => read (argument given p)) e.
Proof.
  intros r e dt h F W T S D N C.
  destruct (numbering (nbatchdims r) (symbolic r) (variables r) e None None W) as
    (sel & s & I & ND & Iff & Pos & E & Val); auto.
  - discriminate.
  - unfold all_tensors. rewrite app_nil_r. exact T.
  - unfold all_symbols. rewrite app_nil_r. exact S.
  - discriminate.
  - unfold all_tensors in *. rewrite app_nil_r in *. rewrite <- F in E. cbn [text2] in E.
    eapply fix_highdim in E; [|exact N].
    unfold fixed. rewrite E. do 3 eexists.
    split; [exact I|]. split; [exact ND|]. split; [exact Iff|]. split; [exact Pos|].
    split; [reflexivity|]. cbn [formula dtype variables]. repeat split; auto.
Qed.

Lemma new_index_app : forall sv d c,
  new_variable_index (sv ++ [(new_variable_index sv, d, c)])%list = (new_variable_index sv + 1)%Z.
Proof.
  intros [|[[a b] c'] sv] d c; [reflexivity|]. cbn [new_variable_index app fst].
  rewrite map_app, fold_left_app. cbn [map fold_left fst].
  set (k := fold_left Z.max _ _). lia.
Qed.

(** The system whose unknown is multiplied by the symbolic tensor. *)
Definition system (e : expr) (i d c : Z) : expr := EBin "(" e " * " (ESym i d c) ")".

Lemma product_ok : forall l e dt i d c,
  carries l e -> dtype l = Some dt -> (0 <= d)%Z -> category c ->
  check_dims DSameOr1 (ndim l) d = true ->
  exists r, binary l (lt_symbolic i d c) "*" true None DSameOr1 None false = Ok r
    /\ carries r (system e i d c) /\ dtype r = Some dt /\ nbatchdims r = nbatchdims l
    /\ variables r = variables l /\ symbolic r = (symbolic l ++ [(i, d, c)])%list.
Proof.
  intros l e dt i d c (F & W & T & S) D P C Q. unfold binary. cbn [lt_symbolic ndim]. rewrite Q.
  unfold join. cbn [lt_symbolic dtype ni nj ranges batchdims promote].
  assert (B : check_broadcasting (batchdims l) None = Ok (batchdims l)) by (destruct (batchdims l); reflexivity).
  rewrite B. eexists. split; [reflexivity|]. cbn [formula variables symbolic dtype batchdims].
  split; [|rewrite D, app_nil_r; auto].
  unfold carries. cbn [formula variables symbolic]. split; [|split; [|split]].
  - rewrite F. unfold system. cbn [text]. unfold numbered, var_text.
    cbn [append]. reflexivity.
  - unfold system. cbn [well_formed]. repeat split; auto; apply no_V_separator; reflexivity.
  - unfold system. cbn [tensors]. rewrite !app_nil_r. exact T.
  - unfold system. cbn [symbols]. intros x I. rewrite map_app. apply in_or_app.
    apply in_app_or in I. destruct I as [I|[<-|[]]]; [left; auto|right; now left].
Qed.

Lemma prepare_product : forall l e dt other o a,
  carries l e -> dtype l = Some dt -> second other = Ok o ->
  (symbolic o = [] -> symbolic l = []) ->
  axis o = Some a -> a = 0%Z \/ a = 1%Z -> (0 <= ndim o)%Z ->
  ndim l = ndim o \/ ndim l = 1%Z \/ ndim o = 1%Z ->
  (0 <= new_variable_index (symbolic l))%Z ->
  (forall v, In v (variables l) ->
     ~ (new_variable_index (symbolic l) <= t_id v
        <= new_variable_index (symbolic l) + Z.of_nat (List.length (variables l)))%Z) ->
  let n := new_variable_index (symbolic l) in
  let q := system e n (ndim o) (1 - a) in
  let hd := if (100 <? ndim o)%Z then Some n else None in
  exists sel s g,
    incl sel (variables l) /\ NoDup (map t_id sel)
    /\ (forall i, In i (map t_id sel) <-> In i (map fst (tensors e)))
    /\ (forall k v, nth_error sel k = Some v -> s (t_id v) = (n + 1 + Z.of_nat k)%Z)
    /\ prepare l other None
       = Ok {| s_tensor := g; s_other := o; s_axis := 1 - a; s_position := Some n; s_highdim := hd |}
    /\ formula g = text (rename s q) /\ dtype g = Some dt
    /\ variables g = map (with_batch (nbatchdims l) (tensors e)) sel
    /\ forall (V A : Type) (m : meaning V) (read : option A -> Z -> Z -> V) (mem : Z -> A)
              (given : list A) sym,
         Z.of_nat (List.length given) = (n + 1)%Z ->
         value m (fun p => read (argument (given ++ map (fun v => mem (t_id v)) sel)%list p)) sym
           (rename s q)
         = value m (fun i => read (Some (mem i))) (fun p => read (argument given p)) q.
Proof.
  intros l e dt other o a K D O SY AX A01 P Q N0 C n q hd.
  assert (CAT : category (1 - a)).
  { destruct A01 as [->| ->]; [right; left|left]; reflexivity. }
  assert (CK : check_dims DSameOr1 (ndim l) (ndim o) = true).
  { cbn [check_dims]. destruct Q as [->|[->| ->]]; rewrite ?Z.eqb_refl, ?orb_true_r; reflexivity. }
  destruct (product_ok l e dt n (ndim o) (1 - a)%Z K D P CAT CK) as
    (r & B & (F & W & T & S) & DR & NB & VR & SR).
  fold q in F, W, T, S.
  assert (NI : new_variable_index (symbolic r) = (n + 1)%Z) by (rewrite SR; apply new_index_app).
  destruct (fixed_ok r q dt hd F W T S DR) as (sel & s & g & I & ND & Iff & Pos & FX & FG & DG & VG & Val).
  - intros x v E IV X. unfold hd in E. destruct (100 <? ndim o)%Z; [|discriminate].
    injection E as <-. apply (C v); [now rewrite <- VR|]. unfold n in *. lia.
  - intros v IV. rewrite NI, VR in *. intros X. apply (C v IV). unfold n in *. lia.
  - rewrite NI in *. rewrite VR, NB in *.
    assert (TQ : tensors q = tensors e) by (unfold q, system; cbn [tensors]; apply app_nil_r).
    rewrite TQ in *.
    exists sel, s, g. split; [exact I|]. split; [exact ND|]. split; [exact Iff|].
    split; [exact Pos|]. split; [|split; [exact FG|split; [exact DG|split; [exact VG|exact Val]]]].
    unfold prepare. rewrite O.
    assert (Z0 : match symbolic o, symbolic l with [], _ :: _ => true | _, _ => false end = false).
    { destruct (symbolic o); auto. rewrite SY; auto. }
    cbn [rbind]. rewrite Z0, AX. cbv beta iota zeta. fold n. rewrite B. cbn [rbind]. cbv beta iota. rewrite DR. cbv beta iota. fold hd. rewrite FX.
    assert (AL : py_replace "VarSymb" "Var" (formula (lt_symbolic n (ndim o) (1 - a)))
                 = text (EVar n (ndim o) (1 - a))) by (apply alias_text; exact CAT).
    rewrite AL, position_read by exact N0. reflexivity.
Qed.

Lemma prepare_unknown : forall l e dt other o a i d c,
  carries l e -> dtype l = Some dt -> second other = Ok o ->
  symbolic o <> [] ->
  axis o = Some a -> (0 <= i)%Z -> category c ->
  (forall v, In v (variables l) ->
     ~ (new_variable_index (symbolic l) <= t_id v
        < new_variable_index (symbolic l) + Z.of_nat (List.length (variables l)))%Z) ->
  (forall v, In v (variables l) -> t_id v <> i) ->
  let n := new_variable_index (symbolic l) in
  let hd := if (100 <? ndim o)%Z then Some i else None in
  exists sel s g,
    incl sel (variables l) /\ NoDup (map t_id sel)
    /\ (forall i, In i (map t_id sel) <-> In i (map fst (tensors e)))
    /\ (forall k v, nth_error sel k = Some v -> s (t_id v) = (n + Z.of_nat k)%Z)
    /\ prepare l other (Some (lt_symbolic i d c))
       = Ok {| s_tensor := g; s_other := o; s_axis := 1 - a; s_position := Some i; s_highdim := hd |}
    /\ formula g = text (rename s e) /\ dtype g = Some dt
    /\ variables g = map (with_batch (nbatchdims l) (tensors e)) sel
    /\ forall (V A : Type) (m : meaning V) (read : option A -> Z -> Z -> V) (mem : Z -> A)
              (given : list A) sym,
         Z.of_nat (List.length given) = n ->
         value m (fun p => read (argument (given ++ map (fun v => mem (t_id v)) sel)%list p)) sym
           (rename s e)
         = value m (fun i => read (Some (mem i))) (fun p => read (argument given p)) e.
Proof.
  intros l e dt other o a i d c (F & W & T & S) D O SY AX I0 CAT C CI n hd.
  destruct (fixed_ok (init l (formula l) (ndim l)) e dt hd F W T S D) as
    (sel & s & g & I & ND & Iff & Pos & FX & FG & DG & VG & Val).
  - intros x v E IV X. unfold hd in E. destruct (100 <? ndim o)%Z; [|discriminate].
    injection E as <-. exact (CI v IV X).
  - exact C.
  - exists sel, s, g. split; [exact I|]. split; [exact ND|]. split; [exact Iff|].
    split; [exact Pos|]. split; [|split; [exact FG|split; [exact DG|split; [exact VG|exact Val]]]].
    unfold prepare. rewrite O.
    assert (Z0 : match symbolic o, symbolic l with [], _ :: _ => true | _, _ => false end = false).
    { destruct (symbolic o); auto. congruence. }
    cbn [rbind]. rewrite Z0, AX. cbn [lt_symbolic symbolic]. cbv beta iota zeta. cbn [rbind init dtype]. rewrite D. cbv beta iota. fold hd.
    change (init l (formula l) (ndim l)) with (init l (formula l) (ndim l)) in FX.
    unfold init in FX. unfold init. rewrite FX.
    assert (AL : py_replace "VarSymb" "Var" (formula (lt_symbolic i d c))
                 = text (EVar i d c)) by (apply alias_text; exact CAT).
    cbn [lt_symbolic formula] in AL. cbn [rbind lt_symbolic formula]. rewrite AL, position_read by exact I0. reflexivity.
Qed.

(** ** The calls *)

Lemma solve_data : forall l e dt other o a v rest,
  carries l e -> dtype l = Some dt -> symbolic l = [] ->
  second other = Ok o -> symbolic o = [] -> variables o = v :: rest ->
  axis o = Some a -> a = 0%Z \/ a = 1%Z -> (0 <= ndim o)%Z ->
  ndim l = ndim o \/ ndim l = 1%Z \/ ndim o = 1%Z ->
  (forall v, In v (variables l) -> ~ (0 <= t_id v <= Z.of_nat (List.length (variables l)))%Z) ->
  exists sel s,
    incl sel (variables l) /\ NoDup (map t_id sel)
    /\ (forall i, In i (map t_id sel) <-> In i (map fst (tensors e)))
    /\ (forall k v, nth_error sel k = Some v -> s (t_id v) = (1 + Z.of_nat k)%Z)
    /\ solve l other None true
       = Ok (Solution
           {| k_formula := text (rename s (EBin "(" e " * " (ESym 0 (ndim o) (1 - a)) ")"));
              k_position := 0; k_axis := 1 - a;
              k_args := v :: map (with_batch (nbatchdims l) (tensors e)) sel;
              k_highdim := if (100 <? ndim o)%Z then Some 0%Z else None |})
    /\ forall (V A : Type) (m : meaning V) (read : option A -> Z -> Z -> V) (mem : Z -> A) x sym sym',
         value m (fun p => read (argument (x :: map (fun v => mem (t_id v)) sel) p)) sym
           (rename s (EBin "(" e " * " (ESym 0 (ndim o) (1 - a)) ")"))
         = m_bin m "(" " * " ")" (value m (fun i => read (Some (mem i))) sym' e)
             (read (Some x) (ndim o) (1 - a)%Z).
Proof.
  intros l e dt other o a v rest K D SL O SO VO AX A01 P Q C.
  assert (N : new_variable_index (symbolic l) = 0%Z) by now rewrite SL.
  destruct (prepare_product l e dt other o a K D O) as
    (sel & s & g & I & ND & Iff & Pos & PR & FG & DG & VG & Val); auto.
  - rewrite N. lia.
  - intros w W. rewrite N. exact (C w W).
  - rewrite N in *. exists sel, s. split; [exact I|]. split; [exact ND|]. split; [exact Iff|].
    split; [exact Pos|]. split.
    + unfold solve. rewrite PR. cbn [rbind s_other s_tensor]. rewrite SO, DG.
      unfold apply_solver. cbn [s_position s_tensor s_highdim rbind s_other s_axis].
      rewrite SO, VO. cbn [rbind]. rewrite FG, VG. reflexivity.
    + intros V A m read mem x sym sym'.
      specialize (Val V A m read mem [x] sym eq_refl). unfold system in Val. cbn [app] in Val.
      rewrite Val. cbn [value argument]. f_equal. apply value_symbols.
      destruct (symbols e) as [|y ys] eqn:E; auto. exfalso.
      destruct K as (_ & _ & _ & S). specialize (S y). rewrite E, SL in S. apply S. now left.
Qed.

Lemma solve_symbolic : forall l e dt o a call,
  carries l e -> dtype l = Some dt -> symbolic o <> [] ->
  axis o = Some a -> a = 0%Z \/ a = 1%Z -> (0 <= ndim o)%Z ->
  ndim l = ndim o \/ ndim l = 1%Z \/ ndim o = 1%Z ->
  (0 <= new_variable_index (symbolic l))%Z ->
  (forall v, In v (variables l) ->
     ~ (new_variable_index (symbolic l) <= t_id v
        <= new_variable_index (symbolic l) + Z.of_nat (List.length (variables l)))%Z) ->
  let n := new_variable_index (symbolic l) in
  exists p sel s,
    solve l (SLazy o) None call = Ok (Callable p)
    /\ incl sel (variables l) /\ NoDup (map t_id sel)
    /\ (forall i, In i (map t_id sel) <-> In i (map fst (tensors e)))
    /\ (forall k v, nth_error sel k = Some v -> s (t_id v) = (n + 1 + Z.of_nat k)%Z)
    /\ (forall given, apply_solver p given
       = Ok {| k_formula := text (rename s (EBin "(" e " * " (ESym n (ndim o) (1 - a)) ")"));
               k_position := n; k_axis := 1 - a;
               k_args := (given ++ map (with_batch (nbatchdims l) (tensors e)) sel)%list;
               k_highdim := if (100 <? ndim o)%Z then Some n else None |})
    /\ forall (V A : Type) (m : meaning V) (read : option A -> Z -> Z -> V) (mem : Z -> A)
              (given : list A) x sym,
         Z.of_nat (List.length given) = n ->
         value m (fun p => read (argument (given ++ x :: map (fun v => mem (t_id v)) sel)%list p)) sym
           (rename s (EBin "(" e " * " (ESym n (ndim o) (1 - a)) ")"))
         = m_bin m "(" " * " ")"
             (value m (fun i => read (Some (mem i)))
                (fun p => read (argument (given ++ [x])%list p)) e)
             (read (Some x) (ndim o) (1 - a)%Z).
Proof.
  intros l e dt o a call K D SO AX A01 P Q N0 C n.
  destruct (prepare_product l e dt (SLazy o) o a K D eq_refl) as
    (sel & s & g & I & ND & Iff & Pos & PR & FG & DG & VG & Val); auto.
  - intros X. congruence.
  - eexists. exists sel, s. split.
    { unfold solve. rewrite PR. cbn [rbind s_other s_tensor].
      destruct call, (symbolic o); try congruence; reflexivity. }
    split; [exact I|]. split; [exact ND|]. split; [exact Iff|]. split; [exact Pos|]. split.
    + intros given. unfold apply_solver. cbn [s_position s_tensor s_highdim rbind s_other s_axis].
      destruct (symbolic o) as [|y ys] eqn:E; [congruence|]. cbn [rbind]. rewrite FG, VG. reflexivity.
    + intros V A m read mem given x sym L.
      assert (L' : Z.of_nat (List.length (given ++ [x])%list) = (n + 1)%Z).
      { rewrite app_length. simpl. lia. }
      specialize (Val V A m read mem (given ++ [x])%list sym L'). fold n in Val.
      unfold system in Val. rewrite <- app_assoc in Val. cbn [app] in Val. rewrite Val.
      cbn [value]. f_equal. f_equal. unfold argument.
      destruct (Z.ltb_spec n 0); [unfold n in *; lia|].
      rewrite nth_error_app2 by lia.
      replace (Z.to_nat n - List.length given)%nat with O by lia. reflexivity.
Qed.

Lemma solve_unknown : forall l e dt o a i d c call,
  carries l e -> dtype l = Some dt -> symbolic o <> [] ->
  axis o = Some a -> (0 <= i)%Z -> category c ->
  (forall v, In v (variables l) ->
     ~ (new_variable_index (symbolic l) <= t_id v
        < new_variable_index (symbolic l) + Z.of_nat (List.length (variables l)))%Z) ->
  (forall v, In v (variables l) -> t_id v <> i) ->
  let n := new_variable_index (symbolic l) in
  exists p sel s,
    solve l (SLazy o) (Some (lt_symbolic i d c)) call = Ok (Callable p)
    /\ incl sel (variables l) /\ NoDup (map t_id sel)
    /\ (forall i, In i (map t_id sel) <-> In i (map fst (tensors e)))
    /\ (forall k v, nth_error sel k = Some v -> s (t_id v) = (n + Z.of_nat k)%Z)
    /\ (forall given, apply_solver p given
       = Ok {| k_formula := text (rename s e); k_position := i; k_axis := 1 - a;
               k_args := (given ++ map (with_batch (nbatchdims l) (tensors e)) sel)%list;
               k_highdim := if (100 <? ndim o)%Z then Some i else None |})
    /\ forall (V A : Type) (m : meaning V) (read : option A -> Z -> Z -> V) (mem : Z -> A)
              (given : list A) sym,
         Z.of_nat (List.length given) = n ->
         value m (fun p => read (argument (given ++ map (fun v => mem (t_id v)) sel)%list p)) sym
           (rename s e)
         = value m (fun i => read (Some (mem i))) (fun p => read (argument given p)) e.
Proof.
  intros l e dt o a i d c call K D SO AX I0 CAT C CI n.
  destruct (prepare_unknown l e dt (SLazy o) o a i d c K D eq_refl SO AX I0 CAT C CI) as
    (sel & s & g & I & ND & Iff & Pos & PR & FG & DG & VG & Val).
  eexists. exists sel, s. split.
  { unfold solve. rewrite PR. cbn [rbind s_other s_tensor].
    destruct call, (symbolic o); try congruence; reflexivity. }
  split; [exact I|]. split; [exact ND|]. split; [exact Iff|]. split; [exact Pos|].
  split; [|exact Val].
  intros given. unfold apply_solver. cbn [s_position s_tensor s_highdim rbind s_other s_axis].
  destruct (symbolic o) as [|y ys] eqn:E; [congruence|]. cbn [rbind]. rewrite FG, VG. reflexivity.
Qed.

(** ** Refutations *)

Lemma unknown_refused : forall l other o v call,
  second other = Ok o -> symbolic o = [] -> symbolic l <> [] ->
  solve l other (Some v) call = KErr.
Proof.
  intros l other o v call O SO SL. unfold solve, prepare. rewrite O. cbn [rbind]. rewrite SO.
  destruct (symbolic l); [congruence|]. reflexivity.
Qed.

Lemma deferred_fails : forall l other var call r,
  dtype l = None -> solve l other var call = Ok r ->
  exists p, r = Callable p /\ forall given c, apply_solver p given <> Ok c.
Proof.
  intros l other var call r D E. unfold solve in E. apply rbind_ok in E. destruct E as (p & PR & E).
  unfold prepare in PR. apply rbind_ok in PR. destruct PR as (o & O & PR).
  destruct (match symbolic o with [] => _ | _ => _ end); [discriminate|].
  destruct (axis o) as [b|]; [|discriminate]. cbv zeta in PR.
  apply rbind_ok in PR. destruct PR as ([[i v] q] & QE & PR).
  assert (DQ : dtype q = None).
  { destruct var as [w|].
    - destruct (symbolic w) as [|[[x y] z] sw]; [discriminate|]. injection QE as _ _ <-. exact D.
    - apply rbind_ok in QE. destruct QE as (t & B & QE). injection QE as _ _ <-.
      unfold binary in B. destruct (check_dims _ _ _); [|discriminate].
      apply rbind_ok in B. destruct B as (j & J & B). injection B as <-. cbn [dtype].
      unfold join in J. rewrite D in J. cbn [promote lt_symbolic dtype rbind] in J.
      do 4 (apply rbind_ok in J; destruct J as (? & _ & J)). injection J as <-. reflexivity. }
  rewrite DQ in PR. injection PR as <-. cbn [s_other s_tensor] in E. rewrite DQ in E.
  assert (R : r = Callable {| s_tensor := q; s_other := o; s_axis := 1 - b; s_position := None;
                              s_highdim := if (100 <? ndim o)%Z then Some i else None |}).
  { destruct call, (symbolic o); now injection E. }
  eexists. split; [exact R|]. intros given c X. unfold apply_solver in X.
  apply rbind_ok in X. destruct X as (t & X & _). cbn [s_position] in X.
  destruct given; [discriminate|]. apply rbind_ok in X. destruct X as (g & _ & X).
  cbn [varinv_position rbind] in X. discriminate.
Qed.

(** ** Examples *)

Definition ex_x : res lazy := lt_array "float32" 900 [10; 3]%Z (Some 0%Z).
Definition ex_y : res lazy := lt_array "float32" 950 [10; 3]%Z (Some 1%Z).

(** [K = exp(-|x_i - y_j|^2)]. *)
Definition ex_kernel : res lazy :=
  do x <- ex_x ; do y <- ex_y ; do d <- binary x y "-" true None DSameOr1 None false ;
  Ok (unary (unary (unary d "SqNorm2" (Some 1%Z) None None) "Minus" None None None) "Exp" None None None).

Definition ex_kernel_expr : expr :=
  EUn "Exp(" (EUn "Minus(" (EUn "SqNorm2("
    (EBin "(" (EVar 900 3 0) " - " (EVar 950 3 1) ")") ")") ")") ")".

Lemma ex_carries : exists l, ex_kernel = Ok l /\ carries l ex_kernel_expr
  /\ dtype l = Some "float32" /\ symbolic l = [].
Proof.
  eexists. split; [reflexivity|]. split; [|split; reflexivity].
  split; [reflexivity|]. split.
  - unfold ex_kernel_expr. cbn [well_formed]. unfold category.
    repeat match goal with
           | |- _ /\ _ => split
           | |- separator _ => now apply no_V_separator
           end; try lia; auto.
  - split; cbn; intuition (subst; auto).
Qed.

Lemma ex_solve : exists l, ex_kernel = Ok l
  /\ solve l (SArray "float32" 990 [10; 2]%Z) None true
     = Ok (Solution {| k_formula := "(Exp(Minus(SqNorm2((Var(1,3,0) - Var(2,3,1))))) * Var(0,2,1))";
                       k_position := 0; k_axis := 1;
                       k_args := [array_at 990 [10; 2]%Z; array_at 900 [10; 3]%Z; array_at 950 [10; 3]%Z];
                       k_highdim := None |}).
Proof. eexists. split; [reflexivity|]. vm_compute. reflexivity. Qed.

(** The unknown, of index 0, inside the formula. *)
Definition ex_linear (l : lazy) : res lazy :=
  binary l (lt_symbolic 0 2 1) "*" true None DSameOr1 None false.

Lemma ex_unknown : exists l r p, ex_kernel = Ok l /\ ex_linear l = Ok r
  /\ solve r (SLazy (lt_symbolic 0 2 0)) (Some (lt_symbolic 0 2 1)) true = Ok (Callable p)
  /\ apply_solver p [array_at 990 [10; 2]%Z]
     = Ok {| k_formula := "(Exp(Minus(SqNorm2((Var(1,3,0) - Var(2,3,1))))) * Var(0,2,1))";
             k_position := 0; k_axis := 1;
             k_args := [array_at 990 [10; 2]%Z; array_at 900 [10; 3]%Z; array_at 950 [10; 3]%Z];
             k_highdim := None |}
  /\ solve r (SArray "float32" 990 [10; 2]%Z) (Some (lt_symbolic 0 2 1)) true = KErr.
Proof.
  do 3 eexists. repeat (split; [vm_compute; reflexivity|]). vm_compute. reflexivity.
Qed.

Lemma ex_symbolic : exists l p, ex_kernel = Ok l
  /\ solve l (SLazy (lt_symbolic 0 2 0)) None true = Ok (Callable p)
  /\ apply_solver p [array_at 990 [10; 2]%Z]
     = Ok {| k_formula := "(Exp(Minus(SqNorm2((Var(1,3,0) - Var(2,3,1))))) * Var(0,2,1))";
             k_position := 0; k_axis := 1;
             k_args := [array_at 990 [10; 2]%Z; array_at 900 [10; 3]%Z; array_at 950 [10; 3]%Z];
             k_highdim := None |}.
Proof.
  do 2 eexists. repeat (split; [vm_compute; reflexivity|]). vm_compute. reflexivity.
Qed.

Lemma ex_deferred : exists d p,
  binary (lt_symbolic 0 3 0) (lt_symbolic 1 3 1) "-" true None DSameOr1 None false = Ok d
  /\ dtype d = None
  /\ solve (unary d "SqNorm2" (Some 1%Z) None None) (SLazy (lt_symbolic 2 2 0)) None true
     = Ok (Callable p)
  /\ formula (s_tensor p) = "(SqNorm2((VarSymb(0,3,0) - VarSymb(1,3,1))) * VarSymb(2,2,1))"
  /\ apply_solver p [array_at 900 [10; 3]%Z; array_at 950 [10; 3]%Z; array_at 990 [10; 2]%Z] = PyErr.
Proof.
  do 2 eexists. repeat (split; [vm_compute; reflexivity|]). vm_compute. reflexivity.
Qed.

Lemma solve_array : forall l e dt dt' id n d,
  carries l e -> dtype l = Some dt -> symbolic l = [] -> (0 <= d)%Z ->
  ndim l = d \/ ndim l = 1%Z \/ d = 1%Z ->
  (forall v, In v (variables l) -> ~ (0 <= t_id v <= Z.of_nat (List.length (variables l)))%Z) ->
  exists sel s,
    incl sel (variables l) /\ NoDup (map t_id sel)
    /\ (forall i, In i (map t_id sel) <-> In i (map fst (tensors e)))
    /\ (forall k v, nth_error sel k = Some v -> s (t_id v) = (1 + Z.of_nat k)%Z)
    /\ solve l (SArray dt' id [n; d]) None true
       = Ok (Solution
           {| k_formula := text (rename s (EBin "(" e " * " (ESym 0 d 1) ")"));
              k_position := 0; k_axis := 1;
              k_args := array_at id [n; d] :: map (with_batch (nbatchdims l) (tensors e)) sel;
              k_highdim := if (100 <? d)%Z then Some 0%Z else None |}).
Proof.
  intros l e dt dt' id n d K D SL P Q C.
  destruct (solve_data l e dt (SArray dt' id [n; d]) _ 0%Z (array_at id [n; d]) [] K D SL
    eq_refl eq_refl eq_refl eq_refl (or_introl eq_refl) P Q C) as (sel & s & I & ND & Iff & Pos & E & _).
  exists sel, s. auto.
Qed.

Lemma solve_deferred : forall l other var c, solve l other var true = Ok (Solution c) ->
  exists p, solve l other var false = Ok (Callable p) /\ apply_solver p [] = Ok c
    /\ forall x xs, apply_solver p (x :: xs) = KErr.
Proof.
  intros l other var c H. unfold solve in H. destruct (prepare l other var) as [p| | |] eqn:E; try discriminate.
  exists p. unfold solve. rewrite E. cbn [rbind] in *. split; [reflexivity|].
  destruct (symbolic (s_other p)) eqn:SO; [|discriminate].
  destruct (dtype (s_tensor p)) eqn:D; [|discriminate].
  destruct (apply_solver p []) as [c'| | |] eqn:A; try discriminate. cbn [rbind] in H. injection H as ->.
  split; [reflexivity|]. intros x xs.
  unfold apply_solver in *. destruct (s_position p); [|discriminate]. cbn [rbind] in *.
  rewrite SO in *. reflexivity.
Qed.
