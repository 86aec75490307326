(** * Proofs for C62: a launch, a session, and what goes wrong *)

From Coq Require Import ZArith String List Bool Lia.
From Verif Require Import GpuMemory GpuMemorySpec C62Proofs C62Load C62Launch.
Import ListNotations.
Open Scope list_scope.
Open Scope Z_scope.

Lemma filter_freed : forall l, Forall (fun e => exists a, e = Freed a) l -> filter is_launch l = [].
Proof. intros l F. induction F as [|e l [a ->] F IH]; [reflexivity|exact IH]. Qed.

Lemma firstn_skipn_id : forall (l h : list byte), length h = length l -> l ++ skipn (length l) h = l.
Proof. intros l h E. rewrite <- E, skipn_all, app_nil_r. reflexivity. Qed.

Section Main.
Variables (D : driver) (d0 : device) (buffer : Z) (q : request) (rx : list (Z * Z)) (sl : list Z) (ry : list (Z * Z)).
Hypothesis alloc_D : allocator D.
Hypothesis sane_d : sane d0.

Notation good := (right_launch D q rx sl ry).
Notation state := (state d0 good).
Notation ended := (ended D d0 good).

Lemma state_start : state [] [] d0.
Proof.
  split; [reflexivity|]. split; [exact sane_d|]. split; [lia|]. split; [rewrite app_nil_r; reflexivity|].
  split; [constructor|]. split; [intros a []|intros b []].
Qed.

Definition post (r : pointer) (d : device) : Prop :=
  exists new, state [] new d /\ kernels_run D q new /\ result_of D q new r.

Lemma wp_here : forall {A} (p : prog A) d (Q : A -> device -> Prop) k,
  (forall D', D' = D -> k D' = p D') -> wp p D d Q ended -> wp k D d Q ended.
Proof. intros A p d Q k H W. unfold wp in *. rewrite (H D eq_refl). exact W. Qed.

Lemma run_ranges_right : forall own new d t table arg_d out_d (Q : unit -> device -> Prop),
  geometry D q -> compiled D q -> state own new d -> tag_2d q = false -> sparse_request q = true -> tag_zero q = false ->
  arguments q (live d) (bytes d) arg_d out_d ->
  (exists own', made D d0 buffer q rx sl ry t table own' d) ->
  (forall e d', is_launch e = true -> state own (new ++ [e]) d' -> Q tt d') ->
  wp (run_ranges q t (nx_of q) (ny_of q) (block_size D q) arg_d out_d) D d Q ended.
Proof.
  intros own new d t table arg_d out_d Q geo comp S T2 SR TZ A (own' & C & N & NB & (p1 & _ & K1) & (p2 & _ & K2) & (p3 & _ & K3) & K4 & _) H.
  pose proof (block_size_right D q geo) as TH. assert (B : 0 < block_size D q) by apply TH. unfold run_ranges.
  apply wp_bind. eapply wp_get with (own := own) (new := new).
  - apply comp. rewrite T2, SR, TZ. cbn. auto.
  - exact S.
  - intros d1 S1 B1 V1. unfold to_uint. rewrite Z.mod_small by lia.
    eapply wp_launch with (own := own) (new := new); [lia|lia|lia|exact S1| |].
    + intros t'. rewrite B1, V1. split; [rewrite <- V1; apply (state_sane _ _ _ _ _ S1)|]. split; [exact TH|].
      right. left. split; [reflexivity|]. split; [exact T2|]. split; [exact SR|]. split; [exact TZ|]. split; [reflexivity|].
      exists (ptr (offsets_d t)), (ptr (lookup_d t)), (ptr (slices_d t)), (ptr (ranges_d t)), arg_d, out_d, table.
      split; [reflexivity|]. split; [exact A|]. split; [exact C|]. split; [exact N|].
      split; [apply (kept_holds _ _ _ _ K1)|]. split; [apply (kept_holds _ _ _ _ K2)|].
      split; [apply (kept_holds _ _ _ _ K3)|]. destruct (batch q); [|exact I].
      destruct K4 as (p4 & _ & K4). apply (kept_holds _ _ _ _ K4).
    + intros t' d2 S2 B2 V2. eapply H; [|exact S2]. reflexivity.
Qed.

Lemma launch_right : acceptable D buffer d0 q rx sl ry -> wp (launch_kernel buffer q) D d0 post ended.
Proof.
  intros (geo & comp & KIND). pose proof geo as (TS & NA & _).
  unfold launch_kernel, wp.
  match goal with |- context [bind set_context ?k D d0] => change (wp (bind set_context k) D d0 post ended) end.
  apply wp_bind. eapply wp_context; [exact state_start|]. intros d1 S1 V1 B1.
  fold (nx_of q) (ny_of q). destruct KIND as [HD|(DD & IB & SPR)].
  - (* data of the host *)
    pose proof HD as (DH & EB & EU & arrays & h & EA & EO & F & PO & LO & Sz).
    assert (SR : sparse_request q = false) by (unfold sparse_request; rewrite EB, EU; reflexivity).
    apply wp_bind. unfold ranges_of. rewrite EB, EU. apply wp_ret. cbv zeta. apply wp_bind. apply wp_ret.
    rewrite DH. apply wp_bind. eapply load_host with (own := []) (new := []); try eassumption; [intros; exact I|].
    intros p n out_d d2 S2 V2 EOD BO A2. cbn [fst snd app] in *.
    set (so := type_size q * product (shape_out q)) in *.
    assert (SO : 0 <= so < 2 ^ 64).
    { pose proof HD as HD'. split; [unfold so; nia|].
      assert (T0 : 0 <= total (map product (arg_shapes q))).
      { clear - F. induction F as [|? ? ? ? [_ Bd] ? IH]; cbn [map total fold_right]; [lia|]. fold (total (map product l')). lia. }
      eapply Z.le_lt_trans; [|exact Sz]. unfold so. nia. }
    assert (TAIL : forall d3 new3 e, state [(p, n)] new3 d3 ->
       (forall l, filter is_launch l = [] -> kernels_run D q (new3 ++ l)) ->
       (exists l' l2 t name gx gy b params blocks m, new3 = l' ++ Launched t name gx gy b params blocks m :: l2
          /\ Forall (fun e => exists a, e = Freed a) l2
          /\ nth_error params (if tag_2d q then 1 else 2) = Some out_d /\ bytes d3 = run D t name params m) ->
       e = tt ->
       wp (safe plain ;;
           (let! result := let! l := safe (copy_from out_d (size_t (type_size q * int_product (shape_out q)))) in
                           let! r := store_out (out q) l in safe (mem_free p) ;; ret r in
            ret tt ;; ret result)) D d3 post ended).
    { intros d3 new3 _ S3 KR LA _. apply wp_bind. eapply wp_plain; [exact S3|]. intros d4 S4 V4 B4.
      apply wp_bind. rewrite int_product_small by exact PO. fold so. rewrite size_t_small by lia.
      apply wp_bind. eapply wp_copy_from; [exact S4| |].
      - exists (p, n). split; [rewrite (state_live _ _ _ _ _ S4); left; reflexivity|]. cbn [fst snd]. lia.
      - intros d5 S5 B5 V5. apply wp_bind. rewrite EO. cbn [store_out]. rewrite read_length.
        destruct (Nat.ltb_spec (length h) (Z.to_nat so)) as [X|X]; [lia|].
        apply wp_ret. apply wp_bind.
        eapply wp_free with (o1 := []) (o2 := []); [intros; exact I|exact S5|]. intros d6 S6 B6. apply wp_ret.
        apply wp_bind. apply wp_ret. apply wp_ret. exists (new3 ++ [Freed p]). split; [exact S6|].
        split; [apply KR; reflexivity|]. cbn [result_of].
        assert (LR : length (read (bytes d4) out_d (Z.to_nat so)) = Z.to_nat so) by apply read_length.
        replace (read (bytes d4) out_d (Z.to_nat so) ++ skipn (Z.to_nat so) h) with (read (bytes d4) out_d (Z.to_nat so)).
        2:{ replace (Z.to_nat so) with (length h) at 3 by lia. rewrite skipn_all, app_nil_r. reflexivity. }
        split; [rewrite LR; fold so; lia|].
        destruct LA as (l' & l2 & t & name & gx & gy & b & params & blocks & m & E & F2 & NP & BR).
        exists l', t, name, gx, gy, b, params, blocks, m, (l2 ++ [Freed p]), out_d.
        split; [rewrite E, <- app_assoc; reflexivity|].
        split; [apply Forall_app; split; [exact F2|constructor; [eexists; reflexivity|constructor]]|].
        split; [exact NP|]. rewrite <- BR, <- B4. apply holds_read. }
    apply wp_bind. destruct (tag_2d q) eqn:T2.
    + eapply run_2d_right with (own := [(p, n)]); try eassumption.
      intros n1 e1 e2 a t' d3 S3 Q1 Q2 Q3 KR (gx & gy & b & params & blocks & m & E2 & B3 & NP).
      eapply TAIL with (e := tt); [exact S3| | |reflexivity].
      * intros l Hl. apply KR. rewrite filter_app, Hl, app_nil_r. cbn [app filter is_launch]. rewrite Q1, Q2, Q3. reflexivity.
      * exists [Allocated p n; n1; e1], [Freed a], t', "reduce2D"%string, gx, gy, b, params, blocks, m.
        split; [subst e2; reflexivity|]. split; [constructor; [eexists; reflexivity|constructor]|]. split; [exact NP|exact B3].
    + eapply run_1d_right with (own := [(p, n)]); try eassumption; [left; exact SR|].
      intros e t d3 Q1 S3 V3 EE B3.
      eapply TAIL with (e := tt); [exact S3| | |reflexivity].
      * intros l Hl. unfold kernels_run. rewrite T2. exists e. rewrite filter_app, Hl, app_nil_r. cbn [app filter is_launch]. rewrite Q1. reflexivity.
      * rewrite EE. exists [Allocated p n], []. do 8 eexists. split; [reflexivity|]. split; [constructor|]. split; [reflexivity|exact B3].
  - (* data of the device *)
    pose proof DD as (DV & (la & oa & EA & EO) & Sz).
    assert (IB1 : In (buffer, 8 * Z.of_nat (length (args q))) (live d1)) by (rewrite V1; exact IB).
    assert (TAIL : forall d3 new3 own3 (K : prog unit), state own3 new3 d3 ->
       (forall l, filter is_launch l = [] -> kernels_run D q (new3 ++ l)) ->
       (forall d2 new2 (Q : unit -> device -> Prop), state own3 new2 d2 ->
          (forall d3 l, state [] (new2 ++ l) d3 -> Forall (fun e => exists a, e = Freed a) l -> Q tt d3) ->
          wp K D d2 Q ended) ->
       wp (safe plain ;; (let! result := ret (out q) in K ;; ret result)) D d3 post ended).
    { intros d3 new3 own3 K S3 KR CL. apply wp_bind. eapply wp_plain; [exact S3|]. intros d4 S4 V4 B4.
      apply wp_bind. apply wp_ret. apply wp_bind. eapply CL; [exact S4|]. intros d5 l S5 F5. apply wp_ret.
      exists (new3 ++ l). split; [exact S5|]. split; [apply KR; apply filter_freed; exact F5|].
      rewrite EO. cbn [result_of]. exact EO. }
    destruct (sparse_request q) eqn:SR.
    + destruct SPR as [PT PR].
      assert (T2 : tag_2d q = false).
      { destruct (tag_2d q) eqn:T2; [|reflexivity]. pose proof (proj1 comp T2) as X. rewrite SR in X. discriminate. }
      assert (SPX : exists sp, ranges_of q = ret (Some sp)
         /\ match batch q, user q with Some b, None => sp = batch_sparse b | None, Some u => sp = u | _, _ => False end).
      { unfold ranges_of. unfold pattern in PT. destruct (batch q), (user q); try contradiction; eexists; split; reflexivity. }
      destruct SPX as (sp & -> & SP).
      apply wp_bind. apply wp_ret. cbv zeta. rewrite DV. apply wp_bind. apply wp_bind.
      assert (PT1 : pattern q buffer d1 rx sl ry).
      { unfold pattern in *. rewrite V1, B1. exact PT. }
      eapply tables_right with (new := []) (sp := sp); try eassumption; [reflexivity|].
      intros t table own' new' d2 S2 QU I2 MD. apply wp_ret. apply wp_bind.
      eapply load_device with (own := own') (new := new'); try eassumption; [apply I2; exact IB1|].
      intros d3 w out_d S3 V3 B3 LW A3. cbn [fst snd].
      assert (MD3 : made D d0 buffer q rx sl ry t table own' d3).
      { destruct MD as (M1 & M2 & M3 & M4 & M5 & M6 & M7 & M8).
        assert (KP : forall x l, (exists p, p <> buffer /\ kept d2 p x l) -> exists p, p <> buffer /\ kept d3 p x l).
        { intros x l (p & NE & K). exists p. split; [exact NE|].
          eapply kept_write with (p' := buffer) (n' := 8 * Z.of_nat (length (args q))) (dst := buffer);
            [apply (state_sane _ _ _ _ _ S2)|exact K|apply I2; exact IB1|lia|rewrite LW; lia|exact NE|exact B3|exact V3]. }
        split; [exact M1|]. split; [exact M2|]. split; [exact M3|]. split; [apply KP; exact M4|].
        split; [apply KP; exact M5|]. split; [apply KP; exact M6|]. split; [|exact M8].
        destruct (batch q); [apply KP; exact M7|exact I]. }
      assert (CL : forall d2 new2 (Q : unit -> device -> Prop), state own' new2 d2 ->
          (forall d3 l, state [] (new2 ++ l) d3 -> Forall (fun e => exists a, e = Freed a) l -> Q tt d3) ->
          wp (destroys q t) D d2 Q ended).
      { intros dd nn Q SS HH. destruct MD as (_ & _ & _ & _ & _ & _ & _ & M8). eapply M8; [exact SS|].
        intros d4 l X1 X2 X3. eapply HH; eassumption. }
      apply wp_bind. rewrite T2. destruct (tag_zero q) eqn:TZ.
      * eapply run_1d_right with (own := own'); try eassumption; [right; exact TZ|].
        intros e t' d4 Q1 S4 V4 EE B4. change (fun result => destroys q t ;; ret result) with (fun result => destroys q t ;; ret result).
        eapply (TAIL d4 _ own' (destroys q t)); [exact S4| |exact CL].
        intros l Hl. unfold kernels_run. rewrite T2. exists e. rewrite !filter_app, Hl, QU. cbn. rewrite Q1. reflexivity.
      * eapply run_ranges_right with (own := own') (table := table); try eassumption; [exists own'; exact MD3|].
        intros e d4 Q1 S4. eapply (TAIL d4 _ own' (destroys q t)); [exact S4| |exact CL].
        intros l Hl. unfold kernels_run. rewrite T2. exists e. rewrite !filter_app, Hl, QU. cbn. rewrite Q1. reflexivity.
    + assert (RN : ranges_of q = ret None).
      { unfold ranges_of. unfold sparse_request in SR. destruct (batch q), (user q); try discriminate. reflexivity. }
      rewrite RN. apply wp_bind. apply wp_ret. cbv zeta. apply wp_bind. apply wp_ret. rewrite DV. apply wp_bind.
      eapply load_device with (own := []) (new := []); try eassumption.
      intros d3 w out_d S3 V3 B3 LW A3. cbn [fst snd].
      assert (CL : forall d2 new2 (Q : unit -> device -> Prop), state [] new2 d2 ->
          (forall d3 l, state [] (new2 ++ l) d3 -> Forall (fun e => exists a, e = Freed a) l -> Q tt d3) ->
          wp (ret tt) D d2 Q ended).
      { intros dd nn Q SS HH. apply wp_ret. apply HH with (l := []); [rewrite app_nil_r; exact SS|constructor]. }
      apply wp_bind. destruct (tag_2d q) eqn:T2.
      * eapply run_2d_right with (own := []); try eassumption.
        intros n1 e1 e2 a t' d4 S4 Q1 Q2 Q3 KR _. eapply (TAIL d4 _ [] (ret tt)); [exact S4| |exact CL].
        intros l Hl. apply KR. rewrite filter_app, Hl, app_nil_r. cbn [app filter is_launch]. rewrite Q1, Q2, Q3. reflexivity.
      * eapply run_1d_right with (own := []); try eassumption; [left; exact SR|].
        intros e t' d4 Q1 S4 V4 EE B4. eapply (TAIL d4 _ [] (ret tt)); [exact S4| |exact CL].
        intros l Hl. unfold kernels_run. rewrite T2. exists e. rewrite !filter_app, Hl. cbn. rewrite Q1. reflexivity.
Qed.
End Main.

Lemma launch_all : forall D buffer d q rx sl ry, allocator D -> sane d -> acceptable D buffer d q rx sl ry ->
  exists l, let d' := snd (launch_kernel buffer q D d) in
  events d' = events d ++ l /\ Forall (right_launch D q rx sl ry) l /\ balanced l /\ incl (live d) (live d')
  /\ match fst (launch_kernel buffer q D d) with
     | Done r => live d' = live d /\ kernels_run D q l /\ result_of D q l r
     | Thrown | Exited => exists t, (time d <= t < time d')%nat /\ fails D t = true
     | Undefined => False
     end.
Proof.
  intros D buffer d q rx sl ry A S AC. pose proof (launch_right D d buffer q rx sl ry A S AC) as W.
  unfold wp in W. destruct (launch_kernel buffer q D d) as [[r| | |] d']; [| | |destruct W]; cbn [fst snd].
  - destruct W as (l & (S1 & S2 & S3 & S4 & S5 & S6 & S7) & K & R). exists l. split; [exact S4|]. split; [exact S5|].
    split; [exact S6|]. cbn [app] in S1. rewrite S1. split; [apply incl_refl|]. auto.
  - destruct W as ((own & l & (S1 & S2 & S3 & S4 & S5 & S6 & S7)) & F). exists l. split; [exact S4|]. split; [exact S5|].
    split; [exact S6|]. rewrite S1. split; [apply incl_appr, incl_refl|]. exact F.
  - destruct W as ((own & l & (S1 & S2 & S3 & S4 & S5 & S6 & S7)) & F). exists l. split; [exact S4|]. split; [exact S5|].
    split; [exact S6|]. rewrite S1. split; [apply incl_appr, incl_refl|]. exact F.
Qed.

(** ** Session *)

Lemma launch_time : forall D buffer d q rx sl ry r d', allocator D -> sane d -> acceptable D buffer d q rx sl ry ->
  launch_kernel buffer q D d = (Done r, d') -> (time d <= time d')%nat.
Proof.
  intros D buffer d q rx sl ry r d' A S AC E. pose proof (launch_right D d buffer q rx sl ry A S AC) as W.
  unfold wp in W. rewrite E in W. destruct W as (l & (_ & _ & T & _) & _). exact T.
Qed.

Lemma launches_right : forall D nargs buffer l d, allocator D -> sane d -> In (buffer, 8 * nargs) (live d) ->
  Forall (lasting D nargs) l ->
  match launches buffer l D d with
  | (Done _, d') => live d' = live d /\ (time d <= time d')%nat /\ exists k, events d' = events d ++ k /\ balanced k
  | (Undefined, _) => False
  | (_, _) => exists t, fails D t = true
  end.
Proof.
  intros D nargs buffer l. induction l as [|q l IH]; intros d A S I F.
  - cbn. split; [reflexivity|]. split; [lia|]. exists []. split; [rewrite app_nil_r; reflexivity|intros a []].
  - inversion F as [|? ? (rx & sl & ry & AC) F']; subst. cbn [launches]. unfold bind.
    destruct (launch_all D buffer d q rx sl ry A S (AC _ _ I)) as (k & E & _ & B & _ & W).
    pose proof (fun r d1 => launch_time D buffer d q rx sl ry r d1 A S (AC _ _ I)) as TM.
    destruct (launch_kernel buffer q D d) as [[r| | |] d1]; cbn [fst snd] in *;
      [|destruct W as (t & _ & W); exists t; exact W|destruct W as (t & _ & W); exists t; exact W|exact W].
    destruct W as (L & _ & _). assert (S1 : sane d1) by (unfold sane in *; rewrite L; exact S).
    specialize (IH d1 A S1 ltac:(rewrite L; exact I) F').
    destruct (launches buffer l D d1) as [[u| | |] d2]; try exact IH.
    destruct IH as (L2 & T2 & k2 & E2 & B2). split; [congruence|].
    split; [pose proof (TM _ _ eq_refl); lia|]. exists (k ++ k2).
    split; [rewrite E2, E, app_assoc; reflexivity|].
    intros a X. apply in_app_or in X. destruct X as [X|X]; [destruct (B _ X) as [n Y]|destruct (B2 _ X) as [n Y]];
      exists n; apply in_or_app; auto.
Qed.

Lemma session_right : forall D nargs l d, allocator D -> sane d -> 0 < nargs < 2 ^ 61 -> Forall (lasting D nargs) l ->
  match session nargs l D d with
  | (Done _, d') => live d' = live d
  | (Undefined, _) => False
  | (_, _) => exists t, fails D t = true
  end.
Proof.
  intros D nargs l d A S N F. pose (good := fun _ : event => True).
  assert (GA : forall a n, good (Allocated a n)) by (intros; exact I).
  assert (GF : forall a, good (Freed a)) by (intros; exact I).
  assert (ST : state d good [] [] d).
  { split; [reflexivity|]. split; [exact S|]. split; [lia|]. split; [rewrite app_nil_r; reflexivity|].
    split; [constructor|]. split; [intros a []|intros b []]. }
  assert (W : wp (session nargs l) D d (fun _ d' => live d' = live d) (fun _ => exists t, fails D t = true)).
  { assert (EN : forall d', ended D d good d' -> exists t, fails D t = true).
    { intros d' (_ & t & _ & H). exists t. exact H. }
    assert (WE : forall {X} (p : prog X) d' (Q : X -> device -> Prop), wp p D d' Q (ended D d good) ->
                   wp p D d' Q (fun _ => exists t, fails D t = true)).
    { intros X p d' Q H. unfold wp in *. destruct (p D d') as [[x| | |] d'']; try exact H; eapply EN; exact H. }
    unfold session. apply wp_bind. apply WE. unfold create.
    apply wp_bind. eapply wp_plain; [exact ST|]. intros d1 S1 _ _.
    apply wp_bind. eapply wp_plain; [exact S1|]. intros d2 S2 _ _.
    apply wp_bind. eapply wp_plain; [exact S2|]. intros d3 S3 _ _.
    apply wp_bind. eapply wp_context; [exact S3|]. intros d4 S4 _ _.
    apply wp_bind. eapply wp_plain; [exact S4|]. intros d5 S5 _ _.
    rewrite size_t_small by lia. eapply wp_alloc; [exact A|exact GA|lia|exact S5|].
    intros buffer d6 S6 _ _ _ L6. apply wp_bind.
    assert (I6 : In (buffer, 8 * nargs) (live d6)) by (rewrite L6; left; f_equal; lia).
    pose proof (launches_right D nargs buffer l d6 A (state_sane _ _ _ _ _ S6) I6 F) as LR.
    unfold wp at 1. destruct (launches buffer l D d6) as [[u| | |] d7]; try exact LR.
    destruct LR as (L7 & T7' & k & E7 & B7). apply WE.
    set (base := [] ++ [Allocated buffer (nargs * 8)]) in S6.
    assert (S7 : state d good [(buffer, nargs * 8)] (base ++ k)
                  d7).
    { destruct S6 as (T1 & T2 & T3 & T4 & T5 & T6 & T7). split; [rewrite L7; exact T1|].
      split; [unfold sane in *; rewrite L7; exact T2|]. split; [lia|].
      split; [rewrite E7, T4, app_assoc; reflexivity|].
      split; [apply Forall_forall; intros; exact I|]. split.
      - intros a X. apply in_app_or in X. destruct X as [X|X]; [destruct (T6 _ X) as [n Y]|destruct (B7 _ X) as [n Y]];
          exists n; apply in_or_app; auto.
      - intros b X. apply in_or_app. left. apply T7. exact X. }
    unfold remove. apply wp_bind. eapply wp_context; [exact S7|]. intros d8 S8 _ _.
    apply wp_bind. eapply wp_free with (o1 := []) (o2 := []); [exact GF|exact S8|]. intros d9 S9 _.
    apply wp_bind. eapply wp_plain; [exact S9|]. intros d10 S10 _ _.
    eapply wp_plain; [exact S10|]. intros d11 S11 _ _. apply (state_live _ _ _ _ _ S11). }
  unfold wp in W. destruct (session nargs l D d) as [[u| | |] d']; exact W.
Qed.

(** ** Ranges of the host *)

Lemma safe_ok : forall {A} (effect : driver -> device -> option (A * device)) D d a d',
  fails D (time d) = false -> effect D (tick d) = Some (a, d') -> safe (call effect) D d = (Done a, d').
Proof. intros A effect D d a d' F E. unfold safe, bind, call. fold (tick d). rewrite F, E. reflexivity. Qed.

Lemma context_ok : forall D d, no_failure D -> exists d', set_context D d = (Done tt, d') /\ live d' = live d.
Proof.
  intros D d N.
  assert (P : forall x, safe_exit plain D x = (Done tt, tick x)).
  { intros x. unfold safe_exit, plain, bind, call. rewrite N. reflexivity. }
  unfold set_context. unfold bind at 1. rewrite P. unfold bind. destruct (current D (time (tick d))).
  - unfold ret. rewrite P. eexists. split; reflexivity.
  - rewrite !P. eexists. split; reflexivity.
Qed.

Lemma alloc_ok : forall D d n, no_failure D -> 0 < n -> exists a d', safe (mem_alloc n) D d = (Done a, d')
  /\ live d' = (a, n) :: live d.
Proof.
  intros D d n N P. do 2 eexists. split.
  - unfold mem_alloc. apply safe_ok; [apply N|]. destruct (Z.eqb_spec n 0); [lia|]. reflexivity.
  - reflexivity.
Qed.

Lemma copy_ok : forall D d a n l, no_failure D -> Z.of_nat (length l) = n -> In (a, n) (live d) ->
  exists d', safe (copy_to a (Host l) n) D d = (Done tt, d') /\ live d' = live d.
Proof.
  intros D d a n l N L I. unfold copy_to. destruct (Z.ltb_spec (Z.of_nat (length l)) n); [lia|].
  eexists. split.
  - apply safe_ok; [apply N|]. replace (inside (live (tick d)) a n) with true; [rewrite orb_true_r; reflexivity|].
    symmetry. apply inside_within. exists (a, n). split; [exact I|]. cbn. lia.
  - reflexivity.
Qed.

Lemma host_ranges_undefined : forall D buffer d q rx sl, no_failure D -> geometry D q -> host_ranges q rx sl ->
  fst (launch_kernel buffer q D d) = Undefined.
Proof.
  intros D buffer d q rx sl N geo (DH & PR & LS & K). pose proof PR as (F & T & L). pose proof (pairs_small _ F) as PS.
  assert (B : 0 < block_size D q) by apply (block_size_right D q geo).
  assert (SPX : exists sp, ranges_of q = ret (Some sp)
    /\ (if tag_i q then ranges_j sp else ranges_i sp) = Host (words (pairs rx))
    /\ (if tag_i q then slices_j sp else slices_i sp) = Host (words sl)
    /\ (if tag_i q then nranges_y sp else nranges_x sp) = Z.of_nat (length rx)).
  { unfold ranges_of. destruct (batch q) as [b|], (user q) as [u|]; try contradiction.
    - destruct K as [Erx Esl]. exists (batch_sparse b). split; [reflexivity|]. rewrite Esl.
      assert (NB : Z.of_nat (length rx) = nbatches b).
      { rewrite Erx, intervals_length. destruct (Z.le_gt_cases (nbatches b) 0) as [Le|]; [|lia]. exfalso.
        rewrite Erx in T. unfold intervals in T. replace (Z.to_nat (nbatches b)) with 0%nat in T by lia. cbn in T. lia. }
      rewrite NB, Erx. unfold batch_sparse. cbn. destruct (tag_i q); rewrite batch_words_pairs; auto.
    - exists u. split; [reflexivity|]. destruct (tag_i q); exact K. }
  destruct SPX as (sp & E0 & E1 & E2 & E3).
  assert (H : forall d1, exists d2, range_preprocess_from_host q sp (block_size D q) D d1 = (Undefined, d2)).
  { intros d1. unfold range_preprocess_from_host. rewrite E1, E2, E3. cbv zeta. set (nr := Z.of_nat (length rx)) in *.
    assert (NR : 0 < nr).
    { unfold nr. destruct rx; [cbn in T; lia|cbn [length]; lia]. }
    unfold bind at 1. cbn [host_words]. unfold ret at 1.
    replace (decode (Z.to_nat (2 * nr)) (words (pairs rx))) with (pairs rx).
    2:{ rewrite <- (decode_words (pairs rx) PS) at 1. f_equal. rewrite pairs_length. unfold nr. lia. }
    replace (Z.to_nat nr) with (length rx) by (unfold nr; lia).
    destruct (table_steps D rx (block_size D q) d1 B PR) as (table & T1 & T2 & _ & TT).
    unfold bind at 1. rewrite T1. unfold bind at 1. rewrite T2. unfold bind at 1. rewrite lookup_vector_right.
    set (n := Z.of_nat (length table)) in *.
    assert (LN : Z.of_nat (length (words (flat3 table))) = 8 * 3 * n) by (rewrite words_length, flat3_length; unfold n; lia).
    unfold allocate. unfold bind at 1 2. rewrite (size_t_small (8 * 3 * n)) by lia.
    destruct (alloc_ok D d1 (8 * 3 * n) N ltac:(lia)) as (a & d2 & A2 & L2). rewrite A2. unfold ret at 1.
    unfold bind at 1. unfold copy_from_host at 1. cbn [ptr]. rewrite (size_t_small (8 * 3 * n)) by lia.
    destruct (copy_ok D d2 a (8 * 3 * n) (words (flat3 table)) N LN ltac:(rewrite L2; left; reflexivity)) as (d3 & C3 & L3).
    rewrite C3. unfold bind at 1 2. rewrite (size_t_small (8 * 2 * nr)) by lia.
    destruct (alloc_ok D d3 (8 * 2 * nr) N ltac:(lia)) as (s & d4 & A4 & L4). rewrite A4. unfold ret at 1.
    unfold bind at 1. unfold copy_from_host at 1. cbn [ptr copy_to]. rewrite (size_t_small (8 * 2 * nr)) by lia.
    destruct (Z.ltb_spec (Z.of_nat (length (words sl))) (8 * 2 * nr)) as [X|X].
    - exists d4. reflexivity.
    - rewrite words_length, LS in X. unfold nr in X, NR. lia. }
  unfold launch_kernel. unfold bind at 1. destruct (context_ok D d N) as (d1 & C1 & _). rewrite C1.
  unfold bind at 1. rewrite E0. unfold ret at 1. cbv zeta. rewrite DH. unfold bind at 1 2.
  destruct (H d1) as (d2 & H2). rewrite H2. reflexivity.
Qed.

(** ** The driver of the examples *)

Lemma next_place_after : forall t blocks n, 0 < next_place t blocks n
  /\ forall b, In b blocks -> fst b + snd b <= next_place t blocks n.
Proof.
  intros t blocks n. unfold next_place. induction blocks as [|c blocks [IH1 IH2]]; cbn [fold_right].
  - split; [lia|intros b []].
  - split; [lia|]. intros b [<-|I]; [lia|]. specialize (IH2 _ I). lia.
Qed.

Lemma plain_driver_allocates : forall failing kernel, allocator (plain_driver failing kernel).
Proof.
  intros failing kernel t blocks n N. cbn [plain_driver place]. destruct (next_place_after t blocks n) as [P A].
  split; [exact P|]. intros b I. right. apply A. exact I.
Qed.

Lemma leak_at : forall kernel t, (3 <= t <= 10)%nat ->
  let D := plain_driver (Nat.eqb t) kernel in
  let q := host_request (repeat 1 12) (repeat 2 8) (repeat 0 12) 3 [3; 1] in
  fst (launch_kernel 0 q D empty_device) = Thrown
  /\ live (snd (launch_kernel 0 q D empty_device)) = [(1, 48)]
  /\ forall a, ~ In (Freed a) (events (snd (launch_kernel 0 q D empty_device))).
Proof.
  intros kernel t T.
  assert (E : t = 3%nat \/ t = 4%nat \/ t = 5%nat \/ t = 6%nat \/ t = 7%nat \/ t = 8%nat \/ t = 9%nat \/ t = 10%nat) by lia.
  decompose [or] E; subst t;
    (split; [vm_compute; reflexivity|]; split; [vm_compute; reflexivity|]; intros a X; vm_compute in X; intuition discriminate).
Qed.

Lemma empty_throws : forall kernel,
  let D := plain_driver (fun _ => false) kernel in
  let q := host_request [] (repeat 2 8) [] 0 [0; 1] in
  fst (launch_kernel 0 q D empty_device) = Thrown
  /\ live (snd (launch_kernel 0 q D empty_device)) = [(1, 24)].
Proof. intros kernel. split; vm_compute; reflexivity. Qed.

Lemma size_lost : forall kernel h,
  let D := plain_driver (fun _ => false) kernel in
  let q := host_request (repeat 1 16) (repeat 2 8) h 4 [4; 2 ^ 30] in
  fst (launch_kernel 0 q D empty_device) = Done (Host h)
  /\ exists e, filter is_launch (events (snd (launch_kernel 0 q D empty_device))) = [e].
Proof. intros kernel h. split; [vm_compute; reflexivity|]. eexists. vm_compute. reflexivity. Qed.

(** ** The requests of the examples *)

Lemma geometry_case : forall q f k, 0 < type_size q -> (0 < length (args q))%nat -> 0 <= dim_y q ->
  0 < block_bound q < 2 ^ 32 -> dim_y q * type_size q <= 49152 -> 0 < nx_of q < 2 ^ 32 -> 0 < ny_of q < 2 ^ 32 ->
  0 < dimred q -> nx_of q * dimred q < 2 ^ 32 -> type_size q * (nx_of q * dimred q * ny_of q) < 2 ^ 64 ->
  geometry (plain_driver f k) q.
Proof.
  intros q f k H1 H2 H3 H4 H5 H6 H7 H8 H9 H10. unfold geometry. cbn [plain_driver max_threads shared_mem].
  split; [exact H1|]. split; [exact H2|]. split; [exact H3|]. split; [exact H4|]. split; [lia|]. split; [lia|].
  split; [destruct (chunks q); exact H5|]. split; [exact H6|]. split; [exact H7|]. split; [exact H8|]. split; [exact H9|exact H10].
Qed.

Lemma compiled_case : forall q f k, (tag_2d q = true -> sparse_request q = false) -> compiled (plain_driver f k) q.
Proof.
  intros q f k H. split; [exact H|]. cbn [plain_driver kernels].
  intros x X. destruct (tag_2d q); [|destruct (sparse_request q && negb (tag_zero q))]; cbn in *; intuition.
Qed.

Lemma host_case : forall f k buffer d,
  acceptable (plain_driver f k) buffer d (host_request (repeat 1 12) (repeat 2 8) (repeat 0 12) 3 [3; 1]) [] [] [].
Proof.
  intros f k buffer d. split; [apply geometry_case; vm_compute; intuition (try discriminate; auto)|].
  split; [apply compiled_case; discriminate|]. left.
  split; [reflexivity|]. split; [reflexivity|]. split; [reflexivity|].
  exists [repeat 1 12; repeat 2 8], (repeat 0 12). split; [reflexivity|]. split; [reflexivity|].
  split; [repeat (constructor; [vm_compute; intuition discriminate|]); constructor|]. vm_compute. intuition discriminate.
Qed.

Lemma range_case : forall f k,
  acceptable (plain_driver f k) 1 range_device range_request [(0, 300); (300, 500)] [1; 2] [(0, 1); (1, 2)]
  /\ sane range_device.
Proof.
  intros f k. split.
  - split; [apply geometry_case; vm_compute; intuition (try discriminate; auto)|].
    split; [apply compiled_case; discriminate|]. right. split.
    { split; [reflexivity|]. split; [exists [7000; 9500], 5000; split; reflexivity|reflexivity]. }
    split; [left; reflexivity|]. change (sparse_request range_request) with true. cbv iota. split.
    + exists 100, 200, 300. split; [repeat split|].
      assert (HH : forall a l, read (bytes range_device) a (length l) = l -> holds (bytes range_device) a l).
      { intros a l E. rewrite <- E. apply holds_read. }
      split; [apply HH; vm_compute; reflexivity|].
      split; [exists (100, 1000); split; [right; left; reflexivity|vm_compute; intuition discriminate]|].
      constructor; [|constructor; [|constructor]]; exists 100, 1000;
        (split; [right; left; reflexivity|]; split; [vm_compute; discriminate|]; split; [vm_compute; discriminate|];
         split; [discriminate|]; apply HH; vm_compute; reflexivity).
    + split; [repeat (constructor; [cbn; lia|]); constructor|]. cbn. lia.
  - split; [|repeat (constructor; [cbn; lia|]); constructor].
    constructor; [constructor; [left; cbn; lia|constructor]|]. constructor; [constructor|constructor].
Qed.

Lemma batch_case : forall f k, lasting (plain_driver f k) 2 batch_request.
Proof.
  intros f k. exists [(0, 3); (3, 6)], [1; 2], [(0, 2); (2, 4)]. intros buffer d I.
  split; [apply geometry_case; vm_compute; intuition (try discriminate; auto)|].
  split; [apply compiled_case; discriminate|]. right. split.
  { split; [reflexivity|]. split; [exists [7000; 9500], 5000; split; reflexivity|reflexivity]. }
  split; [exact I|]. change (sparse_request batch_request) with true. cbv iota. split.
  - split; [reflexivity|]. split; [reflexivity|]. split; [reflexivity|]. split; [reflexivity|].
    vm_compute. intuition discriminate.
  - split; [repeat (constructor; [cbn; lia|]); constructor|]. cbn. lia.
Qed.

Lemma host_batch_case : forall k, no_failure (plain_driver (fun _ => false) k)
  /\ geometry (plain_driver (fun _ => false) k) host_batch_request
  /\ host_ranges host_batch_request [(0, 3); (3, 6)] [1; 2].
Proof.
  intros k. split; [intros t; reflexivity|]. split; [apply geometry_case; vm_compute; intuition (try discriminate; auto)|].
  split; [reflexivity|]. split; [split; [repeat (constructor; [cbn; lia|]); constructor|cbn; lia]|].
  split; [reflexivity|]. split; reflexivity.
Qed.
