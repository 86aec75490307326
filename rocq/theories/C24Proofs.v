From Coq Require Import ZArith List Bool Ascii String Lia.
From Verif Require Import Result Keys KeySpec C22Proofs Folder FolderSpec C25Proofs.
Import ListNotations.
Open Scope string_scope.

Lemma apply_all_app : forall a b d, apply_all (a ++ b)%list d = apply_all b (apply_all a d).
Proof. intros. unfold apply_all. now rewrite fold_left_app. Qed.

Definition target (o : op) : string := match o with Create p => p | Append p _ => p end.

Lemma apply_other : forall l d q, (forall o, In o l -> target o <> q) ->
  apply_all l d q = d q.
Proof.
  induction l as [|o l IH]; intros d q H; [reflexivity|].
  change (apply_all (o :: l) d) with (apply_all l (apply d o)).
  rewrite IH by (intros; apply H; now right).
  assert (N := H o (or_introl eq_refl)). destruct o; cbn in *;
    (destruct (string_dec q p); [congruence|reflexivity]).
Qed.

Lemma apply_appends : forall l p d t, d p = Some t ->
  apply_all (map (Append p) l) d p = Some (t ++ joined l).
Proof.
  induction l as [|s l IH]; intros p d t H; cbn [map joined].
  - now rewrite app_nil_r_s.
  - change (apply_all (Append p s :: map (Append p) l) d)
      with (apply_all (map (Append p) l) (apply d (Append p s))).
    rewrite (IH p _ (t ++ s)).
    + now rewrite app_assoc_s.
    + cbn. destruct (string_dec p p); [|congruence]. now rewrite H.
Qed.

Lemma firstn_in : forall A n (l : list A) x, In x (firstn n l) -> In x l.
Proof.
  induction n; intros l x H; [contradiction|]. destruct l; [contradiction|].
  destruct H as [->|H]; [now left|]. right. now apply IHn.
Qed.

Section Proofs.
  Variable cut : string -> list string.
  Hypothesis cut_ok : proper_cut cut.
  Variable compile_cpp : string -> string -> option string.

  Notation write := (write cut).

  Lemma write_target : forall p s o, In o (write p s) -> target o = p.
  Proof.
    intros p s o [<-|H]; [reflexivity|]. apply in_map_iff in H.
    destruct H as [t [<- _]]. reflexivity.
  Qed.

  Lemma write_length : forall p s, List.length (write p s) = cost cut s.
  Proof. intros. cbn. now rewrite map_length. Qed.

  Lemma write_same : forall p s d, apply_all (write p s) d p = Some s.
  Proof.
    intros p s d. unfold Folder.write.
    change (apply_all (Create p :: map (Append p) (cut s)) d)
      with (apply_all (map (Append p) (cut s)) (apply d (Create p))).
    rewrite (apply_appends _ _ _ ""); [|cbn; destruct (string_dec p p); congruence].
    cbn. now rewrite (proj1 (cut_ok s)).
  Qed.

  Lemma write_other : forall p s d q, p <> q -> apply_all (write p s) d q = d q.
  Proof. intros. apply apply_other. intros o Ho. now rewrite (write_target p s o Ho). Qed.

  Lemma part_other : forall n p s d q, p <> q -> apply_all (firstn n (write p s)) d q = d q.
  Proof.
    intros. apply apply_other. intros o Ho. apply firstn_in in Ho.
    now rewrite (write_target p s o Ho).
  Qed.

  (** A file that is partly written is a proper prefix of the text. *)
  Lemma part_same : forall n p s d, 0 < n -> n < cost cut s ->
    exists t r, apply_all (firstn n (write p s)) d p = Some t /\ t ++ r = s /\ r <> "".
  Proof.
    intros n p s d H0 H. destruct n as [|n]; [lia|]. unfold cost in H.
    exists (joined (firstn n (cut s))), (joined (skipn n (cut s))).
    split; [|split].
    - unfold Folder.write. cbn [firstn]. rewrite firstn_map.
      change (apply_all (Create p :: map (Append p) (firstn n (cut s))) d)
        with (apply_all (map (Append p) (firstn n (cut s))) (apply d (Create p))).
      rewrite (apply_appends _ _ _ ""); [reflexivity|].
      cbn. destruct (string_dec p p); congruence.
    - rewrite <- (proj1 (cut_ok s)) at 3. rewrite <- (firstn_skipn n (cut s)) at 3.
      generalize (firstn n (cut s)). induction l as [|x l IH]; [reflexivity|].
      cbn. rewrite app_assoc_s. now rewrite IH.
    - assert (F := proj2 (cut_ok s)). rewrite <- (firstn_skipn n (cut s)) in F.
      apply Forall_app in F. destruct F as [_ F].
      destruct (skipn n (cut s)) as [|x l] eqn:E.
      + assert (L := skipn_length n (cut s)). rewrite E in L. cbn in L. lia.
      + inversion F; subst. cbn. destruct x; [congruence|discriminate].
  Qed.

  Lemma no_prefix : forall t r s : string, t ++ r = s -> r <> "" -> t <> s.
  Proof.
    intros t r s E N F. apply N. subst s. rewrite <- (app_nil_r_s t) in F at 1.
    symmetry. exact (app_inv_head_s _ _ _ F).
  Qed.

  Section CPU.
    Variable m : module_files.
    Variable bin : string.
    Hypothesis cpu : md_gpu m = false.
    Hypothesis names : distinct_files m.
    Hypothesis line : one_line (md_formula m).
    Hypothesis compiled_ok : compile_cpp (md_code m) (md_binding m) = Some bin.

    Notation request := (request cut compile_cpp m).
    Notation operations := (operations cut compile_cpp m).
    Notation stage1 := (stage1 cut m).
    Notation stage2 := (stage2 cut compile_cpp m).

    Let src := md_source m.
    Let nfo := md_info m.
    Let wrp := md_wrapper m.
    Let so := md_dll m.
    Let info := info_text (md_formula m) (md_meta m).

    Lemma cpu_names : src <> nfo /\ src <> wrp /\ src <> so /\ nfo <> wrp /\ nfo <> so /\ wrp <> so.
    Proof.
      unfold src, nfo, wrp, so. unfold distinct_files in names.
      repeat match goal with H : NoDup (_ :: _) |- _ => inversion H; clear H; subst end.
      cbn in *. intuition congruence.
    Qed.

    (** The second stage, when the source is complete and the binding is not compiled. *)
    Lemma stage2_builds : forall d, d src = Some (md_code m) -> d so = None ->
      stage2 d = (write wrp (md_binding m) ++ write so bin)%list.
    Proof.
      intros d Hs Hd. destruct cpu_names as [N1 [N2 [N3 [N4 [N5 N6]]]]].
      unfold Folder.stage2. rewrite cpu. unfold exists_file. fold so. rewrite Hd.
      fold src wrp. rewrite write_other by congruence. rewrite Hs, write_same, compiled_ok.
      reflexivity.
    Qed.

    Lemma fresh_operations : forall d, d src = None -> d so = None ->
      operations d = (write src (md_code m) ++ write nfo info ++ write wrp (md_binding m)
                      ++ write so bin)%list.
    Proof.
      intros d Hs Hd. destruct cpu_names as [N1 [N2 [N3 [N4 [N5 N6]]]]].
      unfold Folder.operations, Folder.stage1, file_to_check, exists_file. rewrite cpu.
      fold src. rewrite Hs. unfold generation. rewrite cpu. cbn [app]. fold src nfo info.
      rewrite stage2_builds.
      - rewrite <- !app_assoc. reflexivity.
      - rewrite apply_all_app. rewrite write_other by congruence. apply write_same.
      - rewrite apply_all_app, !write_other by congruence. exact Hd.
    Qed.

    Lemma request_fresh : forall d, d src = None -> d so = None ->
      fst (request d) = Ok (md_meta m, bin).
    Proof.
      intros d Hs Hd. unfold Folder.request. cbn [fst].
      rewrite (fresh_operations d Hs Hd), !apply_all_app.
      unfold Folder.stage1, file_to_check, exists_file. rewrite cpu. fold src. rewrite Hs.
      cbn [rbind snd]. fold so. unfold read_file. rewrite write_same. reflexivity.
    Qed.

    Lemma request_read : forall d, d src <> None ->
      fst (request d) = Ok (md_meta m, bin) ->
      exists t, d nfo = Some t /\ read_info t = Ok (md_meta m).
    Proof.
      intros d Hs E. unfold Folder.request in E. cbn [fst] in E.
      apply rbind_ok in E. destruct E as [[l i] [E1 E]].
      apply rbind_ok in E. destruct E as [b [_ E]]. injection E as E _. cbn in E. subst i.
      unfold Folder.stage1, file_to_check, exists_file in E1. rewrite cpu in E1.
      fold src in E1. destruct (d src); [|congruence]. fold nfo in E1.
      apply rbind_ok in E1. destruct E1 as [t [E1 E]].
      apply rbind_ok in E. destruct E as [i [E E2]]. injection E2 as _ ->.
      exists t. split; [|exact E]. unfold read_file in E1. destruct (d nfo); congruence.
    Qed.

    Lemma stage1_complete : forall d, d src <> None -> d nfo = Some info ->
      stage1 d = Ok ([], md_meta m).
    Proof.
      intros d Hs Hn. unfold Folder.stage1, file_to_check, exists_file. rewrite cpu.
      fold src. destruct (d src); [|congruence]. unfold read_file. fold nfo. rewrite Hn.
      cbn [rbind]. unfold info. rewrite round_trip by exact line. reflexivity.
    Qed.

    Lemma cpu_crash : forall d n, absent m d ->
      let a := cost cut (md_code m) in
      let b := cost cut info in
      let c := cost cut (md_binding m) in
      let e := cost cut bin in
      fst (request (killed cut compile_cpp n m d)) = Ok (md_meta m, bin) <->
      n = 0 \/ (a + b <= n /\ n <= a + b + c) \/ a + b + c + e <= n.
    Proof.
      intros d n A a b c e. destruct cpu_names as [N1 [N2 [N3 [N4 [N5 N6]]]]].
      assert (Hs : d src = None) by (apply A; cbn; auto).
      assert (Hn : d nfo = None) by (apply A; cbn; auto).
      assert (Hd : d so = None) by (apply A; cbn; auto 8).
      unfold killed. rewrite (fresh_operations d Hs Hd).
      assert (La : List.length (write src (md_code m)) = a) by apply write_length.
      assert (Lb : List.length (write nfo info) = b) by apply write_length.
      assert (Lc : List.length (write wrp (md_binding m)) = c) by apply write_length.
      assert (Le : List.length (write so bin) = e) by apply write_length.
      rewrite !firstn_app, La, Lb, Lc.
      rewrite !apply_all_app.
      set (d1 := apply_all (firstn n (write src (md_code m))) d).
      set (d2 := apply_all (firstn (n - a) (write nfo info)) d1).
      set (d3 := apply_all (firstn (n - a - b) (write wrp (md_binding m))) d2).
      set (d4 := apply_all (firstn (n - a - b - c) (write so bin)) d3).
      assert (S4 : d4 src = d1 src).
      { unfold d4, d3, d2. now rewrite !part_other by congruence. }
      assert (I4 : d4 nfo = d2 nfo).
      { unfold d4, d3. now rewrite !part_other by congruence. }
      assert (D3 : d3 so = None).
      { unfold d3, d2, d1. now rewrite !part_other by congruence. }
      assert (a0 : 0 < a) by (unfold a, cost; lia).
      assert (b0 : 0 < b) by (unfold b, cost; lia).
      assert (c0 : 0 < c) by (unfold c, cost; lia).
      assert (e0 : 0 < e) by (unfold e, cost; lia).
      assert (Src : 0 < n -> d1 src <> None).
      { intros H. unfold d1. destruct (Nat.lt_ge_cases n a) as [L|L].
        - destruct (part_same n src (md_code m) d H L) as [t [r [-> _]]]. discriminate.
        - rewrite firstn_all2 by lia. rewrite write_same. discriminate. }
      split.
      - intros E. destruct (Nat.eq_dec n 0) as [|Z]; [now left|]. right.
        destruct (request_read d4) as [t [T R]]; [rewrite S4; apply Src; lia|exact E|].
        rewrite I4 in T.
        destruct (Nat.lt_ge_cases n (a + b)) as [L|L].
        { exfalso. destruct (Nat.le_gt_cases n a) as [M|M].
          - unfold d2 in T. replace (n - a) with 0 in T by lia. cbn in T.
            unfold d1 in T. rewrite part_other in T by congruence. congruence.
          - destruct (part_same (n - a) nfo info d1 ltac:(lia)) as [t' [r [T' [J Nr]]]].
            { fold b. lia. }
            unfold d2 in T. rewrite T' in T. injection T as ->.
            exact (prefix_not_read _ _ _ _ line J Nr R). }
        destruct (Nat.le_gt_cases n (a + b + c)) as [M|M]; [left; lia|].
        right. destruct (Nat.lt_ge_cases n (a + b + c + e)) as [K|K]; [|lia].
        exfalso. destruct (part_same (n - a - b - c) so bin d3 ltac:(lia)) as [t' [r [T' [J Nr]]]].
        { fold e. lia. }
        fold d4 in T'. unfold Folder.request in E. cbn [fst] in E.
        assert (O : operations d4 = []).
        { unfold Folder.operations. rewrite stage1_complete.
          - cbn. unfold Folder.stage2. rewrite cpu. unfold exists_file. fold so. now rewrite T'.
          - rewrite S4. apply Src. lia.
          - rewrite I4. unfold d2. rewrite firstn_all2 by lia. apply write_same. }
        rewrite O, cpu in E. cbn [apply_all fold_left] in E. unfold read_file in E. fold so in E.
        rewrite T' in E. apply rbind_ok in E. destruct E as [[l i] [_ E]]. cbn in E.
        injection E as _ E. exact (no_prefix _ _ _ J Nr E).
      - intros [Z|[[L M]|L]].
        + subst n. unfold d4, d3, d2, d1. cbn. now apply request_fresh.
        + assert (E4 : d4 = d3).
          { unfold d4. replace (n - a - b - c) with 0 by lia. reflexivity. }
          assert (St : stage1 d4 = Ok ([], md_meta m)).
          { apply stage1_complete; [rewrite S4; apply Src; lia|].
            rewrite I4. unfold d2. rewrite firstn_all2 by lia. apply write_same. }
          unfold Folder.request. cbn [fst]. rewrite St. cbn [rbind snd].
          unfold Folder.operations. rewrite St. cbn [app].
          change (apply_all [] d4) with d4. rewrite stage2_builds.
          * rewrite cpu, apply_all_app. unfold read_file. fold so. rewrite write_same. reflexivity.
          * rewrite S4. unfold d1. rewrite firstn_all2 by lia. apply write_same.
          * rewrite E4. exact D3.
        + assert (St : stage1 d4 = Ok ([], md_meta m)).
          { apply stage1_complete; [rewrite S4; apply Src; lia|].
            rewrite I4. unfold d2. rewrite firstn_all2 by lia. apply write_same. }
          assert (B : d4 so = Some bin).
          { unfold d4. rewrite firstn_all2 by lia. apply write_same. }
          unfold Folder.request. cbn [fst]. rewrite St. cbn [rbind snd].
          unfold Folder.operations. rewrite St. cbn [app].
          change (apply_all [] d4) with d4. unfold Folder.stage2. rewrite cpu. unfold exists_file.
          fold so. rewrite B. change (apply_all [] d4) with d4. unfold read_file.
          rewrite B. reflexivity.
    Qed.

    (** Killed while the source is written: all the following requests fail. *)
    Lemma cpu_poisoned : forall d n k, absent m d ->
      0 < n -> n <= cost cut (md_code m) ->
      retries request k (killed cut compile_cpp n m d) = repeat PyErr k.
    Proof.
      intros d n k A n0 Hn. destruct cpu_names as [N1 [N2 [N3 [N4 [N5 N6]]]]].
      assert (Hs : d src = None) by (apply A; cbn; auto).
      assert (Hi : d nfo = None) by (apply A; cbn; auto).
      assert (Hd : d so = None) by (apply A; cbn; auto 8).
      unfold killed. rewrite (fresh_operations d Hs Hd).
      rewrite firstn_app, write_length. replace (n - cost cut (md_code m)) with 0 by lia.
      cbn [firstn]. rewrite app_nil_r.
      set (d1 := apply_all (firstn n (write src (md_code m))) d).
      assert (S1 : d1 src <> None).
      { unfold d1. destruct (Nat.lt_ge_cases n (cost cut (md_code m))) as [L|L].
        - destruct (part_same n src (md_code m) d n0 L) as [t [r [-> _]]]. discriminate.
        - rewrite firstn_all2 by (rewrite write_length; lia). rewrite write_same. discriminate. }
      assert (I1 : d1 nfo = None).
      { unfold d1. now rewrite part_other by congruence. }
      assert (St : stage1 d1 = PyErr).
      { unfold Folder.stage1, file_to_check, exists_file. rewrite cpu. fold src.
        destruct (d1 src); [|congruence]. unfold read_file. fold nfo. now rewrite I1. }
      induction k as [|k IH]; [reflexivity|]. cbn [retries repeat].
      assert (R : request d1 = (PyErr, d1)).
      { unfold Folder.request, Folder.operations. rewrite St. reflexivity. }
      rewrite R. cbn [fst snd]. now rewrite IH.
    Qed.
  End CPU.

  Section GPU.
    Variable m : module_files.
    Hypothesis gpu : md_gpu m = true.
    Hypothesis names : distinct_files m.
    Hypothesis line : one_line (md_formula m).

    Notation request := (request cut compile_cpp m).
    Notation operations := (operations cut compile_cpp m).
    Notation stage1 := (stage1 cut m).
    Notation stage2 := (stage2 cut compile_cpp m).

    Let src := md_source m.
    Let nfo := md_info m.
    Let low := md_low m.
    Let info := info_text (md_formula m) (md_meta m).

    Lemma gpu_names : src <> nfo /\ src <> low /\ low <> nfo.
    Proof.
      unfold src, nfo, low. unfold distinct_files in names.
      repeat match goal with H : NoDup (_ :: _) |- _ => inversion H; clear H; subst end.
      cbn in *. intuition congruence.
    Qed.

    Lemma gpu_stage2 : forall d, stage2 d = [].
    Proof. intros d. unfold Folder.stage2. now rewrite gpu. Qed.

    Lemma gpu_operations : forall d, d low = None ->
      operations d = (write src (md_code m) ++ write low (md_target m) ++ write nfo info)%list.
    Proof.
      intros d Hl. unfold Folder.operations, Folder.stage1, file_to_check, exists_file.
      rewrite gpu. fold low. rewrite Hl. rewrite gpu_stage2, app_nil_r.
      unfold generation. rewrite gpu. reflexivity.
    Qed.

    Lemma gpu_fresh : forall d, d low = None ->
      fst (request d) = Ok (md_meta m, md_target m).
    Proof.
      intros d Hl. destruct gpu_names as [N1 [N2 N3]]. unfold Folder.request. cbn [fst].
      rewrite (gpu_operations d Hl), !apply_all_app.
      unfold Folder.stage1, file_to_check, exists_file. rewrite gpu. fold low. rewrite Hl.
      cbn [rbind snd]. unfold read_file. rewrite write_other by congruence.
      rewrite write_same. reflexivity.
    Qed.

    Lemma gpu_crash : forall d n, absent m d ->
      let a := cost cut (md_code m) in
      let b := cost cut (md_target m) in
      let c := cost cut info in
      fst (request (killed cut compile_cpp n m d)) = Ok (md_meta m, md_target m) <->
      n <= a \/ a + b + c <= n.
    Proof.
      intros d n A a b c. destruct gpu_names as [N1 [N2 N3]].
      assert (Hl : d low = None) by (apply A; cbn; auto).
      assert (Hn : d nfo = None) by (apply A; cbn; auto).
      unfold killed. rewrite (gpu_operations d Hl).
      assert (La : List.length (write src (md_code m)) = a) by apply write_length.
      assert (Lb : List.length (write low (md_target m)) = b) by apply write_length.
      assert (Lc : List.length (write nfo info) = c) by apply write_length.
      rewrite !firstn_app, La, Lb. rewrite !apply_all_app.
      set (d1 := apply_all (firstn n (write src (md_code m))) d).
      set (d2 := apply_all (firstn (n - a) (write low (md_target m))) d1).
      set (d3 := apply_all (firstn (n - a - b) (write nfo info)) d2).
      assert (L3 : d3 low = d2 low).
      { unfold d3. now rewrite part_other by congruence. }
      assert (I2 : d2 nfo = None).
      { unfold d2, d1. now rewrite !part_other by congruence. }
      assert (a0 : 0 < a) by (unfold a, cost; lia).
      assert (b0 : 0 < b) by (unfold b, cost; lia).
      assert (c0 : 0 < c) by (unfold c, cost; lia).
      assert (Low : a < n -> d2 low <> None).
      { intros H. unfold d2. destruct (Nat.lt_ge_cases (n - a) b) as [L|L].
        - destruct (part_same (n - a) low (md_target m) d1 ltac:(lia) L) as [t [r [-> _]]].
          discriminate.
        - rewrite firstn_all2 by lia. rewrite write_same. discriminate. }
      split.
      - intros E. destruct (Nat.le_gt_cases n a) as [|Z]; [now left|]. right.
        destruct (Nat.lt_ge_cases n (a + b + c)) as [L|L]; [|exact L]. exfalso.
        unfold Folder.request in E. cbn [fst] in E.
        apply rbind_ok in E. destruct E as [[l i] [E1 E]].
        apply rbind_ok in E. destruct E as [t0 [_ E]]. injection E as E _. cbn in E. subst i.
        unfold Folder.stage1, file_to_check, exists_file in E1. rewrite gpu in E1.
        fold low in E1. rewrite L3 in E1. specialize (Low Z).
        destruct (d2 low); [|congruence]. fold nfo in E1.
        apply rbind_ok in E1. destruct E1 as [t [E1 E]].
        apply rbind_ok in E. destruct E as [i [E E2]]. injection E2 as _ ->.
        unfold read_file in E1. destruct (Nat.le_gt_cases n (a + b)) as [M|M].
        + unfold d3 in E1. replace (n - a - b) with 0 in E1 by lia. cbn in E1.
          rewrite I2 in E1. discriminate.
        + destruct (part_same (n - a - b) nfo info d2 ltac:(lia)) as [t' [r [T' [J Nr]]]].
          { fold c. lia. }
          fold d3 in T'. rewrite T' in E1. injection E1 as ->.
          exact (prefix_not_read _ _ _ _ line J Nr E).
      - intros [L|L].
        + apply gpu_fresh. rewrite L3. unfold d2. replace (n - a) with 0 by lia. cbn.
          unfold d1. now rewrite part_other by congruence.
        + assert (B : d3 low = Some (md_target m)).
          { rewrite L3. unfold d2. rewrite firstn_all2 by lia. apply write_same. }
          assert (I : d3 nfo = Some info).
          { unfold d3. rewrite firstn_all2 by lia. apply write_same. }
          assert (St : stage1 d3 = Ok ([], md_meta m)).
          { unfold Folder.stage1, file_to_check, exists_file. rewrite gpu. fold low. rewrite B.
            unfold read_file. fold nfo. rewrite I. cbn [rbind]. unfold info.
            rewrite round_trip by exact line. reflexivity. }
          unfold Folder.request. cbn [fst]. rewrite St. cbn [rbind snd].
          unfold Folder.operations. rewrite St, gpu_stage2. cbn [app].
          change (apply_all [] d3) with d3. rewrite gpu. unfold read_file. fold low.
          rewrite B. reflexivity.
    Qed.

    (** Killed when the compiled code exists and the information does not. *)
    Lemma gpu_poisoned : forall d n k, absent m d ->
      cost cut (md_code m) < n -> n <= cost cut (md_code m) + cost cut (md_target m) ->
      retries request k (killed cut compile_cpp n m d) = repeat PyErr k.
    Proof.
      intros d n k A n0 Hn. destruct gpu_names as [N1 [N2 N3]].
      assert (Hl : d low = None) by (apply A; cbn; auto).
      assert (Hi : d nfo = None) by (apply A; cbn; auto).
      unfold killed. rewrite (gpu_operations d Hl).
      rewrite !firstn_app, !write_length.
      replace (n - cost cut (md_code m) - cost cut (md_target m)) with 0 by lia.
      cbn [firstn]. rewrite app_nil_r, apply_all_app.
      set (d1 := apply_all (firstn n (write src (md_code m))) d).
      set (d2 := apply_all (firstn (n - cost cut (md_code m)) (write low (md_target m))) d1).
      assert (S1 : d2 low <> None).
      { unfold d2.
        destruct (Nat.lt_ge_cases (n - cost cut (md_code m)) (cost cut (md_target m))) as [L|L].
        - destruct (part_same (n - cost cut (md_code m)) low (md_target m) d1 ltac:(lia) L)
            as [t [r [-> _]]]. discriminate.
        - rewrite firstn_all2 by (rewrite write_length; lia). rewrite write_same. discriminate. }
      assert (I1 : d2 nfo = None).
      { unfold d2, d1. now rewrite !part_other by congruence. }
      assert (St : stage1 d2 = PyErr).
      { unfold Folder.stage1, file_to_check, exists_file. rewrite gpu. fold low.
        destruct (d2 low); [|congruence]. unfold read_file. fold nfo. now rewrite I1. }
      induction k as [|k IH]; [reflexivity|]. cbn [retries repeat].
      assert (R : request d2 = (PyErr, d2)).
      { unfold Folder.request, Folder.operations. rewrite St. reflexivity. }
      rewrite R. cbn [fst snd]. now rewrite IH.
    Qed.
  End GPU.

  (** ** Tables of the session *)

  Section Tables.
    Variable table : Type.
    Variable empty : table.
    Variable pickle : table -> string.
    Variable unpickle : string -> res table.
    (** A pickle ends with a mark: a proper prefix is an error. *)
    Hypothesis truncated : forall t a r, a ++ r = pickle t -> r <> "" -> unpickle a = PyErr.

    Lemma table_killed : forall p t d n, 1 < n -> n < cost cut (pickle t) ->
      load_cache table empty unpickle
        (apply_all (firstn n (save_table table pickle cut p t)) d p) = PyErr
      /\ load_cache_partial table empty unpickle
           (apply_all (firstn n (save_table table pickle cut p t)) d p) = PyErr.
    Proof.
      intros p t d n n0 Hn. unfold save_table. fold (write p (pickle t)).
      destruct (part_same n p (pickle t) d ltac:(lia) Hn) as [a [r [E [J N]]]].
      rewrite E. cbn. rewrite (truncated t a r J N). split; [|reflexivity].
      destruct n as [|[|n]]; try lia.
      assert (L : a <> "").
      { intros ->. unfold Folder.write in E.
        change (firstn (S (S n)) (Create p :: ?l)) with (Create p :: firstn (S n) l) in E.
        rewrite firstn_map in E.
        change (apply_all (Create p :: map (Append p) (firstn (S n) (cut (pickle t)))) d)
          with (apply_all (map (Append p) (firstn (S n) (cut (pickle t)))) (apply d (Create p))) in E.
        rewrite (apply_appends _ _ _ "") in E; [|cbn; destruct (string_dec p p); congruence].
        injection E as E. assert (F := proj2 (cut_ok (pickle t))). unfold cost in Hn.
        destruct (cut (pickle t)) as [|x l]; [cbn in Hn; lia|]. cbn in E.
        inversion F; subst. destruct x; [congruence|discriminate]. }
      destruct a; [congruence|]. reflexivity.
    Qed.

    (** The empty file is accepted by one kind of table only. *)
    Lemma table_emptied : forall p t d, pickle t <> "" ->
      load_cache table empty unpickle
        (apply_all (firstn 1 (save_table table pickle cut p t)) d p) = Ok empty
      /\ load_cache_partial table empty unpickle
           (apply_all (firstn 1 (save_table table pickle cut p t)) d p) = PyErr.
    Proof.
      intros p t d N. cbn. destruct (string_dec p p); [|congruence]. cbn.
      split; [reflexivity|]. exact (truncated t "" (pickle t) eq_refl N).
    Qed.
  End Tables.
End Proofs.

(** ** A concrete module *)

Fixpoint by_characters (s : string) : list string :=
  match s with EmptyString => [] | String c s' => String c "" :: by_characters s' end.

Lemma by_characters_ok : proper_cut by_characters.
Proof.
  intros s. induction s as [|c s [IH1 IH2]]; cbn; [now split|].
  split; [now rewrite IH1|]. constructor; [discriminate|exact IH2].
Qed.

Definition demo_module (gpu : bool) : module_files :=
  {| md_gpu := gpu; md_source := "7b9a.cpp"; md_low := "cubin_7b9a"; md_info := "7b9a.nfo";
     md_wrapper := "pykeops_cpp_7b9a.cpp"; md_dll := "pykeops_cpp_7b9a.so";
     md_code := "int CpuConv"; md_target := "ELF"; md_binding := "#include";
     md_formula := "Sum_Reduction(x*y,0)";
     md_meta := {| mt_dim := 3; mt_tagI := 0; mt_dimy := 12 |} |}.

Definition demo_compile (code binding : string) : option string := Some (code ++ binding).

Lemma demo_names : forall gpu, distinct_files (demo_module gpu).
Proof.
  intros gpu. unfold distinct_files. cbn.
  repeat (constructor; [cbn; intuition discriminate|]). constructor.
Qed.

Lemma wrong_information : forall gpu, exists n b,
  fst (request by_characters demo_compile (demo_module gpu)
         (killed by_characters demo_compile n (demo_module gpu) (fun _ => None)))
  = Ok ({| mt_dim := 3; mt_tagI := 0; mt_dimy := 1 |}, b).
Proof. intros [|]; [exists 69|exists 65]; eexists; vm_compute; reflexivity. Qed.
