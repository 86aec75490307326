From Coq Require Import ZArith List Bool Ascii String Lia FinFun.
From Verif Require Import Result Keys KeySpec C22Proofs Folder FolderSpec C25Proofs GpuConfig GpuConfigSpec.
Import ListNotations.
Open Scope string_scope.
Open Scope Z_scope.

(** ** Devices *)

Lemma in_range : forall n d, In d (range n) <-> 0 <= d < n.
Proof.
  intros n d. unfold range. rewrite in_map_iff. split.
  - intros [k [<- H]]. apply in_seq in H. lia.
  - intros H. exists (Z.to_nat d). split; [lia|]. apply in_seq. lia.
Qed.

Lemma query_ok : forall m ds l, query_devices m ds = Some l ->
  map fst l = ds /\ forall d p, In (d, p) l -> query_device m d = Some p.
Proof.
  intros m. induction ds as [|d ds IH]; cbn; intros l H.
  - injection H as <-. split; [reflexivity|intros d p []].
  - destruct (query_device m d) as [p|] eqn:E; [|discriminate].
    destruct (query_devices m ds) as [l'|]; [|discriminate]. injection H as <-.
    destruct (IH l' eq_refl) as [F Q]. split; [cbn; now rewrite F|].
    intros d' p' [K|K]; [injection K as <- <-; exact E|now apply Q].
Qed.

Lemma query_all : forall m ds (limits : Z -> Z * Z),
  (forall d, In d ds -> query_device m d = Some (limits d)) ->
  query_devices m ds = Some (map (fun d => (d, limits d)) ds).
Proof.
  intros m. induction ds as [|d ds IH]; cbn; intros limits H; [reflexivity|].
  rewrite (H d) by now left. rewrite (IH limits); [reflexivity|]. intros d' I. apply H. now right.
Qed.

Lemma query_iff : forall m d t s, query_device m d = Some (t, s) <->
  exists h, cu_device m d = Some h /\ cu_attribute m 1 h = Some t /\ cu_attribute m 8 h = Some s.
Proof.
  intros m d t s. unfold query_device. split.
  - destruct (cu_device m d) as [h|]; [|discriminate].
    destruct (cu_attribute m 1 h) as [t'|] eqn:A; [|discriminate].
    destruct (cu_attribute m 8 h) as [s'|] eqn:B; [|discriminate].
    intros H. injection H as <- <-. exists h. now rewrite A, B.
  - intros [h [-> [-> ->]]]. reflexivity.
Qed.

Lemma usable_query : forall m n L, usable m n L -> forall d, 0 <= d < n -> query_device m d = Some (L d).
Proof.
  intros m n L (_ & _ & _ & _ & _ & Q) d H. destruct (Q d H) as [h [A [B C]]].
  destruct (L d) as [t s] eqn:E. apply query_iff. exists h. auto.
Qed.

Definition table (n : Z) (L : Z -> Z * Z) : list (Z * (Z * Z)) := map (fun d => (d, L d)) (range n).

Lemma props_usable : forall m n L s, usable m n L -> use_cuda s = true ->
  get_gpu_props m s = {| use_cuda := true; n_gpus := n; gpu_flags := compile_flags n (table n L);
                         cuda_version := cuda_version s; include_path := include_path s |}.
Proof.
  intros m n L s U H. assert (Q := usable_query m n L U). destruct U as (A & B & C & D & E & _).
  unfold get_gpu_props. rewrite H. destruct (library m "cuda") as [p|]; [|congruence].
  rewrite C, D. destruct (Z.eqb_spec n 0) as [K|_]; [lia|].
  rewrite (query_all m (range n) L); [reflexivity|]. intros d I. apply Q. now apply in_range.
Qed.

(** What the detection answers when it finds devices. *)
Lemma props_inv : forall m s, counts m -> use_cuda (get_gpu_props m s) = true ->
  n_gpus (get_gpu_props m s) <> 0 -> library m "nvrtc" <> None ->
  exists n L, usable m n L.
Proof.
  intros m s W U N V. unfold get_gpu_props in *. destruct (use_cuda s); [|discriminate].
  destruct (library m "cuda") as [p|] eqn:A; [|discriminate].
  destruct (cu_init m) eqn:C; [|discriminate]. destruct (cu_count m) as [n|] eqn:D; [|discriminate].
  destruct (Z.eqb_spec n 0) as [K|K]; [cbn in N; congruence|].
  destruct (query_devices m (range n)) as [l|] eqn:Q; [|discriminate].
  exists n. exists (fun d => match query_device m d with Some p => p | None => (0, 0) end).
  assert (H := W n D). destruct (query_ok _ _ _ Q) as [F G].
  unfold usable. rewrite A. repeat split; auto; try discriminate; try lia.
  intros d I. assert (J : In d (map fst l)) by (rewrite F; now apply in_range).
  apply in_map_iff in J. destruct J as [[d' q] [E J]]. cbn in E. subst d'.
  specialize (G d q J). rewrite G. destruct q as [t z]. apply query_iff in G. exact G.
Qed.

Lemma set_usable : forall m n L s, usable m n L -> set_use_cuda m = Ok s ->
  use_cuda s = true /\ n_gpus s = n /\ gpu_flags s = compile_flags n (table n L).
Proof.
  intros m n L s U H. assert (U' := U). destruct U as (A & B & _ & _ & E & _).
  unfold set_use_cuda in H. assert (LA : libraries_available m = true).
  { unfold libraries_available. destruct (library m "cuda"); [|congruence].
    destruct (library m "nvrtc"); [reflexivity|congruence]. }
  rewrite LA in H. cbn [use_cuda] in H. apply rbind_ok in H. destruct H as [p [_ H]].
  rewrite (props_usable m n L) in H by (assumption || reflexivity).
  cbn [n_gpus use_cuda] in H. destruct (Z.eqb_spec n 0) as [K|_]; [lia|]. cbn in H.
  injection H as <-. cbn. auto.
Qed.

Lemma props_flags : forall m s, use_cuda (get_gpu_props m s) = false ->
  n_gpus (get_gpu_props m s) = 0 /\ gpu_flags (get_gpu_props m s) = "".
Proof.
  intros m s. unfold get_gpu_props. destruct (use_cuda s); [|now split].
  destruct (library m "cuda"); [|now split]. destruct (cu_init m); [|now split].
  destruct (cu_count m) as [n|]; [|now split]. destruct (Z.eqb n 0); [now split|].
  destruct (query_devices m (range n)); [discriminate|now split].
Qed.

Lemma props_zero : forall m s, counts m -> n_gpus (get_gpu_props m s) = 0 -> gpu_flags (get_gpu_props m s) = "".
Proof.
  intros m s W. unfold get_gpu_props. destruct (use_cuda s); [|now intros].
  destruct (library m "cuda"); [|now intros]. destruct (cu_init m); [|now intros].
  destruct (cu_count m) as [n|]; [|now intros]. destruct (Z.eqb_spec n 0); [now intros|].
  destruct (query_devices m (range n)); [|now intros]. cbn. intros E. lia.
Qed.

Lemma detection : forall m s, counts m -> set_use_cuda m = Ok s ->
  (use_cuda s = true <-> exists n L, usable m n L)
  /\ (use_cuda s = false -> n_gpus s = 0 /\ gpu_flags s = "")
  /\ (forall n L, usable m n L -> n_gpus s = n).
Proof.
  intros m s W H. split; [|split].
  - split.
    + intros U. unfold set_use_cuda in H. apply rbind_ok in H. destruct H as [p [_ H]].
      cbn [use_cuda] in H.
      destruct (libraries_available m) eqn:LA.
      2:{ cbn in H. injection H as <-. discriminate. }
      injection H as <-.
      match type of U with context [get_gpu_props m ?x] => set (s0 := x) in * end.
      destruct (Z.eqb_spec (n_gpus (get_gpu_props m s0)) 0) as [E|E].
      * cbn [andb] in U. destruct (use_cuda (get_gpu_props m s0)) eqn:K; [discriminate|].
        rewrite K in U. discriminate.
      * cbn [andb] in U. apply (props_inv m s0 W U E).
        unfold libraries_available in LA. destruct (library m "cuda"); [|discriminate].
        destruct (library m "nvrtc"); discriminate.
    + intros [n [L U]]. now destruct (set_usable m n L s U H).
  - intros U. unfold set_use_cuda in H. apply rbind_ok in H. destruct H as [p [_ H]].
    cbn [use_cuda] in H. injection H as <-.
    match type of U with context [get_gpu_props m ?x] => set (s0 := x) in * end.
    destruct (Z.eqb_spec (n_gpus (get_gpu_props m s0)) 0) as [E|E]; cbn [andb] in *.
    + destruct (use_cuda (get_gpu_props m s0)) eqn:K.
      * cbn. split; [exact E|now apply props_zero].
      * now apply props_flags.
    + now apply props_flags.
  - intros n L U. now destruct (set_usable m n L s U H) as [_ [K _]].
Qed.

(** ** Flags *)

Lemma app_assoc_str : forall a b c : string, ((a ++ b) ++ c)%string = (a ++ (b ++ c))%string.
Proof. induction a as [|x a IH]; intros; cbn; [reflexivity|now rewrite IH]. Qed.

Lemma int_no_space : forall z, has " " (str_int z) = false.
Proof. intros z. apply str_int_has; [reflexivity|discriminate]. Qed.

Lemma int_no_equal : forall z, has "=" (str_int z) = false.
Proof. intros z. apply str_int_has; [reflexivity|discriminate]. Qed.

Fixpoint flags_of (l : list (Z * (Z * Z))) : string :=
  match l with [] => "" | x :: l => (device_flags x ++ flags_of l)%string end.

Lemma flags_fold : forall l acc,
  fold_left (fun acc x => (acc ++ device_flags x)%string) l acc = (acc ++ flags_of l)%string.
Proof.
  induction l as [|x l IH]; intros acc; cbn [fold_left flags_of].
  - now rewrite app_nil_r_s.
  - rewrite IH. apply app_assoc_str.
Qed.

Definition pairs (x : Z * (Z * Z)) : list (string * string) :=
  [("MAXTHREADSPERBLOCK" ++ str_int (fst x), str_int (fst (snd x)));
   ("SHAREDMEMPERBLOCK" ++ str_int (fst x), str_int (snd (snd x)))]%string.

Lemma one_definition : forall name z rest, has " " name = false -> has "=" name = false ->
  definitions (("-D" ++ name ++ "=" ++ str_int z ++ " ") ++ rest)%string = (name, str_int z) :: definitions rest.
Proof.
  intros name z rest A B. unfold definitions.
  replace (("-D" ++ name ++ "=" ++ str_int z ++ " ") ++ rest)%string
    with (("-D" ++ name ++ String "=" (str_int z)) ++ String " " rest)%string.
  2:{ rewrite !app_assoc_str. reflexivity. }
  rewrite split_first.
  2:{ rewrite !has_app. cbn [has]. rewrite A, int_no_space. reflexivity. }
  cbn [flat_map app].
  change ("-D" ++ name ++ String "=" (str_int z))%string
    with (String "-" (String "D" (name ++ String "=" (str_int z)))).
  cbn [definition_of]. rewrite field_split by exact B. reflexivity.
Qed.

Lemma definitions_flags : forall l, definitions (flags_of l) = flat_map pairs l.
Proof.
  induction l as [|[d [t s]] l IH]; [reflexivity|]. cbn [flags_of flat_map pairs fst snd app].
  unfold device_flags. cbn [fst snd].
  assert (N : forall p, has " " p = false -> has "=" p = false ->
    has " " (p ++ str_int d) = false /\ has "=" (p ++ str_int d) = false).
  { intros p A B. rewrite !has_app, A, B, int_no_space, int_no_equal. now split. }
  destruct (N "MAXTHREADSPERBLOCK"%string eq_refl eq_refl) as [A1 B1].
  destruct (N "SHAREDMEMPERBLOCK"%string eq_refl eq_refl) as [A2 B2].
  pose proof (one_definition _ t (("-D" ++ ("SHAREDMEMPERBLOCK" ++ str_int d) ++ "=" ++ str_int s ++ " ") ++ flags_of l)%string A1 B1) as E.
  rewrite (one_definition _ s (flags_of l) A2 B2), IH in E.
  rewrite <- E. f_equal. rewrite !app_assoc_str. reflexivity.
Qed.

Lemma definitions_compile : forall n l,
  definitions (compile_flags n l) = ("MAXIDGPU"%string, str_int (n - 1)) :: flat_map pairs l.
Proof.
  intros n l. unfold compile_flags. rewrite flags_fold, <- definitions_flags.
  change ("-DMAXIDGPU=" ++ str_int (n - 1) ++ " ")%string
    with ("-D" ++ "MAXIDGPU" ++ "=" ++ str_int (n - 1) ++ " ")%string.
  apply one_definition; reflexivity.
Qed.

Lemma append_inj : forall p a b : string, (p ++ a = p ++ b)%string -> a = b.
Proof. induction p as [|c p IH]; cbn; intros a b H; [exact H|]. injection H as H. now apply IH. Qed.

Lemma defined_none : forall l name, (forall k v, In (k, v) l -> k <> name) -> defined l name = None.
Proof.
  induction l as [|[k v] l IH]; intros name H; cbn; [reflexivity|].
  rewrite IH by (intros k' v' I; apply (H k' v'); now right).
  destruct (string_dec k name) as [E|_]; [|reflexivity]. elim (H k v); [now left|exact E].
Qed.

Lemma in_pairs : forall l k v, In (k, v) (flat_map pairs l) ->
  exists x, In x l /\ ((k = "MAXTHREADSPERBLOCK" ++ str_int (fst x) /\ v = str_int (fst (snd x)))
                       \/ (k = "SHAREDMEMPERBLOCK" ++ str_int (fst x) /\ v = str_int (snd (snd x))))%string.
Proof.
  intros l k v H. apply in_flat_map in H. destruct H as [x [I H]]. exists x. split; [exact I|].
  destruct H as [H|[H|[]]]; injection H as <- <-; auto.
Qed.

Lemma defined_threads : forall l d p, NoDup (map fst l) -> In (d, p) l ->
  defined (flat_map pairs l) ("MAXTHREADSPERBLOCK" ++ str_int d)%string = Some (str_int (fst p)).
Proof.
  induction l as [|[d0 [t0 s0]] l IH]; intros d p N I; [destruct I|].
  cbn [map fst] in N. inversion N as [|? ? F N']; subst. cbn [flat_map pairs app fst snd defined].
  destruct I as [E|I].
  - injection E as -> <-. rewrite defined_none.
    + destruct (string_dec _ _) as [E|_]; [cbn in E; discriminate E|].
      destruct (string_dec _ _) as [_|E]; [reflexivity|now elim E].
    + intros k v I E. subst k. apply in_pairs in I. destruct I as [x [I [[E _]|[E _]]]]; [|discriminate E].
      apply append_inj, str_int_inj in E. subst d. apply F. now apply in_map.
  - now rewrite (IH d p N' I).
Qed.

Lemma defined_shared : forall l d p, NoDup (map fst l) -> In (d, p) l ->
  defined (flat_map pairs l) ("SHAREDMEMPERBLOCK" ++ str_int d)%string = Some (str_int (snd p)).
Proof.
  induction l as [|[d0 [t0 s0]] l IH]; intros d p N I; [destruct I|].
  cbn [map fst] in N. inversion N as [|? ? F N']; subst. cbn [flat_map pairs app fst snd defined].
  destruct I as [E|I].
  - injection E as -> <-. rewrite defined_none.
    + destruct (string_dec _ _) as [_|E]; [reflexivity|now elim E].
    + intros k v I E. subst k. apply in_pairs in I. destruct I as [x [I [[E _]|[E _]]]]; [discriminate E|].
      apply append_inj, str_int_inj in E. subst d. apply F. now apply in_map.
  - now rewrite (IH d p N' I).
Qed.

Lemma range_nodup : forall n, NoDup (range n).
Proof.
  intros n. unfold range. apply Injective_map_NoDup; [intros a b E; lia|apply seq_NoDup].
Qed.

Lemma table_fst : forall n L, map fst (table n L) = range n.
Proof. intros. unfold table. rewrite map_map. cbn. apply map_id. Qed.

Lemma int_first : forall d, exists c s, str_int d = String c s.
Proof.
  intros d. destruct (str_int d) as [|c s] eqn:E; [|eauto].
  assert (H := eval_int d). rewrite E in H. discriminate H.
Qed.

Lemma bare_name : forall n l name, (name = "MAXTHREADSPERBLOCK" \/ name = "SHAREDMEMPERBLOCK")%string ->
  macro (compile_flags n l) name = None.
Proof.
  intros n l name H. unfold macro. rewrite definitions_compile, defined_none; [reflexivity|].
  intros k v [I|I] E; subst k.
  - injection I as I _. destruct H as [-> | ->]; discriminate I.
  - apply in_pairs in I. destruct I as [[d p] [_ [[E _]|[E _]]]]; cbn [fst] in E;
      destruct (int_first d) as [c [s G]]; rewrite G in E; destruct H as [-> | ->]; discriminate E.
Qed.

Lemma macro_top : forall n l, macro (compile_flags n l) "MAXIDGPU" = Some (n - 1).
Proof.
  intros n l. unfold macro. rewrite definitions_compile. cbn [defined].
  rewrite defined_none.
  - destruct (string_dec _ _) as [_|E]; [|now elim E]. now rewrite eval_int.
  - intros k v I E. subst k. apply in_pairs in I. destruct I as [x [_ [[E _]|[E _]]]]; discriminate E.
Qed.

Lemma slot_table : forall n L d, 0 <= d < n -> slot (compile_flags n (table n L)) d = Some (L d).
Proof.
  intros n L d H. assert (I : In (d, L d) (table n L)).
  { unfold table. apply in_map_iff. exists d. split; [reflexivity|now apply in_range]. }
  assert (N : NoDup (map fst (table n L))) by (rewrite table_fst; apply range_nodup).
  unfold slot, macro. rewrite definitions_compile. cbn [defined].
  rewrite (defined_threads _ d (L d) N I), (defined_shared _ d (L d) N I), !eval_int.
  now destruct (L d).
Qed.

Lemma kept_in : forall top k, In k (filter (fun k => Z.leb k top) lines) <-> 0 <= k < 12 /\ k <= top.
Proof.
  intros top k. rewrite filter_In. unfold lines. rewrite in_range. now rewrite Z.leb_le.
Qed.

Lemma props_read : forall n L d,
  set_gpu_props (compile_flags n (table n L)) d
  = if (0 <=? d) && (d <? n) && (d <? 12) then Ok (L d) else PyErr.
Proof.
  intros n L d. unfold set_gpu_props.
  rewrite macro_top, bare_name by now left.
  assert (S : forallb (fun k => match slot (compile_flags n (table n L)) k with Some _ => true | None => false end)
                (filter (fun k => Z.leb k (n - 1)) lines) = true).
  { apply forallb_forall. intros k I. apply kept_in in I. rewrite slot_table by lia. reflexivity. }
  rewrite S.
  destruct (find (fun k => Z.eqb d k) (filter (fun k => Z.leb k (n - 1)) lines)) as [k|] eqn:E.
  - apply find_some in E. destruct E as [I E]. apply Z.eqb_eq in E. subst k. apply kept_in in I.
    rewrite slot_table by lia.
    destruct (Z.leb_spec 0 d), (Z.ltb_spec d n), (Z.ltb_spec d 12); cbn; reflexivity || lia.
  - destruct ((0 <=? d) && (d <? n) && (d <? 12)) eqn:B; [|reflexivity].
    apply andb_true_iff in B. destruct B as [B B3]. apply andb_true_iff in B. destruct B as [B1 B2].
    apply Z.leb_le in B1. apply Z.ltb_lt in B2, B3.
    assert (K := find_none _ _ E d). rewrite Z.eqb_refl in K.
    assert (true = false); [|discriminate]. apply K. apply kept_in. lia.
Qed.

Lemma limits_read : forall m n L s, usable m n L -> set_use_cuda m = Ok s ->
  forall d, set_gpu_props (gpu_flags s) d
            = if (0 <=? d) && (d <? n) && (d <? 12) then Ok (L d) else PyErr.
Proof.
  intros m n L s U H d. destruct (set_usable m n L s U H) as [_ [_ ->]]. apply props_read.
Qed.

(** ** Launches *)

Lemma block_accepted : forall p r, fits p r -> accepted p (block_size_x p r) (rq_bytes r).
Proof.
  intros [t s] r (A & B & C & D & E & F). cbn [fst snd] in *. unfold accepted, block_size_x. cbn [fst snd].
  assert (Q : forall sh, 1 <= sh -> rq_bytes r <= sh ->
    1 <= Z.quot sh (Z.max 1 (rq_bytes r)) /\ Z.quot sh (Z.max 1 (rq_bytes r)) * rq_bytes r <= sh).
  { intros sh P R. rewrite Z.quot_div_nonneg by lia.
    set (b := Z.max 1 (rq_bytes r)). assert (P1 : 1 <= b <= sh) by (unfold b; lia).
    assert (M := Z.mul_div_le sh b ltac:(lia)). split.
    - apply Z.div_le_lower_bound; lia.
    - assert (0 <= sh / b) by (apply Z.div_pos; lia).
      assert (rq_bytes r <= b) by (unfold b; lia). nia. }
  destruct (rq_chunks r).
  - destruct (F eq_refl) as [F1 [F2 F3]]. destruct (Q 49152 ltac:(lia) F3) as [Q1 Q2].
    set (q := Z.quot 49152 (Z.max 1 (rq_bytes r))) in *.
    assert (Z.min (rq_cuda_block_size r) (Z.min 1024 q) <= q) by lia.
    split; [lia|]. nia.
  - destruct (Q s D E) as [Q1 Q2]. set (q := Z.quot s (Z.max 1 (rq_bytes r))) in *.
    assert (Z.min (rq_cuda_block_size r) (Z.min t q) <= q) by lia.
    split; [lia|]. nia.
Qed.

Lemma launches_ok : forall m flags d p l s out, set_gpu_props flags d = Ok p ->
  Forall (fun x => x = d) (loaded s) -> (loaded s <> [] -> globals s = p) ->
  Forall (only_device d) l -> Forall (fitting p) l ->
  perform_all m flags s l = Ok out ->
  Forall (fun x => fst (fst x) = d /\ accepted p (snd (fst x)) (rq_bytes (snd x))) out.
Proof.
  intros m flags d p. induction l as [|a l IH]; intros s out P F G O T H; cbn in H.
  - injection H as <-. constructor.
  - inversion O as [|? ? Oa Ol]; subst. inversion T as [|? ? Ta Tl]; subst.
    apply rbind_ok in H. destruct H as [[s' o] [A H]]. apply rbind_ok in H. destruct H as [y [Y H]].
    injection H as <-. cbn [fst snd] in *. destruct a as [d'|k r]; cbn in A, Oa, Ta.
    + subst d'. destruct (cu_device m d); [|discriminate]. rewrite P in A. cbn in A. injection A as <- <-.
      cbn. apply (IH {| globals := p; loaded := loaded s ++ [d] |} y P); cbn; auto.
      apply Forall_app. auto.
    + destruct (nth_error (loaded s) k) as [d'|] eqn:E; [|discriminate]. injection A as <- <-.
      apply nth_error_In in E. rewrite Forall_forall in F. pose proof (F d' E) as ->.
      cbn. constructor.
      * cbn. split; [reflexivity|]. rewrite G; [now apply block_accepted|].
        intros K. rewrite K in E. destruct E.
      * apply (IH s y P); auto. now apply Forall_forall.
Qed.

(** ** Sessions *)

Lemma get_props_same : forall m n L s, usable m n L -> set_use_cuda m = Ok s ->
  forall s', import_keopscore m = Ok s' -> use_cuda s' = true /\ gpu_flags s' = compile_flags n (table n L).
Proof.
  intros m n L s U H s' I. unfold import_keopscore in I. rewrite H in I. cbn [rbind] in I.
  destruct (set_usable m n L s U H) as [A [B C]]. rewrite A in I.
  rewrite (props_usable m n L s U A) in I.
  apply rbind_ok in I. destruct I as [p [_ I]]. destruct (get_cuda_version m s); [|discriminate].
  injection I as <-. cbn. auto.
Qed.

Lemma import_flags : forall m s, counts m -> import_keopscore m = Ok s -> use_cuda s = true ->
  exists n L, usable m n L /\ gpu_flags s = compile_flags n (table n L).
Proof.
  intros m s W I U. assert (I' := I). unfold import_keopscore in I. apply rbind_ok in I. destruct I as [s0 [H I]].
  destruct (use_cuda s0) eqn:E; [|injection I as <-; congruence].
  destruct (detection m s0 W H) as [D _]. apply D in E. destruct E as [n [L V]].
  exists n, L. split; [exact V|]. now destruct (get_props_same m n L s0 V H s I').
Qed.

Lemma table_ext : forall n L L', (forall d, 0 <= d < n -> L d = L' d) -> table n L = table n L'.
Proof.
  intros n L L' H. unfold table. apply map_ext_in. intros d I. apply in_range in I. now rewrite H.
Qed.

Lemma sessions_inv : forall ms b0 f n L,
  (forall m', In m' ms -> counts m') ->
  (forall m', In m' ms -> build_folder m' = f ->
     forall n' L', usable m' n' L' -> n' = n /\ forall d, 0 <= d < n -> L' d = L d) ->
  (b0 f = None \/ b0 f = Some (compile_flags n (table n L))) ->
  let b := fold_left (fun b m => snd (import_pykeops m b)) ms b0 in
  b f = None \/ b f = Some (compile_flags n (table n L)).
Proof.
  induction ms as [|m ms IH]; intros b0 f n L W S H; cbn; [exact H|].
  apply IH.
  - intros m' I. apply W. now right.
  - intros m' I. apply S. now right.
  - unfold import_pykeops. destruct (import_keopscore m) as [s| | |] eqn:E; cbn; try exact H.
    destruct (use_cuda s) eqn:U; [|exact H].
    destruct (b0 (build_folder m)) eqn:B; [exact H|]. cbn.
    destruct (string_dec f (build_folder m)) as [K|_]; [|exact H]. right. f_equal.
    destruct (import_flags m s (W m (or_introl eq_refl)) E U) as [n' [L' [V G]]]. rewrite G.
    destruct (S m (or_introl eq_refl) (eq_sym K) n' L' V) as [-> X].
    now rewrite (table_ext n L' L X).
Qed.

Lemma session_main : forall ms m n L flags b d l out,
  counts m -> (forall m', In m' ms -> counts m') -> usable m n L ->
  (forall m', In m' ms -> build_folder m' = build_folder m ->
     forall n' L', usable m' n' L' -> n' = n /\ forall d, 0 <= d < n -> L' d = L d) ->
  import_pykeops m (sessions ms) = (Ok (Some flags), b) ->
  0 <= d < n -> d < 12 -> Forall (only_device d) l -> Forall (fitting (L d)) l ->
  perform_all m flags {| globals := (0, 0); loaded := [] |} l = Ok out ->
  Forall (fun x => fst (fst x) = d /\ accepted (L d) (snd (fst x)) (rq_bytes (snd x))) out.
Proof.
  intros ms m n L flags b d l out W W' U S I D D' O T H.
  assert (B := sessions_inv ms (fun _ => None) (build_folder m) n L W' S (or_introl eq_refl)).
  cbv zeta in B. change (fold_left _ ms _) with (sessions ms) in B.
  unfold import_pykeops in I. destruct (import_keopscore m) as [s| | |] eqn:E; try discriminate.
  destruct (use_cuda s) eqn:C; [|discriminate].
  assert (G : gpu_flags s = compile_flags n (table n L)).
  { unfold import_keopscore in E. assert (E' := E). apply rbind_ok in E'. destruct E' as [s0 [H0 _]].
    now destruct (get_props_same m n L s0 U H0 s E). }
  assert (F : flags = compile_flags n (table n L)).
  { destruct (sessions ms (build_folder m)) as [fl|].
    - injection I as <- _. destruct B as [B|B]; congruence.
    - injection I as <- _. exact G. }
  subst flags. apply (launches_ok m (compile_flags n (table n L)) d (L d) l
    {| globals := (0, 0); loaded := [] |} out); auto.
  - rewrite props_read. destruct (Z.leb_spec 0 d), (Z.ltb_spec d n), (Z.ltb_spec d 12); cbn; reflexivity || lia.
  - cbn. constructor.
  - cbn. intros K. now elim K.
Qed.

(** The older function never reports a failure of a device. *)
Lemma old_count : forall m n, cu_init m = true -> cu_count m = Some n -> fst (old_gpu_props m) = n.
Proof. intros m n A B. unfold old_gpu_props. now rewrite A, B. Qed.

(** ** Machines for the cases *)

Definition a_machine (visible : option string) (n : Z) (L : Z -> Z * Z) (v : option Z)
    (files : string -> bool) : machine :=
  {| env := fun s => if string_dec s "CUDA_VISIBLE_DEVICES" then visible else None;
     home_cache := "/home/u/.cache/keops2.3";
     platform_name := "Linux_host_6.1_p3.10.12";
     library := fun s => Some ("/usr/lib/lib" ++ s ++ ".so")%string;
     cudart_version := v;
     is_file := files;
     is_dir := fun _ => false;
     compiler_include := fun h => Some ("/usr/include/" ++ h)%string;
     cu_init := true;
     cu_count := Some n;
     cu_device := fun d => if (0 <=? d) && (d <? n) then Some d else None;
     cu_attribute := fun a h => if a =? 1 then Some (fst (L h)) else if a =? 8 then Some (snd (L h)) else None |}.

Lemma a_usable : forall visible n L v files, 0 < n -> usable (a_machine visible n L v files) n L.
Proof.
  intros. unfold usable, a_machine. cbn. repeat split; try discriminate; try assumption.
  intros d D. exists d. destruct (Z.leb_spec 0 d), (Z.ltb_spec d n); try lia. now split.
Qed.

Lemma a_counts : forall visible n L v files, 0 < n -> counts (a_machine visible n L v files).
Proof. intros visible n L v files P k H. cbn in H. injection H as <-. lia. Qed.

Definition opt_cuda (p : string) : bool :=
  if string_dec p "/opt/cuda/include/cuda.h" then true
  else if string_dec p "/opt/cuda/include/nvrtc.h" then true else false.

Definition small (d : Z) : Z * Z := (1024, 49152).
Definition large (d : Z) : Z * Z := (1024, 101376).
Definition mixed (d : Z) : Z * Z := if d =? 0 then small d else large d.

Lemma thirteen : exists m n L s d, usable m n L /\ set_use_cuda m = Ok s /\ use_cuda s = true
  /\ n_gpus s = n /\ 0 <= d < n /\ set_gpu_props (gpu_flags s) d = PyErr.
Proof.
  pose (m := a_machine None 13 small (Some 12020) opt_cuda).
  destruct (set_use_cuda m) as [s| | |] eqn:E; try discriminate E.
  exists m, 13, small, s, 12. assert (U := a_usable None 13 small (Some 12020) opt_cuda ltac:(lia)).
  destruct (set_usable m 13 small s U E) as [A [B C]].
  split; [exact U|]. split; [exact E|]. split; [exact A|]. split; [exact B|]. split; [lia|].
  rewrite (limits_read m 13 small s U E). reflexivity.
Qed.

Lemma interleaved_limits : exists m n L s l out, usable m n L /\ set_use_cuda m = Ok s /\
  perform_all m (gpu_flags s) {| globals := (0, 0); loaded := [] |} l = Ok out
  /\ Forall (fun a => match a with Load d => 0 <= d < n | Launch _ r => forall d, 0 <= d < n -> fits (L d) r end) l
  /\ exists d b r, In (d, b, r) out /\ ~ accepted (L d) b (rq_bytes r).
Proof.
  pose (r := {| rq_cuda_block_size := 192; rq_bytes := 400; rq_chunks := false |}).
  exists (a_machine None 2 mixed (Some 12020) opt_cuda), 2, mixed.
  eexists. exists [Load 0; Load 1; Launch 0 r]. eexists.
  split; [now apply a_usable|]. split; [vm_compute; reflexivity|].
  split; [vm_compute; reflexivity|]. split.
  - repeat constructor; try lia; cbn; try discriminate; unfold mixed; destruct (d =? 0); cbn; lia.
  - exists 0, 192, r. split; [now left|]. intros [_ H]. cbn in H. lia.
Qed.

Lemma stale_binder : exists m1 m2 n L1 L2 flags b l out,
  usable m1 n L1 /\ usable m2 n L2
  /\ env m1 "CUDA_VISIBLE_DEVICES" <> env m2 "CUDA_VISIBLE_DEVICES"
  /\ cuda_folder m1 <> cuda_folder m2 /\ build_folder m1 = build_folder m2
  /\ import_pykeops m2 (sessions [m1]) = (Ok (Some flags), b)
  /\ perform_all m2 flags {| globals := (0, 0); loaded := [] |} l = Ok out
  /\ Forall (only_device 0) l /\ Forall (fitting (L2 0)) l
  /\ exists d bx r, In (d, bx, r) out /\ ~ accepted (L2 d) bx (rq_bytes r).
Proof.
  pose (r := {| rq_cuda_block_size := 192; rq_bytes := 400; rq_chunks := false |}).
  exists (a_machine (Some "1"%string) 1 large (Some 12020) opt_cuda), (a_machine (Some "0"%string) 1 small (Some 12020) opt_cuda).
  exists 1, large, small. eexists. eexists. exists [Load 0; Launch 0 r]. eexists.
  split; [now apply a_usable|]. split; [now apply a_usable|].
  split; [discriminate|]. split; [discriminate|]. split; [reflexivity|].
  split; [vm_compute; reflexivity|]. split; [vm_compute; reflexivity|].
  split; [repeat constructor|]. split; [repeat constructor; cbn; (lia || discriminate)|].
  exists 0, 192, r. split; [now left|]. intros [_ H]. cbn in H. lia.
Qed.

Lemma no_cudart : exists m n L s, usable m n L /\ set_use_cuda m = Ok s /\ use_cuda s = true
  /\ import_keopscore m = PyErr.
Proof.
  exists (a_machine None 1 small None opt_cuda), 1, small. eexists.
  split; [now apply a_usable|]. split; [vm_compute; reflexivity|]. split; reflexivity.
Qed.

Lemma missing_folder : exists m m' n L,
  usable m n L /\ usable m' n L /\ env m "CUDA_VISIBLE_DEVICES" = None
  /\ env m' "CUDA_VISIBLE_DEVICES" = Some "0"%string
  /\ (forall p, is_file m p = is_file m' p) /\ (forall h, compiler_include m h = compiler_include m' h)
  /\ (exists s, import_keopscore m = Ok s /\ use_cuda s = true) /\ import_keopscore m' = PyErr.
Proof.
  exists (a_machine None 1 small (Some 12020) (fun _ => false)),
    (a_machine (Some "0"%string) 1 small (Some 12020) (fun _ => false)), 1, small.
  split; [now apply a_usable|]. split; [now apply a_usable|]. repeat split.
  eexists. split; [vm_compute; reflexivity|reflexivity].
Qed.

Definition broken : machine :=
  {| env := fun _ => None; home_cache := "/c"; platform_name := "p"; library := fun s => Some s;
     cudart_version := Some 12020; is_file := fun _ => false; is_dir := fun _ => false;
     compiler_include := fun _ => None; cu_init := true; cu_count := Some 2;
     cu_device := fun d => if d =? 0 then Some 0 else None; cu_attribute := fun _ _ => Some 1024 |}.

Lemma broken_not_usable : forall n L, ~ usable broken n L.
Proof.
  intros n L (_ & _ & _ & C & _ & Q). cbn in C. injection C as <-.
  destruct (Q 1 ltac:(lia)) as [h [H _]]. discriminate H.
Qed.

Lemma old_silent : exists m s, (forall n L, ~ usable m n L) /\ set_use_cuda m = Ok s /\ use_cuda s = false
  /\ fst (old_gpu_props m) = 2.
Proof.
  exists broken. eexists. split; [apply broken_not_usable|]. split; [vm_compute; reflexivity|].
  split; reflexivity.
Qed.
