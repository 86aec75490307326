(** Proofs about the layout of outputs. *)

From Coq Require Import ZArith Reals Arith List Bool String Lia Lra.
From Verif Require Import Result XReal Reductions Postprocess Layout LayoutSpec ReductionSpec LseSpec
  CpuReduc C06Proofs C07Proofs C09Proofs.
Import ListNotations.
Local Open Scope nat_scope.

Lemma prod_app : forall l m, prod (l ++ m) = prod l * prod m.
Proof. induction l; intros; simpl; [lia|]. rewrite IHl. lia. Qed.

Lemma entries_prod : forall l, entries_of l = prod l.
Proof. induction l; simpl; auto. Qed.

Lemma number_from_app : forall s1 i1 s2 i2 acc, List.length s1 = List.length i1 ->
  number_from acc (s1 ++ s2) (i1 ++ i2) = number_from (number_from acc s1 i1) s2 i2.
Proof.
  induction s1; intros [|i i1] s2 i2 acc H; simpl in *; try discriminate; auto.
Qed.

Lemma index_length : forall s i, index s i -> List.length s = List.length i.
Proof. induction 1; simpl; auto. Qed.

Lemma number_app : forall s1 i1 s2 i2, index s1 i1 ->
  number (s1 ++ s2) (i1 ++ i2) = number_from (number s1 i1) s2 i2.
Proof. intros. apply number_from_app. now apply index_length. Qed.

Lemma number_from_bound : forall s i, index s i -> forall acc n, acc < n ->
  number_from acc s i < n * prod s.
Proof.
  induction 1; intros acc m Hm; simpl; [lia|].
  specialize (IHForall2 (acc * y + x) (m * y)). nia.
Qed.

Lemma number_bound : forall s i, index s i -> number s i < prod s.
Proof. intros s i H. pose proof (number_from_bound s i H 0 1). unfold number. lia. Qed.

Lemma index_app : forall s1 i1 s2 i2, index s1 i1 -> index s2 i2 -> index (s1 ++ s2) (i1 ++ i2).
Proof. intros. now apply Forall2_app. Qed.

(** Building blocks. *)
Lemma lead_app : forall A l d (f : nat -> A), lead (Arr (l ++ [d]) f) = l.
Proof. intros. unfold lead. cbn [shape]. apply removelast_last. Qed.
Lemma last_app : forall A l d (f : nat -> A), last_dim (Arr (l ++ [d]) f) = d.
Proof. intros. unfold last_dim. cbn [shape]. apply last_last. Qed.

Lemma map_somes : forall v l, map (fun d => match d with Some n => n | None => v end) (somes l) = l.
Proof. intros. unfold somes. rewrite map_map. apply map_id. Qed.

Lemma unknowns_somes : forall l m, unknowns (somes l ++ m) = unknowns m.
Proof. intros. unfold unknowns. induction l; simpl; auto. Qed.

Lemma known_somes : forall l m, known (somes l ++ m) = prod l * known m.
Proof. intros. unfold known. rewrite map_app, map_somes, prod_app. reflexivity. Qed.

Lemma view_split : forall A l dims d (f : nat -> A), 0 < prod l -> 0 < prod dims -> 0 < d ->
  view (Arr (l ++ [prod dims * d]) f) (somes l ++ (somes dims ++ [None]))
  = Ok (Arr (l ++ dims ++ [d]) f).
Proof.
  intros A l dims d f Hl Hd Hf. unfold view. cbn [shape flat].
  rewrite unknowns_somes, unknowns_somes. cbn [unknowns filter List.length].
  rewrite !known_somes. unfold known at 1 2 3. cbn [map prod fold_right].
  rewrite !prod_app. cbn [prod fold_right]. fold (prod dims).
  destruct (Nat.eqb_spec (prod l * (prod dims * (1 * 1))) 0); [nia|].
  replace (prod l * (prod dims * d * 1)) with (d * (prod l * (prod dims * (1 * 1)))) by lia.
  rewrite Nat.mod_mul by auto. cbn [Nat.eqb]. rewrite Nat.div_mul by auto.
  rewrite !map_app, !map_somes. reflexivity.
Qed.

Lemma view_empty : forall A l dims d (f : nat -> A), prod l * prod dims = 0 ->
  view (Arr (l ++ [d]) f) (somes l ++ (somes dims ++ [None])) = PyErr.
Proof.
  intros A l dims d f H. unfold view. rewrite unknowns_somes, unknowns_somes.
  cbn [unknowns filter List.length]. rewrite !known_somes.
  unfold known. cbn [map prod fold_right].
  destruct (Nat.eqb_spec (prod l * (prod dims * (1 * 1))) 0); auto. lia.
Qed.

Lemma select_row_shape : forall A l n d (f : nat -> A) k, k < n ->
  select_row k (Arr (l ++ [n; d]) f)
  = Ok (Arr (l ++ [d]) (fun p => f (p / d * (n * d) + k * d + p mod d))).
Proof.
  intros. unfold select_row. cbn [shape flat]. rewrite rev_app_distr. cbn [rev app].
  destruct (Nat.ltb_spec k n); [|lia]. now rewrite rev_involutive.
Qed.

Lemma divmod_pos : forall R d k, k < d -> (R * d + k) / d = R /\ (R * d + k) mod d = k.
Proof.
  intros R d k H. split.
  - symmetry. apply (Nat.div_unique _ _ _ k); lia.
  - symmetry. apply (Nat.mod_unique _ _ R); lia.
Qed.

Lemma buffer_cell : forall l dim row R q, q < dim -> flat (buffer l dim row) (R * dim + q) = row R q.
Proof.
  intros l dim row n q H. unfold buffer. cbn [flat]. destruct (divmod_pos n dim q H) as [-> ->]. reflexivity.
Qed.

Lemma squeeze_k : forall A l K f (g : nat -> A),
  squeeze_last (Arr (l ++ [K] ++ [f]) g) = Arr (l ++ kshape K f) g.
Proof.
  intros. unfold squeeze_last, kshape. rewrite app_assoc, last_app, lead_app. cbn [flat].
  destruct (Nat.eqb f 1); auto. now rewrite <- app_assoc.
Qed.

Lemma number_k : forall l idx K f s k, index l idx -> k < f ->
  number (l ++ kshape K f) (idx ++ kindex f s k) = number l idx * (K * f) + (s * f + k).
Proof.
  intros l idx K f s k H Hk. rewrite number_app by auto. unfold kshape, kindex.
  destruct (Nat.eqb_spec f 1); cbn [number_from]; [|lia].
  subst. lia.
Qed.

Lemma in_slot : forall s K f k, s < K -> k < f -> s * f + k < K * f.
Proof. intros. nia. Qed.

(** The branches of [postprocess]. *)
Definition kmin_branch (K : nat) (out : arr xr) : res output :=
  do out <- view out (somes (lead out) ++ [Some K; None]) ; Ok (Floats (squeeze_last out)).
Lemma post_KMin : forall K out, postprocess "KMin" K out = kmin_branch K out.
Proof. reflexivity. Qed.

Definition argkmin_branch (K : nat) (out : arr xr) : res output :=
  do out <- view (long out) (somes (lead out) ++ [Some K; None]) ; Ok (Longs (squeeze_last out)).
Lemma post_ArgKMin : forall K out, postprocess "ArgKMin" K out = argkmin_branch K out.
Proof. reflexivity. Qed.

Definition both_branch (K : nat) (out : arr xr) : res output :=
  do out <- view out (somes (lead out) ++ [Some K; Some 2; None]) ;
  do vals <- select_row 0 out ;
  do indices <- select_row 1 out ;
  if Nat.eqb (last_dim vals) 1
  then Ok (Pair (squeeze_last vals) (squeeze_last (long indices)))
  else Ok (Pair vals (long indices)).
Lemma post_both : forall op K out, In op ["KMin_ArgKMin"; "KMinArgKMin"]%string ->
  postprocess op K out = both_branch K out.
Proof. intros op K out [H|[H|[]]]; subst; reflexivity. Qed.

Definition opt_branch (out : arr xr) : res output :=
  do tmp <- view out (somes (lead out) ++ [Some 2; None]) ;
  do vals <- select_row 0 tmp ;
  do indices <- select_row 1 tmp ;
  Ok (Pair vals (long indices)).
Lemma post_opt : forall op K out,
  In op ["Min_ArgMin"; "MinArgMin"; "Max_ArgMax"; "MaxArgMax"]%string ->
  postprocess op K out = opt_branch out.
Proof. intros op K out [H|[H|[H|[H|[]]]]]; subst; reflexivity. Qed.

Definition softmax_branch (out : arr xr) : res output :=
  do num <- from_last 2 out ;
  do den <- select_last 1 out ;
  do q <- broadcast_last xdiv num (add_last den) ;
  Ok (Floats q).
Lemma post_softmax : forall op K out, In op ["SumSoftMaxWeight"; "SoftMax"]%string ->
  postprocess op K out = softmax_branch out.
Proof. intros op K out [H|[H|[]]]; subst; reflexivity. Qed.

Definition lse_branch (out : arr xr) : res output :=
  if Nat.eqb (last_dim out) 2 then
    do m <- select_last 0 out ;
    do s <- select_last 1 out ;
    Ok (Floats (add_last (Arr (shape m) (fun p => xadd (flat m p) (xlog (flat s p))))))
  else
    do m <- select_last 0 out ;
    do s <- from_last 1 out ;
    do r <- broadcast_last xadd (add_last m) (amap xlog s) ;
    Ok (Floats r).
Lemma post_lse : forall K out, postprocess "LogSumExp" K out = lse_branch out.
Proof. reflexivity. Qed.

Section Kmin.
Variables (l : list nat) (K f : nat) (terms : nat -> list (Z * cells)).
Hypothesis Hl : 0 < prod l.
Hypothesis HK : 0 < K.
Hypothesis Hf : 0 < f.
Hypothesis good : forall r, r < prod l -> finite_seq f (terms r).
Let row (o : optarg_out) (r : nat) : cells :=
  rfinal (KMin_Red o K f) (run (KMin_Red o K f) (terms r) (rinit (KMin_Red o K f))).

Lemma view_K : forall A (g : nat -> A),
  view (Arr (l ++ [K * f]) g) (somes l ++ [Some K; None]) = Ok (Arr (l ++ [K] ++ [f]) g).
Proof.
  intros A g. pose proof (view_split A l [K] f g) as V. cbn [prod fold_right somes map] in V.
  rewrite Nat.mul_1_r in V. now apply V.
Qed.

Lemma post_kmin :
  exists a, postprocess "KMin" K (buffer l (rdim (KMin_Red OVal K f)) (row OVal)) = Ok (Floats a)
  /\ shape a = l ++ kshape K f
  /\ forall idx k, index l idx -> k < f ->
     exists L, k_smallest K (map (fun p => (snd p k, fst p)) (terms (number l idx))) L /\ List.length L = K
     /\ forall s v i, nth_error L s = Some (v, i) ->
        flat a (number (shape a) (idx ++ kindex f s k)) = v.
Proof.
  change (rdim (KMin_Red OVal K f)) with (K * f). rewrite post_KMin. unfold kmin_branch.
  unfold buffer. rewrite lead_app, view_K. cbn [rbind]. rewrite squeeze_k.
  eexists. split; [reflexivity|]. cbn [shape flat]. split; [reflexivity|].
  intros idx k Hi Hk.
  destruct (kmin_correct K f (terms (number l idx)) (good _ (number_bound _ _ Hi)) k Hk)
    as (L & HL & Len & Cells).
  exists L. split; [exact HL|]. split; [exact Len|]. intros s v i E.
  assert (Hs : s < K) by (rewrite <- Len; apply nth_error_Some; congruence).
  rewrite number_k by auto.
  destruct (divmod_pos (number l idx) (K * f) (s * f + k) (in_slot s K f k Hs Hk)) as [D M].
  rewrite D, M. exact (proj1 (Cells s v i E)).
Qed.

Lemma post_argkmin :
  exists a, postprocess "ArgKMin" K (buffer l (rdim (KMin_Red OArg K f)) (row OArg)) = Ok (Longs a)
  /\ shape a = l ++ kshape K f
  /\ forall idx k, index l idx -> k < f ->
     exists L, k_smallest K (map (fun p => (snd p k, fst p)) (terms (number l idx))) L /\ List.length L = K
     /\ forall s v i, nth_error L s = Some (v, i) ->
        flat a (number (shape a) (idx ++ kindex f s k)) = i.
Proof.
  change (rdim (KMin_Red OArg K f)) with (K * f). rewrite post_ArgKMin. unfold argkmin_branch.
  unfold buffer, long, amap. cbn [shape flat]. rewrite lead_app, view_K. cbn [rbind]. rewrite squeeze_k.
  eexists. split; [reflexivity|]. cbn [shape flat]. split; [reflexivity|].
  intros idx k Hi Hk.
  destruct (kmin_correct K f (terms (number l idx)) (good _ (number_bound _ _ Hi)) k Hk)
    as (L & HL & Len & Cells).
  exists L. split; [exact HL|]. split; [exact Len|]. intros s v i E.
  assert (Hs : s < K) by (rewrite <- Len; apply nth_error_Some; congruence).
  rewrite number_k by auto.
  destruct (divmod_pos (number l idx) (K * f) (s * f + k) (in_slot s K f k Hs Hk)) as [D M].
  rewrite D, M. etransitivity; [|apply (to_of_long i)]. f_equal.
  exact (proj1 (proj2 (Cells s v i E))).
Qed.

Lemma post_kmin_both : forall op, In op ["KMin_ArgKMin"; "KMinArgKMin"]%string ->
  exists a b, postprocess op K (buffer l (rdim (KMin_Red OBoth K f)) (row OBoth)) = Ok (Pair a b)
  /\ shape a = l ++ kshape K f /\ shape b = l ++ kshape K f
  /\ forall idx k, index l idx -> k < f ->
     exists L, k_smallest K (map (fun p => (snd p k, fst p)) (terms (number l idx))) L /\ List.length L = K
     /\ forall s v i, nth_error L s = Some (v, i) ->
        flat a (number (shape a) (idx ++ kindex f s k)) = v
        /\ flat b (number (shape b) (idx ++ kindex f s k)) = i.
Proof.
  intros op Hop. change (rdim (KMin_Red OBoth K f)) with (2 * K * f). rewrite post_both by auto.
  unfold both_branch, buffer. rewrite lead_app.
  pose proof (view_split xr l [K; 2] f (fun p => row OBoth (p / (2 * K * f)) (p mod (2 * K * f)))) as V.
  cbn [prod fold_right somes map] in V. replace (K * (2 * 1) * f) with (2 * K * f) in V by lia.
  cbn [app] in V. rewrite V by lia. cbn [rbind].
  replace (l ++ [K; 2; f]) with ((l ++ [K]) ++ [2; f]) by (rewrite <- app_assoc; reflexivity).
  rewrite !select_row_shape by lia. cbn [rbind].
  rewrite last_app.
  match goal with |- context [if Nat.eqb f 1 then Ok (Pair (squeeze_last ?a) (squeeze_last (long ?b))) else _] =>
    replace (if Nat.eqb f 1 then Ok (Pair (squeeze_last a) (squeeze_last (long b))) else Ok (Pair a (long b)))
      with (Ok (Pair (Arr (l ++ kshape K f) (flat a)) (Arr (l ++ kshape K f) (flat (long b))))) end.
  2:{ rewrite <- app_assoc.
      match goal with |- context [squeeze_last (Arr _ ?g)] => rewrite (squeeze_k _ l K f g) end.
      unfold long, amap. cbn [shape flat]. rewrite squeeze_k. unfold kshape.
      destruct (Nat.eqb f 1); reflexivity. }
  eexists. eexists. split; [reflexivity|]. unfold long, amap. cbn [shape flat]. split; [reflexivity|]. split; [reflexivity|].
  intros idx k Hi Hk.
  destruct (kmin_correct K f (terms (number l idx)) (good _ (number_bound _ _ Hi)) k Hk)
    as (L & HL & Len & Cells).
  exists L. split; [exact HL|]. split; [exact Len|]. intros s v i E.
  assert (Hs : s < K) by (rewrite <- Len; apply nth_error_Some; congruence).
  rewrite number_k by auto.
  replace (number l idx * (K * f) + (s * f + k)) with ((number l idx * K + s) * f + k) by lia.
  destruct (divmod_pos (number l idx * K + s) f k Hk) as [D M]. rewrite D, M.
  replace ((number l idx * K + s) * (2 * f) + 0 * f + k)
    with (number l idx * (2 * K * f) + (2 * s * f + k)) by lia.
  replace ((number l idx * K + s) * (2 * f) + 1 * f + k)
    with (number l idx * (2 * K * f) + ((2 * s + 1) * f + k)) by lia.
  destruct (divmod_pos (number l idx) (2 * K * f) (2 * s * f + k)) as [D1 M1]; [nia|].
  destruct (divmod_pos (number l idx) (2 * K * f) ((2 * s + 1) * f + k)) as [D2 M2]; [nia|].
  rewrite D1, M1, D2, M2. destruct (Cells s v i E) as (_ & _ & C1 & C2). split.
  - exact C1.
  - etransitivity; [|apply (to_of_long i)]. f_equal. exact C2.
Qed.
End Kmin.

Lemma view_kmin_empty : forall l K f row op, In op ["KMin"; "ArgKMin"; "KMin_ArgKMin"; "KMinArgKMin"]%string ->
  prod l = 0 -> postprocess op K (buffer l f row) = PyErr.
Proof.
  intros l K f row op [H|[H|[H|[H|[]]]]] P; subst op.
  - rewrite post_KMin. unfold kmin_branch, buffer. rewrite lead_app.
    pose proof (view_empty xr l [K] f (fun p => row (p / f) (p mod f))) as V.
    cbn [somes map app] in V. rewrite V by (rewrite P; reflexivity). reflexivity.
  - rewrite post_ArgKMin. unfold argkmin_branch, buffer, long, amap. cbn [shape flat]. rewrite lead_app.
    pose proof (view_empty Z l [K] f (fun p => to_long (row (p / f) (p mod f)))) as V.
    cbn [somes map app] in V. rewrite V by (rewrite P; reflexivity). reflexivity.
  - rewrite post_both by (simpl; auto). unfold both_branch, buffer. rewrite lead_app.
    pose proof (view_empty xr l [K; 2] f (fun p => row (p / f) (p mod f))) as V.
    cbn [somes map app] in V. rewrite V by (rewrite P; reflexivity). reflexivity.
  - rewrite post_both by (simpl; auto). unfold both_branch, buffer. rewrite lead_app.
    pose proof (view_empty xr l [K; 2] f (fun p => row (p / f) (p mod f))) as V.
    cbn [somes map app] in V. rewrite V by (rewrite P; reflexivity). reflexivity.
Qed.

(** ** Minimum and maximum *)

Lemma number_1 : forall l idx d k, index l idx -> number (l ++ [d]) (idx ++ [k]) = number l idx * d + k.
Proof. intros. rewrite number_app by auto. reflexivity. Qed.

Section Opt.
Variables (mx : bool) (l : list nat) (d n K : nat) (F : nat -> nat -> cells).
Hypothesis Hl : 0 < prod l.
Hypothesis Hd : 0 < d.
Hypothesis Hn : 0 < n.
Hypothesis good : forall r j k, r < prod l -> j < n -> k < d -> F r j k <> NaN.
Let row (o : optarg_out) (r : nat) : cells :=
  rfinal (OptArg_Red mx o d) (run (OptArg_Red mx o d) (dense n (F r)) (rinit (OptArg_Red mx o d))).

Lemma opt_at : forall r k, r < prod l -> k < d ->
  exists i, i < n /\ row OBoth r k = F r i k /\ row OBoth r (d + k) = of_long (Z.of_nat i)
  /\ row OArg r k = of_long (Z.of_nat i)
  /\ (forall j, j < n -> as_good mx (F r i k) (F r j k)) /\ (forall j, j < i -> F r j k <> F r i k).
Proof.
  intros r k Hr Hk.
  destruct (optarg_dense mx d n (F r) (fun j k Hj Hk => good r j k Hr Hj Hk) k Hk) as [_ H].
  destruct (H Hn) as (i & Hi & A & B & C & _ & E & G). exists i. repeat split; auto.
Qed.

Lemma post_min_argmin : forall op,
  In op (if mx then ["Max_ArgMax"; "MaxArgMax"] else ["Min_ArgMin"; "MinArgMin"])%string ->
  exists a b, postprocess op K (buffer l (rdim (OptArg_Red mx OBoth d)) (row OBoth)) = Ok (Pair a b)
  /\ shape a = l ++ [d] /\ shape b = l ++ [d]
  /\ forall idx k, index l idx -> k < d ->
     let r := number l idx in
     exists i, i < n /\ flat a (number (shape a) (idx ++ [k])) = F r i k
     /\ flat b (number (shape b) (idx ++ [k])) = Z.of_nat i
     /\ (forall j, j < n -> as_good mx (F r i k) (F r j k)) /\ (forall j, j < i -> F r j k <> F r i k).
Proof.
  intros op Hop. change (rdim (OptArg_Red mx OBoth d)) with (2 * d).
  rewrite post_opt by (destruct mx; simpl in *; tauto).
  unfold opt_branch, buffer. rewrite lead_app.
  pose proof (view_split xr l [2] d (fun p => row OBoth (p / (2 * d)) (p mod (2 * d)))) as V.
  cbn [prod fold_right somes map app] in V. rewrite Nat.mul_1_r in V. rewrite V by lia. cbn [rbind].
  rewrite !select_row_shape by lia. cbn [rbind].
  eexists. eexists. split; [reflexivity|]. unfold long, amap. cbn [shape flat].
  split; [reflexivity|]. split; [reflexivity|]. intros idx k Hi Hk. cbv zeta. set (r := number l idx) in *.
  destruct (opt_at r k (number_bound _ _ Hi) Hk) as (i & Hin & A & B & _ & C).
  exists i. split; [exact Hin|]. rewrite number_1 by auto. fold r.
  destruct (divmod_pos r d k Hk) as [D M]. rewrite D, M.
  replace (r * (2 * d) + 0 * d + k) with (r * (2 * d) + k) by lia.
  replace (r * (2 * d) + 1 * d + k) with (r * (2 * d) + (d + k)) by lia.
  destruct (divmod_pos r (2 * d) k) as [D1 M1]; [lia|].
  destruct (divmod_pos r (2 * d) (d + k)) as [D2 M2]; [lia|].
  rewrite D1, M1, D2, M2, A, B, to_of_long. auto.
Qed.

Lemma post_argmin : 
  exists b, postprocess (if mx then "ArgMax" else "ArgMin")%string K
              (buffer l (rdim (OptArg_Red mx OArg d)) (row OArg)) = Ok (Longs b)
  /\ shape b = l ++ [d]
  /\ forall idx k, index l idx -> k < d ->
     let r := number l idx in
     exists i, i < n /\ flat b (number (shape b) (idx ++ [k])) = Z.of_nat i
     /\ (forall j, j < n -> as_good mx (F r i k) (F r j k)) /\ (forall j, j < i -> F r j k <> F r i k).
Proof.
  exists (long (buffer l d (row OArg))). split; [destruct mx; reflexivity|]. split; [reflexivity|].
  intros idx k Hi Hk r.
  destruct (opt_at r k (number_bound _ _ Hi) Hk) as (i & Hin & _ & _ & B & C).
  exists i. split; [exact Hin|]. unfold long, amap, buffer. cbn [shape flat].
  rewrite number_1 by auto. fold r. destruct (divmod_pos r d k Hk) as [D M]. rewrite D, M.
  rewrite B, to_of_long. auto.
Qed.
End Opt.

(** ** Softmax and log-sum-exp *)

Lemma lead_add : forall A (a : arr A), lead (add_last a) = shape a.
Proof. intros. unfold add_last. now rewrite lead_app. Qed.
Lemma last_add : forall A (a : arr A), last_dim (add_last a) = 1.
Proof. intros. unfold add_last. now rewrite last_app. Qed.

Lemma select_last_app : forall A l d (f : nat -> A) k, k < d ->
  select_last k (Arr (l ++ [d]) f) = Ok (Arr l (fun p => f (p * d + k))).
Proof.
  intros. unfold select_last. rewrite last_app, lead_app. cbn [shape flat].
  destruct (Nat.ltb_spec k d); [|lia]. destruct l; reflexivity.
Qed.
Lemma from_last_app : forall A l d (f : nat -> A) k,
  from_last k (Arr (l ++ [d]) f) = Ok (Arr (l ++ [d - k]) (fun p => f (p / (d - k) * d + k + p mod (d - k)))).
Proof.
  intros. unfold from_last. rewrite last_app, lead_app. cbn [shape flat]. destruct l; reflexivity.
Qed.

Section Lse.
Variables (l : list nat) (n K : nat) (s : scheme) (e : nat -> nat -> entry).
Hypothesis Hn : 0 < n.
Hypothesis Hs : s <> kahan_scheme.
Variable row : nat -> cells.

Lemma post_softmax_rows : forall d op, In op ["SumSoftMaxWeight"; "SoftMax"]%string ->
  (forall r j, r < prod l -> j < n -> fst (e r j) <> None /\ snd (e r j) 0 = 1%R) ->
  (forall r, r < prod l -> cpu_row (LSE_Red (S d)) s n (lse_terms (e r)) = Ok (row r)) ->
  exists a, postprocess op K (buffer l (rdim (LSE_Red (S d))) row) = Ok (Floats a)
  /\ shape a = l ++ [d]
  /\ forall idx k, index l idx -> k < d ->
     let t := taken n (e (number l idx)) in
     flat a (number (shape a) (idx ++ [k])) = Fin (exp_sum (S k) t / exp_sum 0 t).
Proof.
  intros d op Hop H Hrow. change (rdim (LSE_Red (S d))) with (S (S d)). rewrite post_softmax by auto.
  unfold softmax_branch, buffer. rewrite from_last_app, select_last_app by lia. cbn [rbind].
  unfold broadcast_last. rewrite lead_app, lead_add, last_add, last_app. cbn [shape flat add_last Nat.eqb].
  destruct (list_eq_dec Nat.eq_dec l l); [|congruence]. cbn [rbind].
  replace (S (S d) - 2) with d by lia.
  eexists. split; [reflexivity|]. cbn [shape flat]. split; [reflexivity|].
  intros idx k Hi Hk. cbv zeta. rewrite number_1 by auto. set (r := number l idx) in *.
  assert (Hr : r < prod l) by now apply number_bound.
  destruct (divmod_pos r d k Hk) as [D M]. rewrite D, M.
  replace (r * S (S d) + 2 + k) with (r * S (S d) + S (S k)) by lia.
  destruct (divmod_pos r (S (S d)) (S (S k))) as [D1 M1]; [lia|].
  destruct (divmod_pos r (S (S d)) 1) as [D2 M2]; [lia|].
  rewrite D1, M1, D2, M2.
  destruct (user_softmax s d n (e r) Hn (fun j Hj => H r j Hr Hj) Hs) as (out & E & R).
  rewrite (Hrow r Hr) in E. injection E as E. subst out. exact (R k Hk).
Qed.

Lemma post_lse_rows : forall d, 0 < d ->
  (forall r j, r < prod l -> j < n -> fst (e r j) <> None) ->
  (forall r, r < prod l -> cpu_row (LSE_Red d) s n (lse_terms (e r)) = Ok (row r)) ->
  exists a, postprocess "LogSumExp" K (buffer l (rdim (LSE_Red d)) row) = Ok (Floats a)
  /\ shape a = l ++ [d]
  /\ forall idx k, index l idx -> k < d ->
     let t := taken n (e (number l idx)) in
     (0 < exp_sum k t)%R ->
     flat a (number (shape a) (idx ++ [k])) = Fin (ln (exp_sum k t)).
Proof.
  intros d Hd H Hrow. change (rdim (LSE_Red d)) with (S d). rewrite post_lse.
  unfold lse_branch, buffer. rewrite last_app.
  rewrite !select_last_app by lia. rewrite from_last_app. cbn [rbind].
  assert (G : forall g : nat -> xr, (forall r k, r < prod l -> k < d -> g (r * d + k) = lse_post (row r) k) ->
    forall idx k, index l idx -> k < d ->
     let t := taken n (e (number l idx)) in
     (0 < exp_sum k t)%R ->
     g (number (l ++ [d]) (idx ++ [k])) = Fin (ln (exp_sum k t))).
  { intros g Hg idx k Hi Hk t Ht. rewrite number_1 by auto.
    assert (Hr := number_bound _ _ Hi). rewrite Hg by auto.
    destruct (user_logsumexp s d n (e (number l idx)) Hn (fun j Hj => H _ j Hr Hj) Hs) as (out & E & R).
    rewrite (Hrow _ Hr) in E. injection E as E. subst out. now apply R. }
  destruct (Nat.eqb_spec (S d) 2) as [E|E].
  - assert (d = 1) by lia. subst d. eexists. split; [reflexivity|]. unfold add_last. cbn [shape].
    split; [reflexivity|]. match goal with |- context [flat (Arr _ ?g)] => refine (G g _) end.
    intros r k Hr Hk. assert (k = 0) by lia. subst k. cbn [flat].
    replace (r * 1 + 0) with r by lia. unfold lse_post.
    destruct (divmod_pos r 2 0) as [D1 M1]; [lia|].
    destruct (divmod_pos r 2 1) as [D2 M2]; [lia|]. now rewrite D1, M1, D2, M2.
  - replace (S d - 1) with d by lia. unfold broadcast_last. rewrite lead_add, last_add.
    unfold amap. cbn [shape flat]. rewrite lead_app, last_app.
    destruct (list_eq_dec Nat.eq_dec l l); [|congruence].
    destruct (Nat.eqb_spec d 1); [lia|]. cbn [Nat.eqb rbind].
    eexists. split; [reflexivity|]. cbn [shape]. split; [reflexivity|].
    match goal with |- context [flat (Arr _ ?g)] => refine (G g _) end.
    intros r k Hr Hk. unfold lse_post. cbn [flat add_last].
    destruct (divmod_pos r d k Hk) as [D M]. rewrite D, M.
    destruct (divmod_pos r (S d) 0) as [D1 M1]; [lia|]. rewrite D1, M1.
    replace (r * S d + 1 + k) with (r * S d + S k) by lia.
    destruct (divmod_pos r (S d) (S k)) as [D2 M2]; [lia|]. now rewrite D2, M2.
Qed.
End Lse.

Lemma lse_weight : forall l K d row,
  preprocess "LogSumExpWeight" true = preprocess "LogSumExp" true
  /\ exists a, postprocess "LogSumExpWeight" K (buffer l (rdim (LSE_Red d)) row) = Ok (Floats a)
     /\ shape a <> l ++ [d]
     /\ forall idx, index l idx -> flat a (number (shape a) (idx ++ [0])) = row (number l idx) 0.
Proof.
  intros. split; [reflexivity|]. eexists. split; [reflexivity|]. cbn [shape buffer]. split.
  - change (rdim (LSE_Red d)) with (S d). intros H. apply app_inv_head in H. inversion H. lia.
  - intros idx Hi. rewrite number_1 by auto. cbn [buffer flat rdim LSE_Red].
    destruct (divmod_pos (number l idx) (S d) 0) as [D M]; [lia|]. now rewrite D, M.
Qed.

(** ** From the name given by the user *)
Lemma exp_sum_app : forall k a b, exp_sum k (a ++ b) = (exp_sum k a + exp_sum k b)%R.
Proof.
  induction a as [|[[f|] w] a IH]; intros b; cbn [exp_sum app]; rewrite ?IH; lra.
Qed.

Lemma exp_weighted_taken : forall n v w k,
  exp_sum k (taken n (fun j => (Some (v j), w j))) = exp_weighted n v (fun j => w j k).
Proof.
  induction n as [|n IH]; intros v w k; [reflexivity|]. unfold taken in *.
  rewrite seq_S, map_app, exp_sum_app, IH. cbn [map exp_sum exp_weighted Nat.add]. lra.
Qed.

Lemma exp_weighted_pos : forall n v, 0 < n -> (0 < exp_weighted n v (fun _ => 1))%R.
Proof.
  intros [|n] v H; [lia|]. clear H. induction n as [|n IH]; cbn [exp_weighted] in *.
  - pose proof (exp_pos (v 0)). lra.
  - pose proof (exp_pos (v (S n))). lra.
Qed.

Lemma user_softmax : forall l n K s d op (v : nat -> nat -> R) (w : nat -> nat -> nat -> R),
  0 < n -> s <> kahan_scheme -> In op ["SumSoftMaxWeight"; "SoftMax"]%string ->
  exists name sec red, preprocess op true = Ok (name, sec) /\ engine_red name sec d = Some red
  /\ forall row,
    (forall r, r < prod l ->
       cpu_row red s n (lse_terms (fun j => (Some (v r j), engine_weight sec (w r j)))) = Ok (row r)) ->
    exists a, postprocess op K (buffer l (rdim red) row) = Ok (Floats a)
    /\ shape a = l ++ [d]
    /\ forall idx k, index l idx -> k < d ->
       let r := number l idx in
       flat a (number (shape a) (idx ++ [k]))
       = Fin (exp_weighted n (v r) (fun j => w r j k) / exp_weighted n (v r) (fun _ => 1%R)).
Proof.
  intros l n K s d op v w Hn Hs Hop.
  assert (E : preprocess op true = Ok ("Max_SumShiftExpWeight"%string, WithOne))
    by (destruct Hop as [<-|[<-|[]]]; reflexivity).
  exists "Max_SumShiftExpWeight"%string, WithOne, (LSE_Red (S d)).
  split; [exact E|]. split; [reflexivity|]. intros row Hrow.
  destruct (post_softmax_rows l n K s (fun r j => (Some (v r j), engine_weight WithOne (w r j))) Hn Hs row d op Hop)
    as (a & Ea & Es & H).
  - intros r j _ _. split; [discriminate|reflexivity].
  - exact Hrow.
  - exists a. split; [exact Ea|]. split; [exact Es|]. intros idx k Hi Hk. cbv zeta.
    rewrite (H idx k Hi Hk). cbv zeta. now rewrite !exp_weighted_taken.
Qed.

Lemma user_lse : forall l n K s d (formula2 : bool) (v : nat -> nat -> R) (w : nat -> nat -> nat -> R),
  0 < n -> s <> kahan_scheme -> 0 < d ->
  exists name sec red, preprocess "LogSumExp" formula2 = Ok (name, sec) /\ engine_red name sec d = Some red
  /\ forall row,
    (forall r, r < prod l ->
       cpu_row red s n (lse_terms (fun j => (Some (v r j), engine_weight sec (w r j)))) = Ok (row r)) ->
    exists a, postprocess "LogSumExp" K (buffer l (rdim red) row) = Ok (Floats a)
    /\ shape a = l ++ [if formula2 then d else 1]
    /\ forall idx k, index l idx -> k < (if formula2 then d else 1) ->
       let r := number l idx in
       let total := exp_weighted n (v r) (fun j => if formula2 then w r j k else 1%R) in
       (0 < total)%R -> flat a (number (shape a) (idx ++ [k])) = Fin (ln total).
Proof.
  intros l n K s d f2 v w Hn Hs Hd.
  assert (E : preprocess "LogSumExp" f2
    = Ok (if f2 then "Max_SumShiftExpWeight" else "Max_SumShiftExp", if f2 then Given else NoSecond)%string)
    by (destruct f2; reflexivity).
  exists (if f2 then "Max_SumShiftExpWeight" else "Max_SumShiftExp")%string, (if f2 then Given else NoSecond),
    (LSE_Red (if f2 then d else 1)).
  split; [exact E|]. split; [destruct f2; reflexivity|]. intros row Hrow.
  assert (Hrow' : forall r, r < prod l -> cpu_row (LSE_Red (if f2 then d else 1)) s n
    (lse_terms (fun j => (Some (v r j), engine_weight (if f2 then Given else NoSecond) (w r j)))) = Ok (row r)).
  { destruct f2; exact Hrow. }
  destruct (post_lse_rows l n K s (fun r j => (Some (v r j), engine_weight (if f2 then Given else NoSecond) (w r j)))
    Hn Hs row (if f2 then d else 1)) as (a & Ea & Es & H).
  - destruct f2; lia.
  - discriminate.
  - exact Hrow'.
  - exists a. split; [destruct f2; exact Ea|]. split; [exact Es|]. intros idx k Hi Hk. cbv zeta.
    specialize (H idx k Hi Hk). cbv zeta in H. rewrite exp_weighted_taken in H.
    destruct f2; exact H.
Qed.
