(** Shapes of gradients: proofs. *)

From Coq Require Import Reals List Bool Arith Lia Lra.
From Verif Require Import Result BackShape BackShapeSpec.
Import ListNotations.
Local Open Scope nat_scope.

Lemma addup_ext : forall n u w, (forall k, k < n -> u k = w k) -> addup n u = addup n w.
Proof. induction n; intros u w H; cbn; auto. rewrite (IHn u w), (H n); auto. Qed.
Lemma addup_plus : forall n u w, addup n (fun k => u k + w k)%R = (addup n u + addup n w)%R.
Proof. induction n; intros; cbn; [ring|]. rewrite IHn. ring. Qed.
Lemma addup_0 : forall n, addup n (fun _ => 0%R) = 0%R.
Proof. induction n; cbn; auto. rewrite IHn. ring. Qed.
Lemma addup_swap : forall n m (u : nat -> nat -> R),
  addup n (fun i => addup m (fun j => u i j)) = addup m (fun j => addup n (fun i => u i j)).
Proof.
  induction n; intros m u; cbn.
  - rewrite addup_0. auto.
  - rewrite IHn. rewrite <- addup_plus. auto.
Qed.
Lemma addup_one : forall n i u, i < n -> addup n (fun k => if k =? i then u k else 0%R) = u i.
Proof.
  induction n; intros i u H; [lia|]. cbn. destruct (Nat.eq_dec i n) as [->|N].
  - rewrite Nat.eqb_refl. rewrite (addup_ext _ _ (fun _ => 0%R)), addup_0; [ring|].
    intros k K. destruct (k =? n) eqn:E; auto. apply Nat.eqb_eq in E. lia.
  - rewrite IHn by lia. destruct (n =? i) eqn:E; [apply Nat.eqb_eq in E; lia|ring].
Qed.

(** Sums over all the indices of a shape. *)
Fixpoint sall (s : list nat) (f : list nat -> R) : R :=
  match s with [] => f [] | n :: s' => addup n (fun a => sall s' (fun p => f (a :: p))) end.

Lemma so_app : forall A (l m : list A) f, sum_over (l ++ m) f = (sum_over l f + sum_over m f)%R.
Proof. induction l; intros m f; unfold sum_over in *; cbn; [ring|]. rewrite IHl. ring. Qed.
Lemma so_map : forall A B (h : A -> B) l f, sum_over (map h l) f = sum_over l (fun x => f (h x)).
Proof. intros. unfold sum_over. rewrite map_map. auto. Qed.
Lemma so_filter : forall A (q : A -> bool) l f,
  sum_over (filter q l) f = sum_over l (fun x => if q x then f x else 0%R).
Proof.
  induction l; intros f; unfold sum_over in *; cbn; auto. destruct (q a); cbn; rewrite IHl; ring.
Qed.
Lemma seq_S' : forall n, seq 0 (S n) = seq 0 n ++ [n].
Proof. intros. rewrite seq_S. auto. Qed.
Lemma so_all : forall s f, sum_over (all_indices s) f = sall s f.
Proof.
  induction s as [|n s IH]; intros f; cbn [all_indices sall].
  - unfold sum_over. cbn. ring.
  - induction n as [|n IHn]; [reflexivity|]. rewrite seq_S'. rewrite flat_map_app, so_app, IHn.
    cbn [flat_map addup]. rewrite app_nil_r, so_map, IH. auto.
Qed.

Lemma sall_ext : forall s f g, (forall p, In p (all_indices s) -> f p = g p) -> sall s f = sall s g.
Proof.
  induction s as [|n s IH]; intros f g H; cbn; [apply H; left; auto|].
  apply addup_ext. intros k K. apply IH. intros p P. apply H. cbn [all_indices].
  apply in_flat_map. exists k. split; [apply in_seq; lia|apply in_map; auto].
Qed.
Lemma in_all_cons : forall n s i idx, In (i :: idx) (all_indices (n :: s)) <-> i < n /\ In idx (all_indices s).
Proof.
  intros n s i idx. cbn [all_indices]. rewrite in_flat_map. split.
  - intros (a & H1 & H2). apply in_seq in H1. apply in_map_iff in H2 as (p & E & H2).
    injection E as -> ->. split; [lia|auto].
  - intros [H1 H2]. exists i. split; [apply in_seq; lia|apply in_map; auto].
Qed.
Lemma in_all_nil : forall idx, In idx (all_indices []) -> idx = [].
Proof. intros idx [H|[]]. auto. Qed.
Lemma in_all_inv : forall n s idx, In idx (all_indices (n :: s)) ->
  exists i r, idx = i :: r /\ i < n /\ In r (all_indices s).
Proof.
  intros n s idx H. cbn [all_indices] in H. apply in_flat_map in H as (a & H1 & H2). apply in_seq in H1.
  apply in_map_iff in H2 as (p & <- & H2). exists a, p. split; [auto|]. split; [lia|auto].
Qed.
Lemma sall_0 : forall s, sall s (fun _ => 0%R) = 0%R.
Proof. induction s; cbn; auto. rewrite (addup_ext _ _ (fun _ => 0%R)), addup_0; auto. Qed.
Lemma sall_addup : forall s n (f : nat -> list nat -> R),
  addup n (fun k => sall s (f k)) = sall s (fun p => addup n (fun k => f k p)).
Proof.
  induction s as [|m s IH]; intros n f; cbn; auto. rewrite addup_swap. apply addup_ext. intros k K.
  apply IH.
Qed.

Lemma gathered_sall : forall a b g idx,
  gathered a b g idx = sall b (fun p => if same_index (seen a p) idx then g p else 0%R).
Proof. intros. unfold gathered. rewrite so_filter, so_all. auto. Qed.

Lemma gathered_keep : forall n a b g i idx, i < n ->
  gathered (n :: a) (n :: b) g (i :: idx) = gathered a b (fun p => g (i :: p)) idx.
Proof.
  intros n a b g i idx H. rewrite !gathered_sall. cbn [sall seen same_index].
  rewrite <- (addup_one n i (fun k => sall b (fun p => if same_index (seen a p) idx then g (k :: p) else 0%R))) by auto.
  apply addup_ext. intros k K.
  assert (E : ((if n =? 1 then 0 else k) =? i) = (k =? i)).
  { destruct (n =? 1) eqn:N; auto. apply Nat.eqb_eq in N. replace i with 0 by lia. replace k with 0 by lia. auto. }
  rewrite E. destruct (k =? i); auto. cbn [andb]. apply sall_0.
Qed.
Lemma gathered_sum : forall m a b g idx,
  gathered (1 :: a) (m :: b) g (0 :: idx) = gathered a b (fun p => addup m (fun k => g (k :: p))) idx.
Proof.
  intros m a b g idx. rewrite !gathered_sall. cbn [sall seen same_index Nat.eqb andb].
  rewrite sall_addup. apply sall_ext. intros p _. destruct (same_index _ _); auto. apply addup_0.
Qed.

Lemma gathered_ext : forall a b f g idx, (forall p, In p (all_indices b) -> f p = g p) ->
  gathered a b f idx = gathered a b g idx.
Proof.
  intros a b f g idx H. rewrite !gathered_sall. apply sall_ext. intros p P. destruct (same_index _ _); auto.
Qed.

(** [sum_dims]. *)
Lemma sum_shape : forall s k dims u w, fst (sum_dims k dims s u) = fst (sum_dims k dims s w).
Proof.
  induction s as [|n s IH]; intros k dims u w; cbn [sum_dims]; auto.
  destruct (existsb _ _).
  - specialize (IH (S k) dims (fun i => addup n (fun a => u (a * count s + i)))
      (fun i => addup n (fun a => w (a * count s + i)))).
    destruct (sum_dims (S k) dims s _) as [r1 w1]. destruct (sum_dims (S k) dims s _) as [r2 w2].
    cbn in *. rewrite IH. auto.
  - cbn. rewrite (IH (S k) dims u w). auto.
Qed.

Fixpoint dims_ok (k : nat) (a b dims : list nat) : Prop :=
  match a, b with
  | x :: a', y :: b' => existsb (Nat.eqb k) dims = (x <? y) /\ dims_ok (S k) a' b' dims
  | _, _ => True
  end.

Lemma pos_lt : forall s idx, In idx (all_indices s) -> position s idx < count s.
Proof.
  induction s as [|n s IH]; intros idx H.
  - apply in_all_nil in H as ->. cbn. lia.
  - apply in_all_inv in H as (i & r & -> & Hi & Hr). cbn [position count fold_right]. fold (count s).
    apply IH in Hr. nia.
Qed.

Lemma sum_dims_ok : forall a b, stretches a b -> forall k dims u, dims_ok k a b dims ->
  fst (sum_dims k dims b u) = a /\
  forall idx, In idx (all_indices a) ->
    snd (sum_dims k dims b u) (position a idx) = gathered a b (fun p => u (position b p)) idx.
Proof.
  intros a b S. induction S as [|x y a b H S IH]; intros k dims u D.
  - split; [auto|]. intros idx H. apply in_all_nil in H as ->. rewrite gathered_sall. auto.
  - cbn [dims_ok] in D. destruct D as [D1 D2]. cbn [sum_dims]. rewrite D1. destruct (x <? y) eqn:L.
    + apply Nat.ltb_lt in L. assert (x = 1) by lia. subst x.
      destruct (sum_dims _ _ b _) as [r w] eqn:E.
      assert (I := IH (Datatypes.S k) dims (fun i => addup y (fun a0 => u (a0 * count b + i))) D2).
      rewrite E in I. cbn [fst snd] in I |- *. destruct I as [I1 I2]. split; [subst; auto|].
      intros idx Hi. apply in_all_inv in Hi as (i & q & -> & Hi & Hq). assert (i = 0) by lia. subst i.
      rewrite gathered_sum. cbn [position]. rewrite Nat.mul_0_l, Nat.add_0_l. rewrite I2 by auto.
      apply gathered_ext. intros p P. apply addup_ext. auto.
    + apply Nat.ltb_ge in L. assert (x = y) by lia. subst y. cbn [fst snd].
      destruct (IH (Datatypes.S k) dims u D2) as [I1 _]. rewrite I1. split; [auto|].
      intros idx Hi. apply in_all_inv in Hi as (i & q & -> & Hi & Hq). rewrite gathered_keep by auto.
      assert (Q := pos_lt _ _ Hq). cbn [position]. change (fold_right Nat.mul 1 a) with (count a).
      rewrite Nat.div_add_l by lia. rewrite (Nat.div_small (position a q)) by auto. rewrite Nat.add_0_r.
      rewrite Nat.add_comm, Nat.mod_add by lia. rewrite Nat.mod_small by auto.
      destruct (IH (Datatypes.S k) dims (fun j => u (i * count b + j)) D2) as [_ I2]. rewrite I2 by auto.
      apply gathered_ext. auto.
Qed.

Lemma sum_dims_nil : forall s k u, fst (sum_dims k [] s u) = s /\ forall i, snd (sum_dims k [] s u) i = u i.
Proof.
  induction s as [|n s IH]; intros k u; cbn [sum_dims existsb fst snd]; [auto|].
  destruct (IH (S k) u) as [I1 _]. rewrite I1. split; [auto|]. intros i.
  destruct (IH (S k) (fun j => u (i / count s * count s + j))) as [_ I2]. rewrite I2. f_equal.
  destruct (Nat.eq_dec (count s) 0) as [E|E]; [rewrite E; cbn; auto|].
  rewrite (Nat.div_mod i (count s)) at 3 by auto. lia.
Qed.

Lemma existsb_lt : forall k l, (forall x, In x l -> x < k) -> existsb (Nat.eqb k) l = false.
Proof.
  induction l; intros H; cbn; auto. rewrite IHl by (intros; apply H; right; auto).
  destruct (k =? a) eqn:E; auto. apply Nat.eqb_eq in E. specialize (H a (or_introl eq_refl)). lia.
Qed.
Lemma smaller_ge : forall a b k x, In x (smaller k a b) -> k <= x.
Proof.
  induction a as [|y a IH]; intros [|z b] k x H; cbn [smaller In] in H; try contradiction.
  destruct (y <? z); [destruct H as [<-|H]; [lia|]|]; apply IH in H; lia.
Qed.
Lemma existsb_gt : forall a b k, existsb (Nat.eqb k) (smaller (S k) a b) = false.
Proof.
  intros a b k. destruct (existsb _ _) eqn:E; auto. apply existsb_exists in E as (x & H & E).
  apply Nat.eqb_eq in E. subst. apply smaller_ge in H. lia.
Qed.
Lemma smaller_ok : forall a b t, length a = length b -> forall k pre, (forall x, In x pre -> x < k) ->
  dims_ok k (a ++ t) (b ++ t) (pre ++ smaller k a b).
Proof.
  induction a as [|x a IH]; intros [|y b] t L; try discriminate; intros k pre P.
  - cbn [app smaller]. rewrite app_nil_r. revert k P. induction t as [|z t IHt]; intros k P; cbn [dims_ok]; auto.
    split; [rewrite existsb_lt by auto; symmetry; apply Nat.ltb_irrefl|].
    apply IHt. intros w W. apply P in W. lia.
  - injection L as L. cbn [app smaller dims_ok]. destruct (x <? y) eqn:E; split.
    + rewrite existsb_app. cbn [existsb]. rewrite Nat.eqb_refl, orb_true_l, orb_true_r. auto.
    + replace (pre ++ k :: smaller (S k) a b) with ((pre ++ [k]) ++ smaller (S k) a b)
        by (rewrite <- app_assoc; auto).
      apply IH; auto. intros w W. apply in_app_iff in W as [W|[<-|[]]]; [apply P in W; lia|lia].
    + rewrite existsb_app, existsb_gt, existsb_lt by auto. auto.
    + apply IH; auto. intros w W. apply P in W. lia.
Qed.

Lemma but_last_app : forall b t, but_last (length t) (b ++ t) = b.
Proof.
  intros b t. unfold but_last. rewrite app_length. replace (length b + length t - length t) with (length b) by lia.
  rewrite firstn_app, firstn_all, Nat.sub_diag. cbn. apply app_nil_r.
Qed.

Lemma stretches_app : forall a b t, stretches a b -> stretches (a ++ t) (b ++ t).
Proof.
  intros a b t H. apply Forall2_app; auto. induction t; constructor; auto.
Qed.
Lemma stretches_length : forall a b, stretches a b -> length a = length b.
Proof. intros a b H. induction H; cbn; auto. Qed.

(** The collapse and the change of shape. *)
Lemma collapse_ok : forall Ba B t u, stretches Ba B ->
  exists out, reshape (Ba ++ t)
    (match smaller 0 Ba B with
     | [] => {| shape := B ++ t; data := u |}
     | _ => let (s, w) := sum_dims 0 (smaller 0 Ba B) (B ++ t) u in {| shape := s; data := w |}
     end) = Ok out /\ shape out = Ba ++ t /\
  forall idx, In idx (all_indices (Ba ++ t)) ->
    at_index (Ba ++ t) (data out) idx = gathered (Ba ++ t) (B ++ t) (at_index (B ++ t) u) idx.
Proof.
  intros Ba B t u S.
  assert (D := smaller_ok Ba B t (stretches_length _ _ S) 0 [] ltac:(intros x [])). cbn [app] in D.
  destruct (sum_dims_ok _ _ (stretches_app _ _ t S) 0 _ u D) as [P1 P2].
  destruct (smaller 0 Ba B) as [|k l] eqn:E.
  - destruct (sum_dims_nil (B ++ t) 0 u) as [N1 N2]. rewrite N1 in P1. unfold reshape. cbn [shape data].
    rewrite P1, Nat.eqb_refl. eexists. split; [reflexivity|]. split; [auto|]. cbn [data]. intros idx Hi.
    unfold at_index. rewrite <- (N2 (position (Ba ++ t) idx)). specialize (P2 idx Hi). rewrite <- P1 in *. exact P2.
  - destruct (sum_dims 0 (k :: l) (B ++ t) u) as [s w] eqn:F. cbn [fst snd] in P1, P2. subst s.
    unfold reshape. cbn [shape data]. rewrite Nat.eqb_refl. eexists. split; [reflexivity|]. split; [auto|].
    cbn [data]. exact P2.
Qed.

Lemma variable_grad : forall cat Ba B M D g, cat <> 2 -> stretches Ba B ->
  exists out, finish_grad cat (Ba ++ [M; D]) {| shape := B ++ [M; D]; data := g |} = Ok out /\
    shape out = Ba ++ [M; D] /\
    forall idx, In idx (all_indices (Ba ++ [M; D])) ->
      at_index (Ba ++ [M; D]) (data out) idx
      = gathered (Ba ++ [M; D]) (B ++ [M; D]) (at_index (B ++ [M; D]) g) idx.
Proof.
  intros cat Ba B M D g C S. unfold finish_grad. apply Nat.eqb_neq in C. rewrite C. cbn [rbind shape data].
  change 2 with (length [M; D]). rewrite !but_last_app.
  destruct (collapse_ok Ba B [M; D] g S) as (out & H). exists out. exact H.
Qed.

(** Parameters. *)
Lemma count_app : forall B s, count (B ++ s) = count B * count s.
Proof. induction B; intros s; unfold count in *; cbn; [lia|]. rewrite IHB. lia. Qed.
Lemma pos_app : forall B q s r, length q = length B -> position (B ++ s) (q ++ r) = position B q * count s + position s r.
Proof.
  induction B as [|n B IH]; intros [|i q] s r L; try discriminate; cbn [app position]; [auto|].
  injection L as L. rewrite IH by auto. change (fold_right Nat.mul 1 (B ++ s)) with (count (B ++ s)).
  rewrite count_app. change (fold_right Nat.mul 1 B) with (count B). lia.
Qed.
Lemma all_length : forall s idx, In idx (all_indices s) -> length idx = length s.
Proof.
  induction s; intros idx H; [apply in_all_nil in H as ->; auto|].
  apply in_all_inv in H as (i & r & -> & _ & H). cbn. f_equal. auto.
Qed.
Lemma in_all_app : forall B s q r, length q = length B ->
  In (q ++ r) (all_indices (B ++ s)) <-> In q (all_indices B) /\ In r (all_indices s).
Proof.
  induction B as [|n B IH]; intros s [|i q] r L; try discriminate; cbn [app].
  - split; [intros H; split; [left; auto|auto]|tauto].
  - injection L as L. rewrite !in_all_cons, IH by auto. tauto.
Qed.

Definition insert (m : nat) (p : list nat) : list nat := removelast p ++ [m; last p 0].
Lemma insert_app : forall m q d, insert m (q ++ [d]) = q ++ [m; d].
Proof. intros. unfold insert. rewrite removelast_last, last_last. auto. Qed.
Lemma insert_cons : forall m i p, p <> [] -> insert m (i :: p) = i :: insert m p.
Proof. intros m i [|x p] N; [congruence|]. reflexivity. Qed.

Lemma gathered_rows : forall M D Ba B, stretches Ba B -> forall G ba d, length ba = length Ba ->
  In (ba ++ [d]) (all_indices (Ba ++ [D])) ->
  gathered (Ba ++ [1; D]) (B ++ [M; D]) G (ba ++ [0; d])
  = gathered (Ba ++ [D]) (B ++ [D]) (fun p => addup M (fun m => G (insert m p))) (ba ++ [d]).
Proof.
  intros M D Ba B S. induction S as [|x y Ba B H S IH]; intros G [|i ba] d L I; try discriminate; cbn [app] in *.
  - rewrite gathered_sum. apply gathered_ext. intros p P. apply addup_ext. intros m _.
    apply in_all_inv in P as (z & r & -> & _ & R). apply in_all_nil in R as ->. auto.
  - injection L as L. apply in_all_cons in I as [I1 I2].
    assert (N : forall p, In p (all_indices (B ++ [D])) -> p <> []).
    { intros p P. apply all_length in P. rewrite app_length in P. cbn in P. intros ->. cbn in P. lia. }
    assert (C : x = y \/ x = 1 /\ x <> y) by lia. destruct C as [->|[-> C]].
    + rewrite !gathered_keep by auto. rewrite IH by auto. apply gathered_ext. intros p P. apply addup_ext.
      intros m _. rewrite insert_cons; auto.
    + assert (i = 0) by lia. subst i. rewrite !gathered_sum. rewrite IH by auto. apply gathered_ext. intros p P.
      rewrite addup_swap. apply addup_ext. intros k _. apply addup_ext. intros m _. rewrite insert_cons; auto.
Qed.

Lemma parameter_grad : forall Ba B M D g, stretches Ba B ->
  exists out, finish_grad 2 (Ba ++ [D]) {| shape := B ++ [M; D]; data := g |} = Ok out /\
    shape out = Ba ++ [D] /\
    forall ba d, In ba (all_indices Ba) -> d < D ->
      at_index (Ba ++ [D]) (data out) (ba ++ [d])
      = gathered (Ba ++ [1; D]) (B ++ [M; D]) (at_index (B ++ [M; D]) g) (ba ++ [0; d]).
Proof.
  intros Ba B M D g S. unfold finish_grad. cbn [Nat.eqb]. unfold sum_rows. cbn [shape data].
  rewrite rev_app_distr. cbn [rev app]. rewrite rev_involutive. cbn [rbind shape data].
  assert (E1 : forall s : list nat, but_last 1 (s ++ [D]) = s) by (intros s; apply (but_last_app s [D])).
  rewrite !E1.
  destruct (collapse_ok Ba B [D] (fun i => addup M (fun m => g ((i / D * M + m) * D + i mod D))) S) as (out & H1 & H2 & H3).
  exists out. split; [exact H1|]. split; [exact H2|]. intros ba d Hb Hd.
  assert (L := all_length _ _ Hb).
  assert (I : In (ba ++ [d]) (all_indices (Ba ++ [D]))).
  { apply in_all_app; auto. split; auto. apply in_all_cons. split; [auto|left; auto]. }
  rewrite H3 by auto. rewrite (gathered_rows M D Ba B S) by auto. apply gathered_ext. intros p P.
  assert (Lp := all_length _ _ P). rewrite app_length in Lp. cbn in Lp.
  destruct (exists_last (l := p)) as (q & x & ->); [destruct p; cbn in Lp; [lia|discriminate]|].
  rewrite app_length in Lp. cbn in Lp. assert (Lq : length q = length B) by lia.
  apply in_all_app in P as [_ P]; auto. apply in_all_cons in P as [P _].
  unfold at_index. rewrite pos_app by auto. cbn [position count fold_right]. rewrite !Nat.mul_1_r, Nat.add_0_r.
  rewrite Nat.div_add_l by lia. rewrite (Nat.div_small x), Nat.add_0_r by auto.
  rewrite (Nat.add_comm _ x), Nat.mod_add, Nat.mod_small by lia.
  apply addup_ext. intros m Hm. rewrite insert_app, pos_app by auto. f_equal. cbn [position count fold_right]. nia.
Qed.

(** Chain rule. *)
Lemma sall_scal : forall s f c, sall s (fun p => f p * c)%R = (sall s f * c)%R.
Proof.
  induction s as [|n s IH]; intros f c; cbn; auto.
  rewrite (addup_ext n _ (fun a => sall s (fun p => f (a :: p)) * c)%R) by (intros; apply IH).
  induction n; cbn; [ring|]. rewrite IHn. ring.
Qed.
Lemma sall_transpose : forall a b, stretches a b -> forall g h,
  sall a (fun idx => gathered a b g idx * h idx)%R = sall b (fun p => g p * h (seen a p))%R.
Proof.
  intros a b S. induction S as [|x y a b H S IH]; intros g h; cbn [sall seen].
  - rewrite gathered_sall. cbn. auto.
  - assert (C : x = y \/ x = 1 /\ x <> y) by lia. destruct C as [->|[-> C]].
    + apply addup_ext. intros k K.
      rewrite (sall_ext a _ (fun p => gathered a b (fun q => g (k :: q)) p * h (k :: p))%R)
        by (intros; rewrite gathered_keep; auto).
      rewrite (IH (fun q => g (k :: q)) (fun q => h (k :: q))). apply sall_ext. intros p _.
      destruct (y =? 1) eqn:E; auto. apply Nat.eqb_eq in E. replace k with 0 by lia. auto.
    + cbn [addup Nat.eqb]. rewrite Rplus_0_l.
      rewrite (sall_ext a _ (fun p => gathered a b (fun q => addup y (fun k => g (k :: q))) p * h (0%nat :: p))%R)
        by (intros; rewrite gathered_sum; auto).
      rewrite (IH (fun q => addup y (fun k => g (k :: q))) (fun q => h (0 :: q))).
      rewrite sall_addup. apply sall_ext. intros p _. generalize (h (0 :: seen a p)). intros c.
      clear. induction y; cbn; [ring|]. rewrite Rmult_plus_distr_r, IHy. auto.
Qed.

Lemma chain : forall a b F x g, stretches a b ->
  gradient_at b F (fun p => x (seen a p)) g ->
  gradient_at a (fun y => F (fun p => y (seen a p))) x (gathered a b g).
Proof.
  intros a b F x g S H h. rewrite so_all, (sall_transpose a b S), <- so_all.
  exact (H (fun p => h (seen a p))).
Qed.
Lemma gradient_ext : forall s F x g g', (forall p, In p (all_indices s) -> g p = g' p) ->
  gradient_at s F x g -> gradient_at s F x g'.
Proof.
  intros s F x g g' E H h. specialize (H h). rewrite so_all in *.
  rewrite (sall_ext s _ (fun p => g p * h p)%R); auto. intros p P. rewrite E; auto.
Qed.

Lemma variable_gradient : forall cat Ba B M D F x g, cat <> 2 -> stretches Ba B ->
  gradient_at (B ++ [M; D]) F (fun p => x (seen (Ba ++ [M; D]) p)) (at_index (B ++ [M; D]) g) ->
  exists out, finish_grad cat (Ba ++ [M; D]) {| shape := B ++ [M; D]; data := g |} = Ok out /\
    shape out = Ba ++ [M; D] /\
    gradient_at (Ba ++ [M; D]) (fun y => F (fun p => y (seen (Ba ++ [M; D]) p))) x
      (at_index (Ba ++ [M; D]) (data out)).
Proof.
  intros cat Ba B M D F x g C S H. destruct (variable_grad cat Ba B M D g C S) as (out & H1 & H2 & H3).
  exists out. split; [auto|]. split; [auto|].
  eapply gradient_ext; [|apply (chain _ _ F x _ (stretches_app _ _ [M; D] S) H)].
  intros p P. symmetry. auto.
Qed.

(** The parameter is seen by all rows. *)
Lemma drop_app : forall q m d, drop_row (q ++ [m; d]) = q ++ [d].
Proof.
  intros q m d. unfold drop_row. replace (q ++ [m; d]) with ((q ++ [m]) ++ [d]) by (rewrite <- app_assoc; auto).
  rewrite last_last, !removelast_last. auto.
Qed.
Lemma split_last : forall n (p : list nat), length p = n + 1 -> exists q d, p = q ++ [d] /\ length q = n.
Proof.
  intros n p L. destruct (exists_last (l := p)) as (q & d & ->); [destruct p; cbn in L; [lia|discriminate]|].
  exists q, d. rewrite app_length in L. cbn in L. split; [auto|lia].
Qed.
Lemma split_last2 : forall n (p : list nat), length p = n + 2 -> exists q m d, p = q ++ [m; d] /\ length q = n.
Proof.
  intros n p L. destruct (split_last (n + 1) p) as (r & d & -> & L1); [lia|].
  destruct (split_last n r L1) as (q & m & -> & L2). exists q, m, d. rewrite <- app_assoc. auto.
Qed.
Lemma seen_app : forall a q s r, length q = length a -> seen (a ++ s) (q ++ r) = seen a q ++ seen s r.
Proof.
  induction a as [|x a IH]; intros [|i q] s r L; try discriminate; cbn [app seen]; auto.
  injection L as L. rewrite IH; auto.
Qed.
Lemma seen_drop : forall Ba D p, length p = length Ba + 2 ->
  drop_row (seen (Ba ++ [1; D]) p) = seen (Ba ++ [D]) (drop_row p).
Proof.
  intros Ba D p L. destruct (split_last2 _ _ L) as (q & m & d & -> & Lq).
  rewrite drop_app, !seen_app by auto. cbn [seen Nat.eqb]. apply drop_app.
Qed.
Lemma sall_rows : forall D Ba f, sall (Ba ++ [1; D]) f = sall (Ba ++ [D]) (fun p => f (insert 0 p)).
Proof.
  induction Ba as [|n Ba IH]; intros f; cbn [app sall].
  - cbn [addup]. rewrite Rplus_0_l. apply addup_ext. auto.
  - apply addup_ext. intros k K. rewrite IH. apply sall_ext. intros p P. rewrite insert_cons; auto.
    apply all_length in P. rewrite app_length in P. cbn in P. intros ->. cbn in P. lia.
Qed.
Lemma parameter_gradient : forall Ba B M D F x g, stretches Ba B -> 1 <= M ->
  gradient_at (B ++ [M; D]) F (fun p => x (seen (Ba ++ [D]) (drop_row p))) (at_index (B ++ [M; D]) g) ->
  exists out, finish_grad 2 (Ba ++ [D]) {| shape := B ++ [M; D]; data := g |} = Ok out /\
    shape out = Ba ++ [D] /\
    gradient_at (Ba ++ [D]) (fun y => F (fun p => y (seen (Ba ++ [D]) (drop_row p)))) x
      (at_index (Ba ++ [D]) (data out)).
Proof.
  intros Ba B M D F x g S HM H. destruct (parameter_grad Ba B M D g S) as (out & H1 & H2 & H3).
  exists out. split; [auto|]. split; [auto|]. intros h.
  assert (L := stretches_length _ _ S).
  assert (S2 : stretches (Ba ++ [1; D]) (B ++ [M; D])).
  { apply Forall2_app; auto. }
  assert (E : sum_over (all_indices (Ba ++ [D])) (fun p => at_index (Ba ++ [D]) (data out) p * h p)%R
            = sum_over (all_indices (B ++ [M; D]))
                (fun p => at_index (B ++ [M; D]) g p * h (seen (Ba ++ [D]) (drop_row p)))%R).
  { rewrite !so_all.
    rewrite (sall_ext (B ++ [M; D]) _
      (fun p => at_index (B ++ [M; D]) g p * (fun q => h (drop_row q)) (seen (Ba ++ [1%nat; D]) p))%R).
    2: { intros p P. apply all_length in P. rewrite app_length in P. cbn in P. rewrite seen_drop by lia. auto. }
    rewrite <- (sall_transpose _ _ S2 (at_index (B ++ [M; D]) g) (fun q => h (drop_row q))), sall_rows. apply sall_ext. intros p P.
    assert (Lp := all_length _ _ P). rewrite app_length in Lp. cbn in Lp.
    destruct (split_last _ _ Lp) as (q & d & -> & Lq). apply in_all_app in P as [P1 P2]; auto.
    apply in_all_cons in P2 as [P2 _]. rewrite H3 by auto. rewrite insert_app, drop_app. auto. }
  rewrite E. exact (H (fun p => h (seen (Ba ++ [D]) (drop_row p)))).
Qed.

Lemma unpadded : forall B M D g, 2 <= B -> 1 <= D ->
  finish_grad 2 [D] {| shape := [B; M; D]; data := g |} = PyErr.
Proof.
  intros B M D g HB HD. unfold finish_grad. cbn. unfold reshape. cbn.
  destruct (_ =? _) eqn:E; auto. apply Nat.eqb_eq in E. nia.
Qed.

Lemma gradient_case :
  gradient_at ([2] ++ [1; 1]) (fun z => z [0; 0; 0]%nat + 3 * z [1; 0; 0]%nat)%R (fun _ => 0%R)
    (at_index ([2] ++ [1; 1]) (fun i => if i =? 0 then 1%R else 3%R)).
Proof.
  intros h eps He. exists (mkposreal 1 Rlt_0_1). intros t Ht _. rewrite so_all. cbn [app sall addup].
  cbn [at_index position fold_right Nat.mul Nat.add Nat.eqb]. unfold at_index.
  cbn [position fold_right Nat.mul Nat.add Nat.eqb].
  match goal with |- (Rabs ?x < _)%R => replace x with 0%R by (field; auto) end. rewrite Rabs_R0. auto.
Qed.
