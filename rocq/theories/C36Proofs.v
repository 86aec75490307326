(** Proofs about tensor contractions. *)

From Coq Require Import ZArith Reals List Bool Arith Lia Lra Permutation Sorting.Sorted.
From Verif Require Import Result Factor LayoutSpec Tensordot TensordotSpec.
Import ListNotations.
Local Open Scope nat_scope.

(** ** Numbers of indices *)

Lemma entries_product : forall l, entries_of l = product l.
Proof. induction l; cbn; auto. Qed.

Lemma product_app : forall l m, product (l ++ m) = product l * product m.
Proof. induction l; intros; simpl; [lia|]. rewrite IHl. lia. Qed.

Lemma index_length : forall s i, index s i -> List.length s = List.length i.
Proof. induction 1; simpl; auto. Qed.

(** Strides. *)
Fixpoint strides (x : list nat) : list nat :=
  match x with [] => [] | _ :: t => product t :: strides t end.

Lemma cumprod_app : forall x acc y, cumprod acc (x ++ y) = cumprod acc x ++ cumprod (acc * product x) y.
Proof.
  induction x; intros; cbn [cumprod app product].
  - now rewrite Nat.mul_1_r.
  - rewrite IHx. cbn. do 3 f_equal. lia.
Qed.

Lemma product_rev : forall x, product (rev x) = product x.
Proof. induction x; cbn; auto. rewrite product_app, IHx. cbn. lia. Qed.

Lemma cumprod_strides : forall x, cumprod_array x = strides x.
Proof.
  intros [|a t]; [reflexivity|]. cbn [cumprod_array]. revert a. induction t as [|b t IH]; intros a; [reflexivity|].
  cbn [rev]. rewrite cumprod_app. cbn [cumprod]. rewrite rev_app_distr. cbn [rev app].
  cbn [strides]. rewrite product_rev, Nat.mul_1_l. f_equal; [cbn [product]; lia|].
  rewrite (IH a). reflexivity.
Qed.

Lemma strides_length : forall x, List.length (strides x) = List.length x.
Proof. induction x; cbn; auto. Qed.

Fixpoint weighted (idx st : list nat) : nat :=
  match idx, st with i :: idx, s :: st => i * s + weighted idx st | _, _ => 0 end.

Lemma number_from_weighted : forall s i acc, List.length s = List.length i ->
  number_from acc s i = acc * product s + weighted i (strides s).
Proof.
  induction s as [|n s IH]; intros [|i idx] acc H; cbn in *; try discriminate; [lia|].
  rewrite IH by lia. nia.
Qed.

Lemma number_weighted : forall s i, List.length s = List.length i -> number s i = weighted i (strides s).
Proof. intros. unfold number. rewrite number_from_weighted; auto. Qed.

Lemma weighted_bound : forall s i, index s i -> weighted i (strides s) < product s.
Proof. induction 1; cbn; [lia|]. nia. Qed.

Lemma number_bound : forall s i, index s i -> number s i < product s.
Proof. intros. rewrite number_weighted by now apply index_length. now apply weighted_bound. Qed.

Lemma weighted_inj : forall s i j, index s i -> index s j ->
  weighted i (strides s) = weighted j (strides s) -> i = j.
Proof.
  intros s i j H. revert j. induction H as [|i n idx s Hi H IH]; intros j Hj E.
  - now inversion Hj.
  - inversion Hj as [|j' n' jdx s' Hj' Hjs]; subst. cbn in E.
    pose proof (weighted_bound _ _ H). pose proof (weighted_bound _ _ Hjs).
    assert (i = j') by nia. subst. f_equal. apply IH; auto. lia.
Qed.

Lemma number_inj : forall s i j, index s i -> index s j -> number s i = number s j -> i = j.
Proof.
  intros s i j Hi Hj. rewrite !number_weighted by (now apply index_length). now apply weighted_inj.
Qed.

(** ** Selection in lists *)

Definition zs (l : list nat) : list Z := map Z.of_nat l.

Lemma range_zs : forall a b, range a b = zs (seq a (b - a)).
Proof. reflexivity. Qed.

Lemma py_get_nat : forall A (d : A) x i, i < List.length x -> py_get A x (Z.of_nat i) = Ok (nth i x d).
Proof.
  intros A d x i H. unfold py_get. destruct (Z.ltb_spec (Z.of_nat i) 0); [lia|].
  destruct (Z.leb_spec 0 (Z.of_nat i)); [|lia].
  destruct (Z.ltb_spec (Z.of_nat i) (Z.of_nat (List.length x))); [|lia]. cbn [andb]. rewrite Nat2Z.id.
  destruct (nth_error x i) eqn:E; [now rewrite (nth_error_nth _ _ d E)|]. apply nth_error_None in E. lia.
Qed.

Definition sel {A} (d : A) (x : list A) (l : list nat) : list A := map (fun i => nth i x d) l.

Lemma select_sel : forall A (d : A) x l, Forall (fun i => i < List.length x) l ->
  select x (zs l) = Ok (sel d x l).
Proof.
  intros A d x l H. unfold select. induction H as [|i l Hi H IH]; auto.
  change (zs (i :: l)) with (Z.of_nat i :: zs l). cbn [mapr].
  rewrite (py_get_nat A d) by auto. cbn [rbind]. now rewrite IH.
Qed.

Lemma existsb_zs : forall p l, existsb (Z.eqb (Z.of_nat p)) (zs l) = existsb (Nat.eqb p) l.
Proof.
  intros p l. induction l as [|a l IH]; auto. cbn. fold (zs l). rewrite IH. f_equal.
  destruct (Nat.eqb_spec p a); destruct (Z.eqb_spec (Z.of_nat p) (Z.of_nat a)); lia.
Qed.

Lemma filter_zs : forall ca l, filter (fun i => negb (existsb (Z.eqb i) (zs ca))) (zs l)
  = zs (filter (fun p => negb (existsb (Nat.eqb p) ca)) l).
Proof.
  intros ca l. induction l as [|a l IH]; auto. change (zs (a :: l)) with (Z.of_nat a :: zs l).
  cbn [filter]. rewrite existsb_zs. destruct (negb _); cbn [zs map]; fold zs; now rewrite IH.
Qed.

Lemma kept_In : forall n ca p, In p (kept n ca) <-> p < n /\ ~ In p ca.
Proof.
  intros n ca p. unfold kept. rewrite filter_In, in_seq. split.
  - intros [H E]. split; [lia|]. intros K. apply negb_true_iff in E.
    assert (existsb (Nat.eqb p) ca = true); [|congruence]. apply existsb_exists. exists p. split; auto.
    apply Nat.eqb_refl.
  - intros [H K]. split; [lia|]. apply negb_true_iff. apply not_true_is_false. intros E.
    apply existsb_exists in E. destruct E as (q & Hq & E). apply Nat.eqb_eq in E. subst. contradiction.
Qed.

Lemma delete_sel : forall A (d : A) x ca, delete x (zs ca) = Ok (sel d x (kept (List.length x) ca)).
Proof.
  intros A d x ca. unfold delete. rewrite range_zs, Nat.sub_0_r, filter_zs. apply select_sel.
  apply Forall_forall. intros p Hp. apply (kept_In _ ca) in Hp. tauto.
Qed.

Lemma kept_NoDup : forall n ca, NoDup (kept n ca).
Proof. intros. apply NoDup_filter, seq_NoDup. Qed.

Lemma nodup_app : forall A (x y : list A), NoDup x -> NoDup y -> (forall a, In a x -> ~ In a y) -> NoDup (x ++ y).
Proof.
  intros A x y Hx Hy D. induction Hx as [|a x Ha Hx IH]; cbn; auto. constructor.
  - rewrite in_app_iff. intros [K|K]; [contradiction|]. apply (D a); auto. now left.
  - apply IH. intros b Hb. apply D. now right.
Qed.

Lemma kept_perm : forall n ca, NoDup ca -> Forall (fun p => p < n) ca ->
  Permutation (kept n ca ++ ca) (seq 0 n).
Proof.
  intros n ca N F. apply NoDup_Permutation.
  - apply nodup_app; auto; [apply kept_NoDup|]. intros a Ha. apply kept_In in Ha. tauto.
  - apply seq_NoDup.
  - intros x. rewrite in_app_iff, kept_In, in_seq. rewrite Forall_forall in F. split.
    + intros [[? ?]|K]; [lia|]. specialize (F x K). lia.
    + intros K. destruct (in_dec Nat.eq_dec x ca); auto. left. split; auto. lia.
Qed.

(** ** Sorting *)

Definition key_le (a b : Z * nat) : Prop := (fst a <= fst b)%Z.

Lemma insert_perm : forall k i l, Permutation (insert k i l) ((k, i) :: l).
Proof.
  induction l as [|[k' i'] l IH]; cbn; auto. destruct (k' <=? k)%Z; auto.
  rewrite IH. apply perm_swap.
Qed.

Lemma insert_sorted : forall k i l, StronglySorted key_le l -> StronglySorted key_le (insert k i l).
Proof.
  intros k i l H. induction H as [|[k' i'] l H IH F]; cbn.
  - repeat constructor.
  - destruct (Z.leb_spec k' k).
    + constructor; auto. rewrite insert_perm. constructor; auto.
    + constructor; [constructor; auto|]. constructor; [unfold key_le; cbn; lia|].
      rewrite Forall_forall in *. intros x Hx. specialize (F x Hx). unfold key_le in *. cbn in *. lia.
Qed.

Lemma sort_from_spec : forall keys i l, StronglySorted key_le l ->
  StronglySorted key_le (sort_from i keys l)
  /\ Permutation (sort_from i keys l) (combine keys (seq i (List.length keys)) ++ l).
Proof.
  induction keys as [|k keys IH]; intros i l H; cbn; auto.
  destruct (IH (S i) (insert k i l) (insert_sorted k i l H)) as [S P]. split; auto.
  rewrite P, insert_perm. symmetry. apply Permutation_middle.
Qed.

Lemma combine_nth_seq : forall (p : list nat) i x, In x (combine (zs p) (seq i (List.length (zs p)))) ->
  i <= snd x < i + List.length p /\ fst x = Z.of_nat (nth (snd x - i) p 0).
Proof.
  induction p as [|a p IH]; intros i x H; [destruct H|].
  change (zs (a :: p)) with (Z.of_nat a :: zs p) in H. cbn [List.length seq combine] in H.
  destruct H as [<-|H].
  - cbn [fst snd List.length]. rewrite Nat.sub_diag. split; [lia|reflexivity].
  - apply IH in H. destruct H as [B E]. cbn [List.length]. split; [lia|]. rewrite E.
    replace (snd x - i) with (S (snd x - S i)) by lia. reflexivity.
Qed.

Lemma sorted_map : forall (l : list (Z * nat)) (f : Z * nat -> nat),
  (forall x y, In x l -> In y l -> key_le x y -> f x <= f y) ->
  StronglySorted key_le l -> StronglySorted le (map f l).
Proof.
  intros l f M H. induction H as [|x l H IH F]; cbn; constructor.
  - apply IH. intros. apply M; cbn; auto.
  - rewrite Forall_map. rewrite Forall_forall in *. intros y Hy. apply M; cbn; auto.
Qed.

Lemma map_snd_combine : forall A B (x : list A) (y : list B), List.length x = List.length y ->
  map snd (combine x y) = y.
Proof. induction x; intros [|b y] H; cbn in *; try discriminate; auto. f_equal. auto. Qed.

Lemma positions_spec : forall p, exists q, sorted_positions (zs p) = zs q
  /\ Permutation q (seq 0 (List.length p)) /\ StronglySorted le (sel 0 p q).
Proof.
  intros p. destruct (sort_from_spec (zs p) 0 [] (SSorted_nil _)) as [S P].
  rewrite app_nil_r in P. exists (map snd (sort_from 0 (zs p) [])). split; [|split].
  - unfold sorted_positions, zs. now rewrite map_map.
  - rewrite P. rewrite map_snd_combine by now rewrite seq_length. unfold zs. now rewrite map_length.
  - unfold sel. rewrite map_map. apply sorted_map; auto.
    intros x y Hx Hy L. apply (Permutation_in _ P), combine_nth_seq in Hx. apply (Permutation_in _ P), combine_nth_seq in Hy.
    unfold key_le in L. destruct Hx as [_ Hx], Hy as [_ Hy]. rewrite Nat.sub_0_r in *. lia.
Qed.

(** A sorted list is determined by its elements. *)
Lemma sorted_unique : forall x y, StronglySorted le x -> StronglySorted le y -> Permutation x y -> x = y.
Proof.
  intros x y Hx. revert y. induction Hx as [|a x Hx IH F]; intros y Hy P.
  - now apply Permutation_nil in P.
  - destruct y as [|b y]; [symmetry in P; now apply Permutation_nil in P|].
    inversion Hy as [|? ? Hy' G]; subst. rewrite Forall_forall in *.
    assert (a = b).
    { assert (In a (b :: y)) by (apply (Permutation_in _ P); now left).
      assert (In b (a :: x)) by (apply (Permutation_in _ (Permutation_sym P)); now left).
      destruct H as [?|H]; [auto|]. destruct H0 as [?|H0]; [auto|].
      specialize (F b H0). specialize (G a H). lia. }
    subst. f_equal. apply IH; auto. now apply Permutation_cons_inv in P.
Qed.

Lemma seq_sorted : forall n i, StronglySorted le (seq i n).
Proof.
  induction n; intros i; cbn; constructor; auto.
  apply Forall_forall. intros x Hx. apply in_seq in Hx. lia.
Qed.

Lemma sel_perm : forall A (d : A) p q, Permutation q (seq 0 (List.length p)) -> Permutation (sel d p q) p.
Proof.
  intros A d p q H. unfold sel. rewrite H. clear H q.
  assert (E : map (fun i => nth i p d) (seq 0 (List.length p)) = p).
  { induction p as [|a p IH]; auto. cbn [List.length seq map nth]. f_equal.
    rewrite <- seq_shift, map_map. exact IH. }
  now rewrite E.
Qed.

(** The inverse of a permutation. *)
Lemma inverse_spec : forall p n, Permutation p (seq 0 n) ->
  exists q, sorted_positions (zs p) = zs q /\ Permutation q (seq 0 n) /\ sel 0 p q = seq 0 n.
Proof.
  intros p n H. destruct (positions_spec p) as (q & E & P & S).
  assert (L : List.length p = n) by (rewrite (Permutation_length H); apply seq_length).
  exists q. rewrite L in P. repeat split; auto.
  apply sorted_unique; auto; [apply seq_sorted|]. rewrite sel_perm; auto. now rewrite L.
Qed.

Lemma perm_nth : forall p q n, sel 0 p q = seq 0 n -> forall i, i < n -> nth (nth i q 0) p 0 = i.
Proof.
  intros p q n H i Hi.
  assert (L : List.length q = n) by (rewrite <- (seq_length n 0), <- H; unfold sel; now rewrite map_length).
  assert (E : nth i (sel 0 p q) 0 = i) by (rewrite H, seq_nth; lia).
  unfold sel in E. rewrite (nth_indep _ 0 (nth 0 p 0)) in E by (rewrite map_length; lia).
  rewrite (map_nth (fun j => nth j p 0)) in E. exact E.
Qed.

(** ** Loops *)

Fixpoint runs {S X} (body : X -> S -> res S) (l : list X) (s : S) : res S :=
  match l with [] => Ok s | x :: l => do s' <- body x s ; runs body l s' end.

Lemma runs_app : forall S X (body : X -> S -> res S) l m s,
  runs body (l ++ m) s = do s' <- runs body l s ; runs body m s'.
Proof. induction l; intros; cbn; auto. destruct (body a s); cbn; auto. Qed.

Lemma runs_map : forall S X Y (g : Y -> X) (body : X -> S -> res S) l s,
  runs body (map g l) s = runs (fun y => body (g y)) l s.
Proof. induction l; intros; cbn; auto. destruct (body (g a) s); cbn; auto. Qed.

Lemma runs_ext : forall S X (b1 b2 : X -> S -> res S) l, (forall x s, In x l -> b1 x s = b2 x s) ->
  forall s, runs b1 l s = runs b2 l s.
Proof.
  induction l as [|x l IH]; intros H s; cbn; auto. rewrite H by now left. destruct (b2 x s); cbn; auto.
  apply IH. intros. apply H. now right.
Qed.

Lemma for_from_runs : forall S n i (body : nat -> S -> res S) s, for_from n i body s = runs body (seq i n) s.
Proof.
  induction n; intros; cbn; auto. destruct (body i s); cbn; auto. rewrite IHn. now rewrite Nat.add_1_r.
Qed.

Fixpoint tuples (dims : list nat) : list (list nat) :=
  match dims with [] => [[]] | d :: dims => flat_map (fun i => map (cons i) (tuples dims)) (seq 0 d) end.

Lemma runs_flat_map : forall S X Y (g : Y -> list X) (body : X -> S -> res S) l s,
  runs body (flat_map g l) s = runs (fun y => runs body (g y)) l s.
Proof. induction l; intros; cbn; auto. rewrite runs_app. destruct (runs body (g a) s); cbn; auto. Qed.

Lemma nest_runs : forall S dims vars (body : list nat -> S -> res S) s,
  nest dims vars body s = runs (fun t => body (vars ++ t)) (tuples dims) s.
Proof.
  induction dims as [|d dims IH]; intros vars body s; cbn [nest tuples].
  - cbn. rewrite app_nil_r. destruct (body vars s); auto.
  - unfold for_loop. rewrite for_from_runs, runs_flat_map. apply runs_ext. intros i s' _.
    rewrite IH, runs_map. apply runs_ext. intros t s'' _. now rewrite <- app_assoc.
Qed.

Lemma tuples_In : forall dims t, In t (tuples dims) <-> index dims t.
Proof.
  induction dims as [|d dims IH]; intros t; cbn [tuples].
  - cbn. split; [intros [<-|[]]; constructor|]. intros H. inversion H. auto.
  - rewrite in_flat_map. split.
    + intros (i & Hi & H). apply in_map_iff in H. destruct H as (u & <- & Hu). apply in_seq in Hi.
      constructor; [lia|]. now apply IH.
    + intros H. inversion H as [|i n idx s Hi Hs]; subst. exists i. split; [apply in_seq; lia|].
      apply in_map. now apply IH.
Qed.

Lemma tuples_NoDup : forall dims, NoDup (tuples dims).
Proof.
  induction dims as [|d dims IH]; cbn [tuples]; [repeat constructor; auto|].
  generalize 0. induction d; intros i; cbn; [constructor|]. apply nodup_app.
  - apply FinFun.Injective_map_NoDup; auto. intros x y E. congruence.
  - apply IHd.
  - intros a Ha Hb. apply in_map_iff in Ha. destruct Ha as (u & <- & _).
    apply in_flat_map in Hb. destruct Hb as (j & Hj & Hb). apply in_map_iff in Hb.
    destruct Hb as (v & E & _). injection E as -> ->. apply in_seq in Hj. lia.
Qed.

(** ** Sums over lists *)

Fixpoint lsum {X} (f : X -> R) (l : list X) : R :=
  match l with [] => 0%R | x :: l => (f x + lsum f l)%R end.

Lemma lsum_app : forall X (f : X -> R) l m, lsum f (l ++ m) = (lsum f l + lsum f m)%R.
Proof. induction l; intros; cbn; [lra|]. rewrite IHl. lra. Qed.

Lemma lsum_map : forall X Y (g : Y -> X) (f : X -> R) l, lsum f (map g l) = lsum (fun y => f (g y)) l.
Proof. induction l; cbn; auto. now rewrite IHl. Qed.

Lemma lsum_ext : forall X (f g : X -> R) l, (forall x, In x l -> f x = g x) -> lsum f l = lsum g l.
Proof. induction l; intros H; cbn; auto. rewrite H by now left. rewrite IHl; auto. intros; apply H; now right. Qed.

Lemma lsum_perm : forall X (f : X -> R) l m, Permutation l m -> lsum f l = lsum f m.
Proof. induction 1; cbn; lra. Qed.

Lemma lsum_zero : forall X (f : X -> R) l, (forall x, In x l -> f x = 0%R) -> lsum f l = 0%R.
Proof. induction l; intros H; cbn; auto. rewrite H by now left. rewrite IHl; [lra|]. intros; apply H; now right. Qed.

Lemma lsum_plus : forall X (f g : X -> R) l, lsum (fun x => f x + g x)%R l = (lsum f l + lsum g l)%R.
Proof. induction l; cbn; [lra|]. rewrite IHl. lra. Qed.

Lemma lsum_swap : forall X Y (f : X -> Y -> R) l m,
  lsum (fun x => lsum (f x) m) l = lsum (fun y => lsum (fun x => f x y) l) m.
Proof.
  induction l; intros m; cbn.
  - symmetry. now apply lsum_zero.
  - rewrite IHl. now rewrite <- lsum_plus.
Qed.

Lemma lsum_scal : forall X (f : X -> R) c l, lsum (fun x => c * f x)%R l = (c * lsum f l)%R.
Proof. induction l; cbn; [lra|]. rewrite IHl. lra. Qed.

Lemma range_sum_lsum : forall n f, range_sum n f = lsum f (seq 0 n).
Proof.
  induction n; intros f; auto. cbn [range_sum]. rewrite IHn.
  rewrite seq_S, lsum_app. cbn. lra.
Qed.

Lemma lsum_flat_map : forall X Y (g : Y -> list X) f l, lsum f (flat_map g l) = lsum (fun y => lsum f (g y)) l.
Proof. induction l; cbn; auto. rewrite lsum_app. now rewrite IHl. Qed.

Lemma sum_over_lsum : forall dims f, sum_over dims f = lsum f (tuples dims).
Proof.
  induction dims as [|d dims IH]; intros f; cbn [sum_over tuples]; [cbn; lra|].
  rewrite range_sum_lsum, lsum_flat_map. apply lsum_ext. intros i _. rewrite IH, lsum_map. reflexivity.
Qed.

(** A sum with a single term. *)
Lemma lsum_single : forall X (dec : forall a b : X, {a = b} + {a <> b}) (f : X -> R) l x, NoDup l -> In x l ->
  (forall y, In y l -> y <> x -> f y = 0%R) -> lsum f l = f x.
Proof.
  intros X dec f l x N Hx H. induction N as [|a l Ha N IH]; [destruct Hx|]. cbn.
  destruct (dec a x) as [E|E].
  - subst. rewrite lsum_zero; [lra|]. intros y Hy. apply H; [now right|]. intros K. subst. contradiction.
  - rewrite H; [|now left|auto]. destruct Hx as [?|Hx]; [contradiction|]. rewrite IH; auto; [lra|].
    intros y Hy. apply H. now right.
Qed.

(** ** The statement in the loops *)

Definition pick (vars vs : list nat) : list nat := sel 0 vars vs.

Lemma index_terms_ok : forall vs st, List.length vs = List.length st -> index_terms vs st = Ok (combine vs st).
Proof. induction vs; intros [|s st] H; cbn in *; try discriminate; auto. rewrite IHvs by lia. reflexivity. Qed.

Lemma index_value_ok : forall vs st vars, List.length vs = List.length st ->
  Forall (fun v => v < List.length vars) vs ->
  index_value (combine vs st) vars = Ok (weighted (pick vars vs) st).
Proof.
  induction vs as [|v vs IH]; intros [|s st] vars L F; cbn in *; try discriminate; auto.
  inversion F; subst. destruct (nth_error vars v) eqn:E.
  - rewrite IH by (auto; lia). cbn. rewrite (nth_error_nth _ _ 0 E). reflexivity.
  - apply nth_error_None in E. lia.
Qed.

Lemma pick_index : forall L t vs, index L t -> Forall (fun v => v < List.length L) vs ->
  index (pick L vs) (pick t vs).
Proof.
  intros L t vs H F. unfold pick, sel, index. induction F as [|v vs Hv F IH]; cbn; constructor; auto.
  clear IH F vs. revert v Hv. induction H; intros v Hv; cbn in *; [lia|]. destruct v; auto. apply IHForall2. lia.
Qed.

Lemma zero_loop : forall n (out : nat -> R), exists out',
  for_loop n (fun i out => write n out i 0%R) out = Ok out' /\ forall k, k < n -> out' k = 0%R.
Proof.
  intros n out. unfold for_loop. rewrite for_from_runs.
  assert (G : forall m i (out : nat -> R), i + m = n -> exists out',
    runs (fun i out => write n out i 0%R) (seq i m) out = Ok out'
    /\ (forall k, i <= k < n -> out' k = 0%R) /\ (forall k, k < i -> out' k = out k)).
  { induction m; intros i o E; cbn [seq runs].
    - exists o. repeat split; auto. intros; lia.
    - unfold write at 1. destruct (Nat.ltb_spec i n); [|lia]. cbn [rbind].
      destruct (IHm (S i) (fun j => if j =? i then 0%R else o j)) as (o' & E' & A & B); [lia|].
      exists o'. repeat split; auto.
      + intros k Hk. destruct (Nat.eq_dec k i) as [->|D]; [|apply A; lia].
        rewrite B by lia. now rewrite Nat.eqb_refl.
      + intros k Hk. rewrite B by lia. destruct (Nat.eqb_spec k i); [lia|auto]. }
  destruct (G n 0 out eq_refl) as (o & E & A & _). exists o. split; auto. intros. apply A. lia.
Qed.

(** Accumulation. *)
Lemma runs_accumulate : forall X (body : X -> (nat -> R) -> res (nat -> R)) (o : X -> nat) (p : X -> R) l,
  (forall x out, In x l -> exists out', body x out = Ok out'
     /\ forall k, out' k = (out k + if k =? o x then p x else 0)%R) ->
  forall out, exists out', runs body l out = Ok out'
  /\ forall k, out' k = (out k + lsum (fun x => if k =? o x then p x else 0)%R l)%R.
Proof.
  intros X body o p l. induction l as [|x l IH]; intros H out; cbn.
  - exists out. split; auto. intros. lra.
  - destruct (H x out (or_introl eq_refl)) as (o1 & E1 & A1). rewrite E1. cbn.
    destruct (IH (fun y u Hy => H y u (or_intror Hy)) o1) as (o2 & E2 & A2). exists o2. split; auto.
    intros k. rewrite A2, A1. lra.
Qed.

(** What the code computes, from the lists of variables of each array. *)
Lemma td_op_sum : forall t fad fbd pd (out a b : nat -> R) (lo la lb : list nat),
  list_indices_keepdim t = lo -> list_indices_a_intot t = la -> list_indices_b_intot t = lb ->
  list_strides_keepdim t = cumprod_array pd ->
  list_strides_dimsfa t = cumprod_array (dimfa t) -> list_strides_dimsfb t = cumprod_array (dimfb t) ->
  td_dim t = product pd -> fad = product (dimfa t) -> fbd = product (dimfb t) ->
  Forall (fun v => v < List.length (loopdim t)) lo -> Forall (fun v => v < List.length (loopdim t)) la ->
  Forall (fun v => v < List.length (loopdim t)) lb ->
  pick (loopdim t) lo = pd -> pick (loopdim t) la = dimfa t -> pick (loopdim t) lb = dimfb t ->
  List.length (loopdim t) <= 21 ->
  exists out', td_op t fad fbd out a b = Ok out' /\ forall k, k < td_dim t ->
    out' k = lsum (fun l => if k =? number pd (pick l lo)
                            then (a (number (dimfa t) (pick l la)) * b (number (dimfb t) (pick l lb)))%R
                            else 0%R) (tuples (loopdim t)).
Proof.
  intros t fad fbd pd out a b lo la lb Elo Ela Elb Eso Esa Esb Ed Efa Efb Fo Fa Fb Po Pa Pb N.
  unfold td_op. rewrite Elo, Ela, Elb, Eso, Esa, Esb.
  assert (Lo : List.length lo = List.length pd) by (rewrite <- Po; unfold pick, sel; now rewrite map_length).
  assert (La : List.length la = List.length (dimfa t)) by (rewrite <- Pa; unfold pick, sel; now rewrite map_length).
  assert (Lb : List.length lb = List.length (dimfb t)) by (rewrite <- Pb; unfold pick, sel; now rewrite map_length).
  assert (Nm : forallb name_ok (seq 0 (List.length (loopdim t))) = true).
  { apply forallb_forall. intros x Hx. apply in_seq in Hx. unfold name_ok.
    destruct (Nat.leb_spec 65 (70 + x)); [|lia]. destruct (Nat.leb_spec (70 + x) 90); [|lia]. reflexivity. }
  rewrite Nm. cbn [require rbind]. rewrite !cumprod_strides.
  rewrite !index_terms_ok by (rewrite strides_length; auto). cbn [rbind].
  destruct (zero_loop (td_dim t) out) as (o0 & E0 & Z0). rewrite E0. cbn [rbind].
  rewrite nest_runs. cbn [app].
  destruct (runs_accumulate (list nat)
    (fun (t0 : list nat) (out0 : nat -> R) =>
      do io <- index_value (combine lo (strides pd)) t0 ;
      do ia <- index_value (combine la (strides (dimfa t))) t0 ;
      do ib <- index_value (combine lb (strides (dimfb t))) t0 ;
      do x <- read (td_dim t) out0 io ;
      do y <- read fad a ia ; do z <- read fbd b ib ; write (td_dim t) out0 io (x + y * z)%R)
    (fun l => number pd (pick l lo))
    (fun l => (a (number (dimfa t) (pick l la)) * b (number (dimfb t) (pick l lb)))%R)
    (tuples (loopdim t))) with (out := o0) as (o1 & E1 & A1).
  - intros l o Hl. apply tuples_In in Hl. assert (Ll := index_length _ _ Hl). rewrite Ll in *.
    pose proof (pick_index _ _ lo Hl) as Io. rewrite Ll, Po in Io. specialize (Io Fo).
    pose proof (pick_index _ _ la Hl) as Ia. rewrite Ll, Pa in Ia. specialize (Ia Fa).
    pose proof (pick_index _ _ lb Hl) as Ib. rewrite Ll, Pb in Ib. specialize (Ib Fb).
    rewrite !index_value_ok by (rewrite ?strides_length; auto). cbn [rbind].
    rewrite <- !number_weighted by (now apply index_length).
    unfold read, write. rewrite Ed, Efa, Efb.
    destruct (Nat.ltb_spec (number pd (pick l lo)) (product pd)) as [_|K]; [|pose proof (number_bound _ _ Io); lia].
    destruct (Nat.ltb_spec (number (dimfa t) (pick l la)) (product (dimfa t))) as [_|K];
      [|pose proof (number_bound _ _ Ia); lia].
    destruct (Nat.ltb_spec (number (dimfb t) (pick l lb)) (product (dimfb t))) as [_|K];
      [|pose proof (number_bound _ _ Ib); lia].
    cbn [rbind]. eexists. split; [reflexivity|]. intros k. cbn.
    destruct (Nat.eqb_spec k (number pd (pick l lo))) as [->|D]; lra.
  - exists o1. split; [exact E1|]. intros k Hk. rewrite A1, Z0 by auto. lra.
Qed.

(** ** The constructor *)

Definition posn (p : list nat) : list nat := map Z.to_nat (sorted_positions (zs p)).

Lemma to_nat_zs : forall l, map Z.to_nat (zs l) = l.
Proof. intros l. unfold zs. rewrite map_map. rewrite <- (map_id l) at 2. apply map_ext. intros. apply Nat2Z.id. Qed.

Lemma posn_spec : forall p, sorted_positions (zs p) = zs (posn p)
  /\ Permutation (posn p) (seq 0 (List.length p)) /\ StronglySorted le (sel 0 p (posn p)).
Proof.
  intros p. destruct (positions_spec p) as (q & E & P & S). unfold posn. rewrite E, to_nat_zs. auto.
Qed.

Lemma posn_inverse : forall p n, Permutation p (seq 0 n) ->
  Permutation (posn p) (seq 0 n) /\ sel 0 p (posn p) = seq 0 n.
Proof.
  intros p n H. destruct (inverse_spec p n H) as (q & E & P & S). unfold posn. rewrite E, to_nat_zs. auto.
Qed.

Lemma posn_length : forall p, List.length (posn p) = List.length p.
Proof. intros p. destruct (posn_spec p) as (_ & P & _). rewrite (Permutation_length P). apply seq_length. Qed.

Lemma posn_bound : forall p, Forall (fun i => i < List.length p) (posn p).
Proof.
  intros p. destruct (posn_spec p) as (_ & P & _). apply Forall_forall. intros i Hi.
  apply (Permutation_in _ P), in_seq in Hi. lia.
Qed.

Lemma sel_length : forall A (d : A) x l, List.length (sel d x l) = List.length l.
Proof. intros. unfold sel. apply map_length. Qed.

Lemma permutation_sel : forall A (d : A) p x, List.length p = List.length x ->
  permutation (zs p) x = Ok (sel d x (posn p)).
Proof.
  intros A d p x L. unfold permutation. destruct (posn_spec p) as (E & _ & _). rewrite E.
  apply select_sel. rewrite <- L. apply posn_bound.
Qed.

Lemma zs_sel : forall x l, Forall (fun i => i < List.length x) l -> sel 0%Z (zs x) l = zs (sel 0 x l).
Proof.
  intros x l _. unfold sel, zs. rewrite map_map. apply map_ext.
  intros i. change 0%Z with (Z.of_nat 0) at 1. now rewrite map_nth.
Qed.

Lemma zs_length : forall l, List.length (zs l) = List.length l.
Proof. intros. unfold zs. apply map_length. Qed.

Lemma permutation_zs : forall p x, List.length p = List.length x ->
  permutation (zs p) (zs x) = Ok (zs (sel 0 x (posn p))).
Proof.
  intros p x L. rewrite (permutation_sel Z 0%Z) by now rewrite zs_length. f_equal. apply zs_sel.
  rewrite <- L. apply posn_bound.
Qed.

Lemma sel_seq : forall A (d : A) x, sel d x (seq 0 (List.length x)) = x.
Proof.
  intros A d x. unfold sel. induction x as [|a p IH]; auto. cbn [List.length seq map nth]. f_equal.
  rewrite <- seq_shift, map_map. exact IH.
Qed.

Lemma sel_of_seq : forall n l, Forall (fun i => i < n) l -> sel 0 (seq 0 n) l = l.
Proof.
  intros n l H. unfold sel. induction H as [|i l Hi H IH]; cbn; auto. rewrite seq_nth by auto. now rewrite IH.
Qed.

Lemma kept_S : forall n ca, kept (S n) ca = kept n ca ++ (if existsb (Nat.eqb n) ca then [] else [n]).
Proof.
  intros n ca. unfold kept. rewrite seq_S, filter_app. cbn. destruct (existsb _ _); reflexivity.
Qed.

Lemma kept_rank : forall ca n j, j < List.length (kept n ca) ->
  List.length (kept (nth j (kept n ca) 0) ca) = j.
Proof.
  intros ca. induction n as [|n IH]; intros j H; [cbn in H; lia|].
  rewrite kept_S in *. rewrite app_length in H. destruct (Nat.lt_ge_cases j (List.length (kept n ca))) as [K|K].
  - rewrite app_nth1 by auto. auto.
  - destruct (existsb (Nat.eqb n) ca); cbn in H; [lia|]. assert (j = List.length (kept n ca)) by lia. subst j.
    rewrite app_nth2, Nat.sub_diag by lia. reflexivity.
Qed.

Lemma place_none : forall p ca, ~ In p ca -> place p ca = None.
Proof.
  induction ca as [|q ca IH]; intros H; cbn; auto. destruct (Nat.eqb_spec p q) as [E|E].
  - exfalso. apply H. now left.
  - rewrite IH; auto. intros K. apply H. now right.
Qed.

Lemma place_nth : forall ca k, NoDup ca -> k < List.length ca -> place (nth k ca 0) ca = Some k.
Proof.
  induction ca as [|q ca IH]; intros k N H; [cbn in H; lia|]. inversion N as [|? ? Nq N']; subst.
  destruct k as [|k]; cbn [nth place].
  - now rewrite Nat.eqb_refl.
  - cbn in H. destruct (Nat.eqb_spec (nth k ca 0) q) as [E|E].
    + exfalso. apply Nq. rewrite <- E. apply nth_In. lia.
    + rewrite IH; auto. lia.
Qed.

(** The axes of one argument. *)
Lemma sel_full : forall n ca X Y, NoDup ca -> Forall (fun p => p < n) ca ->
  List.length X = List.length (kept n ca) -> List.length Y = List.length ca ->
  sel 0 (X ++ Y) (posn (kept n ca ++ ca)) = full_index n ca Y X.
Proof.
  intros n ca X Y N F LX LY. destruct (posn_inverse _ _ (kept_perm n ca N F)) as [P E].
  assert (L : List.length (kept n ca ++ ca) = n)
    by (rewrite (Permutation_length (kept_perm n ca N F)); apply seq_length).
  apply (nth_ext _ _ 0 0).
  - unfold full_index. rewrite sel_length, map_length, posn_length, L, seq_length. reflexivity.
  - intros i Hi. rewrite sel_length, posn_length, L in Hi.
    pose proof (perm_nth _ _ _ E i Hi) as K. set (j := nth i (posn (kept n ca ++ ca)) 0) in *.
    assert (Hj : j < List.length (kept n ca ++ ca)).
    { pose proof (posn_bound (kept n ca ++ ca)) as B. rewrite Forall_forall in B. apply B. apply nth_In.
      rewrite posn_length, L. exact Hi. }
    unfold sel. rewrite (nth_indep _ 0 (nth 0 (X ++ Y) 0)) by (rewrite map_length, posn_length, L; auto).
    rewrite (map_nth (fun j => nth j (X ++ Y) 0)). fold j.
    unfold full_index.
    set (entry := fun p => match place p ca with Some k => nth k Y 0 | None => nth (List.length (kept p ca)) X 0 end).
    rewrite (nth_indep (map entry (seq 0 n)) 0 (entry 0)) by (rewrite map_length, seq_length; auto).
    rewrite (map_nth entry), seq_nth by auto. cbn [Nat.add].
    rewrite app_length in Hj. destruct (Nat.lt_ge_cases j (List.length (kept n ca))) as [Hk|Hk].
    + rewrite app_nth1 in K by auto. rewrite app_nth1 by lia. unfold entry. rewrite place_none.
      * rewrite <- K, kept_rank; auto.
      * assert (In i (kept n ca)) by (rewrite <- K; now apply nth_In). apply kept_In in H. tauto.
    + rewrite app_nth2 in K by auto. rewrite app_nth2 by lia. unfold entry. rewrite <- K, place_nth by (auto; lia).
      now rewrite LX.
Qed.

Lemma zs_app : forall x y, zs (x ++ y) = zs x ++ zs y.
Proof. intros. apply map_app. Qed.

Lemma product_perm : forall x y, Permutation x y -> product x = product y.
Proof. induction 1; cbn; nia. Qed.

Lemma product_split : forall da ca, NoDup ca -> Forall (fun p => p < List.length da) ca ->
  product da = product (sel 0 da (kept (List.length da) ca)) * product (sel 0 da ca).
Proof.
  intros da ca N F. rewrite <- product_app. unfold sel. rewrite <- map_app.
  change (product da = product (sel 0 da (kept (List.length da) ca ++ ca))).
  apply product_perm. symmetry. apply sel_perm. now apply kept_perm.
Qed.

Definition result (da db ca cb p : list nat) : td :=
  let ka := kept (List.length da) ca in
  let kb := kept (List.length db) cb in
  let na := List.length ka in
  let kd := sel 0 da ka ++ sel 0 db kb in
  let nk := List.length kd in
  let pkd := sel 0 kd (posn p) in
  {| dimfa := da; dimfb := db; keepdims := kd; loopdim := kd ++ sel 0 da ca; td_dim := product kd;
     list_strides_dimsfa := cumprod_array da; list_strides_dimsfb := cumprod_array db;
     list_strides_keepdim := cumprod_array pkd;
     list_indices_keepdim := posn p;
     list_indices_a_intot := full_index (List.length da) ca (seq nk (List.length ca)) (seq 0 na);
     list_indices_b_intot := full_index (List.length db) cb (seq nk (List.length ca)) (seq na (List.length kb));
     indices_keepdim_a := zs ka; indices_keepdim_b := zs kb;
     dimfa_grad := pkd;
     moveaxis_a := zs (sel 0 ka (posn (firstn na p)) ++ sel 0 ca (posn cb));
     moveaxis_b := zs (sel 0 kb (posn (skipn na p)) ++ sel 0 cb (posn ca));
     contfa_grad := zs (skipn na p); contfb_grad := zs (firstn na p) |}.

Lemma sizes_sel : forall d l, sizes d l = sel 0 d l.
Proof. reflexivity. Qed.

Lemma sel_firstn : forall (p : list nat) n, n <= List.length p -> sel 0 p (seq 0 n) = firstn n p.
Proof.
  intros p n. revert p. induction n; intros [|a p] H; cbn in *; try lia; auto.
  f_equal. rewrite <- seq_shift. unfold sel. rewrite map_map. apply IHn. lia.
Qed.

Lemma sel_skipn : forall (p : list nat) n m, n + m = List.length p -> sel 0 p (seq n m) = skipn n p.
Proof.
  intros p n m. revert p. induction n; intros p H; cbn [skipn].
  - cbn in H. subst m. apply sel_seq.
  - destruct p as [|a p]; cbn in H; [lia|]. cbn [skipn]. rewrite <- (IHn p) by lia.
    rewrite <- seq_shift. unfold sel. rewrite map_map. reflexivity.
Qed.

Lemma kept_length : forall n ca, NoDup ca -> Forall (fun p => p < n) ca ->
  List.length (kept n ca) + List.length ca = n.
Proof.
  intros n ca N F. rewrite <- app_length, (Permutation_length (kept_perm n ca N F)). apply seq_length.
Qed.

Lemma tensordot_ok : forall da db ca cb p, good da db ca cb p ->
  tensordot (product da) (product db) da db (zs ca) (zs cb) (Some (zs p)) = Ok (result da db ca cb p).
Proof.
  intros da db ca cb p [Pa Na Nb Ra Rb S P]. unfold tensordot.
  rewrite (sizes_sel da), (sizes_sel db) in S.
  assert (Lc : List.length ca = List.length cb) by (rewrite <- (sel_length nat 0 da ca), S; apply sel_length).
  rewrite (select_sel nat 0) by auto. cbn [rbind]. rewrite (select_sel nat 0) by auto. cbn [rbind].
  rewrite <- S. assert (Q : nats_eqb (sel 0 da ca) (sel 0 da ca) = true)
    by (unfold nats_eqb; destruct (list_eq_dec _ _ _); congruence).
  rewrite Q, !Nat.eqb_refl. cbn [require rbind].
  assert (IK : forall n c, delete (range 0 n) (zs c) = Ok (zs (kept n c))).
  { intros n c. rewrite (delete_sel Z 0%Z). f_equal. rewrite range_zs, zs_length, seq_length, Nat.sub_0_r.
    assert (B : Forall (fun i => i < n) (kept n c)) by (apply Forall_forall; intros x Hx; apply (kept_In n c) in Hx; tauto).
    rewrite zs_sel by now rewrite seq_length. now rewrite sel_of_seq. }
  rewrite IK. cbn [rbind]. rewrite (delete_sel nat 0). cbn [rbind]. rewrite IK. cbn [rbind].
  rewrite (delete_sel nat 0). cbn [rbind].
  set (ka := kept (List.length da) ca). set (kb := kept (List.length db) cb).
  set (kd := sel 0 da ka ++ sel 0 db kb).
  assert (Lkd : List.length kd = List.length ka + List.length kb) by (unfold kd; now rewrite app_length, !sel_length).
  assert (Lp : List.length p = List.length kd) by (rewrite (Permutation_length P), seq_length; auto).
  rewrite (permutation_sel nat 0) by auto. cbn [rbind].
  rewrite zs_length.
  assert (D : product da * product db = product kd * (product (sel 0 da ca) * product (sel 0 da ca))).
  { rewrite (product_split da ca), (product_split db cb) by auto. fold ka kb. unfold kd. rewrite product_app, <- S. lia. }
  assert (Ps : 0 < product (sel 0 da ca)).
  { rewrite (sizes_sel da) in Pa. clear - Pa. induction Pa as [|d l Hd _ IH]; cbn; auto. nia. }
  assert (Ed : (if List.length ca =? 0 then Ok (product da * product db)
     else if product (sel 0 da ca) =? 0 then PyErr
     else Ok (product da * product db / (product (sel 0 da ca) * product (sel 0 da ca)))) = Ok (product kd)).
  { rewrite D. destruct (Nat.eqb_spec (List.length ca) 0) as [E|E].
    - destruct ca; [|discriminate]. cbn. f_equal. lia.
    - destruct (Nat.eqb_spec (product (sel 0 da ca)) 0); [lia|]. rewrite Nat.div_mul by nia. reflexivity. }
  rewrite Ed. cbn [rbind]. rewrite permutation_zs by auto. cbn [rbind].
  destruct (posn_inverse p _ P) as [Q1 Q2]. fold ka kb in Q1, Q2, P. rewrite <- Lkd in *.
  rewrite Q2. assert (Z1 : zs_eqb (zs (seq 0 (List.length kd))) (range 0 (List.length kd)) = true).
  { rewrite range_zs, Nat.sub_0_r. unfold zs_eqb. destruct (list_eq_dec _ _ _); congruence. }
  rewrite Z1. cbn [require rbind].
  assert (Ka := kept_length _ _ Na Ra). assert (Kb := kept_length _ _ Nb Rb). fold ka in Ka. fold kb in Kb.
  assert (T : List.length da + List.length db - List.length ca - List.length kd = List.length ca) by lia.
  rewrite !sel_length. rewrite !range_zs, T, !Nat.sub_0_r. rewrite <- !zs_app.
  rewrite permutation_zs by (rewrite !app_length, !seq_length; lia). cbn [rbind].
  assert (Fa := sel_full (List.length da) ca (seq 0 (List.length ka)) (seq (List.length kd) (List.length ca)) Na Ra).
  fold ka in Fa. rewrite Fa by (now rewrite seq_length). clear Fa.
  rewrite permutation_zs by (rewrite !app_length, !seq_length; lia). cbn [rbind].
  replace (List.length kd - List.length ka) with (List.length kb) by lia.
  assert (Fb := sel_full (List.length db) cb (seq (List.length ka) (List.length kb)) (seq (List.length kd) (List.length ca)) Nb Rb).
  fold kb in Fb. rewrite Fb by (rewrite seq_length; auto). clear Fb.
  rewrite (permutation_sel nat 0) by auto. cbn [rbind].
  rewrite permutation_zs by auto. cbn [rbind].
  rewrite (select_sel Z 0%Z) by (rewrite zs_length; apply Forall_forall; intros x Hx; apply in_seq in Hx; lia).
  cbn [rbind]. rewrite zs_sel by (apply Forall_forall; intros x Hx; apply in_seq in Hx; lia).
  rewrite sel_firstn by lia.
  rewrite permutation_zs by (rewrite firstn_length; lia). cbn [rbind].
  rewrite permutation_zs by auto. cbn [rbind].
  rewrite (select_sel Z 0%Z) by (rewrite zs_length; apply Forall_forall; intros x Hx; apply in_seq in Hx; lia).
  cbn [rbind]. rewrite zs_sel by (apply Forall_forall; intros x Hx; apply in_seq in Hx; lia).
  rewrite sel_skipn by lia.
  rewrite permutation_zs by (rewrite skipn_length; lia). cbn [rbind].
  rewrite permutation_zs by (rewrite seq_length; lia). cbn [rbind].
  rewrite !to_nat_zs. rewrite sel_of_seq by (rewrite <- Lp; apply posn_bound).
  unfold result. fold ka kb. fold kd. rewrite !zs_app. reflexivity.
Qed.

(** ** The values *)

Lemma sel_map : forall (f : nat -> nat) x l, Forall (fun i => i < List.length x) l ->
  map f (sel 0 x l) = sel 0 (map f x) l.
Proof.
  intros f x l H. unfold sel. rewrite map_map. induction H as [|i l Hi H IH]; cbn; auto. f_equal; auto.
  rewrite (nth_indep (map f x) 0 (f 0)) by now rewrite map_length. symmetry. apply map_nth.
Qed.

Lemma sel_app : forall A (d : A) x l m, sel d x (l ++ m) = sel d x l ++ sel d x m.
Proof. intros. apply map_app. Qed.

Lemma sel_app1 : forall x y l, Forall (fun i => i < List.length x) l -> sel 0 (x ++ y) l = sel 0 x l.
Proof.
  intros x y l H. unfold sel. induction H as [|i l Hi H IH]; cbn; auto. f_equal; auto. now apply app_nth1.
Qed.

Lemma sel_app2 : forall x (y : list nat) n, List.length x = n -> sel 0 (x ++ y) (seq n (List.length y)) = y.
Proof.
  intros x y n <-. rewrite sel_skipn by now rewrite app_length. now rewrite skipn_app, skipn_all, Nat.sub_diag.
Qed.

Lemma full_length : forall n ca Y X, List.length (full_index n ca Y X) = n.
Proof. intros. unfold full_index. now rewrite map_length, seq_length. Qed.

Section Full.
Variables (n : nat) (ca : list nat).
Hypothesis N : NoDup ca.
Hypothesis F : Forall (fun p => p < n) ca.

Lemma keys_length : List.length (kept n ca ++ ca) = n.
Proof. rewrite app_length. now apply kept_length. Qed.

Lemma full_map : forall f X Y, List.length X = List.length (kept n ca) -> List.length Y = List.length ca ->
  map f (full_index n ca Y X) = full_index n ca (map f Y) (map f X).
Proof.
  intros f X Y LX LY. rewrite <- !sel_full by (auto; rewrite map_length; auto).
  rewrite sel_map, map_app; auto. pose proof (posn_bound (kept n ca ++ ca)) as B.
  rewrite app_length in *. now rewrite LX, LY.
Qed.

Lemma full_In : forall X Y v, List.length X = List.length (kept n ca) -> List.length Y = List.length ca ->
  In v (full_index n ca Y X) -> In v (X ++ Y).
Proof.
  intros X Y v LX LY H. rewrite <- sel_full in H by auto. unfold sel in H. apply in_map_iff in H.
  destruct H as (j & <- & Hj). apply nth_In. pose proof (posn_bound (kept n ca ++ ca)) as B.
  rewrite Forall_forall in B. specialize (B j Hj). rewrite app_length in *. now rewrite LX, LY.
Qed.

Lemma full_split : forall x, List.length x = n -> full_index n ca (sel 0 x ca) (sel 0 x (kept n ca)) = x.
Proof.
  intros x L. rewrite <- sel_full by (auto; apply sel_length). rewrite <- sel_app.
  unfold sel at 2. rewrite <- sel_map by (apply posn_bound).
  destruct (posn_inverse _ _ (kept_perm n ca N F)) as [_ E]. rewrite E.
  change (sel 0 x (seq 0 n) = x). rewrite <- L. apply sel_seq.
Qed.
End Full.

Lemma tuples_app : forall x y, tuples (x ++ y) = flat_map (fun t => map (app t) (tuples y)) (tuples x).
Proof.
  induction x as [|d x IH]; intros y; cbn [app tuples].
  - cbn. rewrite app_nil_r. symmetry. apply map_id.
  - generalize (seq 0 d). induction l as [|i l IHl]; cbn; auto. rewrite flat_map_app, <- IHl, IH. f_equal.
    generalize (tuples x). induction l0 as [|t l0 IHt]; cbn; auto. rewrite map_app, IHt, map_map. reflexivity.
Qed.

Lemma moved_sel : forall p n x y, Permutation p (seq 0 n) -> List.length x = n -> moved p x y -> y = sel 0 x (posn p).
Proof.
  intros p n x y P L [Ly M]. destruct (posn_inverse p n P) as [Q E].
  assert (Lq : List.length (posn p) = n) by (rewrite (Permutation_length Q); apply seq_length).
  apply (nth_ext _ _ 0 0).
  - rewrite sel_length. lia.
  - intros i Hi. pose proof (perm_nth _ _ _ E i ltac:(lia)) as K.
    rewrite <- K at 1. rewrite M.
    + unfold sel. rewrite (nth_indep (map (fun j => nth j x 0) (posn p)) 0 (nth 0 x 0)) by (rewrite map_length; lia).
      now rewrite (map_nth (fun j => nth j x 0)).
    + assert (In (nth i (posn p) 0) (posn p)) by (apply nth_In; lia).
      apply (Permutation_in _ Q), in_seq in H. lia.
Qed.

Lemma sel_moved : forall p n x, Permutation p (seq 0 n) -> List.length x = n -> moved p x (sel 0 x (posn p)).
Proof.
  intros p n x P L. destruct (posn_inverse p n P) as [Q E].
  assert (Lq : List.length (posn p) = n) by (rewrite (Permutation_length Q); apply seq_length).
  assert (Lp : List.length p = n) by (rewrite (Permutation_length P); apply seq_length).
  split; [rewrite sel_length; lia|]. intros i Hi.
  assert (Hp : nth i p 0 < n).
  { assert (In (nth i p 0) p) by (apply nth_In; lia). apply (Permutation_in _ P), in_seq in H. lia. }
  unfold sel. rewrite (nth_indep (map (fun j => nth j x 0) (posn p)) 0 (nth 0 x 0)) by (rewrite map_length; lia).
  rewrite (map_nth (fun j => nth j x 0)). f_equal.
  pose proof (perm_nth _ _ _ E (nth i p 0) Hp) as K.
  assert (Np : NoDup p) by (apply (Permutation_NoDup (Permutation_sym P)), seq_NoDup).
  apply (proj1 (NoDup_nth p 0) Np); [|lia|exact K].
  assert (In (nth (nth i p 0) (posn p) 0) (posn p)) by (apply nth_In; lia).
  apply (Permutation_in _ Q), in_seq in H. lia.
Qed.

Lemma sel_inj : forall p n x y, Permutation p (seq 0 n) -> List.length x = n -> List.length y = n ->
  sel 0 x (posn p) = sel 0 y (posn p) -> x = y.
Proof.
  intros p n x y P Lx Ly E. destruct (sel_moved p n x P Lx) as [_ Mx]. destruct (sel_moved p n y P Ly) as [_ My].
  apply (nth_ext _ _ 0 0); [lia|]. intros i Hi. rewrite <- Mx, <- My by lia. now rewrite E.
Qed.

Lemma index_sel : forall s i l, index s i -> Forall (fun v => v < List.length s) l -> index (sel 0 s l) (sel 0 i l).
Proof. exact pick_index. Qed.

Section Values.
Variables (da db ca cb p : list nat).
Hypothesis G : good da db ca cb p.
Let ka := kept (List.length da) ca.
Let kb := kept (List.length db) cb.
Let kda := sel 0 da ka.
Let kdb := sel 0 db kb.
Let kd := kda ++ kdb.
Let nk := List.length kd.
Let L := kd ++ sel 0 da ca.
Let lo := posn p.
Let la := full_index (List.length da) ca (seq nk (List.length ca)) (seq 0 (List.length ka)).
Let lb := full_index (List.length db) cb (seq nk (List.length ca)) (seq (List.length ka) (List.length kb)).
Let pd := sel 0 kd lo.

Lemma v_lengths : List.length ca = List.length cb /\ List.length p = nk /\ nk = List.length ka + List.length kb
  /\ List.length L = nk + List.length ca.
Proof.
  destruct G as [Pa Na Nb Ra Rb S P].
  assert (List.length ca = List.length cb).
  { rewrite (sizes_sel da), (sizes_sel db) in S. rewrite <- (sel_length nat 0 da ca), S. apply sel_length. }
  assert (nk = List.length ka + List.length kb)
    by (unfold nk, kd, kda, kdb; now rewrite app_length, !sel_length).
  repeat split; auto.
  - rewrite (Permutation_length P), seq_length. auto.
  - unfold L. rewrite app_length, sel_length. reflexivity.
Qed.

Lemma v_perm : Permutation p (seq 0 nk).
Proof. destruct v_lengths as (_ & _ & E & _). rewrite E. apply (g_perm _ _ _ _ _ G). Qed.

Lemma v_lo_bound : Forall (fun v => v < nk) lo.
Proof. destruct v_lengths as (_ & E & _). rewrite <- E. apply posn_bound. Qed.

Lemma v_la_bound : Forall (fun v => v < List.length L) la.
Proof.
  destruct v_lengths as (E1 & E2 & E3 & E4). apply Forall_forall. intros v Hv.
  apply full_In in Hv; try apply G; rewrite ?seq_length; auto.
  rewrite E4. apply in_app_iff in Hv. destruct Hv as [H|H]; apply in_seq in H; lia.
Qed.

Lemma v_lb_bound : Forall (fun v => v < List.length L) lb.
Proof.
  destruct v_lengths as (E1 & E2 & E3 & E4). apply Forall_forall. intros v Hv.
  apply full_In in Hv; try apply G; rewrite ?seq_length; auto.
  rewrite E4. apply in_app_iff in Hv. destruct Hv as [H|H]; apply in_seq in H; lia.
Qed.

(** Indices of the two arguments. *)
Lemma v_pick_a : forall x y u, List.length x = List.length ka -> List.length y = List.length kb ->
  List.length u = List.length ca -> pick ((x ++ y) ++ u) la = full_index (List.length da) ca u x.
Proof.
  intros x y u Lx Ly Lu. destruct v_lengths as (E1 & E2 & E3 & E4). unfold pick, sel, la.
  rewrite full_map; try apply G; rewrite ?seq_length; auto. f_equal.
  - rewrite <- Lu. apply sel_app2. rewrite app_length. lia.
  - change (sel 0 ((x ++ y) ++ u) (seq 0 (List.length ka)) = x). rewrite <- app_assoc, sel_app1.
    + rewrite <- Lx. apply sel_seq.
    + apply Forall_forall. intros i Hi. apply in_seq in Hi. lia.
Qed.

Lemma v_pick_b : forall x y u, List.length x = List.length ka -> List.length y = List.length kb ->
  List.length u = List.length ca -> pick ((x ++ y) ++ u) lb = full_index (List.length db) cb u y.
Proof.
  intros x y u Lx Ly Lu. destruct v_lengths as (E1 & E2 & E3 & E4). unfold pick, sel, lb.
  rewrite full_map; try apply G; rewrite ?seq_length; auto. f_equal.
  - rewrite <- Lu. apply sel_app2. rewrite app_length. lia.
  - change (sel 0 ((x ++ y) ++ u) (seq (List.length ka) (List.length kb)) = y). rewrite sel_app1.
    + rewrite <- Ly. now apply sel_app2.
    + apply Forall_forall. intros i Hi. apply in_seq in Hi. rewrite app_length. lia.
Qed.

Lemma v_dims_a : pick L la = da.
Proof.
  unfold L, kd. rewrite v_pick_a by (unfold kda, kdb; rewrite ?sel_length; auto).
  unfold kda, ka. apply full_split; try apply G; auto.
Qed.

Lemma v_dims_b : pick L lb = db.
Proof.
  unfold L, kd. rewrite v_pick_b by (unfold kda, kdb; rewrite ?sel_length; auto).
  pose proof (g_sizes _ _ _ _ _ G) as S. rewrite (sizes_sel da), (sizes_sel db) in S. rewrite S.
  unfold kdb, kb. apply full_split; try apply G; auto.
Qed.

Lemma v_pick_o : forall x u, List.length x = nk -> pick (x ++ u) lo = sel 0 x lo.
Proof. intros x u Lx. apply sel_app1. rewrite Lx. apply v_lo_bound. Qed.

Lemma v_dims_o : pick L lo = pd.
Proof. unfold L. rewrite v_pick_o; auto. Qed.

Lemma v_product : product kd = product pd.
Proof.
  symmetry. apply product_perm. apply sel_perm. destruct (posn_inverse _ _ v_perm) as [Q _]. exact Q.
Qed.

Lemma v_sum : forall out a b, List.length L <= 21 ->
  exists out', td_op (result da db ca cb p) (product da) (product db) out a b = Ok out'
  /\ forall k, k < product pd ->
    out' k = lsum (fun l => if k =? number pd (pick l lo)
                            then (a (number da (pick l la)) * b (number db (pick l lb)))%R
                            else 0%R) (tuples L).
Proof.
  intros out a b H.
  destruct (td_op_sum (result da db ca cb p) (product da) (product db) pd out a b lo la lb) as (o & E & A);
    try reflexivity.
  - apply v_product.
  - apply Forall_forall. intros v Hv. pose proof v_lo_bound as B. rewrite Forall_forall in B. specialize (B v Hv).
    change (v < List.length L). destruct v_lengths as (_ & _ & _ & E). lia.
  - apply v_la_bound.
  - apply v_lb_bound.
  - apply v_dims_o.
  - apply v_dims_a.
  - apply v_dims_b.
  - exact H.
  - exists o. split; auto. intros k Hk. apply A. change (k < product kd). now rewrite v_product.
Qed.

Lemma v_values : forall out a b, List.length da + List.length db - List.length ca <= 21 ->
  exists out', td_op (result da db ca cb p) (product da) (product db) out a b = Ok out'
  /\ forall x y, index kda x -> index kdb y ->
     out' (number pd (sel 0 (x ++ y) lo)) = dot da db ca cb a b x y.
Proof.
  intros out a b H. destruct v_lengths as (E1 & E2 & E3 & E4).
  pose proof (kept_length _ _ (g_nodup_a _ _ _ _ _ G) (g_range_a _ _ _ _ _ G)) as Ka.
  pose proof (kept_length _ _ (g_nodup_b _ _ _ _ _ G) (g_range_b _ _ _ _ _ G)) as Kb.
  fold ka in Ka. fold kb in Kb.
  destruct (v_sum out a b) as (o & E & A); [lia|]. exists o. split; auto. intros x y Hx Hy.
  assert (Ix : index kd (x ++ y)) by (apply Forall2_app; auto).
  assert (Ip : index pd (sel 0 (x ++ y) lo)) by (apply index_sel; auto; apply v_lo_bound).
  rewrite A by now apply number_bound.
  unfold L. rewrite tuples_app, lsum_flat_map.
  rewrite (lsum_single _ (list_eq_dec Nat.eq_dec) _ _ (x ++ y)); [|apply tuples_NoDup|now apply tuples_In|].
  - unfold dot. rewrite sum_over_lsum, lsum_map. apply lsum_ext. intros u Hu. apply tuples_In in Hu.
    pose proof (index_length _ _ Hx) as Lx. pose proof (index_length _ _ Hy) as Ly.
    pose proof (index_length _ _ Hu) as Lu. pose proof (index_length _ _ Ix) as Lxy.
    unfold kda in Lx. unfold kdb in Ly. rewrite sel_length in Lx, Ly.
    assert (Lu' : List.length u = List.length ca) by (rewrite <- Lu; apply map_length). clear Lu.
    rewrite (v_pick_o (x ++ y) u) by (symmetry; exact Lxy). rewrite Nat.eqb_refl.
    rewrite v_pick_a, v_pick_b by lia. reflexivity.
  - intros t Ht D. rewrite lsum_map. apply lsum_zero. intros u Hu. apply tuples_In in Ht.
    pose proof (index_length _ _ Ht) as Lt. rewrite (v_pick_o t u) by (symmetry; exact Lt).
    destruct (Nat.eqb_spec (number pd (sel 0 (x ++ y) lo)) (number pd (sel 0 t lo))) as [K|K]; auto.
    exfalso. apply D. apply number_inj in K; auto.
    + symmetry. pose proof (index_length _ _ Ix). apply (sel_inj p nk); auto. apply v_perm.
    + apply index_sel; auto. apply v_lo_bound.
Qed.
End Values.

(** No permutation is the identity. *)
Lemma sorted_seq : forall n, posn (seq 0 n) = seq 0 n.
Proof.
  intros n. destruct (posn_inverse (seq 0 n) n (Permutation_refl _)) as [Q E].
  rewrite sel_of_seq in E; auto. apply Forall_forall. intros x Hx. apply (Permutation_in _ Q), in_seq in Hx. lia.
Qed.

Theorem tensordot_values : forall da db ca cb p a b out, good da db ca cb p ->
  List.length da + List.length db - List.length ca <= 21 ->
  exists t out', tensordot (product da) (product db) da db (zs ca) (zs cb) (Some (zs p)) = Ok t
  /\ td_op t (product da) (product db) out a b = Ok out'
  /\ forall shape, moved p (sizes da (kept (List.length da) ca) ++ sizes db (kept (List.length db) cb)) shape ->
     td_dim t = entries_of shape
     /\ forall x y idx, index (sizes da (kept (List.length da) ca)) x ->
        index (sizes db (kept (List.length db) cb)) y -> moved p (x ++ y) idx ->
        out' (number shape idx) = dot da db ca cb a b x y.
Proof.
  intros da db ca cb p a b out G H. destruct (v_values _ _ _ _ _ G out a b H) as (o & E & A).
  exists (result da db ca cb p), o. split; [now apply tensordot_ok|]. split; auto.
  intros shape M.
  assert (P := v_perm _ _ _ _ _ G).
  apply (moved_sel p _ _ _ P eq_refl) in M. subst shape. split.
  - rewrite entries_product. apply (v_product _ _ _ _ _ G).
  - intros x y idx Hx Hy M. apply (moved_sel p _ _ _ P) in M.
    + subst idx. apply A; auto.
    + rewrite !app_length, !sel_length. pose proof (index_length _ _ Hx) as Lx. pose proof (index_length _ _ Hy) as Ly.
      unfold sizes in Lx, Ly. rewrite map_length in Lx, Ly. lia.
Qed.

(** ** Gradients *)

Lemma sel_sel : forall x l m, Forall (fun i => i < List.length l) m -> sel 0 x (sel 0 l m) = sel 0 (sel 0 x l) m.
Proof. intros x l m H. change (map (fun i => nth i x 0) (sel 0 l m) = sel 0 (sel 0 x l) m). now apply sel_map. Qed.

Lemma sel_back : forall t n x, Permutation t (seq 0 n) -> List.length x = n -> sel 0 (sel 0 x (posn t)) t = x.
Proof.
  intros t n x P L. destruct (sel_moved t n x P L) as [Lm M]. rewrite sel_length in Lm.
  assert (Lt : List.length t = n) by (rewrite (Permutation_length P); apply seq_length).
  apply (nth_ext _ _ 0 0); [rewrite sel_length; lia|]. intros i Hi. rewrite sel_length in Hi.
  rewrite <- M by lia. set (y := sel 0 x (posn t)). unfold sel.
  rewrite (nth_indep (map (fun j => nth j y 0) t) 0 (nth 0 y 0)) by (rewrite map_length; lia).
  now rewrite (map_nth (fun j => nth j y 0)).
Qed.

Lemma perm_bound : forall t n, Permutation t (seq 0 n) -> Forall (fun i => i < n) t.
Proof. intros t n P. apply Forall_forall. intros i Hi. apply (Permutation_in _ P), in_seq in Hi. lia. Qed.

Lemma tuples_perm : forall t L, Permutation t (seq 0 (List.length L)) ->
  Permutation (map (fun l => sel 0 l t) (tuples L)) (tuples (sel 0 L t)).
Proof.
  intros t L P.
  assert (Lt : List.length t = List.length L) by (rewrite (Permutation_length P); apply seq_length).
  assert (Q : Permutation (posn t) (seq 0 (List.length L))) by (apply posn_inverse; auto).
  apply NoDup_Permutation.
  - assert (Inj : forall x y, In x (tuples L) -> In y (tuples L) -> sel 0 x t = sel 0 y t -> x = y).
    { intros x y Hx Hy E. apply tuples_In, index_length in Hx. apply tuples_In, index_length in Hy.
      destruct (posn_inverse t _ P) as [_ I].
      assert (K : forall z, List.length z = List.length L -> sel 0 (sel 0 z t) (posn t) = z).
      { intros z Lz. rewrite <- sel_sel by apply posn_bound. rewrite I, <- Lz. apply sel_seq. }
      rewrite <- (K x), <- (K y) by auto. now rewrite E. }
    pose proof (tuples_NoDup L) as N. induction N as [|x l Hx N IH]; cbn; constructor.
    + intros H. apply in_map_iff in H. destruct H as (y & E & Hy). apply Hx.
      rewrite (Inj x y); cbn; auto.
    + apply IH. intros. apply Inj; cbn; auto.
  - apply tuples_NoDup.
  - intros x. rewrite in_map_iff, tuples_In. split.
    + intros (y & <- & Hy). apply tuples_In in Hy. apply index_sel; auto. now apply perm_bound.
    + intros H. exists (sel 0 x (posn t)).
      pose proof (index_length _ _ H) as Lx. rewrite sel_length in Lx.
      split; [apply (sel_back t (List.length L)); auto; lia|]. apply tuples_In.
      assert (E : sel 0 (sel 0 L t) (posn t) = L).
      { destruct (posn_inverse t _ P) as [_ I]. rewrite <- sel_sel by apply posn_bound. rewrite I. apply sel_seq. }
      rewrite <- E. apply index_sel; auto. rewrite sel_length. apply posn_bound.
Qed.

(** A sum of products of entries in terms of other loops. *)
Lemma reindex : forall t L l1 l2 l3 (F : list nat -> list nat -> list nat -> R),
  Permutation t (seq 0 (List.length L)) ->
  Forall (fun i => i < List.length t) l1 -> Forall (fun i => i < List.length t) l2 ->
  Forall (fun i => i < List.length t) l3 ->
  lsum (fun l => F (pick l l1) (pick l l2) (pick l l3)) (tuples (sel 0 L t))
  = lsum (fun l => F (pick l (sel 0 t l1)) (pick l (sel 0 t l2)) (pick l (sel 0 t l3))) (tuples L).
Proof.
  intros t L l1 l2 l3 F P B1 B2 B3. rewrite <- (lsum_perm _ _ _ _ (tuples_perm t L P)), lsum_map.
  apply lsum_ext. intros l _. unfold pick. now rewrite !sel_sel.
Qed.


Lemma filter_sorted : forall f l, StronglySorted le l -> StronglySorted le (filter f l).
Proof.
  intros f l H. induction H as [|x l H IH F]; cbn; [constructor|]. destruct (f x); auto. constructor; auto.
  rewrite Forall_forall in *. intros y Hy. apply filter_In in Hy. apply F. tauto.
Qed.

Lemma sel_sorted_kept : forall n ca kp, NoDup ca -> (forall x, In x ca <-> x < n /\ ~ In x kp) ->
  sel 0 ca (posn ca) = kept n kp.
Proof.
  intros n ca kp N H. destruct (posn_spec ca) as (_ & P & S). apply sorted_unique; auto.
  - apply filter_sorted, seq_sorted.
  - rewrite sel_perm by auto. apply NoDup_Permutation; auto; [apply kept_NoDup|].
    intros x. rewrite kept_In. apply H.
Qed.

Section Full2.
Variables (n : nat) (ca : list nat).
Hypothesis N : NoDup ca.
Hypothesis F : Forall (fun p => p < n) ca.
Variables X Y : list nat.
Hypothesis LX : List.length X = List.length (kept n ca).
Hypothesis LY : List.length Y = List.length ca.

Lemma full_nth : forall p, p < n -> nth p (full_index n ca Y X) 0
  = match place p ca with Some k => nth k Y 0 | None => nth (List.length (kept p ca)) X 0 end.
Proof.
  intros p Hp. unfold full_index.
  set (entry := fun p => match place p ca with Some k => nth k Y 0 | None => nth (List.length (kept p ca)) X 0 end).
  rewrite (nth_indep (map entry (seq 0 n)) 0 (entry 0)) by (now rewrite map_length, seq_length).
  rewrite (map_nth entry), seq_nth by auto. reflexivity.
Qed.

Lemma full_kept : sel 0 (full_index n ca Y X) (kept n ca) = X.
Proof.
  apply (nth_ext _ _ 0 0); [now rewrite sel_length|]. intros j Hj. rewrite sel_length in Hj.
  set (f := full_index n ca Y X). unfold sel.
  rewrite (nth_indep (map (fun i => nth i f 0) (kept n ca)) 0 (nth 0 f 0)) by (now rewrite map_length).
  rewrite (map_nth (fun i => nth i f 0)). assert (K : In (nth j (kept n ca) 0) (kept n ca)) by now apply nth_In.
  apply kept_In in K. unfold f. rewrite full_nth by tauto. rewrite place_none by tauto. now rewrite kept_rank.
Qed.

Lemma full_cont : sel 0 (full_index n ca Y X) ca = Y.
Proof.
  apply (nth_ext _ _ 0 0); [now rewrite sel_length|]. intros j Hj. rewrite sel_length in Hj.
  set (f := full_index n ca Y X). unfold sel.
  rewrite (nth_indep (map (fun i => nth i f 0) ca) 0 (nth 0 f 0)) by (now rewrite map_length).
  rewrite (map_nth (fun i => nth i f 0)). unfold f. rewrite Forall_forall in F.
  rewrite full_nth by (apply F; now apply nth_In). now rewrite place_nth.
Qed.

Lemma full_perm : Permutation (full_index n ca Y X) (X ++ Y).
Proof.
  rewrite <- sel_full by auto. apply sel_perm.
  destruct (posn_spec (kept n ca ++ ca)) as (_ & P & _). rewrite !app_length in *. now rewrite LX, LY.
Qed.
End Full2.

(** The scalar product with an array as a sum over the loops. *)
Lemma v_inner : forall da db ca cb p, good da db ca cb p -> forall out a b,
  List.length da + List.length db - List.length ca <= 21 ->
  let r := result da db ca cb p in
  let pd := dimfa_grad r in
  exists out', td_op r (product da) (product db) out a b = Ok out'
  /\ forall g, inner (td_dim r) out' g
     = lsum (fun l => g (number pd (pick l (list_indices_keepdim r)))
                      * (a (number da (pick l (list_indices_a_intot r)))
                         * b (number db (pick l (list_indices_b_intot r)))))%R (tuples (loopdim r)).
Proof.
  intros da db ca cb p G out a b H. cbv zeta.
  destruct (v_lengths _ _ _ _ _ G) as (E1 & E2 & E3 & E4).
  pose proof (kept_length _ _ (g_nodup_a _ _ _ _ _ G) (g_range_a _ _ _ _ _ G)) as Ka.
  pose proof (kept_length _ _ (g_nodup_b _ _ _ _ _ G) (g_range_b _ _ _ _ _ G)) as Kb.
  destruct (v_sum _ _ _ _ _ G out a b) as (o & E & A).
  { rewrite E4, E3. lia. }
  exists o. split; auto. intros g. unfold inner.
  pose proof (v_product _ _ _ _ _ G) as VP.
  change (td_dim (result da db ca cb p)) with (product (keepdims (result da db ca cb p))).
  change (product (keepdims (result da db ca cb p)) = product (dimfa_grad (result da db ca cb p))) in VP.
  rewrite VP, range_sum_lsum.
  set (r := result da db ca cb p) in *. set (pd := dimfa_grad r) in *.
  transitivity (lsum (fun k => lsum (fun l => if k =? number pd (pick l (list_indices_keepdim r))
     then (g k * (a (number da (pick l (list_indices_a_intot r))) * b (number db (pick l (list_indices_b_intot r)))))%R
     else 0%R) (tuples (loopdim r))) (seq 0 (product pd))).
  - assert (A' : forall k, k < product pd -> o k = lsum (fun l => if k =? number pd (pick l (list_indices_keepdim r))
      then (a (number da (pick l (list_indices_a_intot r))) * b (number db (pick l (list_indices_b_intot r))))%R
      else 0%R) (tuples (loopdim r))) by exact A. clear A.
    apply lsum_ext. intros k Hk. apply in_seq in Hk. rewrite A' by lia. rewrite Rmult_comm, <- lsum_scal.
    apply lsum_ext. intros l _. destruct (k =? _); lra.
  - rewrite lsum_swap. apply lsum_ext. intros l Hl. apply tuples_In in Hl.
    set (k0 := number pd (pick l (list_indices_keepdim r))).
    assert (Hk : k0 < product pd).
    { apply number_bound. pose proof (pick_index _ _ (list_indices_keepdim r) Hl) as I.
      pose proof (v_dims_o _ _ _ _ _ G) as D. change (pick (loopdim r) (list_indices_keepdim r) = pd) in D.
      rewrite D in I. apply I. apply Forall_forall. intros v Hv.
      pose proof (v_lo_bound _ _ _ _ _ G) as B. rewrite Forall_forall in B. specialize (B v Hv).
      change (List.length (loopdim r)) with (List.length (keepdims r ++ sel 0 da ca)).
      rewrite app_length. eapply Nat.lt_le_trans; [exact B|]. apply Nat.le_add_r. }
    rewrite (lsum_single _ Nat.eq_dec _ _ k0); [now rewrite Nat.eqb_refl|apply seq_NoDup|apply in_seq; lia|].
    intros k _ D. destruct (Nat.eqb_spec k k0); [contradiction|reflexivity].
Qed.

(** The kept axes of the gradient, in the order of the output. *)
Lemma axes_order : forall p n p1 p2 s, Permutation p (seq 0 n) -> NoDup p1 ->
  (forall x, In x p1 <-> x < n /\ ~ In x p2) ->
  (forall j, j < List.length p1 -> s + j < n /\ nth (s + j) p 0 = nth j p1 0) ->
  map (Nat.add s) (posn p1) = sel 0 (posn p) (kept n p2).
Proof.
  intros p n p1 p2 s P N1 H Hs.
  rewrite <- (sel_sorted_kept n p1 p2 N1 H).
  assert (E : sel 0 p1 (posn p1) = sel 0 p (map (Nat.add s) (posn p1))).
  { unfold sel. rewrite map_map. apply map_ext_in. intros j Hj. pose proof (posn_bound p1) as B.
    rewrite Forall_forall in B. symmetry. apply Hs. auto. }
  rewrite E.
  assert (B : Forall (fun i => i < n) (map (Nat.add s) (posn p1))).
  { rewrite Forall_map. pose proof (posn_bound p1) as B. rewrite Forall_forall in *. intros j Hj. apply Hs. auto. }
  assert (Lp : List.length p = n) by (rewrite (Permutation_length P); apply seq_length).
  rewrite sel_sel by now rewrite Lp.
  pose proof (sel_back p n (seq 0 n) P (seq_length n 0)) as K.
  rewrite sel_of_seq in K by (apply perm_bound; apply posn_inverse; auto). rewrite K. symmetry. now apply sel_of_seq.
Qed.

Lemma inner_comm : forall n x y, inner n x y = inner n y x.
Proof. intros n x y. unfold inner. induction n as [|n IH]; cbn; auto. rewrite IH. f_equal. apply Rmult_comm. Qed.

Section Grad.
Variables (da db ca cb p : list nat).
Hypothesis G : good da db ca cb p.
Hypothesis Pa : Forall (fun d => 0 < d) da.
Hypothesis Pb : Forall (fun d => 0 < d) db.
Let ka := kept (List.length da) ca.
Let kb := kept (List.length db) cb.
Let na := List.length ka.
Let kd := sel 0 da ka ++ sel 0 db kb.
Let nk := List.length kd.
Let L := kd ++ sel 0 da ca.
Let lo := posn p.
Let la := full_index (List.length da) ca (seq nk (List.length ca)) (seq 0 na).
Let lb := full_index (List.length db) cb (seq nk (List.length ca)) (seq na (List.length kb)).
Let pd := sel 0 kd lo.

Lemma gr_lengths : List.length ca = List.length cb /\ List.length p = nk /\ nk = na + List.length kb
  /\ List.length L = nk + List.length ca.
Proof. exact (v_lengths _ _ _ _ _ G). Qed.

Lemma gr_perm : Permutation p (seq 0 nk).
Proof. exact (v_perm _ _ _ _ _ G). Qed.

Lemma gr_back : sel 0 lo p = seq 0 nk.
Proof.
  pose proof (sel_back p nk (seq 0 nk) gr_perm (seq_length nk 0)) as K.
  rewrite sel_of_seq in K; auto. apply perm_bound, posn_inverse, gr_perm.
Qed.

Lemma gr_back1 : sel 0 lo (firstn na p) = seq 0 na.
Proof.
  destruct gr_lengths as (E1 & E2 & E3 & E4). unfold sel. rewrite <- firstn_map.
  change (firstn na (sel 0 lo p) = seq 0 na). rewrite gr_back, E3, seq_app.
  rewrite firstn_app, seq_length, Nat.sub_diag. rewrite firstn_all2 by (rewrite seq_length; lia). cbn. apply app_nil_r.
Qed.

Lemma gr_back2 : sel 0 lo (skipn na p) = seq na (List.length kb).
Proof.
  destruct gr_lengths as (E1 & E2 & E3 & E4). unfold sel. rewrite <- skipn_map.
  change (skipn na (sel 0 lo p) = seq na (List.length kb)). rewrite gr_back, E3, seq_app.
  rewrite skipn_app, seq_length, Nat.sub_diag. rewrite skipn_all2 by (rewrite seq_length; lia). reflexivity.
Qed.

Lemma gr_nodup : NoDup (firstn na p ++ skipn na p).
Proof. rewrite firstn_skipn. apply (Permutation_NoDup (Permutation_sym gr_perm)), seq_NoDup. Qed.

Lemma nodup_app_inv : forall A (x y : list A), NoDup (x ++ y) -> NoDup x /\ NoDup y /\ forall a, In a x -> ~ In a y.
Proof.
  induction x as [|a x IH]; cbn; intros y H; [repeat split; auto; constructor|].
  inversion H as [|? ? Ha H']; subst. destruct (IH _ H') as (A1 & A2 & A3). rewrite in_app_iff in Ha.
  repeat split; auto.
  - constructor; auto.
  - intros b [<-|Hb]; auto.
Qed.

Lemma gr_parts : forall x, In x (firstn na p) <-> x < nk /\ ~ In x (skipn na p).
Proof.
  intros x. destruct (nodup_app_inv _ _ _ gr_nodup) as (N1 & N2 & D).
  assert (M : In x p <-> x < nk).
  { split; intros H.
    - apply (Permutation_in _ gr_perm), in_seq in H. lia.
    - apply (Permutation_in _ (Permutation_sym gr_perm)), in_seq. lia. }
  rewrite <- M. rewrite <- (firstn_skipn na p) at 2. rewrite in_app_iff. split; [|tauto].
  intros H. split; auto.
Qed.

Lemma gr_parts2 : forall x, In x (skipn na p) <-> x < nk /\ ~ In x (firstn na p).
Proof.
  intros x. destruct (nodup_app_inv _ _ _ gr_nodup) as (N1 & N2 & D).
  assert (M : In x p <-> x < nk).
  { split; intros H.
    - apply (Permutation_in _ gr_perm), in_seq in H. lia.
    - apply (Permutation_in _ (Permutation_sym gr_perm)), in_seq. lia. }
  rewrite <- M. rewrite <- (firstn_skipn na p) at 2. rewrite in_app_iff. split; [|tauto].
  intros H. split; auto. intros K. exact (D x K H).
Qed.

Lemma gr_nth1 : forall j, j < List.length (firstn na p) -> 0 + j < nk /\ nth (0 + j) p 0 = nth j (firstn na p) 0.
Proof.
  destruct gr_lengths as (E1 & E2 & E3 & E4). intros j Hj. rewrite firstn_length in Hj. split; [lia|].
  rewrite <- (firstn_skipn na p) at 1. rewrite app_nth1; auto. rewrite firstn_length. lia.
Qed.

Lemma gr_nth2 : forall j, j < List.length (skipn na p) -> na + j < nk /\ nth (na + j) p 0 = nth j (skipn na p) 0.
Proof.
  destruct gr_lengths as (E1 & E2 & E3 & E4). intros j Hj. rewrite skipn_length in Hj. split; [lia|].
  rewrite <- (firstn_skipn na p) at 1. rewrite app_nth2; rewrite firstn_length; [|lia]. f_equal. lia.
Qed.

Lemma la_kept : sel 0 la ka = seq 0 na.
Proof. apply full_kept; rewrite ?seq_length; auto. Qed.
Lemma la_cont : sel 0 la ca = seq nk (List.length ca).
Proof. apply full_cont; rewrite ?seq_length; auto; apply G. Qed.
Lemma lb_kept : sel 0 lb kb = seq na (List.length kb).
Proof. apply full_kept; rewrite ?seq_length; auto. Qed.
Lemma lb_cont : sel 0 lb cb = seq nk (List.length ca).
Proof. apply full_cont; rewrite ?seq_length; auto; try apply G. apply gr_lengths. Qed.

Lemma kept_kept_b : forall x, In x cb <-> x < List.length db /\ ~ In x kb.
Proof.
  intros x. unfold kb. rewrite kept_In. pose proof (g_range_b _ _ _ _ _ G) as R. rewrite Forall_forall in R.
  split; [intros H; specialize (R x H); tauto|]. intros [H1 H2]. destruct (in_dec Nat.eq_dec x cb); tauto.
Qed.
Lemma kept_kept_a : forall x, In x ca <-> x < List.length da /\ ~ In x ka.
Proof.
  intros x. unfold ka. rewrite kept_In. pose proof (g_range_a _ _ _ _ _ G) as R. rewrite Forall_forall in R.
  split; [intros H; specialize (R x H); tauto|]. intros [H1 H2]. destruct (in_dec Nat.eq_dec x ca); tauto.
Qed.

Lemma ka_length : na + List.length ca = List.length da.
Proof. apply kept_length; apply G. Qed.
Lemma kb_length : List.length kb + List.length cb = List.length db.
Proof. apply kept_length; apply G. Qed.

Lemma firstn_len : List.length (firstn na p) = na.
Proof. destruct gr_lengths as (E1 & E2 & E3 & E4). rewrite firstn_length. lia. Qed.
Lemma skipn_len : List.length (skipn na p) = List.length kb.
Proof. destruct gr_lengths as (E1 & E2 & E3 & E4). rewrite skipn_length. lia. Qed.

(** The axes where the gradient puts those of its loops. *)
Let pa' := sel 0 ka (posn (firstn na p)) ++ sel 0 ca (posn cb).
Let pb' := sel 0 kb (posn (skipn na p)) ++ sel 0 cb (posn ca).

Lemma map_add_0 : forall l, map (Nat.add 0) l = l.
Proof. intros l. apply map_id. Qed.

Lemma move_a : sel 0 la pa' = sel 0 lo (kept nk (skipn na p)) ++ sel 0 lb (kept (List.length db) kb).
Proof.
  unfold pa'. rewrite sel_app. f_equal.
  - rewrite sel_sel, la_kept by (pose proof (posn_bound (firstn na p)) as B; rewrite firstn_len in B; exact B).
    destruct (nodup_app_inv _ _ _ gr_nodup) as (N1 & N2 & D).
    unfold lo. rewrite <- (axes_order p nk (firstn na p) (skipn na p) 0 gr_perm N1 gr_parts gr_nth1).
    rewrite map_add_0. apply sel_of_seq. pose proof (posn_bound (firstn na p)) as B. now rewrite firstn_len in B.
  - destruct gr_lengths as (E1 & _). assert (B := posn_bound cb).
    rewrite <- (sel_sorted_kept (List.length db) cb kb (g_nodup_b _ _ _ _ _ G) kept_kept_b).
    rewrite !sel_sel by (rewrite ?E1; auto). now rewrite la_cont, lb_cont.
Qed.

Lemma sel_seq_add : forall s n l, Forall (fun i => i < n) l -> sel 0 (seq s n) l = map (Nat.add s) l.
Proof.
  intros s n l H. unfold sel. induction H as [|i l Hi H IH]; cbn; auto. rewrite seq_nth by auto. now rewrite IH.
Qed.

Lemma move_b : sel 0 lb pb' = sel 0 lo (kept nk (firstn na p)) ++ sel 0 la (kept (List.length da) ka).
Proof.
  unfold pb'. rewrite sel_app. f_equal.
  - pose proof (posn_bound (skipn na p)) as B. rewrite skipn_len in B.
    rewrite sel_sel, lb_kept by exact B.
    destruct (nodup_app_inv _ _ _ gr_nodup) as (N1 & N2 & D).
    unfold lo. rewrite <- (axes_order p nk (skipn na p) (firstn na p) na gr_perm N2 gr_parts2 gr_nth2).
    now apply sel_seq_add.
  - destruct gr_lengths as (E1 & _). assert (B := posn_bound ca).
    rewrite <- (sel_sorted_kept (List.length da) ca ka (g_nodup_a _ _ _ _ _ G) kept_kept_a).
    rewrite !sel_sel by (rewrite <- ?E1; auto). now rewrite la_cont, lb_cont.
Qed.

Lemma pos_sel : forall d l, Forall (fun x => 0 < x) d -> Forall (fun i => i < List.length d) l ->
  Forall (fun x => 0 < x) (sel 0 d l).
Proof.
  intros d l H F. unfold sel. rewrite Forall_map. rewrite Forall_forall in *. intros i Hi. apply H. apply nth_In. auto.
Qed.

Lemma pd_length : List.length pd = nk.
Proof. unfold pd. rewrite sel_length. unfold lo. rewrite posn_length. apply gr_lengths. Qed.

Lemma pd_pos : Forall (fun x => 0 < x) pd.
Proof.
  apply pos_sel.
  - apply Forall_app. split; apply pos_sel; auto;
      apply Forall_forall; intros x Hx; apply kept_In in Hx; tauto.
  - destruct gr_lengths as (_ & E & _). fold nk. rewrite <- E. apply posn_bound.
Qed.

Lemma pa_perm : Permutation pa' (seq 0 (List.length da)).
Proof.
  unfold pa'. destruct gr_lengths as (E1 & _).
  rewrite (sel_perm nat 0 ka) by (destruct (posn_spec (firstn na p)) as (_ & P & _); rewrite firstn_len in P; exact P).
  rewrite (sel_perm nat 0 ca) by (destruct (posn_spec cb) as (_ & P & _); rewrite E1; exact P).
  apply kept_perm; apply G.
Qed.

Lemma pb_perm : Permutation pb' (seq 0 (List.length db)).
Proof.
  unfold pb'. destruct gr_lengths as (E1 & _).
  rewrite (sel_perm nat 0 kb) by (destruct (posn_spec (skipn na p)) as (_ & P & _); rewrite skipn_len in P; exact P).
  rewrite (sel_perm nat 0 cb) by (destruct (posn_spec ca) as (_ & P & _); rewrite <- E1; exact P).
  apply kept_perm; apply G.
Qed.

Lemma kept_range : forall n c, Forall (fun q => q < n) (kept n c).
Proof. intros n c. apply Forall_forall. intros x Hx. apply (kept_In n c) in Hx. tauto. Qed.

Lemma part_range : forall n, Forall (fun q => q < nk) (skipn n p) /\ Forall (fun q => q < nk) (firstn n p).
Proof.
  intros n. pose proof (perm_bound _ _ gr_perm) as B. rewrite <- (firstn_skipn n p) in B.
  apply Forall_app in B. tauto.
Qed.

Lemma kept_count : forall n c, NoDup c -> Forall (fun q => q < n) c ->
  List.length (kept n c) = n - List.length c.
Proof. intros n c N F. pose proof (kept_length n c N F). lia. Qed.

Lemma good_a : good pd db (skipn na p) kb pa'.
Proof.
  destruct (nodup_app_inv _ _ _ gr_nodup) as (N1 & N2 & D). destruct gr_lengths as (E1 & E2 & E3 & E4).
  constructor; auto.
  - apply pos_sel; [apply pd_pos|]. rewrite pd_length. apply part_range.
  - apply kept_NoDup.
  - rewrite pd_length. apply part_range.
  - apply kept_range.
  - change (sel 0 pd (skipn na p) = sel 0 db kb). unfold pd.
    rewrite <- sel_sel by (unfold lo; rewrite posn_length, E2; apply part_range).
    rewrite gr_back2. unfold kd. pose proof (sel_length nat 0 da ka) as Q. fold na in Q.
    pose proof (sel_app2 _ (sel 0 db kb) _ Q) as K. now rewrite sel_length in K.
  - rewrite pd_length. rewrite !kept_count; auto; try apply kept_range; try apply part_range; try apply kept_NoDup.
    rewrite skipn_len. replace (nk - List.length kb + (List.length db - List.length kb)) with (List.length da).
    + apply pa_perm.
    + pose proof ka_length. pose proof kb_length. lia.
Qed.

Lemma good_b : good pd da (firstn na p) ka pb'.
Proof.
  destruct (nodup_app_inv _ _ _ gr_nodup) as (N1 & N2 & D). destruct gr_lengths as (E1 & E2 & E3 & E4).
  constructor; auto.
  - apply pos_sel; [apply pd_pos|]. rewrite pd_length. apply part_range.
  - apply kept_NoDup.
  - rewrite pd_length. apply part_range.
  - apply kept_range.
  - change (sel 0 pd (firstn na p) = sel 0 da ka). unfold pd.
    rewrite <- sel_sel by (unfold lo; rewrite posn_length, E2; apply part_range).
    rewrite gr_back1. unfold kd. rewrite sel_app1.
    + unfold na. rewrite <- (sel_length nat 0 da ka). apply sel_seq.
    + rewrite sel_length. apply Forall_forall. intros i Hi. apply in_seq in Hi. lia.
  - rewrite pd_length. rewrite !kept_count; auto; try apply kept_range; try apply part_range; try apply kept_NoDup.
    rewrite firstn_len. fold na. replace (nk - na + (List.length da - na)) with (List.length db).
    + apply pb_perm.
    + pose proof ka_length. pose proof kb_length. lia.
Qed.

Lemma loops_split : Permutation (seq 0 na ++ seq nk (List.length ca) ++ seq na (List.length kb)) (seq 0 (List.length L)).
Proof.
  destruct gr_lengths as (E1 & E2 & E3 & E4). rewrite E4, seq_app. cbn [Nat.add]. rewrite E3 at 2. rewrite seq_app.
  cbn [Nat.add]. rewrite <- app_assoc. apply Permutation_app_head. apply Permutation_app_comm.
Qed.

(** A tensor whose axes were moved, and back. *)
Lemma move_back : forall q n l, Permutation q (seq 0 n) -> List.length l = n -> sel 0 (sel 0 l q) (posn q) = l.
Proof.
  intros q n l P Ll. rewrite <- sel_sel by apply posn_bound. destruct (posn_inverse q n P) as [_ E]. rewrite E, <- Ll.
  apply sel_seq.
Qed.

Lemma labels : 
  Forall (fun i => i < List.length lo) (kept nk (skipn na p)) /\
  Forall (fun i => i < List.length lo) (kept nk (firstn na p)) /\
  Forall (fun i => i < List.length lo) (skipn na p) /\
  Forall (fun i => i < List.length lo) (firstn na p) /\
  Forall (fun i => i < List.length la) (kept (List.length da) ka) /\
  Forall (fun i => i < List.length lb) (kept (List.length db) kb).
Proof.
  destruct gr_lengths as (E1 & E2 & E3 & E4). unfold lo, la, lb. rewrite posn_length, !full_length, E2.
  repeat split; try apply kept_range; apply part_range.
Qed.

Lemma transport : forall dt d2 lt l2 c' k2 p', good pd d2 c' k2 p' ->
  sel 0 L lt = dt -> List.length lt = List.length dt -> sel 0 L l2 = d2 -> List.length l2 = List.length d2 ->
  Permutation p' (seq 0 (List.length dt)) ->
  sel 0 lt p' = sel 0 lo (kept nk c') ++ sel 0 l2 (kept (List.length d2) k2) ->
  sel 0 lo c' = sel 0 l2 k2 ->
  Permutation (sel 0 lt p' ++ sel 0 lo c') (seq 0 (List.length L)) ->
  let r' := result pd d2 c' k2 p' in
  let t := sel 0 lt p' ++ sel 0 lo c' in
  dimfa_grad r' = dt /\ loopdim r' = sel 0 L t
  /\ Forall (fun i => i < List.length t) (list_indices_a_intot r')
  /\ Forall (fun i => i < List.length t) (list_indices_b_intot r')
  /\ Forall (fun i => i < List.length t) (list_indices_keepdim r')
  /\ sel 0 t (list_indices_a_intot r') = lo /\ sel 0 t (list_indices_b_intot r') = l2
  /\ sel 0 t (list_indices_keepdim r') = lt /\ td_dim r' = product dt.
Proof.
  intros dt d2 lt l2 c' k2 p' G' Dt Lt D2 L2 P' Hm Hc Pt r' t.
  destruct gr_lengths as (E1 & E2 & E3 & E4).
  assert (Llo : List.length lo = nk) by (unfold lo; rewrite posn_length; exact E2).
  assert (Lp' : List.length p' = List.length dt) by (rewrite (Permutation_length P'); apply seq_length).
  destruct (v_lengths _ _ _ _ _ G') as (F1 & F2 & F3 & F4).
  assert (Kb1 : Forall (fun i => i < List.length lo) (kept nk c')) by (rewrite Llo; apply kept_range).
  assert (Kb2 : Forall (fun i => i < List.length l2) (kept (List.length d2) k2)) by (rewrite L2; apply kept_range).
  assert (Cb : Forall (fun i => i < List.length lo) c')
    by (rewrite Llo; pose proof (g_range_a _ _ _ _ _ G') as B; now rewrite pd_length in B).
  assert (Pb' : Forall (fun i => i < List.length lt) p') by (rewrite Lt; now apply perm_bound).
  assert (Dpd : sel 0 L lo = pd) by exact (v_dims_o _ _ _ _ _ G).
  assert (Kd : keepdims r' = sel 0 dt p').
  { cbn [r' result keepdims]. rewrite pd_length. rewrite <- Dt, <- sel_sel by auto. rewrite Hm, sel_app.
    rewrite !sel_sel by auto. now rewrite Dpd, D2. }
  assert (Dg : dimfa_grad r' = dt).
  { change (sel 0 (keepdims r') (posn p') = dt). rewrite Kd. now apply (move_back p' (List.length dt)). }
  assert (Ld : loopdim r' = sel 0 L t).
  { change (keepdims r' ++ sel 0 pd c' = sel 0 L t). rewrite Kd. unfold t. rewrite sel_app, !sel_sel by auto.
    now rewrite Dt, Dpd. }
  assert (Len : List.length t = List.length (loopdim r')) by (rewrite Ld, sel_length; auto).
  repeat split; auto.
  - rewrite Len. exact (v_la_bound _ _ _ _ _ G').
  - rewrite Len. exact (v_lb_bound _ _ _ _ _ G').
  - rewrite Len. eapply Forall_impl; [|exact (v_lo_bound _ _ _ _ _ G')]. cbv beta. intros i Hi.
    eapply Nat.lt_le_trans; [exact Hi|]. change (loopdim r') with (keepdims r' ++ sel 0 pd c').
    rewrite (app_length (keepdims r')). apply Nat.le_add_r.
  - unfold t. rewrite Hm.
    pose proof (v_pick_a _ _ _ _ _ G' (sel 0 lo (kept nk c')) (sel 0 l2 (kept (List.length d2) k2)) (sel 0 lo c')) as K.
    rewrite !sel_length, pd_length in K. specialize (K eq_refl eq_refl eq_refl).
    cbn [r' result list_indices_a_intot]. rewrite pd_length. unfold pick in K. etransitivity; [exact K|].
    apply full_split; auto; [|now rewrite <- Llo]. apply G'.
  - unfold t. rewrite Hm.
    pose proof (v_pick_b _ _ _ _ _ G' (sel 0 lo (kept nk c')) (sel 0 l2 (kept (List.length d2) k2)) (sel 0 lo c')) as K.
    rewrite !sel_length, pd_length in K. specialize (K eq_refl eq_refl eq_refl).
    cbn [r' result list_indices_b_intot]. rewrite pd_length. unfold pick in K. etransitivity; [exact K|].
    rewrite Hc. apply full_split; auto; apply G'.
  - cbn [r' result list_indices_keepdim]. unfold t. rewrite sel_app1.
    + now apply (move_back p' (List.length dt)).
    + rewrite sel_length. apply posn_bound.
  - change (td_dim r') with (product (keepdims r')). rewrite Kd. apply product_perm. now apply sel_perm.
Qed.

Lemma la_length : List.length la = List.length da.
Proof. apply full_length. Qed.
Lemma lb_length : List.length lb = List.length db.
Proof. apply full_length. Qed.

Lemma pd_product : product pd = td_dim (result da db ca cb p).
Proof. symmetry. exact (v_product _ _ _ _ _ G). Qed.

Theorem grad_a_adjoint : forall out out' a b g,
  List.length da + List.length db - List.length ca <= 21 ->
  let r := result da db ca cb p in
  exists o t' o', td_op r (product da) (product db) out a b = Ok o
  /\ grad_a r (product db) = Ok t' /\ td_dim t' = product da
  /\ td_op t' (td_dim r) (product db) out' g b = Ok o'
  /\ inner (td_dim r) o g = inner (td_dim t') a o'.
Proof.
  intros out out' a b g H r. destruct gr_lengths as (E1 & E2 & E3 & E4).
  pose proof ka_length as Ka. pose proof kb_length as Kb.
  assert (Pt : Permutation (sel 0 la pa' ++ sel 0 lo (skipn na p)) (seq 0 (List.length L))).
  { rewrite (sel_perm nat 0 la) by (rewrite la_length; apply pa_perm). rewrite gr_back2.
    unfold la. rewrite full_perm by (rewrite ?seq_length; auto; apply G). rewrite <- app_assoc. apply loops_split. }
  destruct (transport da db la lb (skipn na p) kb pa' good_a (v_dims_a _ _ _ _ _ G) la_length
    (v_dims_b _ _ _ _ _ G) lb_length pa_perm move_a ltac:(now rewrite gr_back2, lb_kept) Pt)
    as (Dg & Ld & B1 & B2 & B3 & S1 & S2 & S3 & Td).
  destruct (v_inner _ _ _ _ _ G out a b H) as (o & Eo & Io). fold r in Eo, Io.
  destruct (v_inner _ _ _ _ _ good_a out' g b) as (o' & Eo' & Io').
  { rewrite pd_length, skipn_len. lia. }
  exists o, (result pd db (skipn na p) kb pa'), o'. split; [exact Eo|]. split; [|split; [exact Td|]].
  - pose proof (tensordot_ok _ _ _ _ _ good_a) as T. rewrite pd_product in T. exact T.
  - rewrite pd_product in Eo'. split; [exact Eo'|].
    specialize (Io g). rewrite Io. rewrite (inner_comm _ _ o').
    change (lsum (fun l => g (number (dimfa_grad r) (pick l lo)) * (a (number da (pick l la)) * b (number db (pick l lb))))%R
              (tuples L) = inner (td_dim (result pd db (skipn na p) kb pa')) o' a).
    rewrite Io', Ld, Dg.
    set (t := sel 0 la pa' ++ sel 0 lo (skipn na p)) in *.
    rewrite (reindex t L _ _ _ (fun x y z => a (number da x) * (g (number pd y) * b (number db z)))%R Pt B3 B1 B2).
    rewrite S1, S2, S3. apply lsum_ext. intros l _. change (dimfa_grad r) with pd. lra.
Qed.

Theorem grad_b_adjoint : forall out out' a b g,
  List.length da + List.length db - List.length ca <= 21 ->
  let r := result da db ca cb p in
  exists o t' o', td_op r (product da) (product db) out a b = Ok o
  /\ grad_b r (product da) = Ok t' /\ td_dim t' = product db
  /\ td_op t' (td_dim r) (product da) out' g a = Ok o'
  /\ inner (td_dim r) o g = inner (td_dim t') b o'.
Proof.
  intros out out' a b g H r. destruct gr_lengths as (E1 & E2 & E3 & E4).
  pose proof ka_length as Ka. pose proof kb_length as Kb.
  assert (Pt : Permutation (sel 0 lb pb' ++ sel 0 lo (firstn na p)) (seq 0 (List.length L))).
  { rewrite (sel_perm nat 0 lb) by (rewrite lb_length; apply pb_perm). rewrite gr_back1.
    unfold lb. rewrite full_perm by (rewrite ?seq_length; auto; apply G). rewrite Permutation_app_comm.
    rewrite <- loops_split. apply Permutation_app_head, Permutation_app_comm. }
  destruct (transport db da lb la (firstn na p) ka pb' good_b (v_dims_b _ _ _ _ _ G) lb_length
    (v_dims_a _ _ _ _ _ G) la_length pb_perm move_b ltac:(now rewrite gr_back1, la_kept) Pt)
    as (Dg & Ld & B1 & B2 & B3 & S1 & S2 & S3 & Td).
  destruct (v_inner _ _ _ _ _ G out a b H) as (o & Eo & Io). fold r in Eo, Io.
  destruct (v_inner _ _ _ _ _ good_b out' g a) as (o' & Eo' & Io').
  { rewrite pd_length, firstn_len. lia. }
  exists o, (result pd da (firstn na p) ka pb'), o'. split; [exact Eo|]. split; [|split; [exact Td|]].
  - pose proof (tensordot_ok _ _ _ _ _ good_b) as T. rewrite pd_product in T. exact T.
  - rewrite pd_product in Eo'. split; [exact Eo'|].
    specialize (Io g). rewrite Io. rewrite (inner_comm _ _ o').
    change (lsum (fun l => g (number (dimfa_grad r) (pick l lo)) * (a (number da (pick l la)) * b (number db (pick l lb))))%R
              (tuples L) = inner (td_dim (result pd da (firstn na p) ka pb')) o' b).
    rewrite Io', Ld, Dg.
    set (t := sel 0 lb pb' ++ sel 0 lo (firstn na p)) in *.
    rewrite (reindex t L _ _ _ (fun x y z => b (number db x) * (g (number pd y) * a (number da z)))%R Pt B3 B1 B2).
    rewrite S1, S2, S3. apply lsum_ext. intros l _. change (dimfa_grad r) with pd. lra.
Qed.
End Grad.

(** ** What is accepted *)

Lemma select_length : forall A (x : list A) l y, select x l = Ok y -> List.length y = List.length l.
Proof.
  intros A x. unfold select. induction l as [|i l IH]; cbn; intros y H; [now inversion H|].
  apply rbind_ok in H. destruct H as (a & _ & H). apply rbind_ok in H. destruct H as (r & Hr & H).
  inversion H; subst. cbn. f_equal. auto.
Qed.

Lemma select_bound : forall A (x : list A) l y i, select x l = Ok y -> In (Z.of_nat i) l -> i < List.length x.
Proof.
  intros A x. unfold select. induction l as [|j l IH]; cbn; intros y i H Hi; [tauto|].
  apply rbind_ok in H. destruct H as (a & Ha & H). apply rbind_ok in H. destruct H as (r & Hr & H).
  destruct Hi as [->|Hi]; [|eauto]. unfold py_get in Ha. destruct (Z.ltb_spec (Z.of_nat i) 0); [lia|].
  destruct (Z.leb_spec 0 (Z.of_nat i)), (Z.ltb_spec (Z.of_nat i) (Z.of_nat (List.length x))); cbn in Ha; try discriminate. lia.
Qed.

Lemma insert_any : forall k i l, Permutation (insert k i l) ((k, i) :: l).
Proof.
  intros k i l. induction l as [|[k' i'] l IH]; cbn; auto. destruct (k' <=? k)%Z; auto.
  rewrite IH. apply perm_swap.
Qed.

Lemma sort_from_any : forall keys i acc,
  Permutation (map snd (sort_from i keys acc)) (map snd acc ++ seq i (List.length keys)).
Proof.
  induction keys as [|k keys IH]; cbn; intros i acc; [now rewrite app_nil_r|].
  rewrite IH. rewrite (Permutation_map snd (insert_any k i acc)). cbn.
  rewrite <- Permutation_middle. reflexivity.
Qed.

Lemma sorted_positions_perm : forall keys, exists q, sorted_positions keys = zs q
  /\ Permutation q (seq 0 (List.length keys)).
Proof.
  intros keys. exists (map snd (sort_from 0 keys [])). split.
  - unfold sorted_positions, zs. now rewrite map_map.
  - apply sort_from_any.
Qed.

Lemma permutation_bound : forall A perm (arr : list A) y, permutation perm arr = Ok y ->
  List.length perm <= List.length arr /\ List.length y = List.length perm.
Proof.
  intros A perm arr y H. unfold permutation in H. destruct (sorted_positions_perm perm) as (q & E & P).
  rewrite E in H. split.
  - destruct (List.length perm) as [|n] eqn:L; [lia|].
    assert (In (Z.of_nat n) (zs q)).
    { apply in_map. apply (Permutation_in _ (Permutation_sym P)), in_seq. lia. }
    pose proof (select_bound _ _ _ _ _ H H0). lia.
  - apply select_length in H. rewrite H, zs_length, (Permutation_length P). apply seq_length.
Qed.

Lemma permutation_self : forall p y, permutation p p = Ok y -> Permutation y p.
Proof.
  intros p y H. unfold permutation in H. destruct (sorted_positions_perm p) as (q & E & P). rewrite E in H.
  rewrite (select_sel Z 0%Z) in H.
  - inversion H. now apply sel_perm.
  - apply Forall_forall. intros x Hx. apply (Permutation_in _ P), in_seq in Hx. lia.
Qed.

Lemma natural : forall l, Forall (fun z => 0 <= z)%Z l -> l = zs (map Z.to_nat l).
Proof.
  intros l H. unfold zs. rewrite map_map. induction H as [|z l Hz H IH]; cbn; auto. rewrite Z2Nat.id by auto. now rewrite <- IH.
Qed.

Lemma kept_count_z : forall n ca,
  let k := filter (fun i => negb (existsb (Z.eqb i) ca)) (range 0 n) in
  n <= List.length k + List.length ca
  /\ (List.length k + List.length ca <= n -> NoDup ca /\ Forall (fun z => 0 <= z < Z.of_nat n)%Z ca).
Proof.
  intros n ca k.
  assert (N : NoDup (range 0 n)).
  { unfold range. apply FinFun.Injective_map_NoDup; [|apply seq_NoDup]. intros x y H. now apply Nat2Z.inj. }
  assert (Lr : List.length (range 0 n) = n) by (unfold range; rewrite map_length, seq_length; lia).
  assert (I : incl (range 0 n) (ca ++ k)).
  { intros x Hx. apply in_app_iff. destruct (existsb (Z.eqb x) ca) eqn:E.
    - left. apply existsb_exists in E. destruct E as (y & Hy & E). apply Z.eqb_eq in E. now subst.
    - right. apply filter_In. now rewrite E. }
  split.
  - pose proof (NoDup_incl_length N I) as H. rewrite app_length in H. lia.
  - intros H. assert (H' : List.length (ca ++ k) <= List.length (range 0 n)) by (rewrite app_length; lia).
    split.
    + apply (NoDup_incl_NoDup N H') in I. now apply nodup_app_inv in I.
    + apply (NoDup_length_incl N H') in I. apply Forall_forall. intros z Hz.
      assert (In z (range 0 n)) as K by (apply I, in_app_iff; auto).
      unfold range in K. apply in_map_iff in K. destruct K as (m & <- & K). apply in_seq in K. lia.
Qed.

Lemma delete_length : forall A (x : list A) ca y, delete x ca = Ok y ->
  List.length y = List.length (filter (fun i => negb (existsb (Z.eqb i) ca)) (range 0 (List.length x))).
Proof. intros A x ca y H. unfold delete in H. now apply select_length in H. Qed.

Lemma require_ok : forall b u, require b = Ok u -> b = true.
Proof. intros [] u H; auto; discriminate. Qed.

Lemma range_length : forall a b, List.length (range a b) = b - a.
Proof. intros. unfold range. now rewrite map_length, seq_length. Qed.

Lemma product_pos : forall l, product l <> 0 -> Forall (fun d => 0 < d) l.
Proof. induction l as [|d l IH]; cbn; intros H; constructor; [|apply IH]; nia. Qed.

Theorem tensordot_accepts : forall fad fbd da db ca cb pm t, tensordot fad fbd da db ca cb pm = Ok t ->
  exists ca' cb' p, ca = zs ca' /\ cb = zs cb' /\ good da db ca' cb' p
  /\ fad = product da /\ fbd = product db
  /\ match pm with None => p = seq 0 (List.length p) | Some q => q = zs p end.
Proof.
  intros fad fbd da db ca cb pm t H. unfold tensordot in H.
  apply rbind_ok in H. destruct H as (sb & Hsb & H).
  apply rbind_ok in H. destruct H as (sa & Hsa & H).
  apply rbind_ok in H. destruct H as (? & Heq & H). apply require_ok in Heq.
  apply rbind_ok in H. destruct H as (? & Hfa & H). apply require_ok, Nat.eqb_eq in Hfa.
  apply rbind_ok in H. destruct H as (? & Hfb & H). apply require_ok, Nat.eqb_eq in Hfb.
  apply rbind_ok in H. destruct H as (ika & Hika & H).
  apply rbind_ok in H. destruct H as (kda & Hkda & H).
  apply rbind_ok in H. destruct H as (ikb & Hikb & H).
  apply rbind_ok in H. destruct H as (kdb & Hkdb & H).
  apply rbind_ok in H. destruct H as (pkd & Hpkd & H).
  apply rbind_ok in H. destruct H as (d & Hd & H).
  apply rbind_ok in H. destruct H as (perm & Hperm & H).
  apply rbind_ok in H. destruct H as (la & Hla & H).
  apply rbind_ok in H. destruct H as (lb & Hlb & _).
  unfold nats_eqb in Heq. destruct (list_eq_dec Nat.eq_dec sb sa) as [->|]; [|discriminate]. clear Heq.
  assert (Lc : List.length ca = List.length cb).
  { apply select_length in Hsa. apply select_length in Hsb. congruence. }
  apply permutation_bound in Hla. apply permutation_bound in Hlb.
  rewrite !app_length, !range_length in *.
  pose proof (delete_length _ _ _ _ Hika) as La. rewrite range_length, Nat.sub_0_r in La.
  pose proof (delete_length _ _ _ _ Hikb) as Lb. rewrite range_length, Nat.sub_0_r in Lb.
  pose proof (delete_length _ _ _ _ Hkda) as La'. pose proof (delete_length _ _ _ _ Hkdb) as Lb'.
  destruct (kept_count_z (List.length da) ca) as (Ca & Ca'). destruct (kept_count_z (List.length db) cb) as (Cb & Cb').
  destruct Hla as [Hla _]. destruct Hlb as [Hlb _].
  assert (Fl : forall n c, List.length (filter (fun i => negb (existsb (Z.eqb i) c)) (range 0 n)) <= n).
  { intros n c. rewrite <- (Nat.sub_0_r n) at 2. rewrite <- range_length. generalize (range 0 n). intros l.
    induction l as [|z l IH]; cbn; auto. destruct (negb _); cbn; lia. }
  pose proof (Fl (List.length da) ca). pose proof (Fl (List.length db) cb).
  destruct Ca' as (Na & Ra); [lia|]. destruct Cb' as (Nb & Rb); [lia|].
  assert (Za : ca = zs (map Z.to_nat ca)).
  { apply natural. eapply Forall_impl; [|exact Ra]. cbv beta. lia. }
  assert (Zb : cb = zs (map Z.to_nat cb)).
  { apply natural. eapply Forall_impl; [|exact Rb]. cbv beta. lia. }
  set (ca' := map Z.to_nat ca) in *. set (cb' := map Z.to_nat cb) in *.
  assert (Na' : NoDup ca') by (rewrite Za in Na; now apply NoDup_map_inv in Na).
  assert (Nb' : NoDup cb') by (rewrite Zb in Nb; now apply NoDup_map_inv in Nb).
  assert (Ra' : Forall (fun q => q < List.length da) ca').
  { unfold ca'. rewrite Forall_map. eapply Forall_impl; [|exact Ra]. cbv beta. lia. }
  assert (Rb' : Forall (fun q => q < List.length db) cb').
  { unfold cb'. rewrite Forall_map. eapply Forall_impl; [|exact Rb]. cbv beta. lia. }
  rewrite Za in Hsa. rewrite Zb in Hsb. rewrite (select_sel nat 0) in Hsa, Hsb by auto.
  inversion Hsa as [Ea]. inversion Hsb as [Eb]. clear Hsa Hsb.
  assert (Ps : Forall (fun d => 0 < d) (sizes da ca')).
  { rewrite sizes_sel, Ea. destruct (Nat.eqb_spec (List.length ca) 0) as [E|E].
    - rewrite <- Ea. destruct ca; [|discriminate]. constructor.
    - destruct (Nat.eqb_spec (product sa) 0); [discriminate|]. now apply product_pos. }
  assert (Kd : List.length kda + List.length kdb
    = List.length (kept (List.length da) ca') + List.length (kept (List.length db) cb')).
  { rewrite Za in Hkda. rewrite Zb in Hkdb. rewrite (delete_sel nat 0) in Hkda, Hkdb.
    inversion Hkda. inversion Hkdb. now rewrite !sel_length. }
  assert (Sz : sizes da ca' = sizes db cb') by (transitivity sa; [exact Ea|symmetry; exact Eb]).
  destruct pm as [q|].
  - apply rbind_ok in Hperm. destruct Hperm as (pp & Hpp & K). apply rbind_ok in K. destruct K as (? & K & _).
    apply require_ok in K. unfold zs_eqb in K. destruct (list_eq_dec _ pp _) as [->|]; [|discriminate]. clear K.
    apply permutation_self in Hpp. unfold range in Hpp. rewrite Nat.sub_0_r in Hpp.
    assert (Zq : q = zs (map Z.to_nat q)).
    { apply natural. apply Forall_forall. intros z Hz. apply (Permutation_in _ (Permutation_sym Hpp)) in Hz.
      apply in_map_iff in Hz. destruct Hz as (m & <- & _). lia. }
    exists ca', cb', (map Z.to_nat q). repeat (split; auto).
    apply Permutation_sym in Hpp. apply (Permutation_map Z.to_nat) in Hpp. rewrite map_map in Hpp.
    rewrite (map_ext _ (fun x => x) Nat2Z.id), map_id, Kd in Hpp. exact Hpp.
  - exists ca', cb', (seq 0 (List.length kda + List.length kdb)). repeat (split; auto).
    + now rewrite Kd.
    + now rewrite seq_length.
Qed.

Lemma tensordot_none : forall da db ca cb, 
  let n := List.length (kept (List.length da) ca) + List.length (kept (List.length db) cb) in
  good da db ca cb (seq 0 n) ->
  tensordot (product da) (product db) da db (zs ca) (zs cb) None = Ok (result da db ca cb (seq 0 n)).
Proof.
  intros da db ca cb n G. rewrite <- (tensordot_ok _ _ _ _ _ G).
  unfold tensordot. destruct (select db (zs cb)); cbn [rbind]; auto.
  destruct (select da (zs ca)); cbn [rbind]; auto.
  destruct (require _); cbn [rbind]; auto. destruct (require _); cbn [rbind]; auto. destruct (require _); cbn [rbind]; auto.
  destruct (delete (range 0 (List.length da)) (zs ca)); cbn [rbind]; auto.
  rewrite !(delete_sel nat 0). cbn [rbind].
  destruct (delete (range 0 (List.length db)) (zs cb)); cbn [rbind]; auto.
  set (kd := sel 0 da (kept (List.length da) ca) ++ sel 0 db (kept (List.length db) cb)).
  assert (Lkd : List.length kd = n) by (unfold kd; now rewrite app_length, !sel_length).
  assert (E : permutation (zs (seq 0 n)) kd = Ok kd).
  { rewrite (permutation_sel nat 0) by now rewrite seq_length. rewrite sorted_seq, <- Lkd. f_equal. apply sel_seq. }
  rewrite E. cbn [rbind].
  assert (E' : permutation (zs (seq 0 n)) (zs (seq 0 n)) = Ok (zs (seq 0 n))).
  { rewrite permutation_zs by reflexivity. rewrite sorted_seq. f_equal. f_equal.
    apply sel_of_seq. apply Forall_forall. intros x Hx. apply in_seq in Hx. lia. }
  rewrite E'. cbn [rbind]. assert (R0 : range 0 (List.length kd) = zs (seq 0 n)) by (rewrite range_zs, Lkd; now rewrite Nat.sub_0_r).
  rewrite R0. assert (Z1 : zs_eqb (zs (seq 0 n)) (zs (seq 0 n)) = true) by (unfold zs_eqb; destruct (list_eq_dec _ _ _); congruence).
  rewrite Z1. cbn [require rbind].
  destruct (if List.length (zs ca) =? 0 then _ else _); cbn [rbind]; auto.
Qed.

(** ** Kronecker products *)

Fixpoint weave (x y : list nat) : list nat :=
  match x, y with i :: x, l :: y => i :: l :: weave x y | _, _ => [] end.

Lemma weave_length : forall x y, List.length x = List.length y -> List.length (weave x y) = 2 * List.length x.
Proof. induction x as [|i x IH]; intros [|l y] H; cbn in *; try discriminate; auto. rewrite IH by lia. lia. Qed.

Lemma weave_even : forall x y i, List.length x = List.length y -> nth (2 * i) (weave x y) 0 = nth i x 0.
Proof.
  induction x as [|a x IH]; intros [|b y] i H; try discriminate; [cbn; now destruct (i + (i + 0)), i|].
  destruct i as [|i]; auto. replace (2 * S i) with (S (S (2 * i))) by lia. cbn [weave nth]. apply IH. now inversion H.
Qed.

Lemma weave_odd : forall x y i, List.length x = List.length y -> nth (2 * i + 1) (weave x y) 0 = nth i y 0.
Proof.
  induction x as [|a x IH]; intros [|b y] i H; try discriminate; [cbn; now destruct (i + (i + 0) + 1), i|].
  destruct i as [|i]; auto. replace (2 * S i + 1) with (S (S (2 * i + 1))) by lia. cbn [weave nth]. apply IH. now inversion H.
Qed.

Lemma weave_number : forall da db x y acc, List.length da = List.length db -> List.length x = List.length da ->
  List.length y = List.length da ->
  number_from acc (weave da db) (weave x y) = number_from acc (kron_shape da db) (kron_index db x y).
Proof.
  induction da as [|d da IH]; intros [|e db] [|i x] [|l y] acc H1 H2 H3; try discriminate; auto.
  cbn [weave kron_shape kron_index number_from]. rewrite IH by (cbn in *; lia). f_equal. lia.
Qed.

Lemma weave_product : forall da db, List.length da = List.length db ->
  entries_of (weave da db) = entries_of (kron_shape da db).
Proof.
  induction da as [|d da IH]; intros [|e db] H; try discriminate; auto. cbn [weave kron_shape entries_of].
  rewrite IH by (cbn in *; lia). lia.
Qed.

Definition kron_axes (n : nat) : list nat :=
  map (fun i => 2 * i) (seq 0 n) ++ map (fun i => 2 * i + 1) (seq 0 n).

Lemma kron_axes_perm : forall n, Permutation (kron_axes n) (seq 0 (n + n)).
Proof.
  intros n. apply NoDup_Permutation.
  - unfold kron_axes.
    assert (N1 : NoDup (map (fun i => 2 * i) (seq 0 n))).
    { apply FinFun.Injective_map_NoDup; [|apply seq_NoDup]. intros a b. lia. }
    assert (N2 : NoDup (map (fun i => 2 * i + 1) (seq 0 n))).
    { apply FinFun.Injective_map_NoDup; [|apply seq_NoDup]. intros a b. lia. }
    assert (D : forall a, In a (map (fun i => 2 * i) (seq 0 n)) -> ~ In a (map (fun i => 2 * i + 1) (seq 0 n))).
    { intros a H1 H2. apply in_map_iff in H1. apply in_map_iff in H2. destruct H1 as (i & <- & _), H2 as (j & E & _). lia. }
    revert N1 N2 D. generalize (map (fun i => 2 * i) (seq 0 n)) (map (fun i => 2 * i + 1) (seq 0 n)).
    induction l as [|a l IH]; cbn; intros m N1 N2 D; auto. inversion N1; subst. constructor.
    + rewrite in_app_iff. intros [K|K]; auto. exact (D a (or_introl eq_refl) K).
    + apply IH; auto.
  - apply seq_NoDup.
  - intros x. unfold kron_axes. rewrite in_app_iff, !in_map_iff, in_seq. split.
    + intros [(i & <- & H)|(i & <- & H)]; apply in_seq in H; lia.
    + intros H. destruct (Nat.even x) eqn:E.
      * left. apply Nat.even_spec in E. destruct E as [i ->]. exists i. split; auto. apply in_seq. lia.
      * right. assert (O : Nat.odd x = true) by (unfold Nat.odd; now rewrite E). apply Nat.odd_spec in O.
        destruct O as [i ->]. exists i. split; auto. apply in_seq. lia.
Qed.

Lemma kept_nil : forall n, kept n [] = seq 0 n.
Proof. intros n. unfold kept. generalize (seq 0 n). induction l as [|a l IH]; cbn; auto. f_equal. exact IH. Qed.

Lemma full_nil : forall x, full_index (List.length x) [] [] x = x.
Proof.
  intros x. pose proof (full_split (List.length x) [] (NoDup_nil _) (Forall_nil _) x eq_refl) as H.
  rewrite kept_nil in H. rewrite sel_seq in H. exact H.
Qed.

Lemma moved_weave : forall x y, List.length x = List.length y -> moved (kron_axes (List.length x)) (x ++ y) (weave x y).
Proof.
  intros x y H. split; [rewrite weave_length, app_length; lia|]. intros i Hi. rewrite app_length in Hi.
  unfold kron_axes. destruct (Nat.lt_ge_cases i (List.length x)) as [L|L].
  - rewrite app_nth1 by (rewrite map_length, seq_length; auto). rewrite (app_nth1 x) by auto.
    rewrite (nth_indep (map (fun i => 2 * i) (seq 0 (List.length x))) 0 (2 * 0)) by (rewrite map_length, seq_length; auto).
    rewrite (map_nth (fun i => 2 * i)), seq_nth by auto. now apply weave_even.
  - rewrite app_nth2 by (rewrite map_length, seq_length; auto). rewrite (app_nth2 x) by auto.
    rewrite map_length, seq_length.
    rewrite (nth_indep (map (fun i => 2 * i + 1) (seq 0 (List.length x))) 0 (2 * 0 + 1)) by (rewrite map_length, seq_length; lia).
    rewrite (map_nth (fun i => 2 * i + 1)), seq_nth by lia. now apply weave_odd.
Qed.

Theorem kron_values : forall da db a b out, List.length da = List.length db -> List.length da <= 10 ->
  exists t out', kron (product da) (product db) da db = Ok t
  /\ td_op t (product da) (product db) out a b = Ok out'
  /\ td_dim t = entries_of (kron_shape da db)
  /\ forall x y, index da x -> index db y ->
     out' (number (kron_shape da db) (kron_index db x y)) = (a (number da x) * b (number db y))%R.
Proof.
  intros da db a b out H L. set (n := List.length da).
  assert (G : good da db [] [] (kron_axes n)).
  { constructor; try constructor. rewrite !kept_nil, !seq_length, <- H. apply kron_axes_perm. }
  destruct (tensordot_values da db [] [] (kron_axes n) a b out G) as (t & out' & E & F & V); [cbn; lia|].
  assert (Sa : forall d, sizes d (kept (List.length d) []) = d) by (intros d; rewrite kept_nil, sizes_sel; apply sel_seq).
  rewrite !Sa in V. destruct (V (weave da db)) as [Vd Vv]; [apply moved_weave; auto|].
  exists t, out'. split; [|split; [exact F|split]].
  - unfold kron. rewrite H, Nat.eqb_refl. cbn [require rbind]. rewrite <- H. fold n. rewrite <- E. f_equal. f_equal.
    unfold zs, kron_axes. now rewrite map_app, !map_map.
  - rewrite Vd. now apply weave_product.
  - intros x y Hx Hy. assert (Lx := index_length _ _ Hx). assert (Ly := index_length _ _ Hy).
    unfold number at 1. rewrite <- weave_number by lia. fold (number (weave da db) (weave x y)).
    rewrite (Vv x y); auto.
    + unfold dot. cbn [sizes map sum_over]. rewrite Lx, Ly. now rewrite !full_nil.
    + unfold n. rewrite Lx. apply moved_weave. lia.
Qed.

(** ** Matrix products *)

Lemma for_inv : forall S (I : nat -> S -> Prop) body n i s, I i s ->
  (forall k s, i <= k < i + n -> I k s -> exists s', body k s = Ok s' /\ I (k + 1) s') ->
  exists s', for_from n i body s = Ok s' /\ I (i + n) s'.
Proof.
  intros S I body. induction n as [|n IH]; cbn; intros i s H0 H; [exists s; split; auto; now rewrite Nat.add_0_r|].
  destruct (H i s ltac:(lia) H0) as (s' & E & H1). rewrite E. cbn [rbind].
  destruct (IH (i + 1) s' H1) as (s'' & E' & H2); [intros; apply H; auto; lia|].
  exists s''. split; auto. replace (i + Datatypes.S n) with (i + 1 + n) by lia. exact H2.
Qed.

Lemma read_ok : forall n x i, i < n -> read n x i = Ok (x i).
Proof. intros n x i H. unfold read. apply Nat.ltb_lt in H. now rewrite H. Qed.
Lemma write_ok : forall n x i v, i < n -> write n x i v = Ok (fun j => if j =? i then v else x j).
Proof. intros n x i v H. unfold write. apply Nat.ltb_lt in H. now rewrite H. Qed.

Theorem matvec_values : forall n m out a b, 0 < m ->
  exists out', matvec (n * m) m out a b = Ok (n, out')
  /\ forall i, i < n -> out' i = range_sum m (fun k => a (i * m + k)%nat * b k)%R.
Proof.
  intros n m out a b Hm. unfold matvec.
  destruct (Nat.eqb_spec m 0); [lia|]. rewrite Nat.mod_mul, Nat.div_mul by lia. cbn [Nat.eqb negb]. unfold for_loop.
  edestruct (for_inv (nat * (nat -> R)) (fun i s => fst s = i * m /\
     forall j, j < i -> snd s j = range_sum m (fun k => a (j * m + k)%nat * b k)%R)) with (n := n) (i := 0) (s := (0, out))
     as (s' & E & I).
  3: { rewrite E. cbn [rbind]. exists (snd s'). split; auto. apply I. }
  - cbn. split; auto. lia.
  - intros i [q o] Hi [Eq Ho]. cbn [fst snd] in *. subst q. rewrite write_ok by lia. cbn [rbind]. unfold for_loop.
    set (o1 := fun j => if j =? i then 0%R else o j).
    edestruct (for_inv (nat * (nat -> R)) (fun k s => fst s = i * m + k /\
       snd s i = range_sum k (fun k => a (i * m + k)%nat * b k)%R /\ forall j, j < i -> snd s j = o j))
       with (n := m) (i := 0) (s := (i * m, o1)) as (s' & E & I).
    3: { rewrite E. exists s'. split; auto. destruct I as (I1 & I2 & I3). cbn in I1. split; [lia|].
         intros j Hj. destruct (Nat.eq_dec j i) as [->|D]; [exact I2|]. rewrite I3 by lia. apply Ho. lia. }
    + cbn. split; [lia|]. split; [unfold o1; now rewrite Nat.eqb_refl|]. intros j Hj. unfold o1.
      destruct (Nat.eqb_spec j i); [lia|auto].
    + intros k [q o2] Hk (I1 & I2 & I3). cbn [fst snd] in *. subst q.
      rewrite read_ok by lia. cbn [rbind]. rewrite read_ok by nia. cbn [rbind]. rewrite read_ok by lia. cbn [rbind].
      rewrite write_ok by lia. cbn [rbind]. eexists. split; [reflexivity|]. cbn [fst snd]. split; [lia|]. split.
      * rewrite Nat.eqb_refl, I2. rewrite Nat.add_1_r. reflexivity.
      * intros j Hj. destruct (Nat.eqb_spec j i); [lia|auto].
Qed.

Theorem vecmat_values : forall n m out a b, 0 < m ->
  exists out', vecmat m (m * n) out b a = Ok (n, out')
  /\ forall i, i < n -> out' i = range_sum m (fun k => a (k * n + i)%nat * b k)%R.
Proof.
  intros n m out a b Hm. unfold vecmat.
  destruct (Nat.eqb_spec m 0); [lia|]. rewrite (Nat.mul_comm m n), Nat.mod_mul, Nat.div_mul by lia. cbn [Nat.eqb negb].
  unfold for_loop.
  edestruct (for_inv (nat -> R) (fun i o =>
     forall j, j < i -> o j = range_sum m (fun k => a (k * n + j)%nat * b k)%R)) with (n := n) (i := 0) (s := out)
     as (s' & E & I).
  3: { rewrite E. cbn [rbind]. exists s'. split; auto. }
  - lia.
  - intros i o Hi Ho. cbv beta. rewrite write_ok by lia. cbn [rbind]. unfold for_loop.
    set (o1 := fun j => if j =? i then 0%R else o j).
    edestruct (for_inv (nat -> R) (fun k s =>
       s i = range_sum k (fun k => a (k * n + i)%nat * b k)%R /\ forall j, j < i -> s j = o j))
       with (n := m) (i := 0) (s := o1) as (s' & E & I).
    3: { rewrite E. exists s'. split; auto. destruct I as (I2 & I3).
         intros j Hj. destruct (Nat.eq_dec j i) as [->|D]; [exact I2|]. rewrite I3 by lia. apply Ho. lia. }
    + split; [unfold o1; now rewrite Nat.eqb_refl|]. intros j Hj. unfold o1.
      destruct (Nat.eqb_spec j i); [lia|auto].
    + intros k o2 Hk (I2 & I3). cbv beta.
      rewrite read_ok by lia. cbn [rbind]. rewrite read_ok by nia. cbn [rbind]. rewrite read_ok by lia. cbn [rbind].
      rewrite write_ok by lia. eexists. split; [reflexivity|]. split.
      * rewrite Nat.eqb_refl, I2. rewrite Nat.add_1_r. reflexivity.
      * intros j Hj. destruct (Nat.eqb_spec j i); [lia|auto].
Qed.

Theorem tensorprod_values : forall n m out a b,
  exists out', tensorprod n m out a b = Ok (n * m, out')
  /\ forall k l, k < n -> l < m -> out' (k * m + l) = (a k * b l)%R.
Proof.
  intros n m out a b. unfold tensorprod, for_loop.
  edestruct (for_inv (nat * (nat -> R)) (fun i s => fst s = i * m /\
     forall k l, k < i -> l < m -> snd s (k * m + l) = (a k * b l)%R)) with (n := n) (i := 0) (s := (0, out))
     as (s' & E & I).
  3: { rewrite E. cbn [rbind]. exists (snd s'). split; auto. apply I. }
  - cbn. split; auto. lia.
  - intros i [q o] Hi [Eq Ho]. cbn [fst snd] in *. subst q.
    edestruct (for_inv (nat * (nat -> R)) (fun l s => fst s = i * m + l /\
       (forall l', l' < l -> snd s (i * m + l') = (a i * b l')%R) /\ forall j, j < i * m -> snd s j = o j))
       with (n := m) (i := 0) (s := (i * m, o)) as (s' & E & I).
    3: { rewrite E. exists s'. split; auto. destruct I as (I1 & I2 & I3). cbn in I1. split; [lia|].
         intros k l Hk Hl. destruct (Nat.eq_dec k i) as [->|D]; [apply I2; lia|]. rewrite I3 by nia. apply Ho; lia. }
    + cbn. split; [lia|]. split; auto. lia.
    + intros l [q o2] Hl (I1 & I2 & I3). cbn [fst snd] in *. subst q.
      rewrite read_ok by lia. cbn [rbind]. rewrite read_ok by lia. cbn [rbind].
      rewrite write_ok by nia. cbn [rbind]. eexists. split; [reflexivity|]. cbn [fst snd]. split; [lia|]. split.
      * intros l' Hl'. destruct (Nat.eqb_spec (i * m + l') (i * m + l)) as [K|K].
        -- assert (l' = l) as -> by lia. reflexivity.
        -- apply I2. lia.
      * intros j Hj. destruct (Nat.eqb_spec j (i * m + l)); [lia|auto].
Qed.

(** ** Names *)

Theorem names_fail : forall da db ca cb p out a b, good da db ca cb p ->
  21 < List.length da + List.length db - List.length ca ->
  exists t, tensordot (product da) (product db) da db (zs ca) (zs cb) (Some (zs p)) = Ok t
  /\ td_op t (product da) (product db) out a b = KErr.
Proof.
  intros da db ca cb p out a b G H. exists (result da db ca cb p). split; [now apply tensordot_ok|].
  destruct (v_lengths _ _ _ _ _ G) as (E1 & E2 & E3 & E4).
  pose proof (kept_length _ _ (g_nodup_a _ _ _ _ _ G) (g_range_a _ _ _ _ _ G)) as Ka.
  pose proof (kept_length _ _ (g_nodup_b _ _ _ _ _ G) (g_range_b _ _ _ _ _ G)) as Kb.
  unfold td_op. assert (L : 21 < List.length (loopdim (result da db ca cb p))).
  { eapply Nat.lt_le_trans; [exact H|]. cbn [loopdim result]. rewrite E4, E3. lia. }
  assert (N : forallb name_ok (seq 0 (List.length (loopdim (result da db ca cb p)))) = false).
  { apply not_true_is_false. intros K. rewrite forallb_forall in K. specialize (K 21).
    assert (In 21 (seq 0 (List.length (loopdim (result da db ca cb p))))) as I by (apply in_seq; lia).
    specialize (K I). discriminate. }
  rewrite N. reflexivity.
Qed.

Lemma moved_seq : forall x n, List.length x = n -> moved (seq 0 n) x x.
Proof. intros x n <-. split; auto. intros i Hi. now rewrite seq_nth. Qed.

Theorem tensordot_default : forall da db ca cb a b out,
  let ka := kept (List.length da) ca in let kb := kept (List.length db) cb in
  good da db ca cb (seq 0 (List.length ka + List.length kb)) ->
  List.length da + List.length db - List.length ca <= 21 ->
  exists t out', tensordot (product da) (product db) da db (zs ca) (zs cb) None = Ok t
  /\ td_op t (product da) (product db) out a b = Ok out'
  /\ td_dim t = entries_of (sizes da ka ++ sizes db kb)
  /\ forall x y, index (sizes da ka) x -> index (sizes db kb) y ->
     out' (number (sizes da ka ++ sizes db kb) (x ++ y)) = dot da db ca cb a b x y.
Proof.
  intros da db ca cb a b out ka kb G H.
  destruct (tensordot_values _ _ _ _ _ a b out G H) as (t & out' & E & F & V).
  rewrite (tensordot_ok _ _ _ _ _ G) in E. inversion E; subst t.
  assert (L : List.length (sizes da ka ++ sizes db kb) = List.length ka + List.length kb)
    by (unfold sizes; now rewrite app_length, !map_length).
  destruct (V _ (moved_seq _ _ L)) as [Vd Vv].
  eexists _, out'. split; [now apply tensordot_none|]. split; auto. split; auto.
  intros x y Hx Hy. apply Vv; auto. apply moved_seq. rewrite app_length.
  apply index_length in Hx. apply index_length in Hy. unfold sizes in Hx, Hy. rewrite map_length in Hx, Hy. lia.
Qed.

Theorem gradients : forall da db ca cb p a b g out out', good da db ca cb p ->
  Forall (fun d => 0 < d) da -> Forall (fun d => 0 < d) db ->
  List.length da + List.length db - List.length ca <= 21 ->
  exists t o ta oa tb ob, tensordot (product da) (product db) da db (zs ca) (zs cb) (Some (zs p)) = Ok t
  /\ td_op t (product da) (product db) out a b = Ok o
  /\ grad_a t (product db) = Ok ta /\ td_dim ta = product da
  /\ td_op ta (td_dim t) (product db) out' g b = Ok oa
  /\ grad_b t (product da) = Ok tb /\ td_dim tb = product db
  /\ td_op tb (td_dim t) (product da) out' g a = Ok ob
  /\ inner (td_dim t) o g = inner (product da) a oa
  /\ inner (td_dim t) o g = inner (product db) b ob.
Proof.
  intros da db ca cb p a b g out out' G Pa Pb H.
  destruct (grad_a_adjoint _ _ _ _ _ G Pa Pb out out' a b g H) as (o & ta & oa & E & A1 & A2 & A3 & A4).
  destruct (grad_b_adjoint _ _ _ _ _ G Pa Pb out out' a b g H) as (o' & tb & ob & E' & B1 & B2 & B3 & B4).
  assert (o' = o) by congruence. subst o'.
  exists (result da db ca cb p), o, ta, oa, tb, ob.
  split; [now apply tensordot_ok|]. rewrite A2 in A4. rewrite B2 in B4. tauto.
Qed.

Lemma accepted : forall da db ca cb pm t,
  tensordot (product da) (product db) da db ca cb pm = Ok t ->
  exists ca' cb' p, ca = zs ca' /\ cb = zs cb' /\ good da db ca' cb' p
  /\ match pm with None => p = seq 0 (List.length p) | Some q => q = zs p end.
Proof.
  intros da db ca cb pm t H. destruct (tensordot_accepts _ _ _ _ _ _ _ _ H) as (ca' & cb' & p & H1 & H2 & H3 & _ & _ & H4).
  exists ca', cb', p. auto.
Qed.
