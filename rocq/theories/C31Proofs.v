(** * Proofs about half precision. *)

From Coq Require Import List Arith Bool Lia Permutation.
From Verif Require Import Result Half2 Half2Spec.
Import ListNotations.

Lemma split_pos : forall k D d, d < D -> (k * D + d) / D = k /\ (k * D + d) mod D = d.
Proof.
  intros k D d H. split.
  - rewrite Nat.div_add_l by lia. rewrite (Nat.div_small d D) by auto. lia.
  - rewrite Nat.add_comm, Nat.mod_add by lia. now apply Nat.mod_small.
Qed.

Lemma memory_at : forall A (x : array A) i d, d < cols x -> memory x (i * cols x + d) = at_ x i d.
Proof. intros A x i d H. unfold memory. destruct (split_pos i (cols x) d H) as [-> ->]. reflexivity. Qed.

Lemma mod2_cases : forall n, (n mod 2 = 0 /\ exists k, n = 2 * k) \/ (n mod 2 = 1 /\ exists k, n = 2 * k + 1).
Proof.
  intros n. pose proof (Nat.div_mod n 2). pose proof (Nat.mod_upper_bound n 2).
  assert (n mod 2 = 0 \/ n mod 2 = 1) as [E|E] by lia; [left|right]; split; auto; exists (n / 2); lia.
Qed.

(** The pairs in memory after packing. *)
Lemma half2half2_memory : forall A (x x' : array A), half2half2 x = Ok x' -> 0 < cols x ->
  rows x' = rows x /\ cols x' = cols x
  /\ forall k d l, d < cols x -> l < 2 -> memory x' (2 * (k * cols x + d) + l) = at_ x (2 * k + l) d.
Proof.
  intros A x x' H P. unfold half2half2 in H. destruct (rows x mod 2 =? 0); [|discriminate].
  apply (f_equal (fun r => match r with Ok a => a | _ => x end)) in H. cbv beta iota in H.
  subst x'. cbn [rows cols]. split; auto. split; auto.
  intros k d l Hd Hl. set (q := 2 * (k * cols x + d) + l). unfold memory at 1. cbn [cols at_].
  replace (q / cols x * cols x + q mod cols x) with q
    by (pose proof (Nat.div_mod q (cols x)); lia).
  assert (Q2 : q / 2 = k * cols x + d /\ q mod 2 = l).
  { unfold q. rewrite (Nat.mul_comm 2). now apply split_pos. }
  destruct Q2 as [Q2 Q1].
  assert (Q3 : q / (cols x * 2) = k).
  { rewrite (Nat.mul_comm (cols x) 2), <- Nat.div_div by lia. rewrite Q2. now apply split_pos. }
  rewrite Q3, Q2, Q1. destruct (split_pos k (cols x) d Hd) as [_ ->].
  rewrite memory_at by auto. f_equal. lia.
Qed.

Lemma half22half_at : forall A (x x' : array A), half22half x = Ok x' -> 0 < cols x ->
  rows x' = rows x /\ cols x' = cols x
  /\ forall k d l, d < cols x -> l < 2 -> at_ x' (2 * k + l) d = memory x (2 * (k * cols x + d) + l).
Proof.
  intros A x x' H P. unfold half22half in H. destruct (rows x mod 2 =? 0); [|discriminate].
  apply (f_equal (fun r => match r with Ok a => a | _ => x end)) in H. cbv beta iota in H.
  subst x'. cbn [rows cols at_]. split; auto. split; auto.
  intros k d l Hd Hl. set (q := (2 * k + l) * cols x + d).
  destruct (split_pos (2 * k + l) (cols x) d Hd) as [Q1 Q2]. fold q in Q1, Q2.
  assert (Q3 : q / (2 * cols x) = k).
  { rewrite (Nat.mul_comm 2 (cols x)), <- Nat.div_div by lia. rewrite Q1.
    rewrite (Nat.mul_comm 2 k). now apply split_pos. }
  rewrite Q3, Q1, Q2. replace ((2 * k + l) mod 2) with l.
  - f_equal. lia.
  - rewrite (Nat.mul_comm 2 k). symmetry. now apply split_pos.
Qed.

(** The array built by [make_odd_cat]. *)
Lemma odd_cat_at : forall A (y y' : array A) N, make_odd_cat y = Ok (y', N) ->
  N = rows y /\ rows y' = 2 * N /\ cols y' = cols y /\ 0 < N
  /\ forall pos d, pos < 2 * N -> at_ y' pos d = at_ y (true_index N pos) d.
Proof.
  intros A y y' N H. unfold make_odd_cat in H. unfold true_index.
  destruct (rows y mod 2 =? 0) eqn:E.
  - destruct (rows y =? 0) eqn:Z; [discriminate|]. apply Nat.eqb_neq in Z.
    injection H as H1 H2. subst N y'. rewrite E. cbn [rows cols cat cut at_].
    split; auto. split; [lia|]. split; auto. split; [lia|].
    intros pos d P.
    destruct (Nat.ltb_spec pos (rows y + 1)); destruct (Nat.ltb_spec pos (rows y));
      destruct (Nat.eqb_spec pos (rows y)); try lia;
      try (destruct (Nat.ltb_spec (rows y) (rows y - 1)); [lia|]);
      try (destruct (Nat.ltb_spec (rows y) pos); try lia); f_equal; lia.
  - injection H as H1 H2. subst N y'. rewrite E. cbn [rows cols cat at_].
    assert (0 < rows y) by (destruct (rows y); [discriminate|lia]).
    split; auto. split; [lia|]. split; auto. split; auto.
    intros pos d P. destruct (Nat.ltb_spec pos (rows y)); destruct (Nat.leb_spec (rows y) pos); try lia; auto.
Qed.

(** In each lane, the pairs run through all the rows. *)
Lemma lane_NoDup : forall N l, l < 2 -> NoDup (map (fun m => true_index N (2 * m + l)) (seq 0 N)).
Proof.
  intros N l L.
  assert (G : forall s, NoDup s -> (forall m, In m s -> m < N) ->
    NoDup (map (fun m => true_index N (2 * m + l)) s)).
  { intros s H. induction H as [|m s I H IH]; intros B; cbn [map]; constructor.
    - intros K. apply in_map_iff in K. destruct K as (m' & E & K).
      assert (m < N) by (apply B; simpl; auto). assert (m' < N) by (apply B; simpl; auto).
      assert (m = m'); [|subst; contradiction].
      clear - E H0 H1 L. unfold true_index in E.
      destruct (mod2_cases N) as [[P [n Q]]|[P [n Q]]]; rewrite P in E;
        [change (0 =? 0) with true in E|change (1 =? 0) with false in E]; cbv iota zeta in E.
      + destruct (Nat.eqb_spec (2 * m + l) N), (Nat.eqb_spec (2 * m' + l) N); cbv iota in E;
          repeat match type of E with context [?a <? ?b] => destruct (Nat.ltb_spec a b) end; lia.
      + repeat match type of E with context [?a <=? ?b] => destruct (Nat.leb_spec a b) end; lia.
    - apply IH. intros; apply B; simpl; auto. }
  apply G; [apply seq_NoDup|]. intros m I. apply in_seq in I. lia.
Qed.

Lemma true_index_lt : forall N pos, pos < 2 * N -> true_index N pos < N.
Proof.
  intros N pos H. unfold true_index. destruct (N mod 2 =? 0).
  - destruct (Nat.eqb_spec pos N); destruct (Nat.ltb_spec N (N - 1));
      try destruct (Nat.ltb_spec N pos); lia.
  - destruct (Nat.leb_spec N pos); lia.
Qed.

Lemma lane_permutation : forall N l, l < 2 ->
  Permutation (map (fun m => true_index N (2 * m + l)) (seq 0 N)) (seq 0 N).
Proof.
  intros N l L. apply NoDup_Permutation_bis.
  - now apply lane_NoDup.
  - rewrite map_length. lia.
  - intros j I. apply in_map_iff in I. destruct I as (m & E & I). apply in_seq in I. apply in_seq.
    subst j. split; [lia|]. apply true_index_lt. lia.
Qed.

Lemma even_size_at : forall A (x x' : array A) t, make_even_size x = (x', t) ->
  rows x' = rows x + rows x mod 2 /\ cols x' = cols x /\ t = (rows x mod 2 =? 1)
  /\ (forall i d, i < rows x -> at_ x' i d = at_ x i d)
  /\ (rows x = 1 -> forall i d, i < 2 -> at_ x' i d = at_ x 0 d).
Proof.
  intros A x x' t H. unfold make_even_size in H. destruct (mod2_cases (rows x)) as [[P _]|[P _]];
    rewrite P in *;
    [change (0 =? 1) with false in *|change (1 =? 1) with true in *]; cbv iota in H; injection H as H1 H2; subst x' t.
  - split; [lia|]. split; auto. split; auto. split; auto. intros E. rewrite E in P. discriminate.
  - cbn [rows cols cat cut at_]. split; [lia|]. split; auto. split; auto. split.
    + intros i d I. destruct (Nat.ltb_spec i (rows x)); auto; lia.
    + intros E i d I. rewrite E. destruct i as [|[|i]]; simpl; auto; lia.
Qed.

Definition converted {A} (axis N : nat) (a a' : argument A) : Prop :=
  a_cat a' = a_cat a
  /\ forall k m l, l < 2 -> m < N ->
       (a_cat a <> 2 -> a_cat a <> axis -> 2 * k + l < rows (a_array a)) ->
       lane axis k m l a' = row_of axis (2 * k + l) (true_index N (2 * m + l)) a.

Lemma convert_ok : forall A axis M N (args : list (argument A)), axis = 0 \/ axis = 1 -> 0 < N ->
  sizes_ok axis M N args ->
  forall tag, exists args' tag',
    convert axis args tag N = Ok (args', tag', N)
    /\ Forall2 (converted axis N) args args'
    /\ tag' = (if existsb (fun a => negb (a_cat a =? 2) && negb (a_cat a =? axis)) args
               then M mod 2 =? 1 else tag).
Proof.
  intros A axis M N args AX PN. induction args as [|a args IH]; intros S tag.
  - exists [], tag. simpl. auto.
  - destruct (S a (or_introl eq_refl)) as (D & C & R).
    assert (S' : sizes_ok axis M N args) by (intros b I; apply S; now right).
    cbn [convert existsb]. destruct (a_cat a =? 2) eqn:C2.
    + apply Nat.eqb_eq in C2.
      destruct (make_even_size (a_array a)) as [x t] eqn:E. cbn [fst].
      destruct (even_size_at _ _ _ _ E) as (R1 & R2 & _ & _ & R5).
      assert (HH : exists x', half2half2 x = Ok x').
      { unfold half2half2. rewrite R1, R. simpl. eauto. }
      destruct HH as (x' & HH). rewrite HH. cbn [rbind].
      destruct (IH S' tag) as (args' & tag' & E' & F & T). rewrite E'. cbn [rbind].
      do 2 eexists. split; [reflexivity|]. split; [|exact T].
      constructor; auto. split; auto. intros k m l L Hm _.
      destruct (half2half2_memory _ _ _ HH) as (H1 & H2 & H3); [lia|].
      unfold lane, row_of. cbn [a_cat a_array cols]. rewrite C2. cbn [Nat.eqb].
      rewrite Nat.mul_comm, Nat.div_mul by lia. rewrite H2, R2. apply map_ext_in.
      intros d Id. apply in_seq in Id. set (q := 2 * d + l).
      replace (memory {| rows := 1; cols := cols (a_array a) * 2; at_ := fun _ q => memory x' q |} q)
        with (memory x' q).
      * unfold q. specialize (H3 0 d l). rewrite R2 in H3. rewrite Nat.mul_0_l, !Nat.add_0_l in H3.
        rewrite H3 by lia. rewrite ?Nat.mul_0_r, ?Nat.add_0_l. now apply R5.
      * unfold memory at 2. cbn [cols at_]. rewrite Nat.mod_small; auto. unfold q. lia.
    + destruct (a_cat a =? axis) eqn:CA.
      * destruct (make_odd_cat (a_array a)) as [[y Ny]| | |] eqn:E;
          try (unfold make_odd_cat in E; rewrite R in E; destruct (N mod 2 =? 0);
               [destruct (Nat.eqb_spec N 0); [lia|]|]; discriminate).
        destruct (odd_cat_at _ _ _ _ E) as (N1 & N2 & N3 & _ & N5). cbn [rbind fst snd].
        rewrite R in N1. subst Ny.
        assert (HH : exists x', half2half2 y = Ok x').
        { unfold half2half2. rewrite N2. rewrite Nat.mul_comm, Nat.mod_mul by lia. simpl. eauto. }
        destruct HH as (x' & HH). rewrite HH. cbn [rbind]. rewrite Nat.max_id.
        destruct (IH S' tag) as (args' & tag' & E' & F & T). rewrite E'. cbn [rbind].
        do 2 eexists. split; [reflexivity|]. split; [|exact T].
        constructor; auto. split; auto. intros k m l L Hm _.
        destruct (half2half2_memory _ _ _ HH) as (H1 & H2 & H3); [lia|].
        unfold lane, row_of. cbn [a_cat a_array]. rewrite C2, CA, H2, N3. apply map_ext_in.
        intros d Id. apply in_seq in Id. rewrite <- N3. rewrite H3 by lia. apply N5. lia.
      * destruct (make_even_size (a_array a)) as [x t] eqn:E.
        destruct (even_size_at _ _ _ _ E) as (R1 & R2 & R3 & R4 & _).
        assert (HH : exists x', half2half2 x = Ok x').
        { unfold half2half2. rewrite R1, R.
          assert (Z : (M + M mod 2) mod 2 = 0).
          { destruct (mod2_cases M) as [[P [n Q]]|[P [n Q]]]; rewrite P, Q.
            - rewrite Nat.add_0_r, Nat.mul_comm. now apply Nat.mod_mul.
            - replace (2 * n + 1 + 1) with ((n + 1) * 2) by lia. now apply Nat.mod_mul. }
          rewrite Z. simpl. eauto. }
        destruct HH as (x' & HH). rewrite HH. cbn [rbind].
        destruct (IH S' t) as (args' & tag' & E' & F & T). rewrite E'. cbn [rbind].
        do 2 eexists. split; [reflexivity|]. split.
        -- constructor; auto. split; auto. intros k m l L Hm Hk.
           destruct (half2half2_memory _ _ _ HH) as (H1 & H2 & H3); [lia|].
           apply Nat.eqb_neq in C2 as C2'. apply Nat.eqb_neq in CA as CA'. specialize (Hk C2' CA').
           unfold lane, row_of. cbn [a_cat a_array]. rewrite C2, CA, H2, R2. apply map_ext_in.
           intros d Id. apply in_seq in Id. rewrite <- R2. rewrite H3 by lia. apply R4. lia.
        -- rewrite T, R3, R. simpl. destruct (existsb _ args); reflexivity.
Qed.

Lemma map_lanes : forall A axis N (args args' : list (argument A)) k m l,
  Forall2 (converted axis N) args args' -> l < 2 -> m < N ->
  (forall a, In a args -> a_cat a <> 2 -> a_cat a <> axis -> 2 * k + l < rows (a_array a)) ->
  map (lane axis k m l) args' = map (row_of axis (2 * k + l) (true_index N (2 * m + l))) args.
Proof.
  intros A axis N args args' k m l F L Hm H. induction F as [|a a' args args' C F IH]; simpl; auto.
  f_equal.
  - apply C; auto. apply H. now left.
  - apply IH. intros; apply H; auto. now right.
Qed.

Lemma half_sum : forall A V axis M N E (formula : list (list A) -> V) (reduce : nat -> list V -> A) args,
  axis = 0 \/ axis = 1 -> 0 < N -> 0 < E -> sizes_ok axis M N args ->
  (exists a, In a args /\ a_cat a = 1 - axis) ->
  (forall e l l', Permutation l l' -> reduce e l = reduce e l') ->
  exists out,
    genred_half axis (if axis =? 1 then M else N) (if axis =? 1 then N else M) E formula reduce args = Ok out
    /\ rows out = M /\ cols out = E
    /\ forall i e, i < M -> e < E ->
         at_ out i e = reduce e (map (fun j => formula (map (row_of axis i j) args)) (seq 0 N)).
Proof.
  intros A V axis M N E formula reduce args AX PN PE S (a0 & I0 & C0) RP.
  unfold genred_half, preprocess_half2.
  assert (S1 : (if axis =? 1 then if axis =? 1 then N else M else if axis =? 1 then M else N) = N)
    by (destruct (axis =? 1); auto).
  assert (S2 : (if axis =? 1 then if axis =? 1 then M else N else if axis =? 1 then N else M) = M)
    by (destruct (axis =? 1); auto).
  rewrite S1, S2. destruct (convert_ok A axis M N args AX PN S false) as (args' & tag & CV & F & T).
  rewrite CV. cbn [rbind].
  assert (EX : existsb (fun a => negb (a_cat a =? 2) && negb (a_cat a =? axis)) args = true).
  { apply existsb_exists. exists a0. split; auto. rewrite C0. destruct AX; subst axis; reflexivity. }
  rewrite EX in T. rewrite (Nat.mul_comm 2 N), Nat.div_mul by lia.
  set (out := {| rows := M + M mod 2; cols := E; at_ := _ |}).
  assert (Z : (M + M mod 2) mod 2 = 0).
  { destruct (mod2_cases M) as [[P [n Q]]|[P [n Q]]]; rewrite P, Q.
    - rewrite Nat.add_0_r, Nat.mul_comm. now apply Nat.mod_mul.
    - replace (2 * n + 1 + 1) with ((n + 1) * 2) by lia. now apply Nat.mod_mul. }
  assert (HH : exists o, half22half out = Ok o)
    by (unfold half22half, out; cbn [rows]; rewrite Z; simpl; eauto).
  destruct HH as (o & HH). rewrite HH. cbn [rbind].
  destruct (half22half_at _ _ _ HH) as (H1 & H2 & H3); [exact PE|].
  cbn [rows cols out] in H1, H2, H3.
  assert (VAL : forall i e, i < M -> e < E ->
    at_ o i e = reduce e (map (fun j => formula (map (row_of axis i j) args)) (seq 0 N))).
  { intros i e Hi He.
    assert (DI : exists k l, l < 2 /\ i = 2 * k + l).
    { exists (i / 2), (i mod 2). pose proof (Nat.div_mod i 2). pose proof (Nat.mod_upper_bound i 2). lia. }
    destruct DI as (k & l & L & Ei). rewrite Ei, H3 by auto.
    unfold out. set (q := 2 * (k * E + e) + l). unfold memory. cbn [cols at_].
    replace (q / E * E + q mod E) with q by (pose proof (Nat.div_mod q E); lia).
    unfold kernel.
    assert (Q : q / 2 = k * E + e /\ q mod 2 = l).
    { unfold q. rewrite (Nat.mul_comm 2). now apply split_pos. }
    destruct Q as [Q2 Q1].
    assert (Q3 : q / (2 * E) = k).
    { rewrite <- Nat.div_div by lia. rewrite Q2. now apply split_pos. }
    rewrite Q3, Q2, Q1. destruct (split_pos k E e He) as [_ ->].
    rewrite (map_ext_in _ (fun m => (fun j => formula (map (row_of axis (2 * k + l) j) args))
                                      (true_index N (2 * m + l)))).
    - rewrite <- (map_map (fun m => true_index N (2 * m + l))
                    (fun j => formula (map (row_of axis (2 * k + l) j) args))).
      apply RP. apply Permutation_map. now apply lane_permutation.
    - intros m Im. apply in_seq in Im. cbv beta. f_equal. apply map_lanes; auto; [lia|].
      intros a Ia NA2 NAx. destruct (S a Ia) as (_ & _ & R). rewrite R.
      destruct (Nat.eqb_spec (a_cat a) 2); [contradiction|].
      destruct (Nat.eqb_spec (a_cat a) axis); [contradiction|]. lia. }
  eexists. split; [reflexivity|]. subst tag.
  destruct (mod2_cases M) as [[P [n Q]]|[P [n Q]]]; rewrite P in *; cbn [Nat.eqb].
  - split; [lia|]. split; auto.
  - cbn [rows cols cut at_]. split; [lia|]. split; auto.
Qed.

(** ** Cases *)

Definition numbers (r c a : nat) : array nat := {| rows := r; cols := c; at_ := fun i d => a * (10 * i + d) |}.
Definition ex_args (M N : nat) : list (argument nat) :=
  [{| a_cat := 0; a_array := numbers M 2 100 |}; {| a_cat := 1; a_array := numbers N 2 1 |};
   {| a_cat := 2; a_array := numbers 1 3 7 |}].
Definition ex_formula (l : list (list nat)) : nat := list_sum (map list_sum l).
Definition ex_reduce (e : nat) (l : list nat) : nat := e + list_sum l.

Lemma ex_sizes : sizes_ok 1 3 4 (ex_args 3 4).
Proof. intros a [E|[E|[E|[]]]]; subst a; cbn; repeat split; auto; lia. Qed.

Lemma ex_reduce_ok : forall e l l', Permutation l l' -> ex_reduce e l = ex_reduce e l'.
Proof. intros e l l' P. unfold ex_reduce. f_equal. induction P; simpl; lia. Qed.

Lemma ex_result : exists out, genred_half 1 3 4 2 ex_formula ex_reduce (ex_args 3 4) = Ok out
  /\ rows out = 3 /\ at_ out 2 1 = 16609.
Proof. eexists. split; [reflexivity|]. split; vm_compute; reflexivity. Qed.

Definition only_j (N : nat) : list (argument nat) := [{| a_cat := 1; a_array := numbers N 2 1 |}].

Lemma degenerate : exists out, genred_half 1 1 4 2 ex_formula ex_reduce (only_j 4) = Ok out /\ rows out = 2.
Proof. eexists. split; [reflexivity|]. reflexivity. Qed.

Lemma empty_reduction : genred_half 1 3 0 2 ex_formula ex_reduce (ex_args 3 0) = PyErr.
Proof. reflexivity. Qed.
