(** Proofs about the generated CPU routine: arrays, loops, and the code of the reductions. *)

From Coq Require Import ZArith Reals List Bool String Ascii Lia Lra Arith.
From Verif Require Import Result Formula Keys XReal Reductions CpuReduc CodeGen CSem C47Proofs C47Ops KernelCode KernelSem
  KernelCodeSpec.
Import ListNotations.
Local Open Scope list_scope.
Local Open Scope nat_scope.

(** ** Arrays whose cells are all initialised *)
Definition arr (d : nat) (a : cells) : obj := OArr (map (fun k => Some (a k)) (seq 0 d)).

Lemma nth_map_seq : forall B (h : nat -> B) d k, k < d -> nth_error (map h (seq 0 d)) k = Some (h k).
Proof.
  intros B h d k K. rewrite (map_nth_error h k (seq 0 d) (d := k)); [reflexivity|].
  rewrite (nth_error_nth' _ 0) by now rewrite seq_length. f_equal. now rewrite seq_nth.
Qed.
Lemma arr_ext : forall d a b, (forall k, k < d -> a k = b k) -> arr d a = arr d b.
Proof.
  intros d a b H. unfold arr. f_equal. apply map_ext_in. intros k K. apply in_seq in K. rewrite H by lia. reflexivity.
Qed.
Lemma set_nth_map : forall B (h : nat -> B) d k v, k < d ->
  set_nth (map h (seq 0 d)) k v = map (fun q => if q =? k then v else h q) (seq 0 d).
Proof.
  intros B h d k v K. apply nth_error_ext. intros j. rewrite set_nth_spec by now rewrite map_length, seq_length.
  destruct (Nat.lt_ge_cases j d) as [J|J].
  - rewrite !nth_map_seq by auto. destruct (j =? k); reflexivity.
  - destruct (Nat.eqb_spec j k); [lia|]. rewrite !(proj2 (nth_error_None _ _)); auto; rewrite map_length, seq_length; auto.
Qed.

Section Rho.
Context {rho : indices}.
Local Notation off := (CSem.off rho).
Local Notation read := (CSem.read rho).
Local Notation write := (CSem.write rho).
Local Notation ceval := (CSem.ceval rho).
Local Notation exec := (CSem.exec rho).
Local Notation region := (@C47Proofs.region rho).
Local Notation room := (@C47Proofs.room rho).

Lemma read_arr : forall m p x d a k, base p = x -> get x m = Some (arr d a) -> off p + k < d ->
  read m p k = Some (a (off p + k)).
Proof. intros m p x d a k B G L. unfold CSem.read. rewrite B, G. unfold arr. now rewrite nth_map_seq. Qed.
Lemma write_arr : forall m p x d a k v, base p = x -> get x m = Some (arr d a) -> off p + k < d ->
  write m p k v = Some (put x (arr d (upd a (off p + k) v)) m).
Proof.
  intros m p x d a k v B G L. unfold CSem.write. rewrite B, G. unfold arr. rewrite map_length, seq_length.
  destruct (Nat.ltb_spec (off p + k) d); [|lia]. rewrite set_nth_map by auto. do 3 f_equal. apply map_ext.
  intros q. unfold upd. now destruct (q =? off p + k).
Qed.

Lemma get_put_same : forall x o m, get x m <> None -> get x (put x o m) = Some o.
Proof. intros. rewrite get_put, String.eqb_refl. now destruct (get x m). Qed.
Lemma get_put_other : forall x y o m, y <> x -> get y (put x o m) = get y m.
Proof. intros x y o m N. rewrite get_put. now destruct (String.eqb_spec y x). Qed.
Lemma get_cons_same : forall x o m, get x ((x, o) :: m) = Some o.
Proof. intros. cbn [get]. now rewrite String.eqb_refl. Qed.
Lemma get_cons_other : forall x y o m, y <> x -> get y ((x, o) :: m) = get y m.
Proof. intros x y o m N. cbn [get]. now destruct (String.eqb_spec y x). Qed.
Lemma put_cons_other : forall x y o p m, x <> y -> put x o ((y, p) :: m) = (y, p) :: put x o m.
Proof. intros x y o p m N. cbn [put]. now destruct (String.eqb_spec x y). Qed.
Lemma bound_put : forall x o m y, bound (put x o m) y <-> bound m y.
Proof.
  intros x o m y. unfold bound. rewrite get_put. destruct (String.eqb_spec y x) as [->|]; [|reflexivity].
  destruct (get x m); split; intros H; auto; discriminate.
Qed.
Lemma fresh_put : forall g x o m, fresh g m -> fresh g (put x o m).
Proof. intros g x o m F t c B. apply F. now apply bound_put in B. Qed.

(** A loop that modifies one array. *)
Lemma loop_arr : forall body x n i y m (A : nat -> obj), x <> y ->
  (forall j, i <= j < i + n ->
     exists pre, body ((x, OInt j) :: put y (A j) m) = Some (pre ++ put y (A (S j)) m)) ->
  loop body x n i (put y (A i) m) = Some (put y (A (i + n)) m).
Proof.
  intros body x n i y m A N H. apply (loop_rule body x n i (fun j => put y (A j) m)).
  intros j J. destruct (H j J) as (pre & E). exists pre. split; [exact E|]. now rewrite !put_length.
Qed.

(** ** [assign], [VectCopy] and [VectApply] on such arrays *)

(** An array, some of whose cells are initialised. *)
Lemma assign_fill : forall m p x d w g o n e v, base p = x -> off p = o ->
  get x m = Some (OArr w) -> List.length w = d -> fresh g m -> o + n <= d ->
  (forall k j w', get k m = None -> ceval ((k, OInt j) :: put x (OArr w') m) e = Some v) ->
  exec (fst (assign (Array p n) e g)) m
  = Some (put x (OArr (map (fun k => if (o <=? k) && (k <? o + n) then Some v else nth k w None) (seq 0 d))) m).
Proof.
  intros m p x d w g o n e v Bp Op G Lw F L H. cbn [assign fst adim aptr CSem.exec].
  set (k := name "k" (g "k")). assert (U : get k m = None) by now apply fresh_new.
  assert (N : k <> x) by (intros ->; congruence).
  pose (A := fun j => OArr (map (fun q => if (o <=? q) && (q <? o + j) then Some v else nth q w None) (seq 0 d))).
  assert (E0 : m = put x (A 0) m).
  { symmetry. apply put_get. rewrite G. unfold A. do 2 f_equal. apply nth_error_ext. intros j.
    destruct (Nat.lt_ge_cases j d) as [J|J].
    - rewrite nth_map_seq by auto. destruct (Nat.leb_spec o j), (Nat.ltb_spec j (o + 0)); cbn [andb]; try lia;
        apply nth_error_nth'; lia.
    - rewrite !(proj2 (nth_error_None _ _)); auto; try rewrite map_length, seq_length; lia. }
  rewrite E0 at 1. rewrite Nat.sub_0_r. rewrite loop_arr with (A := A); [reflexivity|exact N|].
  intros j J. exists [(k, OInt j)]. cbn [CSem.exec]. unfold A at 1. rewrite H by auto. cbn [obind].
  cbn [ieval]. rewrite get_cons_same. cbn [obind]. unfold CSem.write. rewrite Bp, Op.
  rewrite get_cons_other by auto. rewrite get_put_same by congruence. unfold A. rewrite map_length, seq_length.
  destruct (Nat.ltb_spec (o + j) d); [|lia]. rewrite put_cons_other by auto. rewrite put_put.
  cbn [List.app]. do 4 f_equal. rewrite set_nth_map by lia. apply map_ext. intros q.
  destruct (Nat.eqb_spec q (o + j)) as [->|Q].
  - destruct (Nat.leb_spec o (o + j)), (Nat.ltb_spec (o + j) (o + S j)); cbn [andb]; try lia; reflexivity.
  - destruct (Nat.leb_spec o q), (Nat.ltb_spec q (o + j)), (Nat.ltb_spec q (o + S j)); cbn [andb]; try lia; reflexivity.
Qed.

(** A body that modifies cell [o + k] of the array, and others of its part. *)
Lemma for_arr : forall m x d a k n s (step : nat -> cells -> cells), get x m = Some (arr d a) -> get k m = None ->
  (forall j b, j < n -> exists pre,
     exec s ((k, OInt j) :: put x (arr d b) m) = Some (pre ++ put x (arr d (step j b)) m)) ->
  exec (SFor k 0 n s) m = Some (put x (arr d (for_up n step a)) m).
Proof.
  intros m x d a k n s step G U H. cbn [CSem.exec]. rewrite Nat.sub_0_r.
  assert (N : k <> x) by (intros ->; congruence).
  replace m with (put x (arr d (for_up 0 step a)) m) at 1 by (apply put_get; exact G).
  rewrite (loop_arr _ k n 0 x m (fun j => arr d (for_up j step a)) N); [reflexivity|].
  intros j J. cbn [for_up]. apply H. lia.
Qed.
Lemma for_arr1 : forall m x d a k n s (step : nat -> cells -> cells), get x m = Some (arr d a) -> get k m = None ->
  (forall j b, j < n -> exists pre,
     exec s ((k, OInt (S j)) :: put x (arr d b) m) = Some (pre ++ put x (arr d (step j b)) m)) ->
  exec (SFor k 1 (S n) s) m = Some (put x (arr d (for_up n step a)) m).
Proof.
  intros m x d a k n s step G U H. cbn [CSem.exec]. rewrite Nat.sub_succ, Nat.sub_0_r.
  assert (N : k <> x) by (intros ->; congruence).
  replace m with (put x (arr d (for_up (1 - 1) step a)) m) at 1 by (apply put_get; exact G).
  rewrite (loop_arr _ k n 1 x m (fun j => arr d (for_up (j - 1) step a)) N).
  - do 4 f_equal. lia.
  - intros j J. destruct j as [|j]; [lia|]. rewrite !Nat.sub_succ, !Nat.sub_0_r. cbn [for_up]. apply H. lia.
Qed.

(** ** The code of the reductions *)

(** [x] holds the accumulator, [y] the value of the formula. *)
Definition gle (g g' : gen) : Prop := forall t, g t <= g' t.

Lemma assign_whole : forall m x d w g e v, get x m = Some (OArr w) -> List.length w = d -> fresh g m ->
  (forall k j w', get k m = None -> ceval ((k, OInt j) :: put x (OArr w') m) e = Some v) ->
  exec (fst (assign (Array (PName x) d) e g)) m = Some (put x (arr d (fun _ => v)) m).
Proof.
  intros m x d w g e v G L F H.
  rewrite (assign_fill m (PName x) x d w g 0 d e v eq_refl eq_refl G L F ltac:(lia) H).
  unfold arr. do 3 f_equal. apply map_ext_in. intros k K. apply in_seq in K. cbn [Nat.leb andb].
  destruct (Nat.ltb_spec k (0 + d)); [reflexivity|lia].
Qed.

Lemma assign_two : forall m x d d' w g e e' v v', get x m = Some (OArr w) -> List.length w = d + d' -> fresh g m ->
  (forall k j w', get k m = None -> ceval ((k, OInt j) :: put x (OArr w') m) e = Some v) ->
  (forall k j w', get k m = None -> ceval ((k, OInt j) :: put x (OArr w') m) e' = Some v') ->
  exec (SSeq (fst (assign (Array (PAdd (PName x) 0) d) e g))
             (fst (assign (Array (PAdd (PName x) d) d') e' (next g "k")))) m
  = Some (put x (arr (d + d') (fun k => if k <? d then v else v')) m).
Proof.
  intros m x d d' w g e e' v v' G L F H H'. cbn [CSem.exec].
  rewrite (assign_fill m (PAdd (PName x) 0) x (d + d') w g 0 d e v eq_refl eq_refl G L F ltac:(lia) H). cbn [obind].
  erewrite (assign_fill _ (PAdd (PName x) d) x (d + d') _ (next g "k") d d' e' v' eq_refl eq_refl).
  2:{ apply get_put_same. congruence. }
  2:{ now rewrite map_length, seq_length. }
  2:{ apply fresh_put. eapply fresh_mono; [exact F|intros t; apply next_le]. }
  2: lia.
  2:{ intros k j w' U. rewrite put_put. apply H'. rewrite get_put in U. destruct (String.eqb k x) eqn:E; [|exact U].
      rewrite G in U. apply String.eqb_eq in E. subst. discriminate. }
  rewrite put_put. unfold arr. do 3 f_equal. apply map_ext_in. intros k K. apply in_seq in K.
  rewrite (nth_indep _ None (if (0 <=? 0) && (0 <? 0 + d) then Some v else nth 0 w None)) by (rewrite map_length, seq_length; lia).
  rewrite (map_nth (fun k0 => if (0 <=? k0) && (k0 <? 0 + d) then Some v else nth k0 w None)). rewrite seq_nth by lia.
  cbn [Nat.add]. destruct (Nat.leb_spec d k), (Nat.ltb_spec k (d + d')), (Nat.ltb_spec k d); cbn [andb]; try lia; reflexivity.
Qed.

Lemma init_ok : forall r d m x w g, 1 <= d -> get x m = Some (OArr w) -> List.length w = red_dimred r d -> fresh g m ->
  exists s g', InitializeReduction r d (Array (PName x) (red_dimred r d)) g = Ok (s, g') /\ gle g g'
    /\ exec s m = Some (put x (arr (red_dimred r d) (rinit (meaning r d))) m).
Proof.
  intros r d m x w g D G L F. destruct r as [|mx|mx both|]; cbn [InitializeReduction red_dimred meaning] in *.
  - eexists _, _. split; [reflexivity|]. split; [intros t; apply next_le|].
    apply (assign_whole m x d w g (EZ 0) (Fin 0) G L F). reflexivity.
  - eexists _, _. split; [reflexivity|]. split; [intros t; apply next_le|].
    apply (assign_whole m x d w g (EInf mx) (worst mx) G L F). intros. destruct mx; reflexivity.
  - unfold split2. cbn [adim]. replace (d + d =? 2 * d) with true by (symmetry; apply Nat.eqb_eq; lia). cbn [rbind aptr].
    eexists _, _. split; [reflexivity|]. split; [intros t; cbn [snd assign]; etransitivity; apply next_le|].
    replace (2 * d) with (d + d) in * by lia.
    etransitivity; [apply (assign_two m x d d w g (EInf mx) (EZ 0) (worst mx) (Fin 0) G L F);
      [intros; now destruct mx|reflexivity]|]. reflexivity.
  - unfold split2. cbn [adim]. replace (1 + (d - 1) =? d) with true by (symmetry; apply Nat.eqb_eq; lia). cbn [rbind aptr].
    eexists _, _. split; [reflexivity|]. split; [intros t; cbn [snd assign]; etransitivity; apply next_le|].
    replace (arr d) with (arr (1 + (d - 1))) by (f_equal; lia).
    etransitivity; [apply (assign_two m x 1 (d - 1) w g (EInf true) (EZ 0) NInf (Fin 0) G);
      [lia|exact F|reflexivity|reflexivity]|].
    do 2 f_equal. apply arr_ext. intros [|k] K; reflexivity.
Qed.

Definition generated (pre : mem) : Prop := forall y, In y (map fst pre) -> exists t c, y = name t c.

(** The code [r] updates the accumulator [x] to [a]. *)
Definition updates (m : mem) (g : gen) (r : res (stmt * gen)) (x : string) (D : nat) (a : cells) : Prop :=
  exists s g' pre, r = Ok (s, g') /\ gle g g' /\ exec s m = Some (pre ++ put x (arr D a) m)
    /\ generated pre /\ fresh g' (pre ++ put x (arr D a) m).

Lemma updates_loop : forall m g x D a k n s step, get x m = Some (arr D a) -> fresh g m -> k = name "k" (g "k") ->
  (forall j b, j < n -> exists pre,
     exec s ((k, OInt j) :: put x (arr D b) m) = Some (pre ++ put x (arr D (step j b)) m)) ->
  updates m g (Ok (SFor k 0 n s, next g "k")) x D (for_up n step a).
Proof.
  intros m g x D a k n s step G F -> H.
  eexists _, _, []. split; [reflexivity|]. split; [intros t; apply next_le|]. split.
  - now apply for_arr; [|apply fresh_new|].
  - split; [intros y []|]. cbn [List.app]. apply fresh_put. eapply fresh_mono; [exact F|]. intros t. apply next_le.
Qed.

Lemma vect_same : forall body out args g d, 1 <= d -> adim out = d -> Forall (fun v => vdim v = d \/ vdim v = 1) args ->
  VectApplyV body out args g =
  let k := name "k" (g "k") in
  let at_ d' := IMul (IVar k) (IConst (if Nat.eqb d' d then 1 else 0)) in
  Ok (SFor k 0 d (body (aptr out) (at_ d)
        (map (fun v => match v with VArr a => EAt (aptr a) (at_ (adim a)) | VVal e => e end) args)), next g "k").
Proof.
  intros body out args g d D O F. unfold VectApplyV.
  destruct (vect_dims (adim out :: map vdim args) d) as [E1 E2].
  - lia.
  - intros e [E|I]; [left; congruence|]. apply in_map_iff in I as (v & <- & I). rewrite Forall_forall in F. now apply F.
  - now left.
  - rewrite E2, E1, O. reflexivity.
Qed.

Lemma idx_same : forall m k d j, get k m = Some (OInt j) ->
  ieval m (IMul (IVar k) (IConst (if Nat.eqb d d then 1 else 0))) = Some j.
Proof. intros m k d j G. cbn [ieval]. rewrite G, Nat.eqb_refl. cbn [obind]. now rewrite Nat.mul_1_r. Qed.

(** Reading the two arrays in the body of a loop. *)
Lemma body_get_x : forall m x k D a, get x m = Some (arr D a) -> get k m = None ->
  forall j b, get x ((k, OInt j) :: put x (arr D b) m) = Some (arr D b).
Proof. intros m x k D a G U j b. rewrite get_cons_other by (intros ->; congruence). apply get_put_same. congruence. Qed.
Lemma body_get_y : forall m x y k D o, get y m = Some o -> x <> y -> get k m = None ->
  forall j b, get y ((k, OInt j) :: put x (arr D b) m) = Some o.
Proof. intros m x y k D o G N U j b. rewrite get_cons_other by (intros ->; congruence). rewrite get_put_other by auto. exact G. Qed.
Lemma body_read_x : forall m x k D a, get x m = Some (arr D a) -> get k m = None ->
  forall p j b q, base p = x -> off p + q < D ->
  read ((k, OInt j) :: put x (arr D b) m) p q = Some (b (off p + q)).
Proof. intros. eapply read_arr; eauto using body_get_x. Qed.
Lemma body_read_y : forall m x y k D d v, get y m = Some (arr d v) -> x <> y -> get k m = None ->
  forall j b q, q < d -> read ((k, OInt j) :: put x (arr D b) m) (PName y) q = Some (v q).
Proof. intros. erewrite read_arr; [|reflexivity|eapply body_get_y; eauto|]; auto. Qed.
Lemma body_write_x : forall m x k D a, get x m = Some (arr D a) -> get k m = None ->
  forall p j b q z, base p = x -> off p + q < D ->
  write ((k, OInt j) :: put x (arr D b) m) p q z = Some ((k, OInt j) :: put x (arr D (upd b (off p + q) z)) m).
Proof.
  intros m x k D a G U p j b q z B L. erewrite write_arr; [|exact B|eapply body_get_x; eauto|exact L].
  rewrite put_cons_other by (intros ->; congruence). now rewrite put_put.
Qed.

Lemma sum_code : forall m g x y d a v, 1 <= d -> get x m = Some (arr d a) -> get y m = Some (arr d v) -> x <> y ->
  fresh g m ->
  updates m g (VectApply sum_scalar (Array (PName x) d) [Array (PName y) d] g) x d (sum_pair d a v).
Proof.
  intros m g x y d a v D Gx Gy N F. unfold VectApply.
  rewrite (vect_same _ _ _ _ d); [|auto|reflexivity|repeat constructor]. cbv zeta. cbn [map aptr adim].
  assert (U := fresh_new g m "k" F). set (k := name "k" (g "k")) in *.
  apply updates_loop; auto. intros j b J. exists [(k, OInt j)].
  unfold sum_scalar, code1. cbn [CSem.exec CSem.ceval].
  rewrite !(idx_same _ _ _ j) by apply get_cons_same. cbn [obind].
  rewrite (body_read_y m x y k d d v Gy N U) by auto. cbn [obind].
  rewrite (body_read_x m x k d a Gx U) by (auto; cbn [CSem.off]; lia). cbn [obind CSem.off Nat.add].
  rewrite (body_write_x m x k d a Gx U) by (auto; cbn [CSem.off]; lia). reflexivity.
Qed.

Lemma opt_code : forall mx m g x y d a v, 1 <= d -> get x m = Some (arr d a) -> get y m = Some (arr d v) -> x <> y ->
  fresh g m ->
  updates m g (VectApply (opt_scalar mx) (Array (PName x) d) [Array (PName y) d] g) x d (opt_pair mx d a v).
Proof.
  intros mx m g x y d a v D Gx Gy N F. unfold VectApply.
  rewrite (vect_same _ _ _ _ d); [|auto|reflexivity|repeat constructor]. cbv zeta. cbn [map aptr adim].
  assert (U := fresh_new g m "k" F). set (k := name "k" (g "k")) in *.
  apply updates_loop; auto. intros j b J. exists [(k, OInt j)].
  unfold opt_scalar. cbn [CSem.exec CSem.ceval].
  rewrite !(idx_same _ _ _ j) by apply get_cons_same. cbn [obind].
  rewrite (body_read_y m x y k d d v Gy N U) by auto. cbn [obind].
  rewrite (body_read_x m x k d a Gx U) by (auto; cbn [CSem.off]; lia). cbn [obind CSem.off Nat.add].
  assert (E : compare (best mx) (v j) (b j) = better mx (v j) (b j)) by now destruct mx.
  rewrite E. destruct (better mx (v j) (b j)); [|reflexivity].
  rewrite (body_write_x m x k d a Gx U) by (auto; cbn [CSem.off]; lia). cbn [obind].
  apply f_equal. apply (leave_app [] ((k, OInt j) :: put x _ m) ((k, OInt j) :: put x _ m)). cbn [List.length List.app]. now rewrite !put_length.
Qed.

Lemma optarg_code : forall mx m g x y d a v ind i, 1 <= d -> get x m = Some (arr (2 * d) a) -> get y m = Some (arr d v) ->
  x <> y -> fresh g m ->
  (forall k j o, get k m = None -> ceval ((k, OInt j) :: put x o m) ind = Some (of_long i)) ->
  updates m g (VectApplyV (optarg_scalar mx) (Array (PAdd (PName x) 0) d)
                 [VArr (Array (PAdd (PName x) d) d); VArr (Array (PName y) d); VVal ind] g)
    x (2 * d) (optarg_short mx d a v i).
Proof.
  intros mx m g x y d a v ind i D Gx Gy N F I.
  rewrite (vect_same _ _ _ _ d); [|auto|reflexivity|].
  2:{ constructor; [now left|]. constructor; [now left|]. constructor; [now right|constructor]. }
  cbv zeta. cbn [map aptr adim].
  assert (U := fresh_new g m "k" F). set (k := name "k" (g "k")) in *.
  apply updates_loop; auto. intros j b J. exists [(k, OInt j)].
  unfold optarg_scalar. cbn [CSem.exec CSem.ceval].
  rewrite !(idx_same _ _ _ j) by apply get_cons_same. cbn [obind].
  rewrite (body_read_y m x y k (2 * d) d v Gy N U) by auto. cbn [obind].
  rewrite (body_read_x m x k (2 * d) a Gx U) by (auto; cbn [CSem.off]; lia). cbn [obind CSem.off Nat.add].
  assert (E : compare (best mx) (v j) (b j) = better mx (v j) (b j)) by now destruct mx.
  rewrite E. destruct (better mx (v j) (b j)); [|reflexivity].
  rewrite (body_write_x m x k (2 * d) a Gx U) by (auto; cbn [CSem.off]; lia). cbn [obind CSem.off Nat.add].
  rewrite I by auto. cbn [obind].
  rewrite !(idx_same _ _ _ j) by apply get_cons_same. cbn [obind].
  rewrite (body_write_x m x k (2 * d) a Gx U) by (auto; cbn [CSem.off]; lia). cbn [obind CSem.off Nat.add].
  apply f_equal. apply (leave_app [] ((k, OInt j) :: put x _ m) ((k, OInt j) :: put x _ m)). cbn [List.length List.app]. now rewrite !put_length.
Qed.

Lemma leave_same : forall m m' : mem, List.length m' = List.length m -> leave m m' = m'.
Proof. intros m m' L. exact (leave_app [] m m' L). Qed.

Lemma exec_seq : forall s t m, exec (SSeq s t) m = obind (exec s m) (exec t).
Proof. reflexivity. Qed.
Lemma exec_ifelse : forall c a b s t m, exec (SIfElse c a b s t) m
  = let? x := ceval m a in let? y := ceval m b in
    let? m' := (if compare c x y then exec s m else exec t m) in Some (leave m m').
Proof. reflexivity. Qed.
Lemma exec_var : forall x a m, exec (SVar x a) m
  = let? v := ceval m a in match get x m with Some (OFlt _) => Some (put x (OFlt (Some v)) m) | _ => None end.
Proof. reflexivity. Qed.
Lemma exec_set : forall p i a m, exec (SSet p i a) m
  = let? v := ceval m a in let? n := ieval m i in write m p n v.
Proof. reflexivity. Qed.

Lemma lse_code : forall m g x y w a v, get x m = Some (arr (S w) a) -> get y m = Some (arr (S w) v) ->
  x <> y -> fresh g m ->
  updates m g (Ok (lse_pair_code (Array (PName x) (S w)) (Array (PName y) (S w)) g)) x (S w) (lse_pair w a v).
Proof.
  intros m g x y w a v Gx Gy N F. unfold lse_pair_code. cbv zeta. cbn [aptr adim].
  set (t := name "tmpexp" (g "tmpexp")). set (g1 := next g "tmpexp"). set (k := name "k" (g1 "k")).
  assert (Ut : get t m = None) by now apply fresh_new.
  pose (e := xexp (lse_exponent a v)).
  pose (m2 := (t, OFlt (Some e)) :: m).
  assert (F2 : fresh g1 m2) by (apply fresh_cons; exact F).
  assert (Uk : get k m2 = None) by (apply fresh_new; exact F2).
  assert (Ntx : x <> t) by (intros ->; congruence). assert (Nty : y <> t) by (intros ->; congruence).
  assert (G2x : get x m2 = Some (arr (S w) a)) by (unfold m2; now rewrite get_cons_other).
  assert (G2y : get y m2 = Some (arr (S w) v)) by (unfold m2; now rewrite get_cons_other).
  assert (Nkt : t <> k). { intros E. rewrite <- E in Uk. unfold m2 in Uk. rewrite get_cons_same in Uk. discriminate. }
  assert (Gt : forall j b, get t ((k, OInt j) :: put x (arr (S w) b) m2) = Some (OFlt (Some e))).
  { intros j b. rewrite get_cons_other by auto. rewrite get_put_other by auto. unfold m2. apply get_cons_same. }
  assert (R : forall o, read ((t, o) :: m) (PName x) 0 = Some (a 0) /\ read ((t, o) :: m) (PName y) 0 = Some (v 0)).
  { intros o. split.
    - erewrite (read_arr _ (PName x) x); [|reflexivity|rewrite get_cons_other by auto; exact Gx|cbn; lia]. reflexivity.
    - erewrite (read_arr _ (PName y) y); [|reflexivity|rewrite get_cons_other by auto; exact Gy|cbn; lia]. reflexivity. }
  eexists _, _, [(t, OFlt (Some e))]. split; [reflexivity|].
  split. { intros u. unfold g1. etransitivity; [apply next_le|apply next_le]. }
  split.
  2:{ split.
      - intros z [E|[]]. cbn [fst] in E. subst z. unfold t. eauto.
      - cbn [List.app]. eapply fresh_mono with (g := g1); [|intros u; apply next_le].
        unfold g1, t. apply fresh_cons. now apply fresh_put. }
  rewrite exec_seq. change (exec (SDecl t) m) with (Some ((t, OFlt None) :: m)). cbn [obind]. rewrite exec_ifelse. cbn [CSem.ceval ieval obind].
  destruct (R (OFlt None)) as [Rx Ry]. rewrite Rx, Ry. cbn [obind].
  assert (Ee : e = xexp (if xltb (v 0) (a 0) then xsub (v 0) (a 0) else xsub (a 0) (v 0))) by reflexivity.
  unfold compare, lse_pair. change (xexp (lse_exponent a v)) with e. clearbody e.
  destruct (xltb (v 0) (a 0)); rewrite !exec_seq, exec_var; cbn [CSem.ceval ieval obind]; rewrite Rx, Ry;
    cbn [obind]; rewrite get_cons_same; cbn [put]; rewrite String.eqb_refl; cbn [obind]; rewrite <- Ee;
    change ((t, OFlt (Some e)) :: m) with m2.
  - rewrite (for_arr1 m2 x (S w) a k w _ (fun k a => upd a (S k) (xadd (a (S k)) (xmul (v (S k)) e))) G2x Uk).
    + cbn [obind]. rewrite leave_same by (rewrite put_length; reflexivity). unfold m2. now rewrite put_cons_other.
    + intros j b J. exists [(k, OInt (S j))]. cbn [CSem.exec CSem.ceval ieval]. rewrite get_cons_same. cbn [obind].
      rewrite (body_read_y m2 x y k (S w) (S w) v G2y N Uk) by lia. cbn [obind]. rewrite Gt. cbn [obind].
      rewrite (body_read_x m2 x k (S w) a G2x Uk) by (auto; cbn [CSem.off]; lia). cbn [obind].
      rewrite (body_write_x m2 x k (S w) a G2x Uk) by (auto; cbn [CSem.off]; lia). reflexivity.
  - rewrite exec_seq. rewrite (for_arr1 m2 x (S w) a k w _ (fun k a => upd a (S k) (xadd (v (S k)) (xmul e (a (S k))))) G2x Uk).
    + cbn [obind]. rewrite exec_set. cbn [CSem.ceval ieval obind].
      erewrite (read_arr _ (PName y) y); [|reflexivity|rewrite get_put_other by auto; exact G2y|cbn; lia]. cbn [obind].
      erewrite (write_arr _ (PName x) x); [|reflexivity|apply get_put_same; congruence|cbn; lia].
      cbn [obind]. rewrite put_put. rewrite leave_same by (rewrite put_length; reflexivity). unfold m2. now rewrite put_cons_other.
    + intros j b J. exists [(k, OInt (S j))]. cbn [CSem.exec CSem.ceval ieval]. rewrite get_cons_same. cbn [obind].
      rewrite (body_read_y m2 x y k (S w) (S w) v G2y N Uk) by lia. cbn [obind]. rewrite Gt. cbn [obind].
      rewrite (body_read_x m2 x k (S w) a G2x Uk) by (auto; cbn [CSem.off]; lia). cbn [obind].
      rewrite (body_write_x m2 x k (S w) a G2x Uk) by (auto; cbn [CSem.off]; lia). reflexivity.
Qed.

Lemma check_same : forall A t (r : res A), check_types t t r = r.
Proof. intros A t r. unfold check_types. now destruct t. Qed.

(** ReducePairShort. *)
Lemma short_ok : forall r d m g x y a v ta t ind i, 1 <= d -> types_ok r t ta ->
  get x m = Some (arr (red_dimred r d) a) -> get y m = Some (arr d v) -> x <> y -> fresh g m ->
  (forall k j o, get k m = None -> ceval ((k, OInt j) :: put x o m) ind = Some (of_long i)) ->
  updates m g (ReducePairShort r d ta t (Array (PName x) (red_dimred r d)) (Array (PName y) d) ind g)
    x (red_dimred r d) (rshort (meaning r d) a v i).
Proof.
  intros r d m g x y a v ta t ind i D T Gx Gy N F I.
  destruct r as [|mx|mx both|]; cbn [ReducePairShort red_dimred meaning] in *.
  - now apply sum_code.
  - destruct T as [T|<-]; [discriminate|]. rewrite check_same. now apply opt_code.
  - destruct T as [T|<-]; [discriminate|]. unfold split2. cbn [adim].
    replace (d + d =? 2 * d) with true by (symmetry; apply Nat.eqb_eq; lia). cbn [rbind aptr]. rewrite check_same.
    replace (rshort (OptArg_Red mx (if both then OBoth else OArg) d) a v i) with (optarg_short mx d a v i) by reflexivity.
    now apply optarg_code.
  - destruct T as [T|<-]; [discriminate|]. rewrite check_same. destruct d as [|w]; [lia|].
    rewrite Nat.sub_succ, Nat.sub_0_r. cbn [rshort LSE_Red]. now apply lse_code.
Qed.

(** ReducePair. *)
Lemma pair_ok : forall r d m g x y a v ta t p, 1 <= d -> types_ok r t ta -> rpair (meaning r d) = Ok p ->
  get x m = Some (arr (red_dimred r d) a) -> get y m = Some (arr (red_dimred r d) v) -> x <> y -> fresh g m ->
  updates m g (ReducePair r d ta t (Array (PName x) (red_dimred r d)) (Array (PName y) (red_dimred r d)) g)
    x (red_dimred r d) (p a v).
Proof.
  intros r d m g x y a v ta t p D T P Gx Gy N F.
  destruct r as [|mx|mx both|]; cbn [ReducePair red_dimred meaning rpair Sum_Red Opt_Red OptArg_Red LSE_Red optarg_pair] in *.
  - injection P as <-. now apply sum_code.
  - injection P as <-. destruct T as [T|<-]; [discriminate|]. rewrite check_same. now apply opt_code.
  - discriminate.
  - injection P as <-. destruct T as [T|<-]; [discriminate|]. rewrite check_same. destruct d as [|w]; [lia|].
    rewrite Nat.sub_succ, Nat.sub_0_r. now apply lse_code.
Qed.

Lemma put_comm : forall x z o o' m, x <> z -> put x o (put z o' m) = put z o' (put x o m).
Proof.
  intros x z o o' m N. induction m as [|[u p] m IH]; [reflexivity|]. cbn [put].
  destruct (String.eqb_spec x u), (String.eqb_spec z u); cbn [put]; try congruence;
    destruct (String.eqb_spec x u), (String.eqb_spec z u); congruence.
Qed.

Lemma kahan_code : forall m g x y z d a v c, 
  get x m = Some (arr d a) -> get y m = Some (arr d v) -> get z m = Some (arr d c) ->
  x <> y -> x <> z -> y <> z -> fresh g m ->
  exists s g', KahanScheme CSum d (Array (PName x) d) (Array (PName y) d) (Array (PName z) d) g = Ok (s, g') /\ gle g g'
    /\ exec s m = Some (put x (arr d (fst (sum_kahan d a v c))) (put z (arr d (snd (sum_kahan d a v c))) m)).
Proof.
  intros m g x y z d a v c Gx Gy Gz Nxy Nxz Nyz F. cbn [KahanScheme aptr].
  set (k := name "k" (g "k")). set (g1 := next g "k"). set (na := name "a" (g1 "a")). set (g2 := next g1 "a").
  set (nb := name "b" (g2 "b")). eexists _, _. split; [reflexivity|].
  split. { intros t. unfold g2, g1. do 2 (etransitivity; [apply next_le|]). apply next_le. }
  assert (Uk : get k m = None) by now apply fresh_new.
  assert (F1 : fresh g1 m) by (eapply fresh_mono; [exact F|intros; apply next_le]).
  assert (Ua : get na m = None) by now apply fresh_new.
  assert (Ub : get nb m = None).
  { apply fresh_new. eapply fresh_mono; [exact F1|intros; apply next_le]. }
  assert (Nka : k <> na) by (intros E; apply name_inj in E as [E _]; discriminate).
  assert (Nkb : k <> nb) by (intros E; apply name_inj in E as [E _]; discriminate).
  assert (Nab : na <> nb) by (intros E; apply name_inj in E as [E _]; discriminate).
  assert (ne : forall u q, get u m = None -> get q m <> None -> q <> u) by (intros u q A B ->; congruence).
  assert (Bx : get x m <> None) by congruence. assert (By : get y m <> None) by congruence.
  assert (Bz : get z m <> None) by congruence.
  pose (step := fun k (st : cells * cells) =>
    let (acc, tmp) := st in
    let a := xsub (v k) (tmp k) in
    let b := xadd (acc k) a in
    (upd acc k b, upd tmp k (xsub (xsub b (acc k)) a))).
  pose (st := fun j => for_up j step (a, c)).
  pose (I := fun j => put x (arr d (fst (st j))) (put z (arr d (snd (st j))) m)).
  assert (E0 : I 0 = m). { unfold I. cbn. rewrite (put_get z) by auto. now rewrite (put_get x). }
  change (put x (arr d (fst (sum_kahan d a v c))) (put z (arr d (snd (sum_kahan d a v c))) m)) with (I d).
  rewrite <- E0 at 1. cbn [CSem.exec]. rewrite Nat.sub_0_r. rewrite (loop_rule _ k d 0 I); [reflexivity|].
  intros j J. unfold I. destruct (st j) as [b e] eqn:Es.
  assert (Es' : st (S j) = step j (b, e)) by (unfold st in *; cbn [for_up]; now rewrite Es).
  rewrite Es'. cbn [step fst snd].
  set (va := xsub (v j) (e j)). set (vb := xadd (b j) va).
  exists [(nb, OFlt (Some vb)); (na, OFlt (Some va)); (k, OInt j)]. split; [|now rewrite !put_length].
  set (M := put x (arr d b) (put z (arr d e) m)).
  assert (GMx : get x M = Some (arr d b)). { unfold M. apply get_put_same. rewrite get_put_other by auto. exact Bx. }
  assert (GMz : get z M = Some (arr d e)). { unfold M. rewrite get_put_other by auto. apply get_put_same. exact Bz. }
  assert (GMy : get y M = Some (arr d v)). { unfold M. rewrite get_put_other by auto. rewrite get_put_other by auto. exact Gy. }
  assert (HM : M = put x (arr d b) (put z (arr d e) m)) by reflexivity. clearbody M.
  cbn [CSem.exec CSem.ceval ieval]. rewrite get_cons_same. cbn [obind].
  erewrite (read_arr _ (PName y) y); [|reflexivity|rewrite get_cons_other by (apply ne; auto); exact GMy|cbn; lia]. cbn [obind].
  erewrite (read_arr _ (PName z) z); [|reflexivity|rewrite get_cons_other by (apply ne; auto); exact GMz|cbn; lia]. cbn [obind].
  cbn [CSem.off Nat.add]. change (xsub (v j) (e j)) with va. clearbody va.
  cbn [get]. rewrite (proj2 (String.eqb_neq k na) Nka), String.eqb_refl. cbn [obind].
  erewrite (read_arr _ (PName x) x); [|reflexivity|do 2 (rewrite get_cons_other by (apply ne; auto)); exact GMx|cbn; lia].
  cbn [obind CSem.off Nat.add]. rewrite String.eqb_refl. cbn [obind]. change (xadd (b j) va) with vb. clearbody vb.
  cbn [get]. rewrite (proj2 (String.eqb_neq k nb) Nkb), (proj2 (String.eqb_neq k na) Nka), !String.eqb_refl. cbn [obind].
  erewrite (read_arr _ (PName x) x); [|reflexivity|do 3 (rewrite get_cons_other by (apply ne; auto)); exact GMx|cbn; lia].
  cbn [obind CSem.off Nat.add]. rewrite (proj2 (String.eqb_neq na nb) Nab). cbn [obind].
  erewrite (write_arr _ (PName z) z); [|reflexivity|do 3 (rewrite get_cons_other by (apply ne; auto)); exact GMz|cbn; lia].
  cbn [obind CSem.off Nat.add].
  do 3 (rewrite put_cons_other by (apply ne; auto)).
  cbn [get]. rewrite ?(proj2 (String.eqb_neq k nb) Nkb), ?(proj2 (String.eqb_neq k na) Nka), !String.eqb_refl. cbn [obind].
  erewrite (write_arr _ (PName x) x); [|reflexivity|do 3 (rewrite get_cons_other by (apply ne; auto)); rewrite get_put_other by auto; exact GMx|cbn; lia].
  do 3 (rewrite put_cons_other by (apply ne; auto)). cbn [List.app CSem.off Nat.add]. do 4 f_equal.
  rewrite HM. clear - Nxz Bx Bz. 
  rewrite (put_comm z x) by auto. rewrite put_put. now rewrite put_put.
Qed.

(** ** The output *)
Lemma copy_cells : forall m p n a v g, room m p n -> fresh g m -> bound m (base (aptr a)) -> base (aptr a) <> base p ->
  (forall k, k < n -> read m (aptr a) k = Some (v k)) ->
  exec (fst (VectCopy (Array p n) a g)) m = Some (region m p n (fun k => Some (v k))).
Proof.
  intros m p n a v g Hr F B N H. cbn [VectCopy fst adim aptr CSem.exec].
  set (k := name "k" (g "k")). assert (U : get k m = None) by now apply fresh_new.
  assert (Nk : k <> base p) by (eapply bound_ne; eauto using room_bound).
  assert (Na : k <> base (aptr a)) by (eapply bound_ne; eauto).
  destruct (region_init m p n Hr) as [w Ew].
  pose (W := fun j q => if q <? j then Some (v q) else w q).
  assert (E0 : m = region m p n (W 0)) by (rewrite Ew at 1; apply region_ext; intros; reflexivity).
  rewrite E0 at 1. rewrite Nat.sub_0_r. rewrite (for_region _ k n 0 m p n W Nk).
  - f_equal. apply region_ext. intros q Q. unfold W. destruct (Nat.ltb_spec q (0 + n)); [reflexivity|lia].
  - intros j J. cbn [CSem.exec CSem.ceval]. rewrite (ivar_region m p n (W j) k j Nk). cbn [obind].
    rewrite region_read_other by auto. rewrite read_cons by auto. rewrite H by lia. cbn [obind].
    erewrite (region_write _ _ _ _ p 0 j); [|apply room_cons; eauto|reflexivity|lia|lia].
    f_equal. apply region_ext. intros q Q. unfold W, at_. cbn [Nat.add].
    destruct (Nat.eqb_spec q j), (Nat.ltb_spec q j), (Nat.ltb_spec q (S j)); subst; try lia; reflexivity.
Qed.

Lemma final_ok : forall r d m g x p a, 1 <= d -> get x m = Some (arr (red_dimred r d) a) -> room m p (red_dim r d) ->
  base p <> x -> fresh g m ->
  exists s g', FinalizeOutput r d (Array (PName x) (red_dimred r d)) (Array p (red_dim r d)) g = Ok (s, g') /\ gle g g'
    /\ exec s m = Some (region m p (red_dim r d) (fun k => Some (rfinal (meaning r d) a k))).
Proof.
  intros r d m g x p a D G Hr N F.
  assert (Bx : bound m x) by (unfold bound; congruence).
  assert (All : rfinal (meaning r d) a = a -> red_dim r d <= red_dimred r d ->
     exec (fst (VectCopy (Array p (red_dim r d)) (Array (PName x) (red_dimred r d)) g)) m
     = Some (region m p (red_dim r d) (fun k => Some (rfinal (meaning r d) a k)))).
  { intros -> L. apply copy_cells; auto. intros k K. cbn [aptr]. erewrite read_arr; [|reflexivity|exact G|cbn; lia]. reflexivity. }
  assert (P : FinalizeOutput r d (Array (PName x) (red_dimred r d)) (Array p (red_dim r d)) g
              = Ok (VectCopy (Array p (red_dim r d)) (Array (PName x) (red_dimred r d)) g)
              /\ rfinal (meaning r d) a = a /\ red_dim r d <= red_dimred r d
              \/ exists mx, r = COptArg mx false).
  { destruct r as [|mx|mx []|]; cbn; eauto. }
  destruct P as [(E & E' & L)|[mx ->]].
  - rewrite E. eexists _, _. split; [reflexivity|]. split; [intros t; apply next_le|]. now apply All.
  - cbn [FinalizeOutput red_dim red_dimred]. unfold split2. cbn [adim].
    replace (d + d =? 2 * d) with true by (symmetry; apply Nat.eqb_eq; lia). cbn [rbind aptr].
    eexists _, _. split; [reflexivity|]. split; [intros t; apply next_le|].
    apply copy_cells; auto. intros k K. cbn [aptr]. cbn [red_dimred red_dim] in *.
    erewrite read_arr; [|reflexivity|exact G|cbn; lia]. reflexivity.
Qed.

End Rho.
