(** Proofs about the generated code: memory and loops. *)

From Coq Require Import ZArith Reals List Bool String Ascii Lia Lra Arith Decimal DecimalString.
From Verif Require Import Result Formula Keys XReal CodeGen CSem C22Proofs.
Import ListNotations.
Local Open Scope list_scope.
Local Open Scope nat_scope.

(** ** Names *)
Lemma has_app_us : forall a b, has "_" (a ++ b)%string = (has "_" a || has "_" b)%bool.
Proof. induction a as [|c a IH]; intros b; cbn; [reflexivity|]. rewrite IH. now rewrite orb_assoc. Qed.

Lemma digits_no_us : forall s, digits s = true -> has "_" s = false.
Proof.
  induction s as [|c s IH]; intros H; [reflexivity|]. cbn in *. apply andb_true_iff in H as [H1 H2].
  rewrite (IH H2), orb_false_r. destruct (Ascii.eqb_spec c "_"); [subst; discriminate|reflexivity].
Qed.

Lemma str_nat_digits : forall n, digits (str_int (Z.of_nat n)) = true.
Proof.
  intros n. unfold str_int, NilZero.string_of_int. destruct n as [|n]; [reflexivity|].
  cbn [Z.of_nat Z.to_int]. apply uint_digits.
Qed.

Lemma split_us : forall a a' s s', has "_" s = false -> has "_" s' = false ->
  (a ++ "_" ++ s = a' ++ "_" ++ s')%string -> a = a' /\ s = s'.
Proof.
  induction a as [|c a IH]; intros [|c' a'] s s' H H' E; cbn in E.
  - injection E as E. auto.
  - injection E as _ E. subst s. rewrite has_app_us in H. cbn in H. rewrite orb_true_r in H. discriminate.
  - injection E as _ E. subst s'. rewrite has_app_us in H'. cbn in H'. rewrite orb_true_r in H'. discriminate.
  - injection E as -> E. destruct (IH a' s s' H H' E) as [-> ->]. auto.
Qed.

Lemma name_inj : forall t c t' c', name t c = name t' c' -> t = t' /\ c = c'.
Proof.
  intros t c t' c' E. unfold name in E. apply split_us in E; try apply digits_no_us, str_nat_digits.
  destruct E as [-> E]. split; [reflexivity|]. apply str_int_inj in E. lia.
Qed.

(** ** Memory *)
Lemma get_put : forall x y o m, get x (put y o m) = if String.eqb x y then
  match get y m with Some _ => Some o | None => None end else get x m.
Proof.
  induction m as [|[z q] m IH]; cbn [put get]; [now destruct (String.eqb x y)|].
  destruct (String.eqb_spec y z) as [->|N]; cbn [get].
  - destruct (String.eqb_spec x z) as [->|N]; reflexivity.
  - rewrite IH. destruct (String.eqb_spec x z) as [->|N']; [|reflexivity].
    destruct (String.eqb_spec z y); [congruence|reflexivity].
Qed.
Lemma put_put : forall x o o' m, put x o (put x o' m) = put x o m.
Proof.
  induction m as [|[z q] m IH]; cbn [put]; [reflexivity|].
  destruct (String.eqb_spec x z) as [->|N]; cbn [put].
  - now rewrite String.eqb_refl.
  - destruct (String.eqb_spec x z); [contradiction|]. now rewrite IH.
Qed.
Lemma put_get : forall x o m, get x m = Some o -> put x o m = m.
Proof.
  induction m as [|[z q] m IH]; cbn [put get]; intros H; [reflexivity|].
  destruct (String.eqb_spec x z) as [->|N]; [congruence|]. now rewrite IH.
Qed.
Lemma put_length : forall x o m, List.length (put x o m) = List.length m.
Proof. induction m as [|[z q] m IH]; cbn; [reflexivity|]. destruct (String.eqb x z); cbn; congruence. Qed.
Lemma get_In : forall x m o, get x m = Some o -> In (x, o) m.
Proof.
  induction m as [|[z q] m IH]; cbn; intros o H; [discriminate|].
  destruct (String.eqb_spec x z) as [->|N]; [left; congruence|right; auto].
Qed.

Lemma set_nth_length : forall A (l : list A) i x, List.length (set_nth l i x) = List.length l.
Proof. induction l; intros [|i] x; cbn; auto. Qed.
Lemma set_nth_spec : forall A (l : list A) i x j, i < List.length l ->
  nth_error (set_nth l i x) j = if j =? i then Some x else nth_error l j.
Proof.
  induction l as [|y l IH]; intros i x j H; [cbn in H; lia|].
  destruct i as [|i], j as [|j]; cbn; auto. apply IH. cbn in H. lia.
Qed.
Lemma nth_error_ext : forall A (l l' : list A), (forall i, nth_error l i = nth_error l' i) -> l = l'.
Proof.
  induction l as [|x l IH]; intros [|y l'] H; [reflexivity|specialize (H 0); discriminate|specialize (H 0); discriminate|].
  assert (E := H 0). cbn in E. injection E as <-. f_equal. apply IH. intros i. exact (H (S i)).
Qed.

(** ** A part of an array *)
Fixpoint over (c : list (option xr)) (o n : nat) (w : nat -> option xr) : list (option xr) :=
  match c with
  | [] => []
  | x :: c =>
      match o with
      | S o => x :: over c o n w
      | 0 => match n with 0 => x :: c | S n => w 0 :: over c 0 n (fun k => w (S k)) end
      end
  end.
Lemma over_length : forall c o n w, List.length (over c o n w) = List.length c.
Proof. induction c as [|x c IH]; intros [|o] [|n] w; cbn; auto. Qed.
Lemma over_spec : forall c o n w j, o + n <= List.length c ->
  nth_error (over c o n w) j
  = if (o <=? j) && (j <? o + n) then Some (w (j - o)) else nth_error c j.
Proof.
  induction c as [|x c IH]; intros o n w j H.
  - cbn in H. assert (o = 0) by lia. assert (n = 0) by lia. subst. cbn. now destruct j.
  - destruct o as [|o]; [destruct n as [|n]|].
    + cbn [over]. destruct (Nat.ltb_spec j (0 + 0)); [lia|]. now rewrite andb_false_r.
    + cbn [over]. destruct j as [|j]; [reflexivity|]. cbn [nth_error]. rewrite IH by (cbn in H; lia).
      replace (0 <=? S j) with true by reflexivity. replace (0 <=? j) with true by reflexivity.
      cbn [andb]. replace (S j <? 0 + S n) with (j <? 0 + n) by reflexivity.
      now rewrite !Nat.sub_0_r.
    + cbn [over]. destruct j as [|j]; [reflexivity|]. cbn [nth_error]. rewrite IH by (cbn in H; lia).
      reflexivity.
Qed.

Ltac dec :=
  repeat match goal with
  | |- context [Rlt_dec ?a ?b] => destruct (Rlt_dec a b); try lra
  | |- context [Rle_dec ?a ?b] => destruct (Rle_dec a b); try lra
  | |- context [Req_EM_T ?a ?b] => destruct (Req_EM_T a b); try lra
  end.

Section Rho.
Context {rho : indices}.
Local Notation off := (CSem.off rho).
Local Notation read := (CSem.read rho).
Local Notation write := (CSem.write rho).
Local Notation ceval := (CSem.ceval rho).
Local Notation exec := (CSem.exec rho).

Definition region (m : mem) (p : ptr) (n : nat) (w : nat -> option xr) : mem :=
  match get (base p) m with
  | Some (OArr c) => put (base p) (OArr (over c (off p) n w)) m
  | _ => m
  end.
Definition room (m : mem) (p : ptr) (n : nat) : Prop :=
  exists c, get (base p) m = Some (OArr c) /\ off p + n <= List.length c.

Lemma region_get_other : forall m p n w x, x <> base p -> get x (region m p n w) = get x m.
Proof.
  intros m p n w x N. unfold region. destruct (get (base p) m) as [[c| |]|]; auto.
  rewrite get_put. destruct (String.eqb_spec x (base p)); [contradiction|reflexivity].
Qed.
Lemma region_read_other : forall m p n w q i, base q <> base p -> read (region m p n w) q i = read m q i.
Proof. intros. unfold read. now rewrite region_get_other. Qed.
Lemma region_get_self : forall m p n w, room m p n -> exists c,
  get (base p) m = Some (OArr c) /\ off p + n <= List.length c
  /\ get (base p) (region m p n w) = Some (OArr (over c (off p) n w)).
Proof.
  intros m p n w (c & E & L). exists c. split; [auto|]. split; [auto|].
  unfold region. rewrite E, get_put, String.eqb_refl, E. reflexivity.
Qed.
Lemma region_read_self : forall m p n w q s i, room m p n -> base q = base p -> off q = off p + s ->
  s + i < n -> read (region m p n w) q i = w (s + i).
Proof.
  intros m p n w q s i H B O I. destruct (region_get_self m p n w H) as (c & _ & L & E).
  unfold read. rewrite B, E, over_spec by auto. rewrite O.
  destruct (Nat.leb_spec (off p) (off p + s + i)); [|lia].
  destruct (Nat.ltb_spec (off p + s + i) (off p + n)); [|lia]. cbn [andb].
  now replace (off p + s + i - off p) with (s + i) by lia.
Qed.
Lemma region_ext : forall m p n w w', (forall k, k < n -> w k = w' k) -> region m p n w = region m p n w'.
Proof.
  intros m p n w w' H. unfold region. destruct (get (base p) m) as [[c| |]|]; auto. f_equal. f_equal.
  revert n w w' H. generalize (off p). clear. induction c as [|x c IH]; intros [|o] [|n] w w' H; cbn; auto.
  - f_equal; [apply H; lia|]. apply IH. intros. apply H. lia.
  - now rewrite (IH o 0 w w' H).
  - now rewrite (IH o (S n) w w' H).
Qed.
Lemma region_init : forall m p n, room m p n ->
  exists w, m = region m p n w.
Proof.
  intros m p n (c & E & L). exists (fun k => nth (off p + k) c None). unfold region. rewrite E.
  symmetry. apply put_get. rewrite E. f_equal. f_equal. symmetry. apply nth_error_ext. intros j.
  rewrite over_spec by auto. destruct ((off p <=? j) && (j <? off p + n)) eqn:B; [|reflexivity].
  apply andb_true_iff in B as [B1 B2]. apply Nat.leb_le in B1. apply Nat.ltb_lt in B2.
  replace (off p + (j - off p)) with j by lia. symmetry. apply nth_error_nth'. lia.
Qed.
Lemma region_cons : forall x o m p n w, x <> base p ->
  region ((x, o) :: m) p n w = (x, o) :: region m p n w.
Proof.
  intros x o m p n w N. unfold region. cbn [get].
  destruct (String.eqb_spec (base p) x); [congruence|].
  destruct (get (base p) m) as [[c| |]|]; auto. cbn [put].
  destruct (String.eqb_spec (base p) x); [congruence|reflexivity].
Qed.
Lemma room_cons : forall x o m p n, x <> base p -> room m p n -> room ((x, o) :: m) p n.
Proof.
  intros x o m p n N (c & E & L). exists c. split; [|auto]. cbn [get].
  destruct (String.eqb_spec (base p) x); [congruence|auto].
Qed.
Lemma region_length : forall m p n w, List.length (region m p n w) = List.length m.
Proof. intros. unfold region. destruct (get (base p) m) as [[c| |]|]; auto. apply put_length. Qed.

Definition at_ (w : nat -> option xr) (i : nat) (v : xr) : nat -> option xr :=
  fun k => if k =? i then Some v else w k.
Lemma region_write : forall m p n w q s i v, room m p n -> base q = base p -> off q = off p + s ->
  s + i < n -> write (region m p n w) q i v = Some (region m p n (at_ w (s + i) v)).
Proof.
  intros m p n w q s i v H B O I. destruct (region_get_self m p n w H) as (c & E & L & E').
  unfold write. rewrite B, E', over_length, O. destruct (Nat.ltb_spec (off p + s + i) (List.length c)); [|lia].
  f_equal. unfold region. rewrite E, put_put. f_equal. f_equal. apply nth_error_ext. intros j.
  rewrite set_nth_spec, !over_spec by (rewrite ?over_length; lia). unfold at_.
  destruct (Nat.eqb_spec j (off p + s + i)) as [->|N].
  - destruct (Nat.leb_spec (off p) (off p + s + i)); [|lia].
    destruct (Nat.ltb_spec (off p + s + i) (off p + n)); [|lia]. cbn [andb].
    destruct (Nat.eqb_spec (off p + s + i - off p) (s + i)); [reflexivity|lia].
  - destruct ((off p <=? j) && (j <? off p + n)) eqn:X; [|reflexivity].
    apply andb_true_iff in X as [B1 B2]. apply Nat.leb_le in B1.
    destruct (Nat.eqb_spec (j - off p) (s + i)); [lia|reflexivity].
Qed.

Lemma leave_app : forall pre m m', List.length m' = List.length m -> leave m (pre ++ m') = m'.
Proof.
  intros pre m m' L. unfold leave. rewrite app_length.
  replace (List.length pre + List.length m' - List.length m) with (List.length pre) by lia.
  rewrite skipn_app, skipn_all, Nat.sub_diag. reflexivity.
Qed.

(** ** Loops *)
Lemma loop_rule : forall body x n i (I : nat -> mem),
  (forall j, i <= j < i + n -> exists pre, body ((x, OInt j) :: I j) = Some (pre ++ I (S j))
     /\ List.length (I (S j)) = List.length (I j)) ->
  loop body x n i (I i) = Some (I (i + n)).
Proof.
  intros body x n. induction n as [|n IH]; intros i I H; cbn [loop]; [now rewrite Nat.add_0_r|].
  destruct (H i ltac:(lia)) as (pre & E & L). rewrite E, leave_app by auto.
  rewrite IH; [f_equal; f_equal; lia|]. intros j J. apply H. lia.
Qed.

Lemma for_region : forall body x n i m p d (W : nat -> nat -> option xr), x <> base p ->
  (forall j, i <= j < i + n ->
     body (region ((x, OInt j) :: m) p d (W j)) = Some (region ((x, OInt j) :: m) p d (W (S j)))) ->
  loop body x n i (region m p d (W i)) = Some (region m p d (W (i + n))).
Proof.
  intros body x n i m p d W N H. apply (loop_rule body x n i (fun j => region m p d (W j))).
  intros j J. exists [(x, OInt j)]. rewrite !region_length. split; [|reflexivity].
  rewrite <- region_cons by auto. rewrite H by auto. now rewrite region_cons.
Qed.

(** ** Scalar code *)
Lemma sqrt_not0 : forall r : R, (0 <= r)%R -> r <> 0%R -> sqrt r <> 0%R.
Proof. intros r H N E. apply N. now apply sqrt_eq_0. Qed.

Lemma un_code_ok : forall m u x r, ceval m x = Some (Fin r) -> unDom u r ->
  ceval m (un_code u x) = Some (Fin (unR u r)).
Proof.
  intros m u x r E D. destruct u; cbn [un_code CSem.ceval]; rewrite ?E; cbn [obind unR prim1R dom1 unDom fin1 fin2 xopp xadd xmul xsub xexp] in *; try reflexivity.
  - dec. reflexivity.
  - dec. reflexivity.
  - dec. reflexivity.
  - unfold Rrsqrt. cbn [compare xeqb xleb xltb negb]. destruct (Req_EM_T r (IZR 0)); cbn [CSem.ceval obind]; rewrite ?E; [reflexivity|].
    cbn [obind dom1 prim1R fin1 fin2]. dec. cbn [obind]. destruct (Req_EM_T (sqrt r) 0); [|reflexivity].
    exfalso. now apply (sqrt_not0 r D n).
  - unfold Rsign. cbn [compare xeqb xleb xltb negb]. destruct (Rlt_dec (IZR 0) r); cbn [CSem.ceval]; [reflexivity|].
    rewrite ?E. cbn [obind compare xeqb xleb xltb negb]. destruct (Rlt_dec r (IZR 0)); reflexivity.
  - unfold Rstep. cbn [compare xeqb xleb xltb negb]. destruct (Rlt_dec r (IZR 0)); reflexivity.
  - unfold Rrelu. cbn [compare xeqb xleb xltb negb]. destruct (Rlt_dec r (IZR 0)); [reflexivity|first [exact E | reflexivity]].
  - unfold Rxlogx. cbn [compare xeqb xleb xltb negb]. destruct (Req_EM_T r (IZR 0)); cbn [CSem.ceval]; rewrite ?E; cbn [obind dom1 fin1 fin2 xmul prim1R]; dec; reflexivity.
  - unfold Rsinxdivx. cbn [compare xeqb xleb xltb negb]. destruct (Req_EM_T r (IZR 0)); cbn [CSem.ceval]; rewrite ?E; cbn [obind dom1 fin1 fin2 xmul prim1R]; dec; reflexivity.
  - dec. reflexivity.
  - dec. reflexivity.
  - destruct (Z.leb_spec 0 m0); cbn [orb]; [reflexivity|]. destruct D as [D|D]; [lia|]. dec. reflexivity.
  - unfold Rclamp. cbn [compare xeqb xleb xltb negb]. destruct (Rlt_dec r (IZR a)); cbn [CSem.ceval]; [reflexivity|].
    rewrite ?E. cbn [obind compare xeqb xleb xltb negb]. destruct (Rlt_dec (IZR b) r); [reflexivity|first [exact E | reflexivity]].
  - unfold Rdiffclamp. cbn [compare xeqb xleb xltb negb]. destruct (Rlt_dec r (IZR a)); cbn [CSem.ceval]; [reflexivity|].
    rewrite ?E. cbn [obind compare xeqb xleb xltb negb]. destruct (Rlt_dec (IZR b) r); reflexivity.
Qed.

Lemma bin_code_ok : forall m b x y r s, ceval m x = Some (Fin r) -> ceval m y = Some (Fin s) -> binDom b r s ->
  ceval m (bin_code b x y) = Some (Fin (binR b r s)).
Proof.
  intros m b x y r s E F D. destruct b; cbn [bin_code CSem.ceval]; rewrite ?E, ?F; cbn [obind binR prim2R dom2 compare binDom fin1 fin2 xopp xadd xmul xsub xexp xeqb xleb xltb negb] in *;
    try reflexivity.
  - dec. reflexivity.
  - dec. reflexivity.
  - unfold Reqb. now destruct (Req_EM_T r s).
  - unfold Reqb. now destruct (Req_EM_T r s).
  - unfold Rltb. now destruct (Rlt_dec r s).
  - unfold Rltb. destruct (Rle_dec r s), (Rlt_dec s r); try reflexivity; lra.
Qed.

Lemma ter_code_ok : forall m t x y z r s u, ceval m x = Some (Fin r) -> ceval m y = Some (Fin s) -> ceval m z = Some (Fin u) ->
  terDom t r s u -> ceval m (ter_code t x y z) = Some (Fin (terR t r s u)).
Proof.
  intros m t x y z r s u E F G D. destruct t; cbn [ter_code CSem.ceval]; rewrite ?E, ?F, ?G; cbn [obind terR prim1R compare dom1 terDom fin1 fin2 xopp xadd xmul xsub xexp xeqb xleb xltb negb] in *.
  - destruct (Rle_dec (IZR 0) r), (Rlt_dec r (IZR 0)); try lra; auto.
  - unfold Rclamp. destruct (Rlt_dec r s); auto. cbn [CSem.ceval]. rewrite ?E, ?G. cbn [obind compare xeqb xleb xltb negb].
    destruct (Rlt_dec u r); auto.
  - dec. reflexivity.
Qed.
End Rho.
