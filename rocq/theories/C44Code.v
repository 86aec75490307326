(** Proofs for C44: the code of the backward pass. *)

From Coq Require Import Reals List Bool Arith Lia Lra Permutation.
From Verif Require Import Result Tensordot C36Proofs SoftDTW SoftDTWSpec BSplineSpec C43Proofs C44Proofs C44Back.
Import ListNotations.
Local Open Scope R_scope.

Section Back.
Variables (x y : nat -> R) (gamma : R) (n m : nat).
Hypothesis n_pos : (0 < n)%nat.
Hypothesis m_pos : (0 < m)%nat.

Notation rv := (rv x y gamma).
Notation er := (er x y gamma n m).
Notation wt := (wt x y gamma).

Definition gx (i b : nat) : R := 2 * (x i - y (m - 1 - b)%nat) * er (n - 1 - i)%nat b.
Definition gy (j a : nat) : R := - 2 * (x (n - 1 - a)%nat - y j) * er a (m - 1 - j)%nat.

Variable r : nat -> R.
Hypothesis r_ok : forall i j, (i < n)%nat -> (j < m)%nat -> r (j * n + i)%nat = rv i j.

Lemma rd : forall i j, (i < n)%nat -> (j < m)%nat -> read (n * m) r (j * n + i) = Ok (rv i j).
Proof. intros. rewrite read_ok by (apply idx; auto). now rewrite r_ok. Qed.

Local Notation state := (R * R * R * (nat -> R) * (nat -> R))%type.

(** After k iterations of the first loop. *)
Definition inv1 (k : nat) (s : state) : Prop :=
  let '(d, eij, eip, ejp1, out) := s in
  d = x (n - 1 - k)%nat - y (m - 1)%nat /\ eij = er k 0%nat /\ eip = er k 0%nat
  /\ (forall i, (n - 1 - k < i < n)%nat -> ejp1 i = er (n - 1 - i)%nat 0%nat)
  /\ (forall i, (n - 1 - k <= i < n)%nat -> out i = sum_to 1 (gx i))
  /\ out (n + (m - 1))%nat = sum_to (k + 1) (gy (m - 1)).

(** After l iterations of the second loop. *)
Definition inv2 (l : nat) (s : state) : Prop :=
  let '(_, _, _, ejp1, out) := s in
  (forall i, (i < n)%nat -> ejp1 i = er (n - 1 - i)%nat l)
  /\ (forall i, (i < n)%nat -> out i = sum_to (l + 1) (gx i))
  /\ (forall j, (m - 1 - l <= j < m)%nat -> out (n + j)%nat = sum_to n (gy j)).

(** After k iterations of the loop inside. *)
Definition inv3 (l k : nat) (s : state) : Prop :=
  let '(d, eij, eip, ejp1, out) := s in
  d = x (n - 1 - k)%nat - y (m - 1 - S l)%nat /\ eij = er k (S l) /\ eip = er k (S l)
  /\ (forall i, (n - 1 - k < i < n)%nat -> ejp1 i = er (n - 1 - i)%nat (S l))
  /\ (forall i, (i <= n - 1 - k)%nat -> ejp1 i = er (n - 1 - i)%nat l)
  /\ (forall i, (n - 1 - k <= i < n)%nat -> out i = sum_to (l + 2) (gx i))
  /\ (forall i, (i < n - 1 - k)%nat -> out i = sum_to (l + 1) (gx i))
  /\ out (n + (m - 1 - S l))%nat = sum_to (k + 1) (gy (m - 1 - S l))
  /\ (forall j, (m - 1 - l <= j < m)%nat -> out (n + j)%nat = sum_to n (gy j)).

Ltac ifs := repeat match goal with |- context [(?a =? ?b)%nat] => destruct (Nat.eqb_spec a b); try lia end.

Ltac go := cbn [rbind]; repeat (first [rewrite rd by lia | rewrite read_ok by lia | rewrite write_ok by lia]; cbn [rbind]).

Theorem back_ok : forall ejp1 out, exists out', back_code n m x y gamma r ejp1 out = Ok out'
  /\ (forall i, (i < n)%nat -> out' i = sum_to m (gx i))
  /\ (forall j, (j < m)%nat -> out' (n + j)%nat = sum_to n (gy j)).
Proof.
  intros ejp1 out. unfold back_code. rewrite !read_ok by lia. cbn [rbind]. rewrite !write_ok by lia. cbn [rbind].
  rewrite write_ok by lia. cbn [rbind].
  match goal with |- context [for_from (n - 1) 0 ?body ?s0] =>
    destruct (for_inv _ inv1 body (n - 1) 0 s0) as (s & E & I1) end.
  { unfold inv1. rewrite !Nat.sub_0_r. repeat split; auto; intros; try lia.
    - ifs. subst. unfold gx. cbn [sum_to]. rewrite Nat.sub_diag, Nat.sub_0_r. cbn [C44Back.er]. ring.
    - ifs. unfold gy. cbn [sum_to Nat.add]. rewrite Nat.sub_diag, Nat.sub_0_r. cbn [C44Back.er]. ring. }
  { clear ejp1 out. intros k s B I. destruct s as [[[[d eij] eip] ejp1] out]. unfold inv1 in I.
    destruct I as (-> & -> & -> & I1 & I2 & I3).
    cbv beta iota zeta. set (i := (n - 2 - k)%nat). assert (n - 1 - k = i + 1)%nat as Ei by lia. assert (n - 1 - S k = i)%nat as Ei' by lia.
    assert (i + 1 < n)%nat as Li by lia. rewrite Ei in *. rewrite <- Nat.add_assoc, !rd by lia. cbn [rbind].
    rewrite write_ok by lia. cbn [rbind]. rewrite !read_ok by lia. cbn [rbind]. rewrite write_ok by lia. cbn [rbind].
    rewrite read_ok by lia. cbn [rbind]. rewrite write_ok by lia. cbn [rbind]. eexists. split; [reflexivity|].
    assert (weight gamma (rv (i + 1) (m - 1)) (rv i (m - 1)) (x (i + 1)%nat - y (m - 1)%nat) * er k 0 = er (S k) 0) as HE.
    { rewrite er_S0. unfold wu. rewrite Ei, Ei', Nat.sub_0_r. reflexivity. }
    rewrite HE. unfold inv1. rewrite Nat.add_1_r, Ei'. clearbody i. clear B.
    split; [auto|]. split; [auto|]. split; [auto|]. split; [|split].
    - intros i' Li'. ifs; [subst i'|apply I1; lia]. f_equal. lia.
    - intros i' Li'. ifs; [subst i'|apply I2; lia]. unfold gx. cbn [sum_to]. rewrite Nat.sub_0_r. replace (n - 1 - i)%nat with (S k) by lia. ring.
    - ifs. rewrite I3. rewrite Nat.add_1_r. cbn [sum_to]. rewrite Nat.add_1_r. cbn [sum_to]. assert (gy (m - 1) (S k) = - 2 * (x i - y (m - 1)%nat) * er (S k) 0) as -> by (unfold gy; now rewrite Ei', Nat.sub_diag). ring. }
  rewrite E. clear E. destruct s as [[[[d eij] eip] ejp] ou]. cbn [Nat.add] in I1. unfold inv1 in I1.
  destruct I1 as (_ & -> & -> & I1 & I2 & I3). cbn [rbind]. rewrite write_ok by lia. cbn [rbind].
  match goal with |- context [for_from (m - 1) 0 ?body ?s0] =>
    destruct (for_inv _ inv2 body (m - 1) 0 s0) as (s & E & J) end.
  { unfold inv2. split; [|split].
    - intros i Li. ifs; [subst i; f_equal; lia|]. apply I1. lia.
    - intros i Li. apply I2. lia.
    - intros j Lj. replace j with (m - 1)%nat by lia. rewrite I3. f_equal. lia. }
  2:{ rewrite E. cbn [rbind]. destruct s as [[[[d' eij'] eip'] ejp'] ou']. unfold inv2 in J. destruct J as (_ & J1 & J2).
      cbn [snd]. exists ou'. split; [reflexivity|]. cbn [Nat.add] in *. split; intros i Li; [rewrite J1 by auto; f_equal; lia|apply J2; lia]. }
  clear I1 I2 I3. clear d ejp ou ejp1 out. intros l s B J. destruct s as [[[[d eij] eip] ejp1] out]. unfold inv2 in J. destruct J as (J1 & J2 & J3).
  cbv beta iota zeta. set (j := (m - 2 - l)%nat). assert (m - 1 - l = j + 1)%nat as Ej by lia. assert (m - 1 - S l = j)%nat as Ej' by lia.
  assert (j + 1 < m)%nat as Lj by lia. rewrite Ej in *. go.
  rewrite J1, J2 by lia. rewrite Nat.sub_diag.
  assert (weight gamma (rv (n - 1) (j + 1)) (rv (n - 1) j) (x (n - 1)%nat - y (j + 1)%nat) * er 0 l = er 0 (S l)) as HE.
  { rewrite er_0S. unfold wv. rewrite Ej, Ej', Nat.sub_0_r. reflexivity. }
  rewrite HE.
  match goal with |- context [for_from (n - 1) 0 ?body ?s0] =>
    destruct (for_inv _ (inv3 l) body (n - 1) 0 s0) as (s & E & K) end.
  { unfold inv3. rewrite Ej, Ej', !Nat.sub_0_r. split; [auto|]. split; [auto|]. split; [auto|]. repeat split; intros; try lia.
    - apply J1. lia.
    - ifs. subst i. replace (l + 2)%nat with (S (l + 1)) by lia. cbn [sum_to]. 
      assert (gx (n - 1) (l + 1) = 2 * (x (n - 1)%nat - y j) * er 0 (S l)) as -> by (unfold gx; now rewrite Nat.add_1_r, Ej', Nat.sub_diag). ring.
    - ifs. apply J2. lia.
    - ifs. cbn [Nat.add sum_to]. unfold gy. rewrite !Nat.sub_0_r. replace (m - 1 - j)%nat with (S l) by lia. ring.
    - ifs. apply J3. lia. }
  { clear J1 J2 J3 HE. clear d eij eip ejp1 out. intros k s Bk K. destruct s as [[[[d eij] eip] ejp1] out]. unfold inv3 in K.
    rewrite Ej, Ej' in K. destruct K as (-> & -> & -> & K1 & K2 & K3 & K4 & K5 & K6).
    cbv beta iota zeta. set (i := (n - 2 - k)%nat). assert (n - 1 - k = i + 1)%nat as Ei by lia. assert (n - 1 - S k = i)%nat as Ei' by lia.
    assert (i + 1 < n)%nat as Li by lia. rewrite Ei in *. rewrite <- !Nat.add_assoc. go.
    eexists. split; [reflexivity|]. rewrite !K2 by lia.
    replace (n - 1 - i)%nat with (S k) by lia. replace (n - 1 - (i + 1))%nat with k by lia.
    match goal with |- inv3 _ _ (_, ?e, _, _, _) => assert (e = er (S k) (S l)) as HE end.
    { rewrite er_SS. unfold wu, wv, ww. rewrite Ei, Ei', Ej, Ej'. reflexivity. }
    rewrite HE. unfold inv3. rewrite Nat.add_1_r, Ei', Ej, Ej'. clearbody i j. clear B Bk HE.
    split; [auto|]. split; [auto|]. split; [auto|]. repeat split.
    - intros i' Li'. ifs; [subst i'; f_equal; lia|]. apply K1. lia.
    - intros i' Li'. ifs. apply K2. lia.
    - intros i' Li'. ifs; [subst i'|apply K3; lia]. rewrite K4 by lia. replace (l + 2)%nat with (S (l + 1)) by lia. cbn [sum_to].
      assert (gx i (l + 1) = 2 * (x i - y j) * er (S k) (S l)) as -> by (unfold gx; rewrite Nat.add_1_r, Ej'; replace (n - 1 - i)%nat with (S k) by lia; reflexivity). ring.
    - intros i' Li'. ifs. apply K4. lia.
    - ifs. rewrite K5, !Nat.add_1_r. cbn [sum_to]. 
      assert (gy j (S k) = - 2 * (x i - y j) * er (S k) (S l)) as -> by (unfold gy; rewrite Ei'; replace (m - 1 - j)%nat with (S l) by lia; reflexivity). ring.
    - intros j' Lj'. ifs. apply K6. lia. }
  rewrite E. clear E. cbn [Nat.add] in K. destruct s as [[[[d' eij'] eip'] ejp'] out']. unfold inv3 in K. rewrite Ej, Ej' in K.
  destruct K as (_ & -> & -> & K1 & K2 & K3 & K4 & K5 & K6). cbn [rbind]. rewrite write_ok by lia. cbn [rbind].
  eexists. split; [reflexivity|]. unfold inv2. rewrite Nat.add_1_r. split; [|split].
  - intros i Li. ifs; [subst i; f_equal; lia|]. apply K1. lia.
  - intros i Li. rewrite K3 by lia. f_equal. lia.
  - intros j' Lj'. rewrite Ej' in Lj'. destruct (Nat.eq_dec j' j) as [->|N]; [|apply K6; lia].
    rewrite K5. f_equal. lia.
Qed.

End Back.
