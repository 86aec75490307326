(** Proofs for C44: the gradient. *)

From Coq Require Import Reals List Bool Arith Lia Lra Permutation.
From Verif Require Import Result Tensordot C36Proofs SoftDTW SoftDTWSpec BSplineSpec C43Proofs C44Proofs.
Import ListNotations.
Local Open Scope R_scope.

(** ** Sums over a grid *)

Lemma sum_plus : forall n f g, sum_to n (fun i => f i + g i) = sum_to n f + sum_to n g.
Proof. induction n; cbn; intros; [lra|]. rewrite IHn. lra. Qed.
Lemma sum_zero : forall n, sum_to n (fun _ => 0) = 0.
Proof. induction n; cbn; lra. Qed.

Definition prev (f : nat -> R) (a : nat) : R := match a with O => 0 | S k => f k end.
Definition next (n : nat) (f : nat -> R) (a : nat) : R := if (S a <? n)%nat then f a else 0.

Lemma shift : forall n f, sum_to n (prev f) = sum_to n (next n f).
Proof.
  intros [|n] f; [reflexivity|]. rewrite sum_shift. cbn [prev sum_to]. unfold next.
  destruct (Nat.ltb_spec (S n) (S n)); [lia|].
  rewrite (sum_ext n (fun i => prev f (i + 1)) f), (sum_ext n (fun a => if (S a <? S n)%nat then f a else 0) f); [lra| |].
  - intros i L. destruct (Nat.ltb_spec (S i) (S n)); [reflexivity|lia].
  - intros i L. now rewrite Nat.add_1_r.
Qed.

(** The sum over (a, b) of the amounts that go from (a, b) to the neighbours, and of those that arrive. *)
Definition grid (n m : nat) (f : nat -> nat -> R) : R := sum_to n (fun a => sum_to m (fun b => f a b)).

Lemma grid_ext : forall n m f g, (forall a b, (a < n)%nat -> (b < m)%nat -> f a b = g a b) -> grid n m f = grid n m g.
Proof. intros. apply sum_ext. intros. apply sum_ext. auto. Qed.
Lemma grid_plus : forall n m f g, grid n m (fun a b => f a b + g a b) = grid n m f + grid n m g.
Proof. intros. unfold grid. rewrite <- sum_plus. apply sum_ext. intros. apply sum_plus. Qed.

Lemma sum_prev : forall m f a, sum_to m (fun b => prev (fun k => f k b) a) = prev (fun k => sum_to m (f k)) a.
Proof. intros m f [|a]; cbn; [apply sum_zero|reflexivity]. Qed.
Lemma sum_next : forall n m f a, sum_to m (fun b => next n (fun k => f k b) a) = next n (fun k => sum_to m (f k)) a.
Proof. intros n m f a. unfold next. destruct (S a <? n)%nat; [reflexivity|apply sum_zero]. Qed.

Lemma grid_shift1 : forall n m f, grid n m (fun a b => prev (fun k => f k b) a) = grid n m (fun a b => next n (fun k => f k b) a).
Proof.
  intros. unfold grid.
  rewrite (sum_ext n _ (prev (fun k => sum_to m (f k)))) by (intros; apply sum_prev).
  rewrite (sum_ext n (fun a => sum_to m (fun b => next n (fun k => f k b) a)) (next n (fun k => sum_to m (f k)))) by (intros; apply sum_next).
  apply shift.
Qed.
Lemma grid_shift2 : forall n m f, grid n m (fun a b => prev (fun k => f a k) b) = grid n m (fun a b => next m (fun k => f a k) b).
Proof. intros. unfold grid. apply sum_ext. intros. apply (shift m (fun k => f i k)). Qed.
Lemma grid_shift12 : forall n m f, grid n m (fun a b => prev (fun k => prev (fun l => f k l) b) a)
  = grid n m (fun a b => next n (fun k => next m (fun l => f k l) b) a).
Proof.
  intros. rewrite (grid_shift1 n m (fun k b => prev (fun l => f k l) b)). unfold grid.
  rewrite (sum_ext n (fun a => sum_to m (fun b => next n (fun k => next m (fun l => f k l) b) a))
    (next n (fun k => sum_to m (fun b => next m (fun l => f k l) b)))) by (intros; apply (sum_next n m (fun k b => next m (fun l => f k l) b))).
  apply sum_ext. intros. rewrite (sum_next n m (fun k b => prev (fun l => f k l) b)). unfold next at 1 2.
  destruct (S i <? n)%nat; [|reflexivity]. apply (shift m (fun l => f i l)).
Qed.

Lemma adjoint : forall n m (e q c u v w : nat -> nat -> R), (0 < n)%nat -> (0 < m)%nat ->
  e 0%nat 0%nat = 1 ->
  (forall a b, (a < n)%nat -> (b < m)%nat -> (a, b) <> (0, 0)%nat -> e a b
    = prev (fun k => u k b * e k b) a + prev (fun l => v a l * e a l) b + prev (fun k => prev (fun l => w k l * e k l) b) a) ->
  (forall a b, (a < n)%nat -> (b < m)%nat -> q a b
    = c a b + (next n (fun k => u k b * q (S k) b) a + next m (fun l => v a l * q a (S l)) b
      + next n (fun k => next m (fun l => w k l * q (S k) (S l)) b) a)) ->
  grid n m (fun a b => e a b * c a b) = q 0%nat 0%nat.
Proof.
  intros n m e q c u v w Pn Pm E0 E Q.
  set (X1 := grid n m (fun a b => prev (fun k => u k b * e k b * q (S k) b) a)).
  set (X2 := grid n m (fun a b => prev (fun l => v a l * e a l * q a (S l)) b)).
  set (X3 := grid n m (fun a b => prev (fun k => prev (fun l => w k l * e k l * q (S k) (S l)) b) a)).
  assert (grid n m (fun a b => e a b * q a b) = grid n m (fun a b => e a b * c a b) + (X1 + X2 + X3)) as H1.
  { unfold X1, X2, X3.
    rewrite (grid_shift1 n m (fun k b => u k b * e k b * q (S k) b)).
    rewrite (grid_shift2 n m (fun a l => v a l * e a l * q a (S l))).
    rewrite (grid_shift12 n m (fun k l => w k l * e k l * q (S k) (S l))).
    rewrite <- !grid_plus. apply grid_ext. intros a b La Lb. rewrite (Q a b La Lb). unfold next.
    destruct (S a <? n)%nat, (S b <? m)%nat; ring. }
  assert (grid n m (fun a b => e a b * q a b) = q 0%nat 0%nat + (X1 + X2 + X3)) as H2; [|lra].
  transitivity (grid n m (fun a b => (if (a =? 0)%nat && (b =? 0)%nat then q 0%nat 0%nat else 0)) + (X1 + X2 + X3)).
  - unfold X1, X2, X3. rewrite <- !grid_plus. apply grid_ext. intros a b La Lb.
    destruct a as [|a], b as [|b]; cbn [Nat.eqb andb prev]; [rewrite E0; ring| | |];
      rewrite E by (auto; discriminate); cbn [prev]; ring.
  - f_equal. unfold grid. destruct n as [|n]; [lia|]. rewrite sum_shift.
    rewrite (sum_ext n _ (fun _ => 0)).
    2:{ intros i _. rewrite (sum_ext m _ (fun _ => 0)); [apply sum_zero|]. intros k _. rewrite Nat.add_1_r. reflexivity. }
    rewrite sum_zero. destruct m as [|m]; [lia|]. rewrite sum_shift. cbn [Nat.eqb andb].
    rewrite (sum_ext m _ (fun _ => 0)); [rewrite sum_zero; lra|]. intros k _. now rewrite Nat.add_1_r.
Qed.

(** ** Derivatives of sums over alignments *)

Section Grad.
Variables (x y : nat -> R) (gamma : R).
Hypothesis gamma_nz : gamma <> 0.

Notation dd := (dd x y).
Notation ee := (ee x y gamma).
Notation wgt := (wgt x y gamma).
Notation zz := (zz x y gamma).
Notation rv := (rv x y gamma).

Variable dc : nat -> nat -> R.   (* derivative of the squared differences *)

Fixpoint dcost (p : list (nat * nat)) : R := match p with nil => 0 | (i, j) :: q => dc i j + dcost q end.

Definition tt' (L : list (list (nat * nat))) : R := total (fun p => wgt p * dcost p) L.
Definition dr (i j : nat) : R := tt' (als i j) / zz i j.

Lemma tt_cons : forall i j L, tt' (map (cons (i, j)) L) = ee i j * (dc i j * total wgt L + tt' L).
Proof.
  intros. unfold tt'. rewrite total_map, Rmult_plus_distr_l, <- !total_scale, <- total_plus. apply total_ext.
  intros p. rewrite wgt_cons by auto. cbn [dcost]. ring.
Qed.
Lemma tt_app : forall L L', tt' (L ++ L') = tt' L + tt' L'. Proof. intros. apply total_app. Qed.

Definition wt (i' j' i j : nat) : R := weight gamma (rv i' j') (rv i j) (x i' - y j').

Lemma wt_zz : forall i' j' i j, wt i' j' i j = zz i j * ee i' j' / zz i' j'.
Proof.
  intros. unfold wt, weight. pose proof (zz_pos x y gamma gamma_nz i' j').
  apply (Rmult_eq_reg_r (zz i' j')); [|lra]. unfold Rdiv at 2. rewrite Rmult_assoc, Rinv_l, Rmult_1_r by lra.
  rewrite <- (exp_rv x y gamma gamma_nz i' j') at 1. rewrite <- (exp_rv x y gamma gamma_nz i j). unfold C44Proofs.ee, C44Proofs.dd.
  rewrite <- !exp_plus. f_equal. field. auto.
Qed.

Lemma dr_00 : dr 0 0 = dc 0 0.
Proof.
  unfold dr. rewrite zz_00 by auto. unfold tt'. rewrite als_00. cbn [total dcost]. rewrite wgt_cons by auto.
  replace (wgt []) with 1 by (unfold C44Proofs.wgt; cbn; replace (- 0 / gamma) with 0 by (field; auto); now rewrite exp_0).
  pose proof (ee_pos x y gamma 0 0). field. lra.
Qed.
Lemma dr_S0 : forall i, dr (S i) 0 = dc (S i) 0 + wt (S i) 0 i 0 * dr i 0.
Proof.
  intros. rewrite wt_zz. unfold dr. rewrite als_S0, tt_cons. fold (zz i 0). rewrite !zz_S0 by auto.
  pose proof (ee_pos x y gamma (S i) 0). pose proof (zz_pos x y gamma gamma_nz i 0). field. lra.
Qed.
Lemma dr_0S : forall j, dr 0 (S j) = dc 0 (S j) + wt 0 (S j) 0 j * dr 0 j.
Proof.
  intros. rewrite wt_zz. unfold dr. rewrite als_0S, tt_cons. fold (zz 0 j). rewrite !zz_0S by auto.
  pose proof (ee_pos x y gamma 0 (S j)). pose proof (zz_pos x y gamma gamma_nz 0 j). field. lra.
Qed.
Lemma dr_SS : forall i j, dr (S i) (S j) = dc (S i) (S j) + (wt (S i) (S j) i (S j) * dr i (S j)
  + wt (S i) (S j) (S i) j * dr (S i) j + wt (S i) (S j) i j * dr i j).
Proof.
  intros. rewrite !wt_zz. unfold dr. rewrite (als_SS i j), tt_cons, !tt_app, !total_app.
  fold (zz i j) (zz i (S j)) (zz (S i) j). rewrite !(zz_SS x y gamma gamma_nz i j).
  pose proof (ee_pos x y gamma (S i) (S j)). pose proof (zz_pos x y gamma gamma_nz i j).
  pose proof (zz_pos x y gamma gamma_nz i (S j)). pose proof (zz_pos x y gamma gamma_nz (S i) j). field. lra.
Qed.

(** ** The weights of the backward pass *)

Variables n m : nat.
Hypothesis n_pos : (0 < n)%nat.
Hypothesis m_pos : (0 < m)%nat.

Definition wu (a b : nat) : R := wt (n - 1 - a) (m - 1 - b) (n - 1 - S a) (m - 1 - b).
Definition wv (a b : nat) : R := wt (n - 1 - a) (m - 1 - b) (n - 1 - a) (m - 1 - S b).
Definition ww (a b : nat) : R := wt (n - 1 - a) (m - 1 - b) (n - 1 - S a) (m - 1 - S b).

Fixpoint er (a : nat) : nat -> R :=
  match a with
  | O => fix col b := match b with O => 1 | S b' => wv 0 b' * col b' end
  | S a' => fix col b := match b with
      | O => wu a' 0 * er a' 0%nat
      | S b' => wu a' (S b') * er a' (S b') + wv (S a') b' * col b' + ww a' b' * er a' b' end
  end.

Lemma er_0S : forall b, er 0 (S b) = wv 0 b * er 0 b. Proof. reflexivity. Qed.
Lemma er_S0 : forall a, er (S a) 0 = wu a 0 * er a 0. Proof. reflexivity. Qed.
Lemma er_SS : forall a b, er (S a) (S b) = wu a (S b) * er a (S b) + wv (S a) b * er (S a) b + ww a b * er a b. Proof. reflexivity. Qed.

Theorem er_sum : grid n m (fun a b => er a b * dc (n - 1 - a) (m - 1 - b)) = dr (n - 1) (m - 1).
Proof.
  rewrite (adjoint n m er (fun a b => dr (n - 1 - a) (m - 1 - b)) (fun a b => dc (n - 1 - a) (m - 1 - b)) wu wv ww); auto.
  - rewrite !Nat.sub_0_r. reflexivity.
  - intros [|a] [|b] La Lb N; cbn [prev]; [congruence|rewrite er_0S|rewrite er_S0|rewrite er_SS]; ring.
  - intros a b La Lb. unfold next, wu, wv, ww.
    destruct (Nat.ltb_spec (S a) n) as [Ha|Ha], (Nat.ltb_spec (S b) m) as [Hb|Hb].
    + replace (n - 1 - a)%nat with (S (n - 1 - S a)) by lia. replace (m - 1 - b)%nat with (S (m - 1 - S b)) by lia. apply dr_SS.
    + replace (n - 1 - a)%nat with (S (n - 1 - S a)) by lia. replace (m - 1 - b)%nat with 0%nat by lia. rewrite dr_S0. ring.
    + replace (n - 1 - a)%nat with 0%nat by lia. replace (m - 1 - b)%nat with (S (m - 1 - S b)) by lia. rewrite dr_0S. ring.
    + replace (n - 1 - a)%nat with 0%nat by lia. replace (m - 1 - b)%nat with 0%nat by lia. rewrite dr_00. ring.
Qed.

End Grad.
