(** Linear operators: counterexamples and cases. *)

From Coq Require Import ZArith Reals Lia Lra List Bool.
From Verif Require Import Result Formula Simplify Diff GradSpec LinOps LinOpsSpec Degree DegreeDiff C40Proofs LinOpsMain.
Import ListNotations.
Local Open Scope nat_scope.

Lemma linear_main : forall i d c f, is_linear (Var i d c) f = true -> degree i f <= 1 -> linear_in i f.
Proof. intros i d c f L G e a b x y k _. apply (linear_ok i d c); auto. Qed.

Definition vexp : fm := Bin BMult (Var 0 1 0) (Un UExp (Var 0 1 0)).
Lemma not_linear : is_linear (Var 0 1 0) vexp = true /\ ~ linear_in 0 vexp.
Proof.
  split; [reflexivity|]. intros H.
  specialize (H (fun _ _ => 0%R) 2%R 0%R (fun _ => 1%R) (fun _ => 0%R) 0 (le_n _)).
  cbv beta in H.
  change (eval vexp (upd 0 (fun _ => 2 * 1 + 0 * 0)%R (fun _ _ => 0%R)) 0)
    with ((2 * 1 + 0 * 0) * exp (2 * 1 + 0 * 0))%R in H.
  change (eval vexp (upd 0 (fun _ => 1%R) (fun _ _ => 0%R)) 0) with (1 * exp 1)%R in H.
  change (eval vexp (upd 0 (fun _ => 0%R) (fun _ _ => 0%R)) 0) with (0 * exp 0)%R in H.
  replace (2 * 1 + 0 * 0)%R with (1 + 1)%R in H by ring.  rewrite exp_plus in H.
  assert (P := exp_pos 1). assert (Q := exp_ineq1 1 ltac:(lra)). nra.
Qed.

(** Divergence of y * Sum (Sum ((x|c) / b2) / b1). *)
Definition dx : fm := Var 0 2 0.
Definition dy : fm := Var 1 2 1.
Definition dc : fm := Var 2 2 1.
Definition db2 : fm := Var 3 2 1.
Definition db1 : fm := Var 4 2 1.
Definition df : fm :=
  Bin BMult dy (Lin LSum (Bin BDiv (Lin LSum (Bin BDiv (Bil KScal dx dc) db2)) db1)).
Definition dh : fm :=
  Bin BMult (Lin LSum (Un UInv db2)) (Bin BMult (Lin LSum (Bin BDiv dc db1)) (Lin LSum dy)).
Definition de : env := fun j =>
  if Z.eqb j 0 then fun _ => 0%R else if Z.eqb j 1 then basis 0 else if Z.eqb j 2 then basis 1
  else fun _ => 1%R.
Lemma dh_ok : Divergence df dx = Ok dh.
Proof. lazy. reflexivity. Qed.
Lemma de_smooth : smooth de df.
Proof.
  unfold smooth, df, dx, dy, dc, db1, db2. cbn -[IZR].
  repeat split; intros; cbn; unfold de; cbn; lra.
Qed.
Lemma dh_value : eval dh de 0 = 2%R.
Proof. unfold dh, dy, dc, db1, db2. cbn. unfold de, basis. cbn. lra. Qed.
Lemma df_divergence : is_divergence df 0 2 de 0%R.
Proof.
  exists (fun _ => 0%R). split; [|cbn; lra]. intros k Hk. unfold directional.
  assert (H : forall t, eval df (moved 0 (basis k) de t) k = 0%R).
  { intros t. unfold df, dx, dy, dc, db1, db2. cbn. unfold de, moved, basis. cbn.
    destruct k as [|[|k]]; [| |lia]; cbn; lra. }
  intros eps He. exists (mkposreal 1 Rlt_0_1). intros t Ht _. rewrite !H.
  replace ((0 - 0) / t - 0)%R with 0%R by (field; auto). rewrite Rabs_R0. auto.
Qed.

Lemma total_ext : forall n u w, (forall k, k < n -> u k = w k) -> total n u = total n w.
Proof. induction n; intros u w H; cbn; auto. rewrite (IHn u w), (H n) by auto. auto. Qed.
Lemma divergence_unique : forall f i d e D D', is_divergence f i d e D -> is_divergence f i d e D' -> D = D'.
Proof.
  intros f i d e D D' (p & P & ->) (q & Q & ->). apply total_ext. intros k K.
  apply (uniqueness_limite _ _ _ _ (P k K) (Q k K)).
Qed.

Lemma divergence_wrong : exists f d e h, wf f /\ consistent 0 d 0 f /\ unmixed f /\ smooth e f /\
  Divergence f (Var 0 d 0) = Ok h /\ is_divergence f 0 d e 0%R /\ eval h e 0 = 2%R /\
  ~ is_divergence f 0 d e (eval h e 0).
Proof.
  exists df, 2, de, dh. split; [|split; [|split; [|split; [exact de_smooth|split; [exact dh_ok|
    split; [exact df_divergence|split; [exact dh_value|]]]]]]].
  - unfold df, dx, dy, dc, db1, db2. cbn. tauto.
  - unfold df, dx, dy, dc, db1, db2. cbn. intuition discriminate.
  - unfold df, dx, dy, dc, db1, db2. cbn. tauto.
  - intros H. assert (E := divergence_unique _ _ _ _ _ _ df_divergence H). rewrite dh_value in E. lra.
Qed.

(** Refusals. *)
Lemma constant_refused : forall d, Divergence (Var 1 d 1) (Var 0 d 0) <> PyErr /\
  (1 <= d -> Divergence (Var 1 d 1) (Var 0 d 0) = KErr).
Proof.
  intros d.
  assert (H : 1 <= d -> Divergence (Var 1 d 1) (Var 0 d 0) = KErr).
  { intros Hd. unfold Divergence. cbn [dim]. rewrite Nat.eqb_refl. unfold DiffT. cbn [weight DiffTn diff_body].
    change (feqb (Var 0 d 0) (Var 1 d 1)) with false. cbn [dim]. unfold mk. destruct d; [lia|].
    cbn [node_ok Nat.leb Nat.ltb rbind]. unfold TraceOperator. cbn [bound TraceN operator is_linear trace_call].
    unfold trace_call. cbn [wdim dim Nat.eqb orb negb]. destruct (negb _); reflexivity. }
  split; [|exact H]. destruct d as [|d]; [|rewrite H by lia; discriminate].
  unfold Divergence, DiffT. cbn. discriminate.
Qed.
Definition matf : fm := Bil KMatVec (Var 1 6 1) (Var 0 2 0).
Lemma mat_refused : wf matf /\ Diff matf (Var 0 2 0) (Var 2 2 1) = KErr.
Proof. split; [cbn; tauto|lazy; reflexivity]. Qed.

(** A Gaussian. *)
Definition gauss : fm := Un UExp (Un UMinus (Lin LSum (Un USquare (Bin BSub (Var 0 2 0) (Var 1 2 1))))).
Definition field2 : fm := Bin BMult (Bin BSub (Var 0 2 0) (Var 1 2 1)) gauss.
Lemma gauss_case :
  (exists h, Diff field2 (Var 0 2 0) (Var 2 2 1) = Ok h) /\ wf field2 /\ consistent 0 2 0 field2 /\ unmixed field2 /\
  (forall e, smooth e field2) /\
  (exists h, Divergence field2 (Var 0 2 0) = Ok h) /\
  (exists Gf, DiffT field2 (Var 0 2 0) (Var (new_index (indices field2)) 2 3) = Ok Gf /\
     sum_depth (new_index (indices field2)) Gf = 1).
Proof.
  split; [eexists; lazy; reflexivity|]. split; [cbn; tauto|]. split; [cbn; intuition discriminate|].
  split; [cbn; tauto|]. split; [intros e; cbn; repeat split; auto|].
  split; [eexists; lazy; reflexivity|].
  eexists. split; [lazy; reflexivity|]. lazy. reflexivity.
Qed.
Definition gauss_grad : fm := match DiffT gauss (Var 0 2 0) (Int 1) with Ok g => g | _ => Int 0 end.
Lemma laplacian_case : exists h Gf, Laplacian gauss (Var 0 2 0) = Ok h /\ wf gauss /\ consistent 0 2 0 gauss /\
  unmixed gauss /\ DiffT gauss (Var 0 2 0) (Int 1) = Ok gauss_grad /\
  consistent 0 2 0 gauss_grad /\ unmixed gauss_grad /\
  DiffT gauss_grad (Var 0 2 0) (Var (new_index (indices gauss_grad)) 2 3) = Ok Gf /\
  sum_depth (new_index (indices gauss_grad)) Gf = 1 /\
  (forall e, smooth e gauss) /\ (forall e, smooth e gauss_grad).
Proof.
  eexists. eexists. split; [lazy; reflexivity|]. split; [cbn; tauto|].
  split; [cbn; intuition discriminate|]. split; [cbn; tauto|]. split; [lazy; reflexivity|].
  split; [lazy; intuition discriminate|]. split; [lazy; tauto|].
  split; [lazy; reflexivity|]. split; [lazy; reflexivity|].
  split; [intros e; cbn; repeat split; auto|].
  intros e. let x := eval lazy in gauss_grad in change gauss_grad with x. cbn. repeat split; auto.
Qed.
