(** Proofs for the gradients of log-sum-exp and softmax reductions. *)

From Coq Require Import ZArith Reals Lia Lra Arith List FunctionalExtensionality.
From Verif Require Import Result Formula Simplify Diff GradSpec Calculus Adjoint Tangent Closure
  SimplifyProofs BuildProofs DiffProofs LinOps LinOpsSpec LinOpsMain KernelSum KernelSumSpec
  C05Proofs XReal Reductions ReductionSpec CpuReduc LseSpec C09Proofs RedGrad RedGradSpec.
Import ListNotations.
Local Open Scope nat_scope.
Notation total := KernelSumSpec.total.

(** ** Formulas that do not contain a variable *)
Lemma eval_without : forall i f e e', without i f -> (forall j, j <> i -> e j = e' j) ->
  eval f e = eval f e'.
Proof.
  intros i f e e' Wi He. induction f; cbn [without] in Wi; apply functional_extensionality; intros k; cbn [eval];
    repeat match goal with H : _ /\ _ |- _ => destruct H end;
    repeat match goal with
    | H : ?P -> eval ?f e = eval ?f e' |- _ => specialize (H ltac:(assumption)); rewrite H
    end; auto.
  rewrite He by auto. reflexivity.
Qed.
Lemma inside_without : forall D i f e e', without i f -> (forall j, j <> i -> e j = e' j) ->
  inside D e f -> inside D e' f.
Proof.
  intros D i f e e' Wi He. induction f; cbn [without] in Wi; cbn [inside]; auto; intros S;
    repeat match goal with H : _ /\ _ |- _ => destruct H end;
    repeat match goal with
    | H : without i ?f |- _ => rewrite <- (eval_without i f e e' H He); revert H
    end; intros; repeat split; auto.
Qed.

(** ** The derivative of a paired sum with a gradient formula *)
Lemma sum_gradient_formula : forall decl A M N f tagI pos d c g h E H,
  decl pos = (d, c) -> 1 <= d ->
  wf f -> declared decl f -> unmixed f -> wf g -> dim g = dim f ->
  (forall i j, i < M -> j < N -> smooth (point decl A i j) f) ->
  (forall i j, i < M -> j < N -> safe (point decl A i j) g) ->
  (forall i j k, k < dim f -> eval g (point decl A i j) k = E (row tagI i j) k) ->
  DiffT f (Var pos d c) g = Ok h ->
  d0 (fun t => paired decl M N f tagI E (move_arg pos H A t))
     (total M (fun i => total N (fun j => inner d (eval h (point decl A i j)) (H (row c i j))))).
Proof.
  intros decl A M N f tagI pos d c g h E H Hpos Hd Wf Hdec Hun Wg Dg Hsm Hsg Hg Eh.
  destruct (DiffT_adjoint pos d c f g h Eh Hd Wf (declared_consistent decl _ _ _ _ Hpos Hdec)
    Hun Wg Dg) as [Hdh Had].
  unfold paired.
  apply (d0_total M (fun i t => total N (fun j => inner (dim f) (E (row tagI i j))
       (eval f (point decl (move_arg pos H A t) i j))))).
  intros i Hi.
  apply (d0_total N (fun j t => inner (dim f) (E (row tagI i j))
       (eval f (point decl (move_arg pos H A t) i j)))). intros j Hj.
  destruct (Had (point decl A i j) (Hsm i j Hi Hj) (Hsg i j Hi Hj)) as [_ X].
  specialize (X (H (row c i j))). eapply d0_ext; [|exact X].
  intros t. cbn beta.
  rewrite (moved_point decl A i j pos H t c) by now rewrite Hpos.
  rewrite !ip_inner. apply ip_ext; [|reflexivity]. intros k Hk. apply Hg, Hk.
Qed.

Lemma collapse : forall decl A M N h d c (H : nat -> nat -> R), c <= 2 ->
  let grad := reduce_sum decl A M N {| sformula := h; stagI := Nat.modulo c 2 |} in
  total (rows c M N) (fun r => inner d
     ((if c =? 2 then fun _ k => rsum M (fun i => grad i k) else grad) r) (H r)) =
  total M (fun i => total N (fun j => inner d (eval h (point decl A i j)) (H (row c i j)))).
Proof.
  intros decl A M N h d c H Hc. cbv zeta. unfold reduce_sum. cbn [sformula stagI].
  destruct c as [|[|[|c]]]; [| | |lia]; cbn [Nat.eqb Nat.modulo row rows].
  - apply total_ext; intros i Hi. apply (inner_total N d (fun j => eval h (point decl A i j))).
  - rewrite total_swap. apply total_ext; intros i Hi. apply (inner_total M d (fun j => eval h (point decl A j i))).
  - cbn [total]. rewrite Rplus_0_l.
    etransitivity; [apply (inner_total M d (fun i k => rsum N (fun j => eval h (point decl A i j) k)))|].
    apply total_ext. intros i Hi. apply (inner_total N d (fun j => eval h (point decl A i j))).
Qed.

(** ** The formula that is summed *)
Lemma summand_ok : forall F G q D tagI f, lse_summand F G (Var q D tagI) = Ok f ->
  wf F -> wf G -> dim F = 1 -> 1 <= D -> 
  wf f /\ dim f = dim G /\
  forall dd, arith_ok dd -> (forall x, dun dd UExp x) ->
  forall e, inside dd e F -> inside dd e G -> inside dd e f /\
    forall k, k < dim G -> eval f e k = (exp (eval F e O - e q O) * eval G e k)%R.
Proof.
  intros F G q D tagI f E WF WG DF PD. unfold lse_summand in E.
  rewrite DF in E.
  destruct (mk (Lin (LExtract 0 1) (Var q D tagI))) as [Mx| | |] eqn:EM; try discriminate. cbn [rbind] in E.
  apply mk_ok in EM as [-> NM].
  set (Mx := Lin (LExtract 0 1) (Var q D tagI)) in *.
  assert (WM : wf Mx). { split; [exact NM|]. split; [|exact I]. cbn. destruct D; [lia|reflexivity]. }
  destruct (Subtract F Mx) as [s| | |] eqn:Es; try discriminate. cbn [rbind] in E.
  assert (PG := dim_pos _ WG).
  assert (HS : forall dd, arith_ok dd -> sound2 dd Rminus F Mx s) by (intros; eapply Subtract_ok; eauto).
  assert (HM : forall dd, arith_ok dd -> sound2 dd Rmult (Un UExp s) G f) by (intros; eapply Mult_ok; eauto).
  destruct (HS safe_doms safe_arith_ok WF WM) as (Ws & _ & Ds & _).
  assert (D1 : dim s = 1) by (rewrite Ds, DF; reflexivity).
  assert (We : wf (Un UExp s)) by (split; [reflexivity|exact Ws]).
  destruct (HM safe_doms safe_arith_ok We WG) as (Wf & _ & Df & _).
  assert (Dff : dim f = dim G) by (rewrite Df; cbn [dim]; lia).
  split; [exact Wf|]. split; [exact Dff|]. intros dd Hdd Hexp e IF IG.
  destruct (HS dd Hdd WF WM) as (_ & _ & _ & Vs).
  destruct (HM dd Hdd We WG) as (_ & _ & _ & Vf).
  destruct (Vs e IF I) as [Is Vs']. destruct (Vf e) as [If Vf']; [|exact IG|].
  { split; [exact Is|]. intros; apply Hexp. }
  split; [exact If|]. intros k K.
  rewrite <- (val_lt f) by lia. rewrite Vf' by (left; lia). rewrite val_un.
  rewrite (val_lt G) by lia. f_equal. cbn [unR]. f_equal.
  transitivity (val s e 0); [unfold val, bcv; rewrite D1; reflexivity|].
  rewrite Vs' by (left; lia). rewrite val_lt by lia. f_equal.
Qed.

Lemma summand_everywhere : forall P, arith_nodes P -> forall F G q D tagI f,
  lse_summand F G (Var q D tagI) = Ok f -> everywhere P F -> everywhere P G ->
  P (Var q D tagI) -> (forall s d g, P (Lin (LExtract s d) g)) -> everywhere P f.
Proof.
  intros P HP F G q D tagI f E PF PG PV PX. unfold lse_summand in E.
  destruct (mk _) as [Mx| | |] eqn:EM; try discriminate. cbn [rbind] in E.
  apply mk_ok in EM as [-> NM].
  destruct (Subtract F _) as [s| | |] eqn:Es; try discriminate. cbn [rbind] in E.
  eapply ev_Mult; [exact HP|exact E| |exact PG].
  split; [apply an_exp; exact HP|]. eapply ev_Subtract; [exact HP|exact Es|exact PF|].
  cbn. auto.
Qed.

Definition declared1 (decl : declaration) (f : fm) : Prop :=
  match f with Var j d c => decl j = (d, c) | _ => True end.
Lemma declared_all : forall decl f, declared decl f <-> everywhere (declared1 decl) f.
Proof. intros decl f. induction f; cbn; tauto. Qed.
Lemma declared1_arith : forall decl, arith_nodes (declared1 decl).
Proof. repeat split; cbn; auto. Qed.

Lemma smooth_exp : forall x, dun smooth_doms UExp x.
Proof. intros; exact I. Qed.
Lemma safe_exp : forall x, dun safe_doms UExp x.
Proof. intros; exact I. Qed.

(** ** The saved output *)
Lemma exp_sum_total : forall n (f : nat -> R) (w : nat -> nat -> R) k,
  exp_sum k (taken n (fun j => (Some (f j), w j))) = total n (fun j => (exp (f j) * w j k)%R).
Proof.
  intros n f w k. induction n as [|n IH]; [reflexivity|].
  unfold taken in *. rewrite seq_S, map_app. cbn [map]. cbn [total].
  assert (A : forall l l', exp_sum k (l ++ l') = (exp_sum k l + exp_sum k l')%R).
  { induction l as [|[[x|] y] l IHl]; intros; cbn; rewrite ?IHl; ring. }
  rewrite A, IH. cbn. ring.
Qed.

Lemma saved_rows : forall s decl A M N F G tagI saved, s <> kahan_scheme -> 0 < reduced tagI M N ->
  forward_saved s decl A M N F G tagI saved ->
  forall n k, n < rows tagI M N -> k < dim G ->
    saved n (S k) = (exp (- saved n O) * exp_weighted decl A M N F G tagI n k)%R.
Proof.
  intros s decl A M N F G tagI saved Hs Hn HS n k Kn Kk.
  destruct (HS n Kn) as (out & E & V).
  set (e := fun j => (Some (eval F (at_entry decl A tagI n j) O), eval G (at_entry decl A tagI n j))) in E.
  destruct (scheme_lse s (dim G) (reduced tagI M N) e Hn) as (out' & E' & m & _ & Hm & HT);
    [intros j _; discriminate|exact Hs|].
  assert (out' = out) as -> by congruence.
  rewrite (V O) in Hm by lia. specialize (HT k Kk). rewrite (V (S k)) in HT by lia.
  injection Hm as Hm. injection HT as HT. rewrite HT, Hm.
  unfold exp_weighted. rewrite <- (exp_sum_total (reduced tagI M N) _ (fun j => eval G (at_entry decl A tagI n j))).
  fold e. rewrite <- (shifted_exp m), <- Rmult_assoc, <- exp_plus.
  replace (- m + m)%R with 0%R by ring. rewrite exp_0. ring.
Qed.

(** ** Sums of one entry *)
Lemma total_zero : forall n u, (forall k, k < n -> u k = 0%R) -> total n u = 0%R.
Proof. induction n; cbn; intros; [reflexivity|]. rewrite H by lia. rewrite IHn; [ring|]. intros; apply H; lia. Qed.
Lemma total_one : forall n u a, a < n -> (forall k, k < n -> k <> a -> u k = 0%R) -> total n u = u a.
Proof.
  induction n; cbn; intros u a L Z; [lia|]. destruct (Nat.eq_dec a n) as [->|Ne].
  - rewrite total_zero; [ring|]. intros k K. apply Z; lia.
  - rewrite (IHn u a) by (try lia; intros; apply Z; lia). rewrite (Z n) by lia. ring.
Qed.
Lemma inner_sum : forall n u v, inner n u v = total n (fun k => (u k * v k)%R).
Proof. induction n; cbn; intros; [reflexivity|]. rewrite IHn. reflexivity. Qed.
Lemma d0_inner : forall n (p : R -> nat -> R) l E, (forall k, k < n -> d0 (fun t => p t k) (l k)) ->
  d0 (fun t => inner n (p t) E) (inner n l E).
Proof.
  intros n p l E Hp. eapply d0_ext; [intros t; symmetry; apply inner_sum|]. rewrite inner_sum.
  apply (d0_total n (fun k t => (p t k * E k)%R)). intros k K.
  eapply d0_ext; [intros t; apply Rmult_comm|]. rewrite (Rmult_comm (l k)). apply d0_scal, Hp, K.
Qed.

Section Gradient.
Variables (decl : declaration) (A : arguments) (M N : nat) (F G f h : fm) (tagI : nat).
Variables (nargs pos : Z) (d c : nat) (H : nat -> nat -> R).
Hypothesis Hpos : decl pos = (d, c).
Hypothesis Hd : 1 <= d.
Hypothesis Hc : c <= 2.
Hypothesis Ht : tagI <= 1.
Hypothesis WF : wf F.
Hypothesis WG : wf G.
Hypothesis DF : dim F = 1.
Hypothesis decF : declared decl F.
Hypothesis decG : declared decl G.
Hypothesis unF : unmixed F.
Hypothesis unG : unmixed G.
Hypothesis noF : without nargs F.
Hypothesis noG : without nargs G.
Hypothesis Hn : decl nargs = (S (dim G), tagI).
Hypothesis Hn1 : decl (nargs + 1)%Z = (S (dim G), tagI).
Hypothesis Pn : pos <> nargs.
Hypothesis Pn1 : pos <> (nargs + 1)%Z.
Hypothesis smF : forall i j, i < M -> j < N -> smooth (point decl A i j) F.
Hypothesis smG : forall i j, i < M -> j < N -> smooth (point decl A i j) G.
Hypothesis Ef : lse_summand F G (Var (nargs + 1) (S (dim G)) tagI) = Ok f.
Hypothesis Eh : DiffT f (Var pos d c) (Lin (LExtract 1 (dim G)) (Var nargs (S (dim G)) tagI)) = Ok h.

Definition set_in (X : nat -> nat -> R) : arguments := fun a => if Z.eqb a nargs then X else A a.
Definition shift (n : nat) : R := A (nargs + 1)%Z n O.
Definition scaled (t : R) (n k : nat) : R :=
  (exp (- shift n) * exp_weighted decl (move_arg pos H A t) M N F G tagI n k)%R.
Definition slope (X : nat -> nat -> R) : R :=
  total M (fun i => total N (fun j => inner d (eval h (point decl (set_in X) i j)) (H (row c i j)))).

Lemma set_self : set_in (A nargs) = A.
Proof.
  apply functional_extensionality; intros a. unfold set_in. destruct (Z.eqb_spec a nargs); congruence.
Qed.
Lemma point_set : forall X i j a, a <> nargs -> point decl (set_in X) i j a = point decl A i j a.
Proof. intros X i j a Ha. unfold point, set_in. destruct (Z.eqb_spec a nargs); [contradiction|reflexivity]. Qed.

Lemma point_move_set : forall X t i j a, a <> nargs ->
  point decl (move_arg pos H A t) i j a = point decl (move_arg pos H (set_in X) t) i j a.
Proof.
  intros X t i j a Ha. apply functional_extensionality; intros k.
  unfold point, move_arg, set_in. destruct (Z.eqb_spec a nargs); [contradiction|reflexivity].
Qed.

Lemma f_ok : wf f /\ dim f = dim G /\ declared decl f /\ unmixed f.
Proof.
  destruct (summand_ok F G _ _ _ f Ef WF WG DF ltac:(lia)) as (A1 & A2 & _).
  split; [exact A1|]. split; [exact A2|]. split.
  - apply declared_all. eapply summand_everywhere; [apply declared1_arith|exact Ef| | | |].
    + apply declared_all, decF. + apply declared_all, decG. + exact Hn1. + intros; exact I.
  - apply unmixed_all. eapply summand_everywhere; [apply unmixed1_arith|exact Ef| | | |].
    + apply unmixed_all, unF. + apply unmixed_all, unG. + exact I. + intros; exact I.
Qed.

Lemma near_safe : forall i j, i < M -> j < N ->
  ev (fun t => safe (point decl (move_arg pos H A t) i j) F /\ safe (point decl (move_arg pos H A t) i j) G).
Proof.
  intros i j Hi Hj. apply ev_and.
  - generalize (smooth_safe_ev pos (H (row c i j)) (point decl A i j) F WF (smF i j Hi Hj)).
    apply ev_imp. intros t S. rewrite (moved_point decl A i j pos H t c) by (rewrite Hpos; reflexivity). exact S.
  - generalize (smooth_safe_ev pos (H (row c i j)) (point decl A i j) G WG (smG i j Hi Hj)).
    apply ev_imp. intros t S. rewrite (moved_point decl A i j pos H t c) by (rewrite Hpos; reflexivity). exact S.
Qed.

Lemma saved_row : forall B t i j, (forall n, B (nargs + 1)%Z n O = shift n) ->
  point decl (move_arg pos H B t) i j (nargs + 1)%Z 0 = shift (row tagI i j).
Proof.
  intros B t i j HB. unfold point, move_arg. rewrite Hn1. cbn [snd].
  destruct (Z.eqb_spec (nargs + 1) pos); [congruence|]. apply HB.
Qed.

Lemma paired_scaled : forall E, ev (fun t =>
  paired decl M N f tagI E (move_arg pos H A t) = loss tagI M N (dim G) E (scaled t)).
Proof.
  intros E. destruct (summand_ok F G _ _ _ f Ef WF WG DF ltac:(lia)) as (_ & Df & V).
  specialize (V safe_doms safe_arith_ok safe_exp).
  assert (X : ev (fun t => forall i, i < M -> forall j, j < N -> 
     safe (point decl (move_arg pos H A t) i j) F /\ safe (point decl (move_arg pos H A t) i j) G)).
  { set (P := fun i j t => safe (point decl (move_arg pos H A t) i j) F /\ safe (point decl (move_arg pos H A t) i j) G).
    apply (ev_fin M (fun i t => forall j, j < N -> P i j t)). intros i Hi.
    apply (ev_fin N (fun j t => P i j t)). intros j Hj. apply near_safe; assumption. }
  generalize X. apply ev_imp. intros t S. clear X.
  unfold paired, loss. rewrite Df.
  assert (Q : forall i j, i < M -> j < N ->
    inner (dim G) (E (row tagI i j)) (eval f (point decl (move_arg pos H A t) i j)) =
    inner (dim G) (fun k => (exp (- shift (row tagI i j)) *
      (exp (eval F (point decl (move_arg pos H A t) i j) O) *
         eval G (point decl (move_arg pos H A t) i j) k))%R) (E (row tagI i j))).
  { intros i j Hi Hj. destruct (S i Hi j Hj) as [SF SG].
    destruct (V _ SF SG) as [_ Vk]. rewrite !inner_sum. apply total_ext. intros k K.
    rewrite (Vk k K), saved_row by reflexivity. unfold Rminus. rewrite exp_plus. ring. }
  rewrite (total_ext M _ (fun i => total N (fun j => _)) (fun i Hi => total_ext N _ _ (fun j Hj => Q i j Hi Hj))).
  clear Q.
  assert (L : forall m p (u : nat -> nat -> R) e x, inner m (fun k => (x * total p (fun j => u j k))%R) e =
    total p (fun j => inner m (fun k => (x * u j k)%R) e)).
  { intros. rewrite inner_sum. rewrite (total_ext p _ (fun j => total m (fun k => (x * u j k * e k)%R)))
      by (intros; apply inner_sum).
    rewrite total_swap. apply total_ext. intros k K. 
    clear. induction p; cbn; [ring|]. rewrite <- IHp. ring. }
  unfold scaled, exp_weighted, at_entry, reduced.
  destruct tagI as [|[|]]; [| |lia]; cbn [rows row].
  - apply total_ext. intros i Hi. symmetry.
    apply (L (dim G) N (fun j k => (exp (eval F (point decl (move_arg pos H A t) i j) O) *
       eval G (point decl (move_arg pos H A t) i j) k)%R)).
  - rewrite total_swap. apply total_ext. intros i Hi. symmetry.
    apply (L (dim G) M (fun j k => (exp (eval F (point decl (move_arg pos H A t) j i) O) *
       eval G (point decl (move_arg pos H A t) j i) k)%R)).
Qed.

Lemma f_without : without nargs f.
Proof.
  assert (X : forall g, without nargs g <-> everywhere (fun g => match g with Var j _ _ => j <> nargs | _ => True end) g).
  { intros g. induction g; cbn; tauto. }
  apply X. eapply summand_everywhere; [|exact Ef| | | |].
  - repeat split; cbn; auto.
  - apply X, noF. - apply X, noG. - cbn. lia. - intros; exact I.
Qed.

Lemma slope_ok : forall X,
  d0 (fun t => loss tagI M N (dim G) (fun n k => X n (S k)) (scaled t)) (slope X).
Proof.
  intros X. destruct f_ok as (Wf & Df & decf & unf). assert (PG := dim_pos _ WG).
  eapply d0_ext_ev; [apply paired_scaled|].
  eapply d0_ext; [|eapply (sum_gradient_formula decl (set_in X) M N f tagI pos d c
     (Lin (LExtract 1 (dim G)) (Var nargs (S (dim G)) tagI)) h
     (fun n k => X n (S k)) H Hpos Hd Wf decf unf)].
  - intros t. unfold paired. apply total_ext; intros i _. apply total_ext; intros j _. f_equal.
    symmetry. apply (eval_without nargs); [apply f_without|]. intros a Ha. apply point_move_set, Ha.
  - split; [|split; [|exact I]]; cbn [node_ok]; [|reflexivity].
    apply andb_true_intro. split; apply Nat.leb_le; cbn [dim]; lia.
  - cbn [dim]. symmetry. exact Df.
  - intros i j Hi Hj. destruct (summand_ok F G _ _ _ f Ef WF WG DF ltac:(lia)) as (_ & _ & V).
    apply (inside_without smooth_doms nargs f (point decl A i j)); [apply f_without| |].
    + intros a Ha. symmetry. apply point_set, Ha.
    + apply (V smooth_doms smooth_arith_ok smooth_exp); [apply smF|apply smG]; assumption.
  - intros; exact I.
  - intros i j k K. cbn [eval linR]. unfold point, set_in. rewrite Hn, Z.eqb_refl. reflexivity.
  - exact Eh.
Qed.

Definition unit_in (n0 k0 : nat) : nat -> nat -> R :=
  fun n p => if ((n =? n0) && (p =? S k0))%bool then 1%R else 0%R.

Lemma entry_slope : forall n k, n < rows tagI M N -> k < dim G ->
  d0 (fun t => scaled t n k) (slope (unit_in n k)).
Proof.
  intros n k Kn Kk. eapply d0_ext; [|apply slope_ok]. intros t. unfold loss.
  rewrite (total_one _ _ n Kn).
  - rewrite inner_sum, (total_one _ _ k Kk).
    + unfold unit_in. rewrite !Nat.eqb_refl. cbn. ring.
    + intros k' _ Hk. unfold unit_in. destruct (Nat.eqb_spec (S k') (S k)); [lia|].
      rewrite Bool.andb_false_r. ring.
  - intros n' _ Hn'. rewrite inner_sum. apply total_zero. intros k' _. unfold unit_in.
    destruct (Nat.eqb_spec n' n); [contradiction|]. cbn. ring.
Qed.

Lemma slope_sum : forall X, slope X = total (rows tagI M N) (fun n =>
  inner (dim G) (fun k => slope (unit_in n k)) (fun k => X n (S k))).
Proof.
  intros X. eapply d0_unique; [apply slope_ok|]. unfold loss.
  apply (d0_total (rows tagI M N) (fun n t => inner (dim G) (scaled t n) (fun k => X n (S k)))).
  intros n Kn. apply (d0_inner (dim G) (fun t => scaled t n)). intros k Kk. apply entry_slope; assumption.
Qed.

(** ** Derivatives of what the user asks for *)
Lemma weighted_slope : forall n k, n < rows tagI M N -> k < dim G ->
  d0 (fun t => exp_weighted decl (move_arg pos H A t) M N F G tagI n k)
     (exp (shift n) * slope (unit_in n k)).
Proof.
  intros n k Kn Kk. eapply d0_ext; [|apply d0_scal, entry_slope; eassumption].
  intros t. unfold scaled. rewrite <- Rmult_assoc, <- exp_plus.
  replace (shift n + - shift n)%R with 0%R by ring. rewrite exp_0. ring.
Qed.

End Gradient.

Lemma backward_inv : forall decl A M N F G tagI nargs pos d c Gr,
  decl pos = (d, c) -> lse_backward decl A M N F G tagI nargs pos = Ok Gr ->
  dim F = 1 /\ exists f h, lse_summand F G (Var (nargs + 1) (S (dim G)) tagI) = Ok f /\
    DiffT f (Var pos d c) (Lin (LExtract 1 (dim G)) (Var nargs (S (dim G)) tagI)) = Ok h /\
    Gr = let grad := reduce_sum decl A M N {| sformula := h; stagI := Nat.modulo c 2 |} in
         if c =? 2 then fun _ k => rsum M (fun i => grad i k) else grad.
Proof.
  intros decl A M N F G tagI nargs pos d c Gr Hpos E. unfold lse_backward in E. rewrite Hpos in E.
  unfold lse_DiffT, lse_reduction in E. destruct (Nat.eqb_spec (dim F) 1) as [DF|DF]; [|discriminate].
  cbn [rbind Nat.add] in E. rewrite DF in E.
  destruct (lse_summand F G (Var (nargs + 1) (S (dim G)) tagI)) as [f| | |] eqn:Ef; try discriminate. cbn [rbind] in E.
  destruct (mk (Lin (LExtract 1 (dim G)) (Var nargs (S (dim G)) tagI))) as [g| | |] eqn:Eg; try discriminate.
  cbn [rbind] in E. apply mk_ok in Eg as [-> _]. unfold Sum_DiffT in E. cbn [sformula] in E.
  destruct (DiffT f (Var pos d c) (Lin (LExtract 1 (dim G)) (Var nargs (S (dim G)) tagI))) as [h| | |] eqn:Eh; try discriminate.
  cbn [rbind] in E. split; [exact DF|]. exists f, h. split; [reflexivity|]. split; [exact Eh|].
  injection E as <-. reflexivity.
Qed.

Lemma gradient_lse : forall s decl A M N F G tagI nargs pos d c E Gr,
  decl pos = (d, c) -> 1 <= d -> c <= 2 -> tagI <= 1 ->
  wf F -> wf G -> declared decl F -> declared decl G -> unmixed F -> unmixed G ->
  without nargs F -> without nargs G ->
  decl nargs = (S (dim G), tagI) -> decl (nargs + 1)%Z = (S (dim G), tagI) ->
  pos <> nargs -> pos <> (nargs + 1)%Z ->
  (forall i j, i < M -> j < N -> smooth (point decl A i j) F /\ smooth (point decl A i j) G) ->
  s <> kahan_scheme -> 0 < reduced tagI M N ->
  forward_saved s decl A M N F G tagI (A (nargs + 1)%Z) ->
  (forall n k, n < rows tagI M N -> k < dim G -> (0 < exp_weighted decl A M N F G tagI n k)%R) ->
  (forall n p, n < rows tagI M N -> p < S (dim G) ->
     A nargs n p = lse_post_grad (dim G) (A (nargs + 1)%Z n) (E n) p) ->
  lse_backward decl A M N F G tagI nargs pos = Ok Gr ->
  forall H : nat -> nat -> R,
    derivable_pt_lim (fun t => loss tagI M N (dim G) E
      (log_sum_exp decl (move_arg pos H A t) M N F G tagI)) 0
      (total (rows c M N) (fun r => inner d (Gr r) (H r))).
Proof.
  intros s decl A M N F G tagI nargs pos d c E Gr Hpos Hd Hc Ht WF WG decF decG unF unG noF noG Hn Hn1 Pn Pn1
    Hsm Hs Hr HS Hp HX HG H.
  destruct (backward_inv _ _ _ _ _ _ _ _ _ _ _ _ Hpos HG) as (DF & f & h & Ef & Eh & ->). clear HG.
  assert (smF := fun i j Hi Hj => proj1 (Hsm i j Hi Hj)). assert (smG := fun i j Hi Hj => proj2 (Hsm i j Hi Hj)).
  cbv zeta. rewrite collapse by exact Hc.
  assert (Z0 : move_arg pos H A 0 = A).
  { unfold move_arg. repeat (apply functional_extensionality; intros ?). destruct (Z.eqb _ _); ring. }
  set (sl := slope decl A M N h nargs d c H).
  assert (Q : sl (A nargs) = total M (fun i => total N (fun j =>
      inner d (eval h (point decl A i j)) (H (row c i j))))).
  { unfold sl, slope. rewrite set_self. reflexivity. }
  rewrite <- Q.
  unfold sl. rewrite (slope_sum decl A M N F G f h tagI nargs pos d c H) by assumption. fold sl.
  unfold loss. apply (d0_total (rows tagI M N) (fun n t => inner (dim G) _ (E n))). intros n Kn.
  assert (R : inner (dim G) (fun k => sl (unit_in n k)) (fun k => A nargs n (S k)) =
    inner (dim G) (fun k => (sl (unit_in n k) / A (nargs + 1)%Z n (S k))%R) (E n)).
  { rewrite !inner_sum. apply total_ext. intros k K. rewrite HX by (auto; lia). cbn [lse_post_grad].
    unfold Rdiv. ring. }
  rewrite R. clear R Q.
  apply (d0_inner (dim G) (fun t => log_sum_exp decl (move_arg pos H A t) M N F G tagI n)).
  intros k K. unfold log_sum_exp.
  assert (W := weighted_slope decl A M N F G f h tagI nargs pos d c H Hpos Hd Hc Ht WF WG DF decF decG unF unG noF noG
     Hn Hn1 Pn Pn1 smF smG Ef Eh n k Kn K). fold sl in W.
  eapply d0_eq; [|eapply (d0_comp ln); [exact W|]].
  2: { cbn beta. rewrite Z0. apply derivable_pt_lim_ln, Hp; assumption. }
  rewrite (saved_rows s decl A M N F G tagI _ Hs Hr HS n k Kn K).
  unfold shift. rewrite exp_Ropp. specialize (Hp n k Kn K). assert (P := exp_pos (A (nargs + 1)%Z n 0)).
  field. split; lra.
Qed.

(** ** Softmax-weighted sums *)
Lemma total_first : forall n u, total (S n) u = (u O + total n (fun k => u (S k)))%R.
Proof. induction n; intros; [cbn; ring|]. cbn [total] in *. rewrite IHn. ring. Qed.
Lemma total_rsum' : forall n u, rsum n u = total n u.
Proof. intros. symmetry. apply total_rsum. Qed.
Lemma total_scal : forall n u x, (x * total n u = total n (fun k => x * u k))%R.
Proof. induction n; cbn; intros; [ring|]. rewrite <- IHn. ring. Qed.
Lemma total_plus : forall n u v, (total n u + total n v = total n (fun k => u k + v k))%R.
Proof. induction n; cbn; intros; [ring|]. rewrite <- IHn. ring. Qed.

Lemma weights_0 : forall decl A M N F g tagI n,
  exp_weighted decl A M N F (Cat (Int 1) g) tagI n 0 = exp_total decl A M N F tagI n.
Proof.
  intros. unfold exp_weighted, exp_total. apply total_ext. intros j _. cbn [eval dim Nat.ltb Nat.leb]. ring.
Qed.
Lemma weights_S : forall decl A M N F g tagI n k,
  exp_weighted decl A M N F (Cat (Int 1) g) tagI n (S k) = exp_weighted decl A M N F g tagI n k.
Proof.
  intros. unfold exp_weighted. apply total_ext. intros j _. cbn [eval dim].
  replace (S k <? 1) with false by (symmetry; apply Nat.ltb_ge; lia). rewrite Nat.sub_succ, Nat.sub_0_r. reflexivity.
Qed.
Lemma exp_total_pos : forall decl A M N F tagI n, 0 < reduced tagI M N ->
  (0 < exp_total decl A M N F tagI n)%R.
Proof.
  intros decl A M N F tagI n. unfold exp_total. induction (reduced tagI M N) as [|m IH]; [lia|]. intros _.
  cbn [total]. pose proof (exp_pos (eval F (at_entry decl A tagI n m) 0)).
  destruct m; [cbn; lra|]. assert (0 < S m) by lia. specialize (IH H0). lra.
Qed.

Lemma softmax_inv : forall g G, softmax_weights g = Ok G -> G = Cat (Int 1) g.
Proof. unfold softmax_weights. intros g G E. apply mk_ok in E as [-> _]. reflexivity. Qed.

Lemma gradient_softmax : forall s decl A M N F g G tagI nargs pos d c E Gr,
  decl pos = (d, c) -> 1 <= d -> c <= 2 -> tagI <= 1 ->
  wf F -> wf g -> declared decl F -> declared decl g -> unmixed F -> unmixed g ->
  without nargs F -> without nargs g ->
  softmax_weights g = Ok G ->
  decl nargs = (2 + dim g, tagI) -> decl (nargs + 1)%Z = (2 + dim g, tagI) ->
  pos <> nargs -> pos <> (nargs + 1)%Z ->
  (forall i j, i < M -> j < N -> smooth (point decl A i j) F /\ smooth (point decl A i j) g) ->
  s <> kahan_scheme -> 0 < reduced tagI M N ->
  forward_saved s decl A M N F G tagI (A (nargs + 1)%Z) ->
  (forall n p, n < rows tagI M N -> p < 2 + dim g ->
     A nargs n p = softmax_post_grad (dim g) (A (nargs + 1)%Z n) (E n) p) ->
  lse_backward decl A M N F G tagI nargs pos = Ok Gr ->
  forall H : nat -> nat -> R,
    derivable_pt_lim (fun t => loss tagI M N (dim g) E
      (soft_max_sum decl (move_arg pos H A t) M N F g tagI)) 0
      (total (rows c M N) (fun r => inner d (Gr r) (H r))).
Proof.
  intros s decl A M N F g G tagI nargs pos d c E Gr Hpos Hd Hc Ht WF Wg decF decg unF ung noF nog EG Hn Hn1 Pn Pn1
    Hsm Hs Hr HS HX HG H.
  apply softmax_inv in EG. 
  destruct (backward_inv _ _ _ _ _ _ _ _ _ _ _ _ Hpos HG) as (DF & f & h & Ef & Eh & ->). clear HG.
  assert (WG : wf G) by (subst G; split; [reflexivity|]; split; [split; [reflexivity|exact I]|exact Wg]).
  assert (decG : declared decl G) by (subst G; split; [exact I|exact decg]).
  assert (unG : unmixed G) by (subst G; split; [exact I|exact ung]).
  assert (noG : without nargs G) by (subst G; split; [exact I|exact nog]).
  assert (DG : dim G = S (dim g)) by (subst G; reflexivity).
  assert (Hn' : decl nargs = (S (dim G), tagI)) by (rewrite DG; exact Hn).
  assert (Hn1' : decl (nargs + 1)%Z = (S (dim G), tagI)) by (rewrite DG; exact Hn1).
  assert (smF := fun i j Hi Hj => proj1 (Hsm i j Hi Hj)).
  assert (smG : forall i j, i < M -> j < N -> smooth (point decl A i j) G).
  { intros i j Hi Hj. subst G. split; [exact I|]. apply (Hsm i j Hi Hj). }
  cbv zeta. rewrite collapse by exact Hc.
  assert (Z0 : move_arg pos H A 0 = A).
  { unfold move_arg. repeat (apply functional_extensionality; intros ?). destruct (Z.eqb _ _); ring. }
  set (sl := slope decl A M N h nargs d c H).
  assert (Q : sl (A nargs) = total M (fun i => total N (fun j =>
      inner d (eval h (point decl A i j)) (H (row c i j))))).
  { unfold sl, slope. rewrite set_self. reflexivity. }
  rewrite <- Q. clear Q.
  unfold sl. rewrite (slope_sum decl A M N F G f h tagI nargs pos d c H) by assumption. fold sl.
  unfold loss. apply (d0_total (rows tagI M N) (fun n t => inner (dim g) _ (E n))). intros n Kn.
  assert (SR := fun k K => saved_rows s decl A M N F G tagI _ Hs Hr HS n k Kn K).
  assert (S0 := SR 0 ltac:(lia)). assert (P := exp_pos (- A (nargs + 1)%Z n 0)).
  assert (P0 : (0 < exp_total decl A M N F tagI n)%R) by (apply exp_total_pos, Hr).
  subst G. rewrite weights_0 in S0.
  set (dk := fun k => ((sl (unit_in n (S k)) / A (nargs + 1)%Z n 1%nat) -
     A (nargs + 1)%Z n (S (S k)) * sl (unit_in n 0%nat) / (A (nargs + 1)%Z n 1%nat * A (nargs + 1)%Z n 1%nat))%R).
  assert (R : inner (dim (Cat (Int 1) g)) (fun k => sl (unit_in n k)) (fun k => A nargs n (S k)) =
    inner (dim g) dk (E n)).
  { rewrite !inner_sum. cbn [dim Nat.add]. rewrite total_first, (HX n 1) by (auto; lia). cbn [softmax_post_grad].
    rewrite total_rsum', total_scal, total_plus. apply total_ext. intros k K.
    rewrite HX by (auto; lia). cbn [softmax_post_grad]. unfold dk, Rdiv. ring. }
  rewrite R. clear R.
  apply (d0_inner (dim g) (fun t => soft_max_sum decl (move_arg pos H A t) M N F g tagI n)).
  intros k K. unfold soft_max_sum.
  assert (W := fun q Kq => weighted_slope decl A M N F (Cat (Int 1) g) f h tagI nargs pos d c H Hpos Hd Hc Ht WF WG DF
     decF decG unF unG noF noG Hn' Hn1' Pn Pn1 smF smG Ef Eh n q Kn Kq). fold sl in W.
  assert (W0 := W 0 ltac:(lia)). assert (W1 := W (S k) ltac:(lia)). clear W.
  assert (W0' := d0_ext _ _ _ (fun t => weights_0 decl (move_arg pos H A t) M N F g tagI n) W0).
  assert (W1' := d0_ext _ _ _ (fun t => weights_S decl (move_arg pos H A t) M N F g tagI n k) W1).
  cbn beta in W0', W1'.
  eapply d0_eq; [|apply (d0_div _ _ _ _ W1' W0')].
  2: { rewrite Z0. lra. }
  cbn beta. rewrite Z0. unfold dk. rewrite S0.
  rewrite (SR (S k)) by lia. rewrite weights_S. unfold shift. rewrite exp_Ropp in *.
  assert (P' := exp_pos (A (nargs + 1)%Z n 0)). unfold Rsqr. field. split; lra.
Qed.

(** ** Tangents *)
Lemma jvp_inv : forall decl A M N F G tagI nargs pos d c T,
  decl pos = (d, c) -> lse_jvp decl A M N F G tagI nargs pos = Ok T ->
  dim F = 1 /\ exists f h, lse_summand F G (Var (nargs + 1) (S (dim G)) tagI) = Ok f /\
    node_ok (Cat (Zero 1) f) = true /\ Diff (Cat (Zero 1) f) (Var pos d c) (Var nargs d c) = Ok h /\
    T = reduce_sum decl A M N {| sformula := h; stagI := tagI |}.
Proof.
  intros decl A M N F G tagI nargs pos d c T Hpos E. unfold lse_jvp in E. rewrite Hpos in E.
  unfold lse_Diff, lse_reduction in E. destruct (Nat.eqb_spec (dim F) 1) as [DF|DF]; [|discriminate].
  cbn [rbind Nat.add] in E. rewrite DF in E.
  destruct (lse_summand F G (Var (nargs + 1) (S (dim G)) tagI)) as [f| | |] eqn:Ef; try discriminate. cbn [rbind] in E.
  destruct (mk (Cat (Zero 1) f)) as [g| | |] eqn:Eg; try discriminate.
  cbn [rbind] in E. apply mk_ok in Eg as [-> Nk]. unfold Sum_Diff in E. cbn [sformula stagI] in E.
  destruct (Diff (Cat (Zero 1) f) (Var pos d c) (Var nargs d c)) as [h| | |] eqn:Eh; try discriminate.
  cbn [rbind] in E. split; [exact DF|]. exists f, h. split; [reflexivity|]. split; [exact Nk|]. split; [exact Eh|].
  injection E as <-. reflexivity.
Qed.

Lemma d0_rsum : forall n (p : nat -> R -> R) l, (forall k, k < n -> d0 (p k) (l k)) ->
  d0 (fun t => rsum n (fun k => p k t)) (rsum n l).
Proof.
  intros n p l Hp. eapply d0_ext; [intros t; apply total_rsum|]. rewrite total_rsum'. apply d0_total, Hp.
Qed.

Section Tangent.
Variables (decl : declaration) (A : arguments) (M N : nat) (F G f h : fm) (tagI : nat).
Variables (nargs pos : Z) (d c : nat).
Hypothesis Hpos : decl pos = (d, c).
Hypothesis Hd : 1 <= d.
Hypothesis Ht : tagI <= 1.
Hypothesis WF : wf F.
Hypothesis WG : wf G.
Hypothesis DF : dim F = 1.
Hypothesis decF : declared decl F.
Hypothesis decG : declared decl G.
Hypothesis unF : unmixed F.
Hypothesis unG : unmixed G.
Hypothesis Hn : decl nargs = (d, c).
Hypothesis Hn1 : decl (nargs + 1)%Z = (S (dim G), tagI).
Hypothesis Pn1 : pos <> (nargs + 1)%Z.
Hypothesis smF : forall i j, i < M -> j < N -> smooth (point decl A i j) F.
Hypothesis smG : forall i j, i < M -> j < N -> smooth (point decl A i j) G.
Hypothesis Ef : lse_summand F G (Var (nargs + 1) (S (dim G)) tagI) = Ok f.
Hypothesis Nk : node_ok (Cat (Zero 1) f) = true.
Hypothesis Eh : Diff (Cat (Zero 1) f) (Var pos d c) (Var nargs d c) = Ok h.

Lemma entry_tangent : forall i j k, i < M -> j < N -> k < S (dim G) ->
  d0 (fun t => match k with O => 0%R | S k =>
        (exp (- A (nargs + 1)%Z (row tagI i j) O) *
          (exp (eval F (point decl (move_arg pos (A nargs) A t) i j) O) *
           eval G (point decl (move_arg pos (A nargs) A t) i j) k))%R end)
     (eval h (point decl A i j) k).
Proof.
  intros i j k Hi Hj K.
  destruct (summand_ok F G _ _ _ f Ef WF WG DF (le_n_S _ _ (Nat.le_0_l _))) as (Wf & Df & V).
  assert (decf : declared decl f).
  { apply declared_all. eapply summand_everywhere; [apply declared1_arith|exact Ef| | | |].
    - apply declared_all, decF. - apply declared_all, decG. - exact Hn1. - intros; exact I. }
  assert (unf : unmixed f).
  { apply unmixed_all. eapply summand_everywhere; [apply unmixed1_arith|exact Ef| | | |].
    - apply unmixed_all, unF. - apply unmixed_all, unG. - exact I. - intros; exact I. }
  assert (Wu : wf (Var nargs d c)) by (split; [cbn; destruct d; [lia|reflexivity]|exact I]).
  destruct (diff_main (Cat (Zero 1) f) pos d c (Var nargs d c) h Eh Hd) as (_ & _ & Q); auto.
  { split; [exact Nk|]. split; [split; [reflexivity|exact I]|exact Wf]. }
  { apply declared_consistent with decl; [exact Hpos|]. split; [exact I|exact decf]. }
  { split; [exact I|exact unf]. }
  destruct (Q (point decl A i j)) as [_ Qk]; [|exact I|].
  { split; [exact I|]. apply (V smooth_doms smooth_arith_ok smooth_exp); [apply smF|apply smG]; assumption. }
  specialize (Qk k ltac:(cbn [dim]; lia)). unfold directional in Qk.
  assert (EU : eval (Var nargs d c) (point decl A i j) = A nargs (row c i j)).
  { apply functional_extensionality; intros q. cbn. unfold point. rewrite Hn. reflexivity. }
  rewrite EU in Qk.
  assert (X : ev (fun t => safe (point decl (move_arg pos (A nargs) A t) i j) F /\
    safe (point decl (move_arg pos (A nargs) A t) i j) G)).
  { apply ev_and.
    - generalize (smooth_safe_ev pos (A nargs (row c i j)) (point decl A i j) F WF (smF i j Hi Hj)).
      apply ev_imp. intros t S. rewrite (moved_point decl A i j pos _ t c) by (rewrite Hpos; reflexivity). exact S.
    - generalize (smooth_safe_ev pos (A nargs (row c i j)) (point decl A i j) G WG (smG i j Hi Hj)).
      apply ev_imp. intros t S. rewrite (moved_point decl A i j pos _ t c) by (rewrite Hpos; reflexivity). exact S. }
  eapply d0_ext_ev; [|exact Qk]. generalize X. apply ev_imp. intros t [SF SG]. clear X.
  rewrite <- (moved_point decl A i j pos (A nargs) t c) by (rewrite Hpos; reflexivity).
  destruct k as [|k]; [reflexivity|]. cbn [eval dim].
  replace (S k <? 1) with false by (symmetry; apply Nat.ltb_ge; lia). rewrite Nat.sub_succ, Nat.sub_0_r.
  destruct (V safe_doms safe_arith_ok safe_exp _ SF SG) as [_ Vk]. rewrite Vk by lia.
  assert (SR : point decl (move_arg pos (A nargs) A t) i j (nargs + 1)%Z 0 = A (nargs + 1)%Z (row tagI i j) 0).
  { unfold point, move_arg. rewrite Hn1. destruct (Z.eqb_spec (nargs + 1) pos); [congruence|reflexivity]. }
  rewrite SR. unfold Rminus. rewrite exp_plus. ring.
Qed.

Lemma row_tangent : forall n k, n < rows tagI M N -> k < S (dim G) ->
  d0 (fun t => match k with O => 0%R | S k =>
        (exp (- A (nargs + 1)%Z n O) *
          exp_weighted decl (move_arg pos (A nargs) A t) M N F G tagI n k)%R end)
     (reduce_sum decl A M N {| sformula := h; stagI := tagI |} n k).
Proof.
  intros n k Kn K. unfold reduce_sum. cbn [sformula stagI].
  assert (EN := fun i j Hi Hj => entry_tangent i j k Hi Hj K). clear - EN Kn Ht.
  destruct tagI as [|[|]]; [| |lia]; cbn [rows row] in Kn, EN.
  - eapply d0_ext; [|apply (d0_rsum N (fun j t => match k with O => 0%R | S k =>
        (exp (- A (nargs + 1)%Z n O) *
          (exp (eval F (point decl (move_arg pos (A nargs) A t) n j) O) *
           eval G (point decl (move_arg pos (A nargs) A t) n j) k))%R end))].
    + intros t. destruct k as [|k]; [rewrite total_rsum'; apply total_zero; reflexivity|].
      unfold exp_weighted. cbn [reduced at_entry]. rewrite total_scal. apply total_rsum'.
    + intros j Hj. apply EN; assumption.
  - eapply d0_ext; [|apply (d0_rsum M (fun i t => match k with O => 0%R | S k =>
        (exp (- A (nargs + 1)%Z n O) *
          (exp (eval F (point decl (move_arg pos (A nargs) A t) i n) O) *
           eval G (point decl (move_arg pos (A nargs) A t) i n) k))%R end))].
    + intros t. destruct k as [|k]; [rewrite total_rsum'; apply total_zero; reflexivity|].
      unfold exp_weighted. cbn [reduced at_entry]. rewrite total_scal. apply total_rsum'.
    + intros i Hi. apply EN; assumption.
Qed.

Lemma weighted_tangent : forall n k, n < rows tagI M N -> k < dim G ->
  d0 (fun t => exp_weighted decl (move_arg pos (A nargs) A t) M N F G tagI n k)
     (exp (A (nargs + 1)%Z n O) * reduce_sum decl A M N {| sformula := h; stagI := tagI |} n (S k))%R.
Proof.
  intros n k Kn K. eapply d0_ext; [|apply d0_scal, (row_tangent n (S k) Kn); lia].
  intros t. cbn beta. rewrite <- Rmult_assoc, <- exp_plus.
  replace (A (nargs + 1)%Z n O + - A (nargs + 1)%Z n O)%R with 0%R by ring. rewrite exp_0. ring.
Qed.
End Tangent.

Lemma tangent_lse : forall s decl A M N F G tagI nargs pos d c T,
  decl pos = (d, c) -> 1 <= d -> tagI <= 1 ->
  wf F -> wf G -> declared decl F -> declared decl G -> unmixed F -> unmixed G ->
  decl nargs = (d, c) -> decl (nargs + 1)%Z = (S (dim G), tagI) -> pos <> (nargs + 1)%Z ->
  (forall i j, i < M -> j < N -> smooth (point decl A i j) F /\ smooth (point decl A i j) G) ->
  s <> kahan_scheme -> 0 < reduced tagI M N ->
  forward_saved s decl A M N F G tagI (A (nargs + 1)%Z) ->
  lse_jvp decl A M N F G tagI nargs pos = Ok T ->
  forall n k, n < rows tagI M N -> k < dim G -> (0 < exp_weighted decl A M N F G tagI n k)%R ->
    derivable_pt_lim (fun t => log_sum_exp decl (move_arg pos (A nargs) A t) M N F G tagI n k) 0
      (lse_post_tangent (A (nargs + 1)%Z n) (T n) k).
Proof.
  intros s decl A M N F G tagI nargs pos d c T Hpos Hd Ht WF WG decF decG unF unG Hn Hn1 Pn1 Hsm Hs Hr HS HT n k Kn K Hp.
  destruct (jvp_inv _ _ _ _ _ _ _ _ _ _ _ _ Hpos HT) as (DF & f & h & Ef & Nk & Eh & ->). clear HT.
  assert (smF := fun i j Hi Hj => proj1 (Hsm i j Hi Hj)). assert (smG := fun i j Hi Hj => proj2 (Hsm i j Hi Hj)).
  assert (R := fun k => row_tangent decl A M N F G f h tagI nargs pos d c Hpos Hd Ht WF WG DF decF decG unF unG Hn Hn1 Pn1
    smF smG Ef Nk Eh n k Kn).
  assert (W := weighted_tangent decl A M N F G f h tagI nargs pos d c Hpos Hd Ht WF WG DF decF decG unF unG Hn Hn1 Pn1
    smF smG Ef Nk Eh n k Kn K).
  assert (Z0 : move_arg pos (A nargs) A 0 = A).
  { unfold move_arg. repeat (apply functional_extensionality; intros ?). destruct (Z.eqb _ _); ring. }
  assert (T0 := d0_unique _ _ _ (R 0 ltac:(lia)) (d0_const 0)).
  unfold log_sum_exp, lse_post_tangent. rewrite T0.
  eapply d0_eq; [|eapply (d0_comp ln); [exact W|]].
  2: { cbn beta. rewrite Z0. apply derivable_pt_lim_ln, Hp; assumption. }
  rewrite (saved_rows s decl A M N F G tagI _ Hs Hr HS n k Kn K).
  rewrite exp_Ropp. assert (P := exp_pos (A (nargs + 1)%Z n 0)).
  field. split; lra.
Qed.

Lemma tangent_softmax : forall s decl A M N F g G tagI nargs pos d c T,
  decl pos = (d, c) -> 1 <= d -> tagI <= 1 ->
  wf F -> wf g -> declared decl F -> declared decl g -> unmixed F -> unmixed g ->
  softmax_weights g = Ok G ->
  decl nargs = (d, c) -> decl (nargs + 1)%Z = (2 + dim g, tagI) -> pos <> (nargs + 1)%Z ->
  (forall i j, i < M -> j < N -> smooth (point decl A i j) F /\ smooth (point decl A i j) g) ->
  s <> kahan_scheme -> 0 < reduced tagI M N ->
  forward_saved s decl A M N F G tagI (A (nargs + 1)%Z) ->
  lse_jvp decl A M N F G tagI nargs pos = Ok T ->
  forall n k, n < rows tagI M N -> k < dim g ->
    derivable_pt_lim (fun t => soft_max_sum decl (move_arg pos (A nargs) A t) M N F g tagI n k) 0
      (softmax_post_tangent (A (nargs + 1)%Z n) (T n) k).
Proof.
  intros s decl A M N F g G tagI nargs pos d c T Hpos Hd Ht WF Wg decF decg unF ung EG Hn Hn1 Pn1 Hsm Hs Hr HS HT n k Kn K.
  apply softmax_inv in EG.
  destruct (jvp_inv _ _ _ _ _ _ _ _ _ _ _ _ Hpos HT) as (DF & f & h & Ef & Nk & Eh & ->). clear HT.
  assert (WG : wf G) by (subst G; split; [reflexivity|]; split; [split; [reflexivity|exact I]|exact Wg]).
  assert (decG : declared decl G) by (subst G; split; [exact I|exact decg]).
  assert (unG : unmixed G) by (subst G; split; [exact I|exact ung]).
  assert (DG : dim G = S (dim g)) by (subst G; reflexivity).
  assert (Hn1' : decl (nargs + 1)%Z = (S (dim G), tagI)) by (rewrite DG; exact Hn1).
  assert (smF := fun i j Hi Hj => proj1 (Hsm i j Hi Hj)).
  assert (smG : forall i j, i < M -> j < N -> smooth (point decl A i j) G).
  { intros i j Hi Hj. subst G. split; [exact I|]. apply (Hsm i j Hi Hj). }
  assert (W := fun k => weighted_tangent decl A M N F G f h tagI nargs pos d c Hpos Hd Ht WF WG DF decF decG unF unG Hn Hn1' Pn1
    smF smG Ef Nk Eh n k Kn).
  assert (Z0 : move_arg pos (A nargs) A 0 = A).
  { unfold move_arg. repeat (apply functional_extensionality; intros ?). destruct (Z.eqb _ _); ring. }
  assert (SR := fun k K => saved_rows s decl A M N F G tagI _ Hs Hr HS n k Kn K).
  assert (S0 := SR 0 ltac:(lia)). assert (S1 := SR (S k) ltac:(lia)).
  assert (W0 := W 0 ltac:(lia)). assert (W1 := W (S k) ltac:(lia)). clear W SR.
  subst G. rewrite weights_0 in S0. rewrite weights_S in S1.
  assert (W0' := d0_ext _ _ _ (fun t => weights_0 decl (move_arg pos (A nargs) A t) M N F g tagI n) W0).
  assert (W1' := d0_ext _ _ _ (fun t => weights_S decl (move_arg pos (A nargs) A t) M N F g tagI n k) W1).
  cbn beta in W0', W1'.
  assert (P0 : (0 < exp_total decl A M N F tagI n)%R) by (apply exp_total_pos, Hr).
  unfold soft_max_sum. eapply d0_eq; [|apply (d0_div _ _ _ _ W1' W0')].
  2: { rewrite Z0. lra. }
  cbn beta. rewrite Z0. unfold softmax_post_tangent. rewrite S0, S1, exp_Ropp.
  assert (P' := exp_pos (A (nargs + 1)%Z n 0)). unfold Rsqr. field. split; lra.
Qed.

(** ** The saved rows exist *)
Lemma saved_exists : forall s decl A M N F G tagI, s <> kahan_scheme -> 0 < reduced tagI M N ->
  exists saved, forward_saved s decl A M N F G tagI saved.
Proof.
  intros s decl A M N F G tagI Hs Hr.
  set (e := fun n j => (Some (eval F (at_entry decl A tagI n j) 0), eval G (at_entry decl A tagI n j)) : entry).
  exists (fun n p => match cpu_row (LSE_Red (dim G)) s (reduced tagI M N) (lse_terms (e n)) with
    | Ok out => match out p with Fin x => x | _ => 0%R end | _ => 0%R end).
  intros n Kn.
  destruct (scheme_lse s (dim G) (reduced tagI M N) (e n) Hr) as (out & E & m & _ & Hm & HT);
    [intros j _; discriminate|exact Hs|].
  exists out. split; [exact E|]. intros p Hp. cbv beta. rewrite E.
  destruct p as [|k]; [rewrite Hm; reflexivity|]. rewrite HT by lia. reflexivity.
Qed.

(** ** A row without finalisation *)
Definition raw_decl : declaration := fun a => if (a =? 0)%Z then (1, 0) else (2, 0).
Definition raw_args : arguments := fun a _ k => if (a =? 1)%Z then (if k =? 0 then 1 else 0)%R
  else if (a =? 2)%Z then (if k =? 0 then 0 else 1)%R else 0%R.
Definition raw_out (t : R) : nat -> R := fun p => match p with O => t | _ => 1%R end.

Lemma raw_forward : forall t, forward_saved block_sum raw_decl (move_arg 0 (fun _ _ => 1%R) raw_args t) 1 1
  (Var 0 1 0) (Int 1) 0 (fun _ => raw_out t).
Proof.
  intros t n Kn. cbn [rows] in Kn. assert (n = 0) as -> by lia. cbn [reduced at_entry dim].
  match goal with |- context [lse_terms ?x] => set (e := x) end.
  destruct (scheme_lse block_sum 1 1 e) as (out & E & m & Hmax & Hm & HT);
    [lia|intros j _; discriminate|discriminate|].
  exists out. split; [exact E|].
  assert (Hmt : m = t).
  { destruct Hmax as [[w [X|[]]] _]. cbn in X. injection X as X _. rewrite <- X. unfold raw_args. cbn. ring. }
  intros p Hp. destruct p as [|[|p]]; [| |lia].
  - rewrite Hm, Hmt. reflexivity.
  - rewrite HT by lia. subst m. cbn [taken seq map shifted_sum e]. f_equal.
    match goal with |- context [exp ?x] => replace x with 0%R end.
    + rewrite exp_0. cbn. ring.
    + unfold e. cbn. unfold point, move_arg, raw_args. cbn. ring.
Qed.

Lemma raw_gradient : exists Gr, lse_backward raw_decl raw_args 1 1 (Var 0 1 0) (Int 1) 0 1 0 = Ok Gr /\ Gr 0 0 = 0%R.
Proof.
  eexists. split; [lazy; reflexivity|]. lazy -[Rplus Rmult Ropp Rminus exp IZR Rdiv Rinv]. ring.
Qed.

Lemma raw_wrong : exists Gr,
  lse_backward raw_decl raw_args 1 1 (Var 0 1 0) (Int 1) 0 1 0 = Ok Gr /\
  (forall t, forward_saved block_sum raw_decl (move_arg 0 (fun _ _ => 1%R) raw_args t) 1 1
     (Var 0 1 0) (Int 1) 0 (fun _ => raw_out t)) /\
  derivable_pt_lim (fun t => inner 2 (raw_out t) (raw_args 1%Z 0)) 0%R 1%R /\
  total 1 (fun r => inner 1 (Gr r) (fun _ => 1%R)) = 0%R.
Proof.
  destruct raw_gradient as (Gr & E & V). exists Gr. split; [exact E|]. split; [apply raw_forward|]. split.
  - eapply d0_ext; [|apply (derivable_pt_lim_id 0)]. intros t. unfold id. cbn. unfold raw_args. cbn. ring.
  - cbn. rewrite V. ring.
Qed.
