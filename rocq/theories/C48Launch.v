(** Proofs about the generated CPU routine: all the rows. *)

From Coq Require Import ZArith Reals List Bool String Lia Lra Arith Permutation.
From Verif Require Import Result Formula SimplifyProofs XReal Reductions ReductionSpec CpuReduc KernelSum KernelSumSpec CpuConv CpuConvSpec C12Proofs
  CodeGen CSem CodeGenSpec C47Proofs C47Ops C47Main KernelCode KernelSem KernelCodeSpec C48Proofs C48Row.
Import ListNotations.
Local Notation declared := KernelSumSpec.declared.
Local Open Scope list_scope.
Local Open Scope nat_scope.

Definition row_cells (r : res cells) : cells := match r with Ok v => v | _ => fun _ => NaN end.

Lemma put_put : forall x o o' m, put x o (put x o' m) = put x o m.
Proof.
  induction m as [|[y p] m IH]; [reflexivity|]. cbn [put]. destruct (String.eqb x y) eqn:E; cbn [put]; rewrite E; [reflexivity|now f_equal].
Qed.
Lemma put_keys : forall x o m, map fst (put x o m) = map fst m.
Proof. induction m as [|[y p] m IH]; [reflexivity|]. cbn [put]. destruct (String.eqb x y); cbn [map fst]; [reflexivity|now f_equal]. Qed.
Lemma put_length : forall x o m, List.length (put x o m) = List.length m.
Proof. intros. rewrite <- (map_length fst), put_keys, map_length. reflexivity. Qed.
Lemma put_get : forall x o m, get x m = Some o -> put x o m = m.
Proof.
  induction m as [|[y p] m IH]; [reflexivity|]. cbn [put get]. destruct (String.eqb_spec x y) as [->|]; [congruence|].
  intros E. f_equal. now apply IH.
Qed.

Section Launch.
Variables (r : red) (s : scheme) (f : fm) (decl : declaration) (A : Z -> nat -> R) (tagI M N nargs : nat) (t ta : ftype) (g : gen).
Variables (m : mem) (st : stmt) (g' : gen).
Let d := dim f.
Let D := red_dim r d.
Let nx := out_rows tagI M N.
Let ny := red_terms tagI M N.
Let v (n : nat) : cells := row_cells (cpu_row (meaning r d) s ny (terms decl A f tagI n)).
Hypothesis Hdecl : declared decl f.
Hypothesis Hwf : wf f.
Hypothesis Hcat : categories decl.
Hypothesis Htag : tagI <= 1.
Hypothesis Htypes : types_ok r t ta.
Hypothesis Hargs : arguments_in decl f A M N nargs (name "arg" (g "arg")) m.
Hypothesis Hclean : no_generated m.
Hypothesis Hsafe : forall n j, n < nx -> j < ny -> safe (at_point decl A tagI n j) f.
Hypothesis Hav : available (meaning r d) s.
Hypothesis Hst : row_code r s f tagI nargs t ta g = Ok (st, g').

Definition top (c : list (option xr)) : mem :=
  ("ny"%string, OInt ny) :: ("nx"%string, OInt nx) :: put "out" (OArr c) m.

Lemma one_row : forall n c, n < nx -> get "out" m <> None -> nx * D <= List.length c ->
  exists pre, exec (set_index (fun _ => O) "i" n) st (("i"%string, OInt n) :: top c)
    = Some (pre ++ top (over c (n * D) D (fun k => Some (v n k)))).
Proof.
  intros n c L B Lc.
  assert (Gn : get "out" (put "out" (OArr c) m) = Some (OArr c)) by (apply get_put_same; exact B).
  destruct (row_ok r s f decl A tagI M N nargs t ta g n (("i"%string, OInt n) :: top c) c (set_index (fun _ => O) "i" n))
    as (st' & g2 & pre & w & E & Ew & X); auto.
  - intros i e Oc. destruct (Hargs i e Oc) as (P & ci & Gi & Ci). split; [exact P|]. exists ci. split; [|exact Ci].
    assert (K : forall x, In x kernel_names -> (name "arg" (g "arg") ++ "[" ++ Keys.str_int i ++ "]")%string <> x).
    { intros x Kx Q. rewrite <- (Z2Nat.id i) in Q by lia. now apply (arg_not_kernel x Kx (name "arg" (g "arg")) (Z.to_nat i)). }
    unfold top. rewrite !get_cons_other by (apply K; cbn; tauto). rewrite get_put_other by (apply K; cbn; tauto). exact Gi.
  - unfold top. repeat (apply clean_cons; [cbn; tauto|]). intros u q. rewrite get_put_other; [apply Hclean|].
    apply not_eq_sym, kernel_not_name. cbn. tauto.
  - assert ((n + 1) * D <= nx * D) by (apply Nat.mul_le_mono_r; lia). fold d. fold D. lia.
  - assert (st' = st) by congruence. subst st'. exists (pre ++ [("i"%string, OInt n)]). rewrite X. f_equal. rewrite <- app_assoc. f_equal.
    assert (Ev : v n = w) by (unfold v; change (terms decl A f tagI n) with (fun j => terms decl A f tagI n j); fold d in Ew; fold ny in Ew; rewrite Ew; reflexivity). rewrite Ev.
    unfold top. cbn [List.app]. rewrite !region_cons by (cbn [base]; discriminate).
    unfold region. cbn [base CSem.off]. rewrite Gn. rewrite put_put. reflexivity.
Qed.

Lemma all_rows : forall l c, (forall n, In n l -> n < nx) -> get "out" m <> None -> nx * D <= List.length c ->
  exists c', each (fun i => exec (set_index (fun _ => O) "i" i) st) "i" l (top c) = Some (top c')
    /\ List.length c' = List.length c
    /\ (forall n k, In n l -> k < D -> nth_error c' (n * D + k) = Some (Some (v n k)))
    /\ (forall q, (forall n, In n l -> q < n * D \/ n * D + D <= q) -> nth_error c' q = nth_error c q).
Proof.
  induction l as [|n l IH]; intros c Hl B Lc.
  - exists c. repeat split; auto. intros n k [].
  - destruct (one_row n c (Hl n (or_introl eq_refl)) B Lc) as (pre & X).
    set (c1 := over c (n * D) D (fun k => Some (v n k))) in *.
    assert (L1 : List.length c1 = List.length c) by apply over_length.
    destruct (IH c1) as (c' & X' & L' & V' & O'); [intros; apply Hl; now right|exact B|lia|].
    exists c'. cbn [each]. rewrite X. rewrite leave_app.
    2:{ unfold top. cbn [List.length]. now rewrite !put_length. }
    assert (Rn : n * D + D <= List.length c).
    { assert (n < nx) by (apply Hl; now left). assert ((n + 1) * D <= nx * D) by (apply Nat.mul_le_mono_r; lia). lia. }
    split; [exact X'|]. split; [lia|]. split.
    + intros n' k I K. destruct (in_dec Nat.eq_dec n' l) as [I'|I']; [now apply V'|].
      destruct I as [<-|I]; [|contradiction]. rewrite O'.
      * unfold c1. rewrite over_spec by exact Rn. destruct (Nat.leb_spec (n * D) (n * D + k)); [|lia].
        destruct (Nat.ltb_spec (n * D + k) (n * D + D)); [|lia]. cbn [andb]. do 3 f_equal. lia.
      * intros n' I. apply row_disjoint; [|exact K]. intros ->. contradiction.
    + intros q Q. rewrite O' by (intros; apply Q; now right). unfold c1. rewrite over_spec by exact Rn.
      destruct (Q n (or_introl eq_refl)).
      * destruct (Nat.leb_spec (n * D) q); [lia|reflexivity].
      * destruct (Nat.ltb_spec q (n * D + D)); [lia|]. now rewrite andb_false_r.
Qed.

Lemma launched : forall schedule c, complete schedule -> get "out" m = Some (OArr c) -> nx * D <= List.length c ->
  exists m', launch schedule st tagI M N m = Some m' /\ output_rows m m' nx D v.
Proof.
  intros schedule c Hs G L.
  assert (E : launch schedule st tagI M N m = conv schedule st nx ny m).
  { unfold launch, nx, ny, out_rows, red_terms. destruct tagI as [|[|?]]; [reflexivity|reflexivity|lia]. }
  assert (I : forall n, In n (schedule nx) <-> n < nx).
  { intros n. split; intros I.
    - apply (Permutation_in n (Hs nx)) in I. apply in_seq in I. lia.
    - apply (Permutation_in n (Permutation_sym (Hs nx))). apply in_seq. lia. }
  destruct (all_rows (schedule nx) c) as (c' & X & L' & V & O); [intros; now apply I|congruence|exact L|].
  rewrite E. unfold conv. unfold top in X at 1. rewrite (put_get _ _ _ G) in X. rewrite X. cbn [obind].
  exists (put "out" (OArr c') m). split.
  - f_equal. unfold top. apply (leave_app [_; _]). apply put_length.
  - split; [apply put_keys|]. split; [intros x Nx; apply get_put_other; congruence|].
    exists c, c'. split; [exact G|]. split; [apply get_put_same; congruence|]. split; [exact L'|]. split.
    + intros n k Ln K. apply V; auto. now apply I.
    + intros q Q. apply O. intros n J. apply I in J. right.
      assert ((n + 1) * D <= nx * D) by (apply Nat.mul_le_mono_r; lia). lia.
Qed.
End Launch.
