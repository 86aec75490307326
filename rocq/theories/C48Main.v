(** Proofs about the generated CPU routine: the routine, its names, and the reductions. *)

From Coq Require Import ZArith Reals List Bool String Lia Lra Arith Permutation.
From Verif Require Import Result Formula SimplifyProofs Keys XReal Reductions ReductionSpec Postprocess CpuReduc KernelSum KernelSumSpec CpuConv CpuConvSpec LseSpec C12Proofs C22Proofs
  CodeGen CSem CodeGenSpec C47Proofs C47Ops C47Main C47Gen KernelCode KernelSem KernelCodeSpec C48Proofs C48Row C48Launch.
Import ListNotations.
Local Notation declared := KernelSumSpec.declared.
Local Open Scope list_scope.
Local Open Scope nat_scope.

(** ** The code exists *)
Definition args_mem (decl : declaration) (arg : string) (nargs : nat) : mem :=
  map (fun k => (arg_name arg k, OArr (repeat (Some (Fin 0)) (fst (decl (Z.of_nat k)))))) (seq 0 nargs).

Lemma arg_name_inj : forall arg k k', arg_name arg k = arg_name arg k' -> k = k'.
Proof.
  intros arg k k' E. unfold arg_name in E. rewrite <- !app_assoc_s in E.
  rewrite !app_assoc_s in E. assert (I : forall a b c, (a ++ b)%string = (a ++ c)%string -> b = c).
  { intros a b c. induction a as [|x a IH]; cbn; [auto|]. intros Q. injection Q as Q. auto. }
  apply I in E. apply I in E.
  assert (J : forall a b, (a ++ "]")%string = (b ++ "]")%string -> a = b).
  { induction a as [|x a IH]; intros [|y b] Q; cbn in Q; auto.
    - injection Q as _ Q. destruct b; discriminate.
    - injection Q as _ Q. destruct a; discriminate.
    - injection Q as -> Q. f_equal. auto. }
  apply J, str_int_inj in E. lia.
Qed.

Lemma args_get : forall decl arg nargs k, k < nargs ->
  get (arg_name arg k) (args_mem decl arg nargs) = Some (OArr (repeat (Some (Fin 0)) (fst (decl (Z.of_nat k))))).
Proof.
  intros decl arg nargs k K. unfold args_mem.
  assert (H : forall n i, i <= k < i + n -> get (arg_name arg k)
    (map (fun k => (arg_name arg k, OArr (repeat (Some (Fin 0)) (fst (decl (Z.of_nat k)))))) (seq i n))
    = Some (OArr (repeat (Some (Fin 0)) (fst (decl (Z.of_nat k)))))).
  { induction n as [|n IH]; intros i I; [lia|]. cbn [seq map get].
    destruct (String.eqb_spec (arg_name arg k) (arg_name arg i)) as [E|E].
    - apply arg_name_inj in E. now subst.
    - apply IH. destruct (Nat.eq_dec i k); [subst; congruence|lia]. }
  apply H. lia.
Qed.

Lemma row_generates : forall r s f decl tagI nargs t ta g,
  declared decl f -> wf f -> categories decl -> tagI <= 1 -> types_ok r t ta -> available (meaning r (dim f)) s ->
  (forall i d, occurs i d f -> (0 <= i < Z.of_nat nargs)%Z) ->
  exists st g', row_code r s f tagI nargs t ta g = Ok (st, g').
Proof.
  intros r s f decl tagI nargs t ta g Hd Hw Hc Ht Hty Hav Ho.
  set (arg := name "arg" (g "arg")).
  set (m0 := ("out"%string, OArr (repeat None (red_dim r (dim f)))) :: ("ny"%string, OInt 0) :: args_mem decl arg nargs).
  assert (G : forall k, get (arg_name arg k) m0 = get (arg_name arg k) (args_mem decl arg nargs)).
  { intros k. unfold m0. rewrite !get_cons_other by (apply arg_not_kernel; cbn; tauto). reflexivity. }
  assert (T : out_rows tagI (1 - tagI) tagI = 1 /\ red_terms tagI (1 - tagI) tagI = 0).
  { destruct tagI as [|[|?]]; [split; reflexivity|split; reflexivity|lia]. }
  destruct T as [T1 T0].
  destruct (row_ok r s f decl (fun _ _ => 0%R) tagI (1 - tagI) tagI nargs t ta g 0 m0 (repeat None (red_dim r (dim f))) (fun _ => 0))
    as (st & g' & _ & _ & E & _); auto.
  - intros i d Oc. assert (P := Ho i d Oc). split; [exact P|].
    exists (repeat (Some (Fin 0)) (fst (decl i))). split.
    + assert (Nm : (arg ++ "[" ++ str_int i ++ "]")%string = arg_name arg (Z.to_nat i)).
      { unfold arg_name. now rewrite Z2Nat.id by lia. }
      fold arg. rewrite Nm, G, args_get by lia. now rewrite Z2Nat.id by lia.
    + intros q Q.
      assert (De : d = fst (decl i)).
      { destruct (table_ok_code decl f tagI arg nargs Hd Hc Ht Ho) as (tb & _ & Tb). now apply Tb. }
      assert (Rw : rows (snd (decl i)) (1 - tagI) tagI <= 1).
      { unfold rows. specialize (Hc i). destruct (snd (decl i)) as [|[|?]]; lia. }
      assert (Lq : q < fst (decl i)).
      { eapply Nat.lt_le_trans; [exact Q|]. rewrite De. destruct (rows (snd (decl i)) (1 - tagI) tagI) as [|[|?]]; lia. }
      rewrite nth_error_repeat by exact Lq. reflexivity.
  - intros u c. unfold m0. rewrite !get_cons_other by (apply not_eq_sym, kernel_not_name; cbn; tauto).
    destruct (get (name u c) (args_mem decl arg nargs)) eqn:E; [|reflexivity]. exfalso.
    assert (I : In (name u c) (map fst (args_mem decl arg nargs))).
    { clear - E. induction (args_mem decl arg nargs) as [|[x o'] l IH]; [discriminate|]. cbn [get map fst] in *.
      destruct (String.eqb_spec (name u c) x); [now left|right; auto]. }
    unfold args_mem in I. rewrite map_map in I. apply in_map_iff in I as (k & Q & _). cbn [fst] in Q. now apply (arg_not_name arg k u c).
  - rewrite T0. reflexivity.
  - rewrite repeat_length. lia.
  - rewrite T1. lia.
  - intros j J. rewrite T0 in J. lia.
  - now exists st, g'.
Qed.

(** ** The routine *)
Theorem routine_correct : forall r s f decl tagI nargs t ta g,
  declared decl f -> wf f -> categories decl -> tagI <= 1 -> types_ok r t ta -> available (meaning r (dim f)) s ->
  (forall i d, occurs i d f -> (0 <= i < Z.of_nat nargs)%Z) ->
  exists st g', row_code r s f tagI nargs t ta g = Ok (st, g')
  /\ forall A M N m schedule c, complete schedule ->
     arguments_in decl f A M N nargs (name "arg" (g "arg")) m -> no_generated m ->
     get "out" m = Some (OArr c) -> out_rows tagI M N * red_dim r (dim f) <= List.length c ->
     (forall n j, n < out_rows tagI M N -> j < red_terms tagI M N -> safe (at_point decl A tagI n j) f) ->
     exists m' v, launch schedule st tagI M N m = Some m'
       /\ output_rows m m' (out_rows tagI M N) (red_dim r (dim f)) v
       /\ forall n, cpu_row (meaning r (dim f)) s (red_terms tagI M N) (terms decl A f tagI n) = Ok (v n).
Proof.
  intros r s f decl tagI nargs t ta g Hd Hw Hc Ht Hty Hav Ho.
  destruct (row_generates r s f decl tagI nargs t ta g Hd Hw Hc Ht Hty Hav Ho) as (st & g' & E).
  exists st, g'. split; [exact E|]. intros A M N m schedule c Hs Ha Hn Go Lo Hsf.
  destruct (launched r s f decl A tagI M N nargs t ta g m st g' Hd Hw Hc Ht Hty Ha Hn Hsf Hav E schedule c Hs Go Lo) as (m' & X & O).
  exists m', (fun n => row_cells (cpu_row (meaning r (dim f)) s (red_terms tagI M N) (terms decl A f tagI n))).
  split; [exact X|]. split; [exact O|]. intros n.
  destruct (available_row (meaning r (dim f)) s (red_terms tagI M N) (terms decl A f tagI n) Hav) as [v Ev]. rewrite Ev. reflexivity.
Qed.

(** ** The reductions *)
Definition in_order : nat -> list nat := fun n => seq 0 n.
Lemma in_order_complete : complete in_order.
Proof. intros n. apply Permutation_refl. Qed.

(** What C12 says of the rows. *)
Lemma rows_of : forall decl f r s tagI A M N out, declared decl f -> wf f -> categories decl -> tagI <= 1 ->
  reduction_of (dim f) r -> available r s -> launch_cpu in_order r s f tagI A M N (fun _ => NaN) = Ok out ->
  forall n v, n < out_rows tagI M N -> cpu_row r s (red_terms tagI M N) (terms decl A f tagI n) = Ok v ->
  forall k, k < rdim r -> v k = out (n * rdim r + k).
Proof.
  intros decl f r s tagI A M N out D W C T R Av E n v Hn Ev k K.
  destruct (dense_cpu decl f r s tagI A M N in_order (fun _ => NaN) D W C T R Av in_order_complete) as (out' & E' & H & _).
  assert (out' = out) by congruence. subst out'. destruct (H n Hn) as (v' & Ev' & Hv). assert (v' = v) by congruence. subst v'.
  now rewrite Hv.
Qed.

Theorem routine_sum : forall s f decl tagI nargs t ta g,
  declared decl f -> wf f -> categories decl -> tagI <= 1 ->
  (forall i d, occurs i d f -> (0 <= i < Z.of_nat nargs)%Z) ->
  exists st g', row_code CSum s f tagI nargs t ta g = Ok (st, g')
  /\ forall A M N m schedule, complete schedule -> ready decl f A tagI M N nargs (dim f) (name "arg" (g "arg")) m ->
     exists m' v, launch schedule st tagI M N m = Some m' /\ output_rows m m' (out_rows tagI M N) (dim f) v
       /\ forall n k, n < out_rows tagI M N -> k < dim f ->
          v n k = Fin (reduce_sum decl (contiguous decl A) M N {| sformula := f; stagI := tagI |} n k).
Proof.
  intros s f decl tagI nargs t ta g Hd Hw Hc Ht Ho.
  assert (Av : available (meaning CSum (dim f)) s) by (destruct s; cbn; eauto).
  destruct (routine_correct CSum s f decl tagI nargs t ta g Hd Hw Hc Ht (or_introl eq_refl) Av Ho) as (st & g' & E & H).
  exists st, g'. split; [exact E|]. intros A M N m schedule Hs (Ha & Hn & (c & Gc & Lc) & Hsf).
  destruct (H A M N m schedule c Hs Ha Hn Gc Lc Hsf) as (m' & v & X & O & V). exists m', v. split; [exact X|]. split; [exact O|].
  intros n k Ln K. destruct (dense_sum decl f s tagI A M N in_order (fun _ => NaN) Hd Hw Hc Ht in_order_complete) as (out & Eo & S & _).
  rewrite <- (S n k Ln K). apply (rows_of decl f (Sum_Red (dim f)) s tagI A M N out); auto. constructor.
Qed.

Theorem routine_optimum : forall mx f decl tagI nargs t g,
  declared decl f -> wf f -> categories decl -> tagI <= 1 ->
  (forall i d, occurs i d f -> (0 <= i < Z.of_nat nargs)%Z) ->
  exists st g', row_code (COptArg mx true) direct_sum f tagI nargs t t g = Ok (st, g')
  /\ forall A M N m schedule, complete schedule -> ready decl f A tagI M N nargs (2 * dim f) (name "arg" (g "arg")) m ->
     exists m' v, launch schedule st tagI M N m = Some m' /\ output_rows m m' (out_rows tagI M N) (2 * dim f) v
       /\ forall n k, n < out_rows tagI M N -> k < dim f -> 0 < red_terms tagI M N ->
          exists i, i < red_terms tagI M N
            /\ v n k = terms decl A f tagI n i k /\ v n (dim f + k) = of_long (Z.of_nat i)
            /\ (forall j, j < red_terms tagI M N -> as_good mx (terms decl A f tagI n i k) (terms decl A f tagI n j k))
            /\ (forall j, j < i -> terms decl A f tagI n j k <> terms decl A f tagI n i k).
Proof.
  intros mx f decl tagI nargs t g Hd Hw Hc Ht Ho.
  destruct (routine_correct (COptArg mx true) direct_sum f decl tagI nargs t t g Hd Hw Hc Ht (or_intror eq_refl) I Ho) as (st & g' & E & H).
  exists st, g'. split; [exact E|]. intros A M N m schedule Hs (Ha & Hn & (c & Gc & Lc) & Hsf).
  destruct (H A M N m schedule c Hs Ha Hn Gc Lc Hsf) as (m' & v & X & O & V). exists m', v. split; [exact X|]. split; [exact O|].
  intros n k Ln K P. destruct (dense_optimum decl f mx tagI A M N in_order (fun _ => NaN) Hd Hw Hc Ht in_order_complete) as (out & Eo & S & _).
  assert (Q : forall q, q < 2 * dim f -> v n q = out (n * (2 * dim f) + q)).
  { intros q Lq. apply (rows_of decl f (OptArg_Red mx OBoth (dim f)) direct_sum tagI A M N out); auto; [constructor|exact I]. }
  destruct (S n k Ln K P) as (i & Li & S1 & S2 & S3 & S4). exists i. split; [exact Li|].
  rewrite !Q by lia. rewrite Nat.add_assoc. auto.
Qed.

Theorem routine_logsumexp : forall s w f decl tagI nargs t g,
  declared decl f -> wf f -> categories decl -> tagI <= 1 -> dim f = S w -> s <> kahan_scheme ->
  (forall i d, occurs i d f -> (0 <= i < Z.of_nat nargs)%Z) ->
  exists st g', row_code CLse s f tagI nargs t t g = Ok (st, g')
  /\ forall A M N m schedule, complete schedule -> ready decl f A tagI M N nargs (dim f) (name "arg" (g "arg")) m ->
     0 < red_terms tagI M N ->
     exists m' v, launch schedule st tagI M N m = Some m' /\ output_rows m m' (out_rows tagI M N) (dim f) v
       /\ forall n k, n < out_rows tagI M N -> k < w ->
          let es := taken (red_terms tagI M N) (entry_of decl A f tagI n) in
          (0 < exp_sum k es)%R -> lse_post (v n) k = Fin (ln (exp_sum k es)).
Proof.
  intros s w f decl tagI nargs t g Hd Hw Hc Ht Dw Hk Ho.
  assert (Me : meaning CLse (dim f) = LSE_Red w) by (cbn [meaning]; rewrite Dw; f_equal; lia).
  assert (Av : available (LSE_Red w) s) by (destruct s; cbn; eauto; congruence).
  assert (Av' := Av). rewrite <- Me in Av'.
  destruct (routine_correct CLse s f decl tagI nargs t t g Hd Hw Hc Ht (or_intror eq_refl) Av' Ho) as (st & g' & E & H).
  exists st, g'. split; [exact E|]. intros A M N m schedule Hs (Ha & Hn & (c & Gc & Lc) & Hsf) Pn.
  destruct (H A M N m schedule c Hs Ha Hn Gc Lc Hsf) as (m' & v & X & O & V). exists m', v. split; [exact X|]. split; [exact O|].
  intros n k Ln K es Pe. destruct (dense_lse decl f s w tagI A M N in_order (fun _ => NaN) Hd Hw Hc Ht in_order_complete Dw Hk Pn) as (out & Eo & Sp & _).
  assert (Q : forall q, q < S w -> v n q = out (n * S w + q)).
  { intros q Lq. apply (rows_of decl f (LSE_Red w) s tagI A M N out); auto; [now constructor|]. rewrite <- Me. apply V. }
  unfold es. rewrite <- (Sp n k Ln K Pe). unfold lse_post. rewrite !Q by lia. reflexivity.
Qed.

(** ** Names *)
Definition gn (s : stmt) : Prop := forall x, In x (CodeGenSpec.declared s) -> exists t c, x = name t c.
Lemma gn_ok : forall g s g', ok g s g' -> gn s.
Proof. intros g s g' (_ & _ & H) x I. destruct (H x I) as (t & c & E & _). now exists t, c. Qed.
Lemma gn_seq : forall s s', gn s -> gn s' -> gn (SSeq s s').
Proof. intros s s' H H' x I. cbn in I. apply in_app_or in I as [I|I]; auto. Qed.
Lemma gn_one : forall s t c, CodeGenSpec.declared s = [name t c] -> gn s.
Proof. intros s t c E x I. rewrite E in I. destruct I as [<-|[]]. now exists t, c. Qed.
Lemma gn_seq2 : forall a k s g, gn (fst a) -> (forall g0 s' g', k g0 = Ok (s', g') -> gn s') -> seq2 a k = Ok (s, g) -> gn s.
Proof.
  intros a k s g H K E. unfold seq2 in E. destruct (k (snd a)) as [[s1 g1]| | |] eqn:E1; try discriminate.
  injection E as <- _. apply gn_seq; [exact H|]. eapply K. exact E1.
Qed.
Lemma gn_vect : forall body o args g s g', (forall p i l, CodeGenSpec.declared (body p i l) = []) ->
  VectApplyV body o args g = Ok (s, g') -> gn s.
Proof.
  intros body o args g s g' H E. unfold VectApplyV in E. destruct (forallb _ _); [|discriminate]. injection E as <- _.
  eapply gn_one. cbn [CodeGenSpec.declared]. now rewrite H.
Qed.
Lemma gn_lse : forall a x g, gn (fst (lse_pair_code a x g)).
Proof.
  intros a x g y I. cbn [lse_pair_code fst CodeGenSpec.declared List.app In] in I. destruct I as [<-|[<-|[<-|[]]]]; eexists _, _; reflexivity.
Qed.
Lemma gn_init : forall r d a g s g', InitializeReduction r d a g = Ok (s, g') -> gn s.
Proof.
  intros r d a g s g' E. destruct r; cbn [InitializeReduction] in E.
  1, 2: injection E as <- _; eapply gn_one; reflexivity.
  all: destruct (split2 _ _ _) as [[x y]| | |]; try discriminate; cbn [rbind] in E; eapply gn_seq2; [| |exact E];
    [eapply gn_one; reflexivity|intros g0 s1 g1 E1; injection E1 as <- _; eapply gn_one; reflexivity].
Qed.
Lemma check_ok : forall (X : Type) a b (r : res X) v, check_types a b r = Ok v -> r = Ok v.
Proof. intros X a b r v. unfold check_types. destruct (same_type a b); [auto|discriminate]. Qed.
Lemma opt_nil : forall mx p i l, CodeGenSpec.declared (opt_scalar mx p i l) = [].
Proof. intros mx p i [|x [|y l]]; reflexivity. Qed.
Lemma optarg_nil : forall mx p i l, CodeGenSpec.declared (optarg_scalar mx p i l) = [].
Proof. intros mx p i [|e l]; [reflexivity|]. destruct e, l as [|y l]; try reflexivity. destruct l as [|y' l]; try reflexivity.
  destruct l; reflexivity. Qed.
Lemma gn_short : forall r d ta t a x ind g s g', ReducePairShort r d ta t a x ind g = Ok (s, g') -> gn s.
Proof.
  intros r d ta t a x ind g s g' E. destruct r; cbn [ReducePairShort] in E.
  - eapply gn_vect; [|exact E]. reflexivity.
  - apply check_ok in E. eapply gn_vect; [|exact E]. apply opt_nil.
  - destruct (split2 _ _ _) as [[u v]| | |]; try discriminate. cbn [rbind] in E. apply check_ok in E.
    eapply gn_vect; [|exact E]. apply optarg_nil.
  - apply check_ok in E. injection E as <- _. apply gn_lse.
Qed.
Lemma gn_pair : forall r d ta t a x g s g', ReducePair r d ta t a x g = Ok (s, g') -> gn s.
Proof.
  intros r d ta t a x g s g' E. destruct r; cbn [ReducePair] in E.
  - eapply gn_vect; [|exact E]. reflexivity.
  - apply check_ok in E. eapply gn_vect; [|exact E]. apply opt_nil.
  - discriminate.
  - apply check_ok in E. injection E as <- _. apply gn_lse.
Qed.
Lemma gn_kahan : forall r d a x c g s g', KahanScheme r d a x c g = Ok (s, g') -> gn s.
Proof.
  intros r d a x c g s g' E. destruct r; try discriminate. injection E as <- _. intros y I. cbn [CodeGenSpec.declared List.app In] in I.
  destruct I as [<-|[<-|[<-|[]]]]; eexists _, _; reflexivity.
Qed.
Lemma gn_final : forall r d a o g s g', FinalizeOutput r d a o g = Ok (s, g') -> gn s.
Proof.
  intros r d a o g s g' E. destruct r as [|mx|mx both|]; cbn [FinalizeOutput] in E.
  1, 2, 4: injection E as <- _; eapply gn_one; reflexivity.
  destruct both; [injection E as <- _; eapply gn_one; reflexivity|].
  destruct (split2 _ _ _) as [[u v]| | |]; try discriminate. cbn [rbind] in E. injection E as <- _. eapply gn_one; reflexivity.
Qed.
Lemma gn_none : forall s x, gn s -> In x kernel_names -> count_occ string_dec (CodeGenSpec.declared s) x = 0.
Proof.
  intros s x H K. apply count_occ_not_In. intros I. destruct (H x I) as (t & c & E). now apply (kernel_not_name x K t c).
Qed.
Lemma declared_seq : forall a b, CodeGenSpec.declared (SSeq a b) = CodeGenSpec.declared a ++ CodeGenSpec.declared b.
Proof. reflexivity. Qed.
Lemma gn_skip : gn SSkip.
Proof. intros x []. Qed.

(** In the code of a row, the index i, the sizes and the output are not declared again, and the
    index j only by its loop. *)
Theorem row_names : forall r s f tagI nargs t ta g st g', row_code r s f tagI nargs t ta g = Ok (st, g') ->
  (forall x, In x ["i"; "nx"; "ny"; "out"]%string -> count_occ string_dec (CodeGenSpec.declared st) x = 0)
  /\ count_occ string_dec (CodeGenSpec.declared st) "j"%string = 1.
Proof.
  intros r s f tagI nargs t ta g st g' E. unfold row_code in E.
  destruct (tmp_array s r (dim f)) as [tmp| | |] eqn:Et; try discriminate. cbn [rbind] in E.
  destruct (direct_table_code f tagI (name "arg" (g "arg"%string)) nargs) as [tb| | |]; try discriminate. cbn [rbind] in E.
  destruct (InitializeReduction _ _ _ _) as [[c1 g1]| | |] eqn:E1; try discriminate. cbn [rbind] in E.
  destruct (initialize_temporary_accumulator _ _ _ _ _) as [[c2 g2]| | |] eqn:E2; try discriminate. cbn [rbind] in E.
  destruct (call _ _ _ _) as [[c3 g3]| | |] eqn:E3; try discriminate. cbn [rbind] in E.
  destruct (accumulate_result _ _ _ _ _ _ _ _ _ _) as [[c4 g4]| | |] eqn:E4; try discriminate. cbn [rbind] in E.
  destruct (periodic_accumulate_temporary _ _ _ _ _ _ _ _ _) as [[c5 g5]| | |] eqn:E5; try discriminate. cbn [rbind] in E.
  destruct (final_operation _ _ _ _ _ _ _ _) as [[c6 g6]| | |] eqn:E6; try discriminate. cbn [rbind] in E.
  destruct (FinalizeOutput _ _ _ _ _) as [[c7 g7]| | |] eqn:E7; try discriminate. cbn [rbind fst snd] in E.
  injection E as <- _. cbn [fst snd] in *.
  assert (G1 := gn_init _ _ _ _ _ _ E1). assert (G3 : gn c3) by (eapply gn_ok; eapply declared_once; exact E3).
  assert (G7 := gn_final _ _ _ _ _ _ _ E7).
  assert (G4 : gn c4).
  { destruct s; cbn [accumulate_result] in E4; [eapply gn_short; exact E4|eapply gn_short; exact E4|eapply gn_kahan; exact E4]. }
  assert (G5 : gn c5).
  { destruct s; cbn [periodic_accumulate_temporary] in E5; [injection E5 as <- _; apply gn_skip| |injection E5 as <- _; apply gn_skip].
    unfold seq2r in E5. destruct (ReducePair _ _ _ _ _ _ _) as [[u v]| | |] eqn:Er; try discriminate. cbn [rbind] in E5.
    destruct (seq2 _ _) as [[u' v']| | |] eqn:Es; try discriminate. cbn [rbind fst snd] in E5. injection E5 as <- _.
    intros x I. cbn [CodeGenSpec.declared] in I. revert x I. change (gn u').
    eapply gn_seq2; [|intros g0 s' g'' K; eapply gn_init; exact K|exact Es]. cbn [fst]. eapply gn_pair; exact Er. }
  assert (G6 : gn c6).
  { destruct s; cbn [final_operation] in E6; [injection E6 as <- _; apply gn_skip|eapply gn_pair; exact E6|injection E6 as <- _; apply gn_skip]. }
  assert (C2 : forall x, In x kernel_names -> x <> "period_accumulate"%string -> count_occ string_dec (CodeGenSpec.declared c2) x = 0).
  { intros x K Nx. destruct s; cbn [initialize_temporary_accumulator] in E2.
    - injection E2 as <- _. reflexivity.
    - destruct (InitializeReduction r (dim f) tmp g1) as [[u v]| | |] eqn:Ei; try discriminate. cbn [rbind fst snd] in E2. injection E2 as <- _.
      rewrite declared_seq, count_occ_app, (gn_none u x) by (auto; eapply gn_init; exact Ei).
      cbn [period_code CodeGenSpec.declared count_occ]. destruct (string_dec _ x); [congruence|reflexivity].
    - injection E2 as <- _. apply gn_none; [|exact K]. eapply gn_one. reflexivity. }
  assert (Ct : forall x, x <> "tmp"%string -> count_occ string_dec (CodeGenSpec.declared (declare_temporary_accumulator s tmp)) x = 0).
  { intros x Nx. destruct s; cbn [tmp_array] in Et; [reflexivity| |destruct r; try discriminate]; injection Et as <-;
      unfold declare_temporary_accumulator, declare_array, declare; cbn [aptr adim]; destruct (0 <? _); try reflexivity;
      cbn [CodeGenSpec.declared count_occ]; destruct (string_dec _ x); congruence. }
  assert (Cd : forall y d x, x <> y -> count_occ string_dec (CodeGenSpec.declared (declare_array (Array (PName y) d))) x = 0).
  { intros y d x Nx. unfold declare_array, declare. cbn [aptr adim]. destruct (0 <? d); [|reflexivity].
    cbn [CodeGenSpec.declared count_occ]. destruct (string_dec y x); congruence. }
  assert (Tot : forall x, In x kernel_names -> x <> "fout"%string -> x <> "acc"%string -> x <> "tmp"%string -> x <> "period_accumulate"%string ->
     forall st, st = SSeq (declare_array (Array (PName "fout") (dim f))) (SSeq (declare_array (Array (PName "acc") (red_dimred r (dim f))))
       (SSeq (declare_temporary_accumulator s tmp) (SSeq c1 (SSeq c2 (SSeq (SForVar "j" "ny" (SSeq c3 (SSeq c4 c5))) (SSeq c6 c7)))))) ->
     count_occ string_dec (CodeGenSpec.declared st) x = if string_dec "j" x then 1 else 0).
  { intros x K N1 N2 N3 N4 st0 ->. rewrite !declared_seq, !count_occ_app, !Cd, Ct, C2, !gn_none by auto.
    change (CodeGenSpec.declared (SForVar "j" "ny" (SSeq c3 (SSeq c4 c5))))
      with ("j"%string :: CodeGenSpec.declared c3 ++ CodeGenSpec.declared c4 ++ CodeGenSpec.declared c5).
    cbn [count_occ]. rewrite !count_occ_app, !gn_none by auto. destruct (string_dec "j" x); reflexivity. }
  split.
  - intros x I. cbn [In] in I. destruct I as [<-|[<-|[<-|[<-|[]]]]]; (etransitivity; [eapply Tot; try reflexivity; try discriminate; cbn; tauto|reflexivity]).
  - etransitivity; [eapply Tot; try reflexivity; try discriminate; cbn; tauto|reflexivity].
Qed.

(** ** An accumulator in double precision *)
Lemma double_accumulator : exists r, dtype_acc_allowed r = true /\
  forall s f tagI nargs g c, row_code r s f tagI nargs TFloat TDouble g <> Ok c.
Proof.
  exists CLse. split; [reflexivity|]. intros s f tagI nargs g c E. unfold row_code in E. cbn zeta in E.
  destruct (tmp_array s CLse (dim f)) as [tmp| | |]; try discriminate. cbn [rbind] in E.
  destruct (direct_table_code _ _ _ _) as [tb| | |]; try discriminate. cbn [rbind] in E.
  destruct (InitializeReduction _ _ _ _) as [[c1 g1]| | |]; try discriminate. cbn [rbind] in E.
  destruct (initialize_temporary_accumulator _ _ _ _ _) as [[c2 g2]| | |]; try discriminate. cbn [rbind] in E.
  destruct (call _ _ _ _) as [[c3 g3]| | |]; try discriminate. cbn [rbind] in E.
  destruct (accumulate_result _ _ _ _ _ _ _ _ _ _) as [[c4 g4]| | |] eqn:E4; try discriminate. cbn [rbind] in E.
  destruct (periodic_accumulate_temporary _ _ _ _ _ _ _ _ _) as [[c5 g5]| | |] eqn:E5; try discriminate.
  destruct s; discriminate.
Qed.

(** ** Concrete cases *)
(** exp(-x_i y_j), x = (2,3), y = (5,7,11). *)
Definition kernel3 : fm := Un UExp (Un UMinus (Bin BMult (Var 0 1 0) (Var 1 1 1))).
Definition decl3 : declaration := fun a => if Z.eqb a 0 then (1, 0) else (1, 1).
Definition data3 : Z -> nat -> R := fun a q =>
  if Z.eqb a 0 then match q with 0 => 2 | _ => 3 end%R else match q with 0 => 5 | 1 => 7 | _ => 11 end%R.
Definition g3 : gen := fun _ => 0.
Definition memory3 : mem :=
  [("out", OArr [None; None]);
   ("arg_0[0]", OArr [Some (Fin 2); Some (Fin 3)]);
   ("arg_0[1]", OArr [Some (Fin 5); Some (Fin 7); Some (Fin 11)])]%string.

Lemma case_declared : declared decl3 kernel3 /\ wf kernel3 /\ categories decl3
  /\ (forall i d, occurs i d kernel3 -> (0 <= i < Z.of_nat 2)%Z).
Proof.
  repeat split; auto; try (intros a; unfold decl3; destruct (Z.eqb a 0); cbn; lia);
    cbn in H; destruct H as [[-> _]|[-> _]]; lia.
Qed.
Lemma case_ready : ready decl3 kernel3 data3 0 2 3 2 1 (name "arg" 0) memory3.
Proof.
  split; [|split; [|split]].
  - intros i d H. cbn in H. destruct H as [[-> ->]|[-> ->]]; (split; [lia|]).
    + eexists. split; [reflexivity|]. intros [|[|q]] Q; cbn in Q; try lia; reflexivity.
    + eexists. split; [reflexivity|]. intros [|[|[|q]]] Q; cbn in Q; try lia; reflexivity.
  - intros t c. destruct (get (name t c) memory3) eqn:E; [|unfold name in E; exact E]. exfalso.
    assert (I : In (name t c) (map fst memory3)).
    { clear - E. induction memory3 as [|[x o'] l IH]; [discriminate|]. cbn [get map fst] in *.
      destruct (String.eqb_spec (name t c) x); [now left|right; auto]. }
    cbn [memory3 map fst In] in I. destruct I as [I|[I|[I|[]]]].
    + now apply (kernel_not_name "out" ltac:(cbn; tauto) t c).
    + now apply (arg_not_name "arg_0" 0 t c).
    + now apply (arg_not_name "arg_0" 1 t c).
  - eexists. split; [reflexivity|]. cbn. lia.
  - intros n j _ _. cbn. auto.
Qed.
Lemma case_sum : exists st g' m', row_code CSum block_sum kernel3 0 2 TFloat TDouble g3 = Ok (st, g')
  /\ launch (fun n => rev (seq 0 n)) st 0 2 3 memory3 = Some m'
  /\ get "out" m' = Some (OArr [Some (Fin (exp (- (2 * 5)) + exp (- (2 * 7)) + exp (- (2 * 11))));
                               Some (Fin (exp (- (3 * 5)) + exp (- (3 * 7)) + exp (- (3 * 11))))]).
Proof.
  destruct case_declared as (Hd & Hw & Hc & Ho).
  destruct (routine_sum block_sum kernel3 decl3 0 2 TFloat TDouble g3 Hd Hw Hc ltac:(lia) Ho) as (st & g' & E & H).
  destruct (H data3 2 3 memory3 (fun n => rev (seq 0 n))) as (m' & v & X & (_ & _ & c & c' & G & G' & L & V & _) & S).
  - intros n. apply Permutation_sym, Permutation_rev.
  - exact case_ready.
  - exists st, g', m'. split; [exact E|]. split; [exact X|]. rewrite G'. do 2 f_equal.
    injection G as <-. destruct c' as [|c0 [|c1 [|c2 c']]]; try discriminate L.
    assert (V0 := V 0 0 ltac:(cbn; lia) ltac:(cbn; lia)). assert (V1 := V 1 0 ltac:(cbn; lia) ltac:(cbn; lia)).
    cbn in V0, V1. injection V0 as ->. injection V1 as ->. rewrite !S by (cbn; lia).
    unfold reduce_sum. cbn. repeat f_equal; lra.
Qed.
