(** Proofs about the generated CPU routine: the table of the arguments and a row of the output. *)

From Coq Require Import ZArith Reals List Bool String Ascii Lia Lra Arith.
From Verif Require Import Result Formula SimplifyProofs Keys KeySpec XReal Reductions CpuReduc Loader LoaderProofs KernelSum KernelSumSpec CpuConvSpec
  CodeGen CSem CodeGenSpec C47Proofs C47Ops C47Main C47Gen KernelCode KernelSem KernelCodeSpec C48Proofs.
Import ListNotations.
Local Notation declared := KernelSumSpec.declared.
Local Open Scope list_scope.
Local Open Scope nat_scope.

(** ** Names *)
Definition kernel_names : list string :=
  ["i"; "j"; "nx"; "ny"; "acc"; "fout"; "tmp"; "out"; "period_accumulate"]%string.

Lemma last_char : forall x, In x kernel_names -> exists r c, x = (r ++ String c "")%string /\ digit c = false /\ c <> "]"%char.
Proof.
  intros x H. cbn [kernel_names In] in H.
  repeat (destruct H as [<-|H]; [match goal with |- exists r c, ?s = _ /\ _ =>
    let n := eval cbv in (String.length s - 1) in
    exists (substring 0 n s), (match String.get n s with Some c => c | None => "0"%char end) end; vm_compute; repeat split; discriminate|]).
  contradiction.
Qed.
Lemma kernel_not_name : forall x, In x kernel_names -> forall t n, x <> name t n.
Proof. intros x H t n. destruct (last_char x H) as (r & c & -> & D & _). now apply not_name. Qed.
Lemma arg_not_kernel : forall x, In x kernel_names -> forall arg k, arg_name arg k <> x.
Proof.
  intros x H arg k E. destruct (last_char x H) as (r & c & -> & _ & N). unfold arg_name in E.
  rewrite <- !app_assoc_s in E. apply app_last_inj in E. congruence.
Qed.
Lemma arg_not_name : forall arg k t n, arg_name arg k <> name t n.
Proof. intros arg k t n. unfold arg_name. rewrite <- !app_assoc_s. now apply not_name. Qed.

(** ** The table *)
Lemma list_set_length : forall A (l : list A) i x, List.length (list_set l i x) = List.length l.
Proof. induction l as [|y l IH]; intros [|i] x; cbn; auto. Qed.
Lemma list_set_nth : forall A (l : list A) i x k, i < List.length l ->
  nth_error (list_set l i x) k = if k =? i then Some x else nth_error l k.
Proof.
  induction l as [|y l IH]; intros [|i] x [|k] H; cbn in *; try lia; auto. apply IH. lia.
Qed.
Lemma py_index_ok : forall n i, (0 <= i < Z.of_nat n)%Z -> py_index n i = Ok (Z.to_nat i).
Proof.
  intros n i H. unfold py_index. destruct (Z.ltb_spec i 0); [lia|].
  destruct (Z.leb_spec 0 i); [|lia]. destruct (Z.ltb_spec i (Z.of_nat n)); [|lia]. reflexivity.
Qed.

Definition entry_of_table (decl : declaration) (arg : string) (row : option string) (i : Z) : option c_array :=
  Some (Array (row_ptr (PName (arg_name arg (Z.to_nat i))) row (fst (decl i))) (fst (decl i))).

Lemma fill_ok : forall decl arg nargs row vs t,
  (forall i d, In (i, d) vs -> (0 <= i < Z.of_nat nargs)%Z /\ (i < Z.of_nat (List.length t))%Z /\ d = fst (decl i)) ->
  exists t', fill_table arg nargs row vs t = Ok t' /\ List.length t' = List.length t
    /\ (forall i d, In (i, d) vs -> nth_error t' (Z.to_nat i) = Some (entry_of_table decl arg row i))
    /\ (forall i, (0 <= i)%Z -> (forall d, ~ In (i, d) vs) -> nth_error t' (Z.to_nat i) = nth_error t (Z.to_nat i)).
Proof.
  intros decl arg nargs row vs. induction vs as [|[i d] vs IH]; intros t H; cbn [fill_table].
  - exists t. repeat split; auto. intros i d [].
  - destruct (H i d) as (H1 & H2 & H3); [now left|]. rewrite py_index_ok by auto. cbn [rbind].
    rewrite py_index_ok by lia. cbn [rbind].
    destruct (IH (list_set t (Z.to_nat i) (Some (Array (row_ptr (PName (arg_name arg (Z.to_nat i))) row d) d)))) as (t' & E & L & S1 & S2).
    { intros i' d' I. rewrite list_set_length. apply H. now right. }
    exists t'. split; [exact E|]. rewrite list_set_length in L. split; [exact L|]. split.
    + intros i' d' I. destruct (in_dec (fun a b : Z * nat => ltac:(decide equality; [apply Nat.eq_dec|apply Z.eq_dec])) (i', d') vs) as [I'|N].
      * now apply (S1 i' d').
      * destruct I as [I|I]; [|contradiction]. injection I as -> ->.
        destruct (in_dec Z.eq_dec i' (map fst vs)) as [J|J].
        -- apply in_map_iff in J as ([i'' d''] & Q & J). cbn in Q. subst i''. now apply (S1 i' d'').
        -- rewrite S2; [|lia|intros d'' Q; apply J; apply (in_map fst) in Q; exact Q].
           rewrite list_set_nth by lia. rewrite Nat.eqb_refl. unfold entry_of_table. now rewrite H3.
    + intros i' P N. rewrite S2; [|exact P|intros d' I; apply (N d'); now right].
      rewrite list_set_nth by lia. destruct (Nat.eqb_spec (Z.to_nat i') (Z.to_nat i)) as [Q|Q]; [|reflexivity].
      exfalso. apply (N d). left. f_equal. lia.
Qed.

Lemma nminargs_above : forall f i d c, In (i, d, c) (vars f) -> (i < Z.of_nat (nminargs f))%Z \/ (i < 0)%Z.
Proof.
  intros f i d c I. destruct (Z.lt_ge_cases i 0) as [|P]; [now right|]. left. unfold nminargs.
  apply (in_map vpos) in I. cbn in I. destruct (map vpos (vars f)) as [|p l]; [contradiction|].
  assert (G : (i <= fold_right Z.max (-1) (p :: l))%Z).
  { clear P. revert I. generalize (p :: l). induction l0 as [|q l0 IH]; [contradiction|]. cbn [In fold_right].
    intros [->|I]; [lia|]. specialize (IH I). lia. }
  lia.
Qed.

Lemma occurs_vars : forall f i d, occurs i d f -> exists c, In (i, d, c) (vars f).
Proof.
  induction f; intros j n H; cbn [occurs vars] in *; try contradiction; eauto;
    try (destruct H as [H|H]; [destruct (IHf1 j n H) as [c' I]|destruct (IHf2 j n H) as [c' I]];
         exists c'; apply union_vars_in; auto; fail).
  - destruct H as [-> ->]. exists c. now left.
  - destruct H as [H|[H|H]]; [destruct (IHf1 j n H) as [c' I]|destruct (IHf2 j n H) as [c' I]|destruct (IHf3 j n H) as [c' I]];
      exists c'; rewrite !union_vars_in; auto.
Qed.
Lemma vars_occurs : forall f i d c, In (i, d, c) (vars f) -> occurs i d f.
Proof.
  induction f; intros j n c0 H; cbn [occurs vars] in *; rewrite ?union_vars_in in H; try contradiction; try (intuition eauto; fail).
  destruct H as [H|[]]. injection H as -> -> ->. auto.
Qed.

(** The row of a variable of category [c]. *)
Definition row_of (tagI c : nat) : option string :=
  if c =? 2 then None else if c =? tagI then Some "i"%string else Some "j"%string.

Lemma table_ok_code : forall decl f tagI arg nargs, declared decl f -> categories decl -> tagI <= 1 ->
  (forall i d, occurs i d f -> (0 <= i < Z.of_nat nargs)%Z) ->
  exists table, direct_table_code f tagI arg nargs = Ok table
    /\ forall i d, occurs i d f -> d = fst (decl i)
       /\ nth_error table (Z.to_nat i) = Some (entry_of_table decl arg (row_of tagI (snd (decl i))) i).
Proof.
  intros decl f tagI arg nargs Dc C T B. unfold direct_table_code. cbn [loader varsI varsJ varsP].
  assert (V : forall c i d, In (i, d) (vars_cat f c) <-> In (i, d, c) (vars f)).
  { intros c i d. unfold vars_cat. rewrite in_map_iff. split.
    - intros ([[i' d'] c'] & Q & I). cbn in Q. injection Q as -> ->. apply filter_In in I as [I Q]. cbn in Q.
      apply Nat.eqb_eq in Q. now subst.
    - intros I. exists (i, d, c). split; [reflexivity|]. apply filter_In. split; [exact I|]. apply Nat.eqb_refl. }
  assert (V' : forall i d c, In (i, d, c) (vars f) -> (0 <= i < Z.of_nat nargs)%Z /\ (i < Z.of_nat (nminargs f))%Z /\ decl i = (d, c)).
  { intros i d c I. assert (P := B i d (vars_occurs f i d c I)). split; [exact P|].
    split; [destruct (nminargs_above f i d c I); lia|]. now apply (vars_declared decl f Dc). }
  assert (W : forall c (t : list (option c_array)), List.length t = nminargs f -> forall i d, In (i, d) (vars_cat f c) ->
     (0 <= i < Z.of_nat nargs)%Z /\ (i < Z.of_nat (List.length t))%Z /\ d = fst (decl i)).
  { intros c t L i d I. apply V in I. destruct (V' i d c I) as (H1 & H2 & H3). rewrite L, H3. auto. }
  destruct (fill_ok decl arg nargs (Some "i"%string) (vars_cat f tagI) (repeat None (nminargs f))) as (t1 & E1 & L1 & S1 & O1).
  { apply W. apply repeat_length. }
  rewrite repeat_length in L1. rewrite E1. cbn [rbind].
  destruct (fill_ok decl arg nargs (Some "j"%string) (vars_cat f (1 - tagI)) t1) as (t2 & E2 & L2 & S2 & O2); [now apply W|].
  rewrite L1 in L2. rewrite E2. cbn [rbind].
  destruct (fill_ok decl arg nargs None (vars_cat f 2) t2) as (t3 & E3 & L3 & S3 & O3); [now apply W|].
  exists t3. split; [exact E3|]. intros i d Oc. destruct (occurs_vars f i d Oc) as [c I].
  destruct (V' i d c I) as (P & _ & Ed). rewrite Ed. cbn [fst snd]. split; [reflexivity|].
  assert (Cc : c <= 2) by (specialize (C i); rewrite Ed in C; exact C).
  assert (Un : forall c', c' <> c -> forall d', ~ In (i, d') (vars_cat f c')).
  { intros c' N d' I'. apply V in I'. destruct (V' _ _ _ I') as (_ & _ & Q). rewrite Ed in Q. congruence. }
  unfold row_of. destruct (Nat.eqb_spec c 2) as [->|N2].
  - apply (S3 i d). now apply V.
  - destruct (Nat.eqb_spec c tagI) as [->|NI].
    + rewrite O3 by (try lia; apply Un; lia). rewrite O2 by (try lia; apply Un; lia). apply (S1 i d). now apply V.
    + rewrite O3 by (try lia; apply Un; lia). apply (S2 i d). apply V. replace (1 - tagI) with c by lia. exact I.
Qed.

(** ** Memories *)
Lemma gen_skip : forall pre x, generated pre -> In x kernel_names -> ~ In x (map fst pre).
Proof. intros pre x G K I. destruct (G x I) as (t & c & E). now apply (kernel_not_name x K t c). Qed.
Lemma gen_get : forall pre m x, generated pre -> In x kernel_names -> get x (pre ++ m) = get x m.
Proof. intros. apply get_app_skip. now apply gen_skip. Qed.
Lemma put_app_skip : forall pre m x o, ~ In x (map fst pre) -> put x o (pre ++ m) = pre ++ put x o m.
Proof.
  induction pre as [|[y p] pre IH]; intros m x o H; [reflexivity|]. cbn [List.app put].
  destruct (String.eqb_spec x y) as [->|N]; [exfalso; apply H; now left|]. f_equal. apply IH. intros I. apply H. now right.
Qed.
Lemma gen_put : forall pre m x o, generated pre -> In x kernel_names -> put x o (pre ++ m) = pre ++ put x o m.
Proof. intros. apply put_app_skip. now apply gen_skip. Qed.
Lemma gen_app : forall a b, generated a -> generated b -> generated (a ++ b).
Proof. intros a b A B y I. rewrite map_app in I. apply in_app_or in I as [I|I]; auto. Qed.
Lemma region_app : forall rho pre m p n w, ~ In (base p) (map fst pre) ->
  @region rho (pre ++ m) p n w = pre ++ @region rho m p n w.
Proof.
  intros rho pre m p n w. induction pre as [|[x o] pre IH]; intros H; [reflexivity|]. cbn [List.app].
  rewrite region_cons by (intros E; apply H; left; exact E). f_equal. apply IH. intros I. apply H. now right.
Qed.
Lemma region_name : forall rho m x c d v, get x m = Some (OArr c) -> List.length c = d ->
  @region rho m (PName x) d (fun k => Some (v k)) = put x (arr d v) m.
Proof.
  intros rho m x c d v G L. unfold region. cbn [base off]. rewrite G. f_equal. unfold arr. f_equal. apply nth_error_ext.
  intros k. rewrite over_spec by lia. cbn [Nat.leb andb]. destruct (Nat.ltb_spec k (0 + d)) as [K|K].
  - rewrite nth_map_seq by lia. now rewrite Nat.sub_0_r.
  - rewrite !(proj2 (nth_error_None _ _)); auto; rewrite ?map_length, ?seq_length; lia.
Qed.

Definition clean (m : mem) : Prop := forall t c, get (name t c) m = None.
Lemma clean_fresh : forall g m, clean m -> fresh g m.
Proof. intros g m C t c B. exfalso. apply B. apply C. Qed.
Lemma clean_cons : forall x o m, In x kernel_names -> clean m -> clean ((x, o) :: m).
Proof. intros x o m K C t c. rewrite get_cons_other; [apply C|]. intros E. now apply (kernel_not_name x K t c). Qed.

Lemma each_rule : forall body x n i (I : nat -> mem),
  (forall j, i <= j < i + n -> exists pre, body j ((x, OInt j) :: I j) = Some (pre ++ I (S j))
     /\ List.length (I (S j)) = List.length (I j)) ->
  each body x (seq i n) (I i) = Some (I (i + n)).
Proof.
  intros body x n. induction n as [|n IH]; intros i I H; cbn [seq each]; [now rewrite Nat.add_0_r|].
  destruct (H i ltac:(lia)) as (pre & E & L). rewrite E, leave_app by auto.
  rewrite IH; [f_equal; f_equal; lia|]. intros j J. apply H. lia.
Qed.

(** ** A row of the output *)
Section Row.
Variables (r : red) (s : scheme) (f : fm) (decl : declaration) (A : Z -> nat -> R) (tagI M N nargs : nat) (t ta : ftype).
Variables (g : gen) (n : nat) (m0 : mem) (co : list (option xr)) (rho : indices).
Let d := dim f.
Let D := red_dimred r d.
Let red_ := meaning r d.
Let ny := red_terms tagI M N.
Let arg := name "arg" (g "arg").
Let F (j : nat) : cells := terms decl A f tagI n j.

Hypothesis Hdecl : declared decl f.
Hypothesis Hwf : wf f.
Hypothesis Hcat : categories decl.
Hypothesis Htag : tagI <= 1.
Hypothesis Htypes : types_ok r t ta.
Hypothesis Hargs : arguments_in decl f A M N nargs arg m0.
Hypothesis Hclean : clean m0.
Hypothesis Hny : get "ny" m0 = Some (OInt ny).
Hypothesis Hout : get "out" m0 = Some (OArr co).
Hypothesis Hroom : n * red_dim r d + red_dim r d <= List.length co.
Hypothesis Hn : n < out_rows tagI M N.
Hypothesis Hrho : rho "i"%string = n.
Hypothesis Hsafe : forall j, j < ny -> safe (at_point decl A tagI n j) f.

Lemma d_pos : 1 <= d.
Proof. unfold d. now apply dim_pos. Qed.
Lemma D_pos : 1 <= D.
Proof. pose proof d_pos. unfold D. destruct r; cbn [red_dimred]; lia. Qed.

(** The formula. *)
Lemma formula_ok : forall table j m g1 c, j < ny ->
  direct_table_code f tagI arg nargs = Ok table ->
  (forall k, get (arg_name arg k) m = get (arg_name arg k) m0) ->
  get "fout" m = Some (OArr c) -> List.length c = d -> fresh g1 m ->
  exists st g', call f (Array (PName "fout") d) table g1 = Ok (st, g') /\ gle g1 g'
    /\ exec (set_index rho "j" j) st m = Some (put "fout" (arr d (F j)) m).
Proof.
  intros table j m g1 c J Et Ga Gf Lc Fr.
  destruct (table_ok_code decl f tagI arg nargs Hdecl Hcat Htag) as (table' & Et' & Tb).
  { intros i e Oc. now destruct (Hargs i e Oc). }
  assert (table' = table) by congruence. subst table'.
  destruct (@call_correct (set_index rho "j" j) (at_point decl A tagI n j) table f Hwf (Hsafe j J) (PName "fout") g1 m) as (st & g' & E & L & X).
  - exists c. split; [exact Gf|]. cbn [CSem.off]. unfold d in Lc. lia.
  - exact Fr.
  - intros i e Oc. destruct (Hargs i e Oc) as (P & ci & Gi & Ci). split; [lia|].
    destruct (Tb i e Oc) as (He & Nt). unfold entry_of_table in Nt.
    eexists. split; [exact Nt|]. split; [now rewrite He|].
    assert (Nm : (arg ++ "[" ++ str_int i ++ "]")%string = arg_name arg (Z.to_nat i)).
    { unfold arg_name. rewrite Z2Nat.id by lia. reflexivity. }
    rewrite Nm, <- Ga in Gi.
    assert (Bs : base (row_ptr (PName (arg_name arg (Z.to_nat i))) (row_of tagI (snd (decl i))) (fst (decl i))) = arg_name arg (Z.to_nat i)).
    { destruct (row_of tagI (snd (decl i))); reflexivity. }
    split; [|split].
    + cbn [aptr]. rewrite Bs. unfold bound. rewrite Gi. discriminate.
    + cbn [aptr]. rewrite Bs. apply arg_not_kernel. cbn. tauto.
    + cbn [adim aptr]. intros k K. unfold CSem.read. rewrite Bs, Gi.
      specialize (Hcat i).
      assert (Val : forall rw, rw < rows (snd (decl i)) M N ->
         at_point decl A tagI n j i k = A i (rw * fst (decl i) + k) ->
         CSem.off (set_index rho "j" j) (row_ptr (PName (arg_name arg (Z.to_nat i))) (row_of tagI (snd (decl i))) (fst (decl i))) = rw * fst (decl i) ->
         match nth_error ci (CSem.off (set_index rho "j" j) (row_ptr (PName (arg_name arg (Z.to_nat i))) (row_of tagI (snd (decl i))) (fst (decl i))) + k) with
         | Some o => o | None => None end = Some (Fin (at_point decl A tagI n j i k))).
      { intros rw Lr Ev Eo. rewrite Eo, Ev, Ci; [reflexivity|]. rewrite He.
        assert ((rw + 1) * fst (decl i) <= rows (snd (decl i)) M N * fst (decl i)) by (apply Nat.mul_le_mono_r; lia). lia. }
      assert (Rj : set_index rho "j" j "j"%string = j) by reflexivity.
      assert (Ri : set_index rho "j" j "i"%string = n) by (unfold set_index; cbn; exact Hrho).
      unfold ny in *. unfold out_rows, red_terms, row_of, rows in *. unfold at_point, point, contiguous, row in *.
      destruct (decl i) as [di ci'] eqn:Ed. cbn [fst snd] in *.
      destruct tagI as [|[|?]]; [| |lia]; destruct ci' as [|[|[|?]]]; try lia; cbn [Nat.eqb row_ptr CSem.off base] in *;
        [apply (Val n)|apply (Val j)|apply (Val 0)|apply (Val j)|apply (Val n)|apply (Val 0)]; try lia; try reflexivity;
        rewrite Ed; reflexivity.
  - exists st, g'. split; [exact E|]. split; [exact L|]. etransitivity; [exact X|].
    replace (fun k => Some (Fin (eval f (at_point decl A tagI n j) k))) with (fun k => Some (F j k)).
    2:{ unfold F, terms, at_point. destruct tagI; reflexivity. }
    f_equal. eapply region_name; eauto.
Qed.

Local Notation none k := (OArr (repeat None k)).
Definition stack (s : scheme) (P : nat) (fo a c : obj) : mem :=
  match s with
  | direct_sum => [("acc", a); ("fout", fo)]
  | block_sum => [("period_accumulate", OInt P); ("tmp", c); ("acc", a); ("fout", fo)]
  | kahan_scheme => [("tmp", c); ("acc", a); ("fout", fo)]
  end%string.
Lemma stack_clean : forall sc P fo a c m, clean m -> clean (stack sc P fo a c ++ m).
Proof. intros sc P fo a c m C. destruct sc; cbn [stack List.app]; repeat (apply clean_cons; [cbn; tauto|]); exact C. Qed.
Lemma stack_length : forall sc P fo a c fo' a' c' (m : mem),
  List.length (stack sc P fo a c ++ m) = List.length (stack sc P fo' a' c' ++ m).
Proof. intros. destruct sc; reflexivity. Qed.
Lemma stack_arg : forall sc P fo a c m k, get (arg_name arg k) (stack sc P fo a c ++ m) = get (arg_name arg k) m.
Proof.
  intros. apply get_app_skip. intros I.
  assert (K : forall x, In x kernel_names -> arg_name arg k <> x) by (intros x K; now apply arg_not_kernel).
  destruct sc; cbn [stack map fst In] in I; decompose [or] I; try contradiction;
    match goal with H : ?x = arg_name _ _ |- _ => apply (K x); [cbn; tauto|now symmetry] end.
Qed.

Definition fo (j : nat) : obj := match j with O => OArr (repeat None d) | S j => arr d (F j) end.
Lemma fo_arr : forall j, exists c, fo j = OArr c /\ List.length c = d.
Proof.
  intros [|j]; cbn [fo]; unfold arr; eexists; (split; [reflexivity|]);
    rewrite ?repeat_length, ?map_length, ?seq_length; reflexivity.
Qed.

(** The formula, in the loop. *)
Lemma formula_in_loop : forall table j sc P a c g1, j < ny -> direct_table_code f tagI arg nargs = Ok table ->
  exists st g', call f (Array (PName "fout") d) table g1 = Ok (st, g')
    /\ exec (set_index rho "j" j) st (("j"%string, OInt j) :: stack sc P (fo j) a c ++ m0)
       = Some (("j"%string, OInt j) :: stack sc P (arr d (F j)) a c ++ m0).
Proof.
  intros table j sc P a c g1 J Et. destruct (fo_arr j) as (w & Ew & Lw).
  destruct (formula_ok table j (("j"%string, OInt j) :: stack sc P (fo j) a c ++ m0) g1 w J Et) as (st & g' & E & _ & X).
  - intros k. rewrite get_cons_other; [apply stack_arg|]. first [apply not_eq_sym; apply arg_not_kernel|apply arg_not_kernel]; cbn; tauto.
  - rewrite Ew. destruct sc; reflexivity.
  - exact Lw.
  - apply clean_fresh. apply clean_cons; [cbn; tauto|]. now apply stack_clean.
  - exists st, g'. split; [exact E|]. etransitivity; [exact X|]. destruct sc; reflexivity.
Qed.

(** The end of the row. *)
Lemma finish_ok : forall pre sc P fo a c g1, generated pre -> 
  fresh g1 (pre ++ stack sc P fo (arr D a) c ++ m0) ->
  exists st g', FinalizeOutput r d (Array (PName "acc") D) (Array (PVar (PName "out") "i" (red_dim r d)) (red_dim r d)) g1 = Ok (st, g')
   /\ exec rho st (pre ++ stack sc P fo (arr D a) c ++ m0)
      = Some ((pre ++ stack sc P fo (arr D a) c) ++ @region rho m0 (PVar (PName "out") "i" (red_dim r d)) (red_dim r d)
                (fun k => Some (rfinal red_ a k))).
Proof.
  intros pre sc P fo' a c g1 G Fr.
  assert (Go : get "out" (pre ++ stack sc P fo' (arr D a) c ++ m0) = Some (OArr co)).
  { rewrite gen_get by (auto; cbn; tauto). destruct sc; cbn [stack List.app get String.eqb Ascii.eqb Bool.eqb]; exact Hout. }
  destruct (@final_ok rho r d (pre ++ stack sc P fo' (arr D a) c ++ m0) g1 "acc" (PVar (PName "out") "i" (red_dim r d)) a) as (st & g' & E & _ & X).
  - exact d_pos.
  - rewrite gen_get by (auto; cbn; tauto). destruct sc; reflexivity.
  - exists co. split; [exact Go|]. cbn [CSem.off]. rewrite Hrho. lia.
  - cbn [base]. discriminate.
  - exact Fr.
  - exists st, g'. split; [exact E|]. etransitivity; [exact X|]. rewrite app_assoc, region_app; [reflexivity|].
    rewrite map_app. intros I. apply in_app_or in I as [I|I].
    + revert I. apply gen_skip; auto. cbn. tauto.
    + destruct sc; cbn [stack map fst In base] in I; intuition discriminate.
Qed.

Lemma exec_arr : forall rho' x k m, exec rho' (SArr x k) m = Some ((x, none k) :: m).
Proof. reflexivity. Qed.
Lemma exec_skip : forall rho' m, exec rho' SSkip m = Some m.
Proof. reflexivity. Qed.
Lemma exec_forvar : forall rho' x y st m k, get y m = Some (OInt k) ->
  exec rho' (SForVar x y st) m = each (fun i => exec (set_index rho' x i) st) x (seq 0 k) m.
Proof. intros rho' x y st m k G. cbn [CSem.exec]. now rewrite G. Qed.
Lemma exec_step : forall rho' st1 st2 m m1, exec rho' st1 m = Some m1 -> exec rho' (SSeq st1 st2) m = exec rho' st2 m1.
Proof. intros rho' st1 st2 m m1 E. rewrite exec_seq, E. reflexivity. Qed.

Lemma ind_ok : forall rho' m x j, get "j" m = Some (OInt j) -> x <> "j"%string -> forall k i o, get k m = None ->
  CSem.ceval rho' ((k, OInt i) :: put x o m) (EInt (IVar "j")) = Some (of_long (Z.of_nat j)).
Proof.
  intros rho' m x j G Nx k i o U. cbn [CSem.ceval ieval].
  rewrite get_cons_other by (intros E; subst k; congruence). rewrite get_put_other by auto. rewrite G.
  cbn [obind]. unfold of_long. now rewrite INR_IZR_INZ.
Qed.

Lemma table_generates : exists table, direct_table_code f tagI arg nargs = Ok table
  /\ forall g1, exists st g', call f (Array (PName "fout") d) table g1 = Ok (st, g').
Proof.
  destruct (table_ok_code decl f tagI arg nargs Hdecl Hcat Htag) as (table & Et & Tb).
  { intros i e Oc. now destruct (Hargs i e Oc). }
  exists table. split; [exact Et|]. intros g1.
  destruct (call_generates f Hwf table (Array (PName "fout") d) g1 eq_refl) as ([st g'] & E); [|now exists st, g'].
  intros i e Oc. destruct (Hargs i e Oc) as (P & _). destruct (Tb i e Oc) as (He & Nt). unfold entry_of_table in Nt.
  eexists. split; [apply tab_get; [lia|exact Nt]|]. cbn [adim]. now symmetry.
Qed.

Local Notation outi := (PVar (PName "out") "i" (red_dim r d)).
Local Notation written v := (@region rho m0 outi (red_dim r d) (fun k => Some (v k))).

Lemma row_direct : exists st g' pre v, row_code r direct_sum f tagI nargs t ta g = Ok (st, g')
  /\ cpu_row red_ direct_sum ny F = Ok v /\ exec rho st m0 = Some (pre ++ written v).
Proof.
  unfold row_code. cbn [tmp_array rbind]. fold d. fold arg. fold D.
  destruct table_generates as (table & Et & Hc). rewrite Et. cbn [rbind].
  assert (Dp := D_pos). assert (dp := d_pos).
  destruct (@init_ok rho r d (stack direct_sum 0 (none d) (none D) (none 0) ++ m0) "acc" (repeat None D) (next g "arg"))
    as (s1 & g1 & E1 & _ & X1); [exact dp|reflexivity|apply repeat_length|apply clean_fresh; now apply stack_clean|].
  fold D in E1. rewrite E1. cbn [rbind initialize_temporary_accumulator snd fst].
  destruct (Hc g1) as (s3 & g3 & E3). rewrite E3. cbn [rbind snd fst accumulate_result].
  assert (Sh : forall j a, @updates (set_index rho "j" j) (("j"%string, OInt j) :: stack direct_sum 0 (arr d (F j)) (arr D a) (none 0) ++ m0) g3
     (ReducePairShort r d ta t (Array (PName "acc") D) (Array (PName "fout") d) (EInt (IVar "j")) g3) "acc" D
     (rshort red_ a (F j) (Z.of_nat j))).
  { intros j a. apply short_ok; auto; try reflexivity; try discriminate.
    - apply clean_fresh. apply clean_cons; [cbn; tauto|]. now apply stack_clean.
    - intros k i o U. apply ind_ok; auto. discriminate. }
  destruct (Sh 0 (rinit red_)) as (s4 & g4 & _ & E4 & _). rewrite E4. cbn [rbind snd fst periodic_accumulate_temporary final_operation].
  set (v := for_up ny (fun j acc => rshort red_ acc (F j) (Z.of_nat j)) (rinit red_)).
  destruct (finish_ok [] direct_sum 0 (fo ny) v (none 0) g4) as (s7 & g7 & E7 & X7);
    [intros y []|apply clean_fresh; now apply stack_clean|].
  rewrite E7. cbn [rbind fst snd].
  eexists _, _, _, _. split; [reflexivity|]. split; [reflexivity|].
  unfold declare_array, declare. cbn [aptr adim]. destruct (Nat.ltb_spec 0 d); [|lia]. destruct (Nat.ltb_spec 0 D); [|lia].
  do 3 (erewrite exec_step by reflexivity). erewrite exec_step by exact X1. erewrite exec_step by reflexivity.
  change (put "acc" (arr D (rinit red_)) (stack direct_sum 0 (none d) (none D) (none 0) ++ m0))
    with (stack direct_sum 0 (fo 0) (arr D (rinit red_)) (none 0) ++ m0).
  erewrite exec_step; [erewrite exec_step by reflexivity; exact X7|].
  erewrite exec_forvar; [|exact Hny].
  etransitivity; [apply (each_rule _ "j" ny 0 (fun j => stack direct_sum 0 (fo j)
     (arr D (for_up j (fun j acc => rshort red_ acc (F j) (Z.of_nat j)) (rinit red_))) (none 0) ++ m0))|reflexivity].
  intros j J. set (a := for_up j _ _).
  destruct (formula_in_loop table j direct_sum 0 (arr D a) (none 0) g1 ltac:(lia) Et) as (s3' & g3' & E3' & X3).
  assert (Q3 : s3' = s3) by congruence. subst s3'.
  destruct (Sh j a) as (s4' & g4' & pre & E4' & _ & X4 & _). assert (Q4 : s4' = s4) by congruence. subst s4'.
  exists (pre ++ [("j"%string, OInt j)]). split; [|apply stack_length].
  erewrite exec_step by exact X3. erewrite exec_step by exact X4. rewrite exec_skip. f_equal. rewrite <- app_assoc. f_equal.
Qed.

Definition P := period_accumulate ny.
Lemma P_pos : P <> 0.
Proof.
  unfold P, period_accumulate. destruct (Nat.ltb_spec ny 10); [lia|]. intros E. assert (X := Nat.sqrt_spec ny ltac:(lia)).
  rewrite E in X. cbn in X. lia.
Qed.

(** The end of an iteration of block_sum: every [P] iterations, the temporary accumulator is emptied. *)
Lemma block_end : forall p j a b pre g4 s5 g5, rpair red_ = Ok p -> generated pre ->
  fresh g4 (pre ++ ("j"%string, OInt j) :: stack block_sum P (arr d (F j)) (arr D a) (arr D b) ++ m0) ->
  seq2r (ReducePair r d ta t (Array (PName "acc") D) (Array (PName "tmp") D) g4)
        (InitializeReduction r d (Array (PName "tmp") D)) = Ok (s5, g5) ->
  exec (set_index rho "j" j)
    (SIf CEq (EInt (IMod (IAdd (IVar "j") (IConst 1)) (IVar "period_accumulate"))) (EZ 0) s5)
    (pre ++ ("j"%string, OInt j) :: stack block_sum P (arr d (F j)) (arr D a) (arr D b) ++ m0)
  = Some (pre ++ ("j"%string, OInt j) :: stack block_sum P (arr d (F j))
      (arr D (if (j + 1) mod P =? 0 then p a b else a)) (arr D (if (j + 1) mod P =? 0 then rinit red_ else b)) ++ m0).
Proof.
  intros p j a b pre g4 s5 g5 Rp G Fr E5.
  set (m := pre ++ _) in *. set (rho' := set_index rho "j" j).
  assert (Gj : get "j" m = Some (OInt j)) by (unfold m; rewrite gen_get by (auto; cbn; tauto); reflexivity).
  assert (Gp : get "period_accumulate" m = Some (OInt P)) by (unfold m; rewrite gen_get by (auto; cbn; tauto); reflexivity).
  cbn [CSem.exec CSem.ceval ieval]. rewrite Gj. cbn [obind]. rewrite Gp. cbn [obind].
  destruct (Nat.eqb_spec P 0) as [Z|_]; [now destruct P_pos|]. cbn [obind CSem.compare xeqb].
  destruct (Nat.eqb_spec ((j + 1) mod P) 0) as [Z|Nz].
  - rewrite Z. destruct (Req_EM_T (INR 0) 0) as [_|X]; [|exfalso; apply X; reflexivity].
    destruct (@pair_ok rho' r d m g4 "acc" "tmp" a b ta t p d_pos Htypes Rp) as (u & gu & pre1 & Eu & _ & Xu & Gu & Fu);
      try discriminate; auto.
    { unfold m. rewrite gen_get by (auto; cbn; tauto). reflexivity. }
    { unfold m. rewrite gen_get by (auto; cbn; tauto). reflexivity. }
    unfold seq2r in E5. fold D in Eu. rewrite Eu in E5. cbn [rbind] in E5. unfold seq2 in E5. cbn [fst snd] in E5.
    set (m1 := pre1 ++ _) in *.
    assert (Em1 : m1 = (pre1 ++ pre) ++ ("j"%string, OInt j) :: stack block_sum P (arr d (F j)) (arr D (p a b)) (arr D b) ++ m0).
    { unfold m1, m. rewrite gen_put by (auto; cbn; tauto). rewrite <- app_assoc. reflexivity. }
    assert (G12 : generated (pre1 ++ pre)) by now apply gen_app.
    destruct (@init_ok rho' r d m1 "tmp" (map (fun k => Some (b k)) (seq 0 D)) gu d_pos) as (w & gw & Ew & _ & Xw).
    { rewrite Em1. rewrite gen_get by (auto; cbn; tauto). reflexivity. }
    { unfold D. now rewrite map_length, seq_length. }
    { exact Fu. }
    fold D in Ew. rewrite Ew in E5. cbn [rbind fst snd] in E5. injection E5 as <- _.
    erewrite exec_step by exact Xu. rewrite Xw. cbn [obind]. f_equal.
    rewrite Em1, gen_put by (auto; cbn; tauto). rewrite <- app_assoc. apply leave_app.
    unfold m. rewrite !app_length. reflexivity.
  - destruct (Req_EM_T (INR ((j + 1) mod P)) 0) as [X|_]; [|reflexivity].
    exfalso. apply Nz. now apply INR_eq.
Qed.

Lemma row_block : forall p, rpair red_ = Ok p ->
  exists st g' pre v, row_code r block_sum f tagI nargs t ta g = Ok (st, g')
  /\ cpu_row red_ block_sum ny F = Ok v /\ exec rho st m0 = Some (pre ++ written v).
Proof.
  intros p Rp. unfold row_code. cbn [tmp_array rbind]. fold d. fold arg. fold D.
  destruct table_generates as (table & Et & Hc). rewrite Et. cbn [rbind].
  assert (Dp := D_pos). assert (dp := d_pos).
  set (st0 := fun a b => stack kahan_scheme 0 (none d) a b ++ m0).
  destruct (@init_ok rho r d (st0 (none D) (none D)) "acc" (repeat None D) (next g "arg"))
    as (s1 & g1 & E1 & _ & X1); [exact dp|reflexivity|apply repeat_length|apply clean_fresh; now apply stack_clean|].
  fold D in E1. rewrite E1. cbn [rbind initialize_temporary_accumulator snd fst].
  destruct (@init_ok rho r d (("period_accumulate"%string, OInt P) :: st0 (arr D (rinit red_)) (none D)) "tmp" (repeat None D) g1)
    as (s2 & g2 & E2 & _ & X2); [exact dp|reflexivity|apply repeat_length|
      apply clean_fresh; apply clean_cons; [cbn; tauto|now apply stack_clean]|].
  fold D in E2. rewrite E2. cbn [rbind snd fst].
  destruct (Hc g2) as (s3 & g3 & E3). rewrite E3. cbn [rbind snd fst accumulate_result].
  assert (Sh : forall j a b, @updates (set_index rho "j" j) (("j"%string, OInt j) :: stack block_sum P (arr d (F j)) (arr D a) (arr D b) ++ m0) g3
     (ReducePairShort r d t t (Array (PName "tmp") D) (Array (PName "fout") d) (EInt (IVar "j")) g3) "tmp" D
     (rshort red_ b (F j) (Z.of_nat j))).
  { intros j a b. apply short_ok; auto; try reflexivity; try discriminate.
    - now right.
    - apply clean_fresh. apply clean_cons; [cbn; tauto|]. now apply stack_clean.
    - intros k i o U. apply ind_ok; auto. discriminate. }
  destruct (Sh 0 (rinit red_) (rinit red_)) as (s4 & g4 & pre0 & E4 & _ & _ & _ & _). rewrite E4.
  cbn [rbind snd fst periodic_accumulate_temporary].
  assert (Pc : forall rho' g', exists s' g'', ReducePair r d ta t (Array (PName "acc") D) (Array (PName "tmp") D) g' = Ok (s', g'')
     /\ forall pre fo a b, generated pre -> fresh g' (pre ++ stack block_sum P fo (arr D a) (arr D b) ++ m0) ->
        exists pre', exec rho' s' (pre ++ stack block_sum P fo (arr D a) (arr D b) ++ m0)
          = Some (pre' ++ stack block_sum P fo (arr D (p a b)) (arr D b) ++ m0)
          /\ generated pre' /\ fresh g'' (pre' ++ stack block_sum P fo (arr D (p a b)) (arr D b) ++ m0)).
  { intros rho' g'.
    assert (K : forall pre fo a b, generated pre -> fresh g' (pre ++ stack block_sum P fo (arr D a) (arr D b) ++ m0) ->
       @updates rho' (pre ++ stack block_sum P fo (arr D a) (arr D b) ++ m0) g'
         (ReducePair r d ta t (Array (PName "acc") D) (Array (PName "tmp") D) g') "acc" D (p a b)).
    { intros pre fo' a b G Fr. apply (@pair_ok rho' r d _ g' "acc" "tmp" a b ta t p d_pos Htypes Rp); try discriminate; auto;
        rewrite gen_get by (auto; cbn; tauto); reflexivity. }
    assert (K0 := K [] (none d) (rinit red_) (rinit red_)). 
    destruct K0 as (s' & g'' & _ & E & _); [intros y []|apply clean_fresh; now apply stack_clean|].
    exists s', g''. split; [exact E|]. intros pre fo' a b G Fr.
    destruct (K pre fo' a b G Fr) as (s5 & g5 & pre5 & E5 & _ & X5 & G5 & F5).
    assert (s5 = s' /\ g5 = g'') as [-> ->] by (split; congruence).
    rewrite gen_put in X5, F5 by (auto; cbn; tauto).
    exists (pre5 ++ pre). rewrite <- app_assoc. split; [exact X5|]. split; [now apply gen_app|exact F5]. }
  destruct (Pc rho g4) as (s5 & g5 & E5 & _). unfold seq2r at 1. rewrite E5. cbn [rbind]. unfold seq2. cbn [fst snd].
  destruct (@init_ok rho r d (stack block_sum P (none d) (none D) (none D) ++ m0) "tmp" (repeat None D) g5)
    as (s6 & g6 & E6 & _ & _); [exact dp|reflexivity|apply repeat_length|apply clean_fresh; now apply stack_clean|].
  fold D in E6. rewrite E6. cbn [rbind fst snd final_operation].
  destruct (Pc rho g6) as (s7 & g7 & E7 & X7). rewrite E7. cbn [rbind fst snd].
  destruct (for_up ny (block_body red_ p P F) (rinit red_, rinit red_)) as [va vb] eqn:Ev.
  destruct (X7 [] (fo ny) va vb) as (pre & X8 & G8 & F8); [intros y []|apply clean_fresh; now apply stack_clean|].
  destruct (finish_ok pre block_sum P (fo ny) (p va vb) (arr D vb) g7) as (s9 & g9 & E9 & X9); [exact G8|exact F8|].
  rewrite E9. cbn [rbind fst snd].
  eexists _, _, _, _. split; [reflexivity|].
  split. { unfold cpu_row. rewrite Rp. fold P. rewrite Ev. reflexivity. }
  unfold declare_temporary_accumulator, declare_array, declare. cbn [aptr adim]. destruct (Nat.ltb_spec 0 d); [|lia]. destruct (Nat.ltb_spec 0 D); [|lia].
  do 3 (erewrite exec_step by reflexivity).
  erewrite exec_step by exact X1.
  assert (X2' : exec rho (SSeq period_code s2) (st0 (arr D (rinit red_)) (none D))
     = Some (stack block_sum P (fo 0) (arr D (rinit red_)) (arr D (rinit red_)) ++ m0)).
  { erewrite exec_step; [etransitivity; [exact X2|reflexivity]|].
    unfold period_code. cbn [CSem.exec ieval]. unfold st0. cbn [stack List.app get String.eqb Ascii.eqb Bool.eqb].
    rewrite Hny. cbn [obind]. unfold P, period_accumulate. destruct (ny <? 10); reflexivity. }
  erewrite exec_step by exact X2'.
  erewrite exec_step; [erewrite exec_step by exact X8; exact X9|].
  erewrite exec_forvar; [|exact Hny].
  set (acc := fun j => for_up j (block_body red_ p P F) (rinit red_, rinit red_)).
  etransitivity; [apply (each_rule _ "j" ny 0 (fun j => stack block_sum P (fo j) (arr D (fst (acc j))) (arr D (snd (acc j))) ++ m0))|
    unfold acc; cbn [Nat.add]; rewrite Ev; reflexivity].
  intros j J.
  assert (Es : acc (S j) = block_body red_ p P F j (acc j)) by reflexivity. rewrite Es.
  destruct (acc j) as [a b]. cbn [fst snd block_body].
  destruct (formula_in_loop table j block_sum P (arr D a) (arr D b) g2 ltac:(lia) Et) as (s3' & g3' & E3' & X3).
  assert (Q3 : s3' = s3) by congruence. subst s3'.
  destruct (Sh j a b) as (s4' & g4' & pre4 & E4' & _ & X4 & G4 & F4). assert (Q4 : s4' = s4 /\ g4' = g4) by (split; congruence). destruct Q4; subst s4' g4'.
  exists (pre4 ++ [("j"%string, OInt j)]). split; [|apply stack_length].
  erewrite exec_step by exact X3. erewrite exec_step by exact X4.
  etransitivity; [eapply (block_end p j a (rshort red_ b (F j) (Z.of_nat j)) pre4 g4); auto|].
  - unfold seq2r, seq2. rewrite E5. cbn [rbind fst snd]. rewrite E6. reflexivity.
  - f_equal. rewrite <- app_assoc. cbn [List.app fo]. destruct ((j + 1) mod P =? 0); reflexivity.
Qed.

Lemma row_kahan : r = CSum ->
  exists st g' pre v, row_code r kahan_scheme f tagI nargs t ta g = Ok (st, g')
  /\ cpu_row red_ kahan_scheme ny F = Ok v /\ exec rho st m0 = Some (pre ++ written v).
Proof.
  intros Er. unfold row_code.
  assert (Et : tmp_array kahan_scheme r (dim f) = Ok (Array (PName "tmp") (dim f))) by (rewrite Er; reflexivity).
  rewrite Et. clear Et. cbn [rbind]. fold d. fold arg. fold D.
  assert (Dd : D = d) by (unfold D; now rewrite Er).
  destruct table_generates as (table & Et & Hc). rewrite Et. cbn [rbind].
  assert (Dp := D_pos). assert (dp := d_pos).
  set (st0 := fun a b => stack kahan_scheme 0 (none d) a b ++ m0).
  destruct (@init_ok rho r d (st0 (none D) (none d)) "acc" (repeat None D) (next g "arg"))
    as (s1 & g1 & E1 & _ & X1); [exact dp|reflexivity|apply repeat_length|apply clean_fresh; now apply stack_clean|].
  fold D in E1. rewrite E1. cbn [rbind initialize_temporary_accumulator snd fst].
  assert (X2 := @assign_whole rho (st0 (arr D (rinit red_)) (none d)) "tmp" d (repeat None d) g1 (EZ 0) (Fin 0)
     eq_refl (repeat_length _ _) (clean_fresh _ _ (stack_clean kahan_scheme 0 _ _ _ _ Hclean)) (fun _ _ _ _ => eq_refl)).
  set (g2 := snd (assign (Array (PName "tmp") d) (EZ 0) g1)).
  destruct (Hc g2) as (s3 & g3 & E3). rewrite E3. cbn [rbind snd fst accumulate_result].
  assert (Kh : forall j a b, exists s' g', KahanScheme r d (Array (PName "acc") D) (Array (PName "fout") d) (Array (PName "tmp") d) g3 = Ok (s', g')
    /\ exec (set_index rho "j" j) s' (("j"%string, OInt j) :: stack kahan_scheme 0 (arr d (F j)) (arr D a) (arr d b) ++ m0)
      = Some (("j"%string, OInt j) :: stack kahan_scheme 0 (arr d (F j)) (arr D (fst (sum_kahan d a (F j) b))) (arr d (snd (sum_kahan d a (F j) b))) ++ m0)).
  { intros j a b. rewrite Dd, Er.
    destruct (@kahan_code (set_index rho "j" j) (("j"%string, OInt j) :: stack kahan_scheme 0 (arr d (F j)) (arr d a) (arr d b) ++ m0)
       g3 "acc" "fout" "tmp" d a (F j) b) as (s' & g' & E & _ & X); try reflexivity; try discriminate.
    - apply clean_fresh. apply clean_cons; [cbn; tauto|]. now apply stack_clean.
    - exists s', g'. split; [exact E|exact X]. }
  destruct (Kh 0 (rinit red_) (rinit red_)) as (s4 & g4 & E4 & _). rewrite E4. cbn [rbind snd fst periodic_accumulate_temporary final_operation].
  assert (Rk : rkahan red_ = Ok (sum_kahan d)) by (unfold red_; rewrite Er; reflexivity).
  set (acc := fun j => for_up j (fun j (st : cells * cells) => sum_kahan d (fst st) (F j) (snd st)) (rinit red_, fun _ => Fin 0)).
  destruct (finish_ok [] kahan_scheme 0 (fo ny) (fst (acc ny)) (arr d (snd (acc ny))) g4) as (s7 & g7 & E7 & X7);
    [intros y []|apply clean_fresh; now apply stack_clean|].
  rewrite E7. cbn [rbind fst snd].
  eexists _, _, _, _. split; [reflexivity|]. split. { unfold cpu_row. rewrite Rk. reflexivity. }
  unfold declare_temporary_accumulator, declare_array, declare. cbn [aptr adim]. destruct (Nat.ltb_spec 0 d); [|lia]. destruct (Nat.ltb_spec 0 D); [|lia].
  do 3 (erewrite exec_step by reflexivity). erewrite exec_step by exact X1. erewrite exec_step by exact X2.
  change (put "tmp" (arr d (fun _ => Fin 0)) (st0 (arr D (rinit red_)) (none d)))
    with (stack kahan_scheme 0 (fo 0) (arr D (fst (acc 0))) (arr d (snd (acc 0))) ++ m0).
  erewrite exec_step; [erewrite exec_step by reflexivity; exact X7|].
  erewrite exec_forvar; [|exact Hny].
  etransitivity; [apply (each_rule _ "j" ny 0 (fun j => stack kahan_scheme 0 (fo j) (arr D (fst (acc j))) (arr d (snd (acc j))) ++ m0))|reflexivity].
  intros j J.
  destruct (formula_in_loop table j kahan_scheme 0 (arr D (fst (acc j))) (arr d (snd (acc j))) g2 ltac:(lia) Et) as (s3' & g3' & E3' & X3).
  assert (Q3 : s3' = s3) by congruence. subst s3'.
  destruct (Kh j (fst (acc j)) (snd (acc j))) as (s4' & g4' & E4' & X4). assert (Q4 : s4' = s4) by congruence. subst s4'.
  exists [("j"%string, OInt j)]. split; [|apply stack_length].
  erewrite exec_step by exact X3. erewrite exec_step by exact X4. reflexivity.
Qed.

(** A row of the output. *)
Theorem row_ok : available red_ s -> 
  exists st g' pre v, row_code r s f tagI nargs t ta g = Ok (st, g')
  /\ cpu_row red_ s ny F = Ok v /\ exec rho st m0 = Some (pre ++ written v).
Proof.
  intros Av. destruct s; cbn [available] in Av.
  - exact row_direct.
  - destruct Av as [p Rp]. exact (row_block p Rp).
  - apply row_kahan. destruct Av as [p Rk]. unfold red_ in Rk. destruct r; [reflexivity|discriminate Rk..].
Qed.
End Row.
