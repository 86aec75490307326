(** Cases and data of the R interface. *)

From Coq Require Import ZArith Reals Lra Lia List Bool Ascii String.
From Verif Require Import Result Keys KeySpec Folder C25Proofs Aliases AliasSpec C22Proofs C26Proofs Formula FormulaSpec Simplify Build
  GradSpec Calculus Tangent KernelSum KernelSumSpec RedGradSpec Diff PyRead PyReadSpec PyReadProofs RedText BackText BackSpec ReadSaved C58Proofs
  GenericOps GenericOpsSpec GenericRead C61Proofs RKeops RKeopsSpec C64Proofs C64Grad.
Import ListNotations.
Local Open Scope nat_scope.
Open Scope string_scope.

Ltac added := eapply dict_add; [reflexivity|reflexivity|read|reflexivity|].

(** ** Data *)

Lemma named_in : forall n l v, named_element n l = Some v -> In (Some n, v) l.
Proof.
  intros n. induction l as [|[[m|] w] l IH]; intros v H; [discriminate| |].
  - cbn [named_element] in H. destruct (String.eqb_spec m n) as [->|]; [injection H as ->; now left|right; auto].
  - right. apply IH, H.
Qed.
Lemma select_nth : forall names input l, select names input = Ok l -> forall k n, nth_error names k = Some n ->
  exists v, nth_error l k = Some v /\ In (Some n, v) input.
Proof.
  induction names as [|m names IH]; intros input l H k n N; [destruct k; discriminate|]. cbn [select] in H.
  destruct (named_element m input) as [v|] eqn:E; [|discriminate]. apply rbind_inv in H. destruct H as (r & H & X). injection X as <-.
  destruct k as [|k]; [cbn in N; injection N as ->; exists v; split; [reflexivity|now apply named_in]|].
  exact (IH input r H k n N).
Qed.
Lemma has_names_spec : forall l, has_names l = true <-> exists n w, In (Some n, w) l.
Proof.
  intros l. unfold has_names. rewrite existsb_exists. split.
  - intros ([[n|] w] & I & H); [|discriminate]. exists n, w. exact I.
  - intros (n & w & I). exists (Some n, w). auto.
Qed.
Lemma r_data : forall o input inner_dim l, List.length (o_args o) = List.length (o_info o) ->
  operator_data o input inner_dim = Ok l -> forall k a, nth_error (o_info o) k = Some a ->
  exists v x, given input k a v /\ nth_error l k = Some x /\
    (points inner_dim v x \/ (inner_dim = "row" /\ exists n f, v = Vector n f)).
Proof.
  intros o input inner_dim l LA H k a Ha. unfold operator_data in H.
  destruct (Nat.eqb_spec (List.length input) (List.length (o_args o))) as [LE|]; [|discriminate].
  apply rbind_inv in H. destruct H as (vs & HS & H).
  assert (G : exists v, nth_error vs k = Some v /\ given input k a v).
  { destruct (has_names input) eqn:HN.
    - destruct (select_nth _ _ _ HS k (ra_name a)) as (v & V & I); [now rewrite (map_nth_error ra_name k _ Ha)|].
      exists v. split; [exact V|]. left. split; [now apply has_names_spec|exact I].
    - injection HS as <-. assert (L : k < List.length input) by (rewrite LE, LA; apply nth_error_Some; congruence).
      destruct (nth_error input k) as [[n v]|] eqn:E; [|apply nth_error_None in E; lia].
      exists v. split; [now rewrite (map_nth_error snd k _ E)|]. right. split; [|now exists n].
      intros m w I. assert (has_names input = true) by (apply has_names_spec; eauto). congruence. }
  destruct G as (v & V & G). exists v. destruct (String.eqb_spec inner_dim "col") as [->|].
  - injection H as <-. exists (as_matrix v). split; [exact G|]. split; [now rewrite (map_nth_error as_matrix k _ V)|].
    left. destruct v as [n f|n m f]; cbn.
    + repeat split.
    + left. repeat split.
  - destruct (String.eqb_spec inner_dim "row") as [->|]; [|discriminate]. injection H as <-.
    exists (transposed (as_matrix v)). split; [exact G|].
    split; [now rewrite (map_nth_error (fun v => transposed (as_matrix v)) k _ V)|].
    destruct v as [n0 f|n0 m f]; cbn; [right; split; [reflexivity|eauto]|]. left. right. repeat split.
Qed.
Lemma row_vector : exists o input l x n f, operator_data o input "row" = Ok l /\ o_args o = ["x=Vi(1)"] /\
  input = [(None, Vector n f)] /\ l = [x] /\ n = 5 /\ m_rows x = 1 /\ m_cols x = 5.
Proof.
  exists {| o_formula := "Sum_Reduction(x,0)"; o_args := ["x=Vi(1)"];
            o_info := [{| ra_name := "x"; ra_type := "Vi"; ra_pos := None; ra_dim := 1 |}] |}, [(None, Vector 5 (fun _ => 0%R))].
  do 4 eexists. repeat split.
Qed.

(** ** A gradient *)

Definition x_info : rarg := {| ra_name := "x"; ra_type := "Vi"; ra_pos := None; ra_dim := 1 |}.
Definition y_info : rarg := {| ra_name := "y"; ra_type := "Vj"; ra_pos := None; ra_dim := 1 |}.
Definition xy_args : list string := ["x = Vi(1)"; "y=Vj(1)"].
Definition xy_decls : list AliasSpec.declaration := [Named "x" KVi None 1; Named "y" KVj None 1].
Definition sum_op : operator := {| o_formula := "Sum_Reduction(Square(x) * y, 1)"; o_args := xy_args; o_info := [x_info; y_info] |}.
Definition sum_params : params :=
  {| p_formula := "Sum_Reduction(Square(x)*y,0)"; p_aliases := xy_args; p_highdim := FNone |}.
Definition sum_red : sum_reduction := {| sformula := Bin BMult (Un USquare (Var 0 1 0)) (Var 1 1 1); stagI := 0 |}.
Definition sum_grad : operator :=
  {| o_formula := "Grad(Sum_Reduction(Square(x) * y, 1),x,varA1b2C)"; o_args := (xy_args ++ ["varA1b2C=Vi(1)"])%list;
     o_info := [x_info; y_info; {| ra_name := "varA1b2C"; ra_type := "Vi"; ra_pos := None; ra_dim := 1 |}] |}.
Definition grad_params : params :=
  {| p_formula := "Sum_Reduction(Grad(Square(x)*y,x,varA1b2C),0)"; p_aliases := o_args sum_grad; p_highdim := FNone |}.

Lemma xy_ok : r_arguments xy_args xy_decls.
Proof.
  constructor.
  - constructor; [|constructor; [|constructor]].
    + split; [split; [exists "x"%char, ""; repeat split|split; [exact Logic.I|cbn; lia]]|].
      cbn. do 1 apply Sp_keep. apply Sp_space. apply Sp_keep. apply Sp_space. repeat apply Sp_keep. apply Sp_nil.
    + split; [split; [exists "y"%char, ""; repeat split|split; [exact Logic.I|cbn; lia]]|]. cbn. repeat apply Sp_keep. apply Sp_nil.
  - repeat constructor; discriminate.
  - intros i j d d' n Hi Hj Hd Hd'.
    destruct i as [|[|[|i]]]; cbn in Hi; try discriminate; injection Hi as <-; cbn in Hd; injection Hd as <-;
    destruct j as [|[|[|j]]]; cbn in Hj; try discriminate; injection Hj as <-; cbn in Hd'; try discriminate; reflexivity.
  - repeat constructor; cbn; lia.
  - intros i n kd p m H. destruct i as [|[|[|i]]]; cbn in H; try discriminate; injection H as <- <- <- <-; now left.
Qed.
Lemma sum_kernel : keops_kernel "Sum_Reduction(Square(x) * y, 1)" xy_args = Ok sum_op.
Proof. vm_compute. reflexivity. Qed.
Lemma sum_written : written (no_spaces "Sum_Reduction(Square(x) * y, 1)")
  {| d_op := "Sum"; d_main := "Square(x)*y"; d_axis := Some 1%Z; d_opt := NoOption |}.
Proof. apply (W_plain "Sum" "Square(x)*y" 1); [repeat split; discriminate|repeat split|lia]. Qed.
Lemma sum_reads : reads "Square(x)*y" (PBin SStar (PCall (PName "Square") [PName "x"]) (PName "y")).
Proof. read. Qed.
Lemma sum_op_text : operator_text sum_op = Ok sum_params.
Proof. vm_compute. reflexivity. Qed.
Lemma sum_makes : genred_makes sum_params (RSum sum_red).
Proof.
  eexists _, _, (PCall (PName "Sum_Reduction") [PBin SStar (PCall (PName "Square") [PName "x"]) (PName "y"); PNum 0]).
  split; [reflexivity|]. split; [added; added; apply dict_nil|]. split; [read|lazy; reflexivity].
Qed.
Lemma grad_kernel : keops_grad "varA1b2C" sum_op (Name "x") = Ok sum_grad /\ keops_grad "varA1b2C" sum_op (Position 0) = Ok sum_grad.
Proof. split; vm_compute; reflexivity. Qed.
Lemma grad_op_text : operator_text sum_grad = Ok grad_params.
Proof. vm_compute. reflexivity. Qed.
Lemma grad_makes : exists rg, genred_makes grad_params (RSum rg) /\ stagI rg = 0.
Proof.
  eexists. split.
  - eexists _, _, (PCall (PName "Sum_Reduction")
      [PCall (PName "Grad") [PBin SStar (PCall (PName "Square") [PName "x"]) (PName "y"); PName "x"; PName "varA1b2C"]; PNum 0]).
    split; [reflexivity|]. split; [added; added; added; apply dict_nil|]. split; [read|lazy; reflexivity].
  - reflexivity.
Qed.
Lemma sum_declared : r_declared case_decl xy_decls KVi.
Proof.
  split; [|reflexivity]. intros i d H. destruct i as [|[|[|i]]]; cbn in H; try discriminate; injection H as <-; reflexivity.
Qed.
Lemma sum_fresh : ~ is_declared xy_decls "varA1b2C".
Proof. intros (d & [<-|[<-|[]]] & H); discriminate H. Qed.
Lemma sum_regular : forall A M N, regular case_decl A M N (sformula sum_red).
Proof. intros A M N. repeat split. Qed.

(** ** The other index *)

Definition other_op : operator := {| o_formula := "Sum_Reduction(x*y,0)"; o_args := xy_args; o_info := [x_info; y_info] |}.
Definition other_grad : operator :=
  {| o_formula := "Grad(Sum_Reduction(x*y,0),x,eta)"; o_args := (xy_args ++ ["eta=Vi(1)"])%list;
     o_info := [x_info; y_info; {| ra_name := "eta"; ra_type := "Vi"; ra_pos := None; ra_dim := 1 |}] |}.
Definition other_red : sum_reduction := {| sformula := Bin BMult (Var 0 1 0) (Var 1 1 1); stagI := 1 |}.
Definition other_rg : sum_reduction := {| sformula := Bin BMult (Var 1 1 1) (Var 2 1 0); stagI := 1 |}.
Definition other_args : arguments := fun a n _ => if (a =? 1)%Z then (if Nat.eqb n 0 then 0 else 1)%R else 1%R.
Lemma other_index : exists decl A M N T ss ds o p r i n kd q m eta og pg rg,
  r_arguments ss ds /\ keops_kernel T ss = Ok o /\ operator_text o = Ok p /\ genred_makes p (RSum r) /\
  nth_error ds i = Some (Named n kd q m) /\ ~ is_declared ds eta /\ keops_grad eta o (Name n) = Ok og /\
  operator_text og = Ok pg /\ genred_makes pg (RSum rg) /\ r_declared decl ds kd /\ regular decl A M N (sformula r) /\
  dim (sformula r) = 1 /\ 0 < M /\ 0 < N /\
  ~ gradient_of decl A M N r (Z.of_nat (List.length ds)) (Z.of_nat i) rg.
Proof.
  exists case_decl, other_args, 2, 2, "Sum_Reduction(x*y,0)", xy_args, xy_decls, other_op,
    {| p_formula := "Sum_Reduction(x*y,1)"; p_aliases := xy_args; p_highdim := FNone |}, other_red, 0, "x", KVi, None, 1%Z, "eta",
    other_grad, {| p_formula := "Sum_Reduction(Grad(x*y,x,eta),1)"; p_aliases := o_args other_grad; p_highdim := FNone |}, other_rg.
  split; [exact xy_ok|]. split; [vm_compute; reflexivity|]. split; [vm_compute; reflexivity|]. split.
  { eexists _, _, (PCall (PName "Sum_Reduction") [PBin SStar (PName "x") (PName "y"); PNum 1]).
    split; [reflexivity|]. split; [added; added; apply dict_nil|]. split; [read|lazy; reflexivity]. }
  split; [reflexivity|]. split; [intros (d & [<-|[<-|[]]] & H); discriminate H|]. split; [vm_compute; reflexivity|].
  split; [vm_compute; reflexivity|]. split.
  { eexists _, _, (PCall (PName "Sum_Reduction") [PCall (PName "Grad") [PBin SStar (PName "x") (PName "y"); PName "x"; PName "eta"]; PNum 1]).
    split; [reflexivity|]. split; [added; added; added; apply dict_nil|]. split; [read|lazy; reflexivity]. }
  split; [exact sum_declared|]. split; [repeat split|]. split; [reflexivity|]. split; [lia|]. split; [lia|].
  intros G. unfold gradient_of in G. cbn [case_decl Z.eqb Z.of_nat] in G. specialize (G (fun n _ => if Nat.eqb n 0 then 1%R else 0%R)).
  match type of G with derivable_pt_lim ?f 0 ?l => assert (E : l = 0%R) by
    (cbn [rows total inner]; unfold collapsed; cbn [Z.of_nat Z.eqb]; unfold reduce_sum; cbn; unfold point, other_args; cbn; ring);
    assert (D : derivable_pt_lim f 0 1%R) end.
  { apply (d0_ext (fun t => (2 + 1 * t)%R)).
    - intros t. unfold summed_output. cbn [rows total inner]. unfold reduce_sum. cbn. unfold point, move_arg, other_args. cbn. ring.
    - assert (Y := derivable_pt_lim_plus (fct_cte 2) (mult_real_fct 1 id) 0%R 0%R (1 * 1)%R (derivable_pt_lim_const 2 0)
        (derivable_pt_lim_scal id 1 0 1 (derivable_pt_lim_id 0))). replace (0 + 1 * 1)%R with 1%R in Y by ring. exact Y. }
  assert (X := eq_trans (eq_sym E) (uniqueness_limite _ _ _ _ G D)). lra.
Qed.

(** ** Another reduction *)

Definition lse_op : operator := {| o_formula := "LogSumExp_Reduction(x+y,1)"; o_args := xy_args; o_info := [x_info; y_info] |}.
Definition lse_grad : operator :=
  {| o_formula := "Grad(LogSumExp_Reduction(x+y,1),x,eta)"; o_args := (xy_args ++ ["eta=Vi(1)"])%list;
     o_info := [x_info; y_info; {| ra_name := "eta"; ra_type := "Vi"; ra_pos := None; ra_dim := 1 |}] |}.
Lemma lse_refuted : exists decl A M N T ss ds o p F G t i n kd q m eta og pg F' G' t',
  r_arguments ss ds /\ keops_kernel T ss = Ok o /\ operator_text o = Ok p /\ genred_makes p (RLse F G t) /\
  nth_error ds i = Some (Named n kd q m) /\ AliasSpec.category kd = Z.of_nat t /\
  ~ is_declared ds eta /\ keops_grad eta o (Name n) = Ok og /\
  operator_text og = Ok pg /\ genred_makes pg (RLse F' G' t') /\ r_declared decl ds kd /\ regular decl A M N F /\
  0 < M /\ 0 < N /\
  ~ lse_gradient_of decl A M N F G t (Z.of_nat (List.length ds)) (Z.of_nat i) (log_sum_exp decl A M N F' G' t').
Proof.
  exists case_decl, (fun _ _ _ => 0%R), 1, 2, "LogSumExp_Reduction(x+y,1)", xy_args, xy_decls, lse_op,
    {| p_formula := "Max_SumShiftExp_Reduction(x+y,0)"; p_aliases := xy_args; p_highdim := FNone |},
    (Bin BAdd (Var 0 1 0) (Var 1 1 1)), (IntCst 1), 0, 0, "x", KVi, None, 1%Z, "eta", lse_grad,
    {| p_formula := "Max_SumShiftExp_Reduction(Grad(x+y,x,eta),0)"; p_aliases := o_args lse_grad; p_highdim := FNone |},
    (Var 2 1 0), (IntCst 1), 0.
  split; [exact xy_ok|]. split; [vm_compute; reflexivity|]. split; [vm_compute; reflexivity|]. split.
  { eexists _, _, (PCall (PName "Max_SumShiftExp_Reduction") [PBin SPlus (PName "x") (PName "y"); PNum 0]).
    split; [reflexivity|]. split; [added; added; apply dict_nil|]. split; [read|lazy; reflexivity]. }
  split; [reflexivity|]. split; [reflexivity|]. split; [intros (d & [<-|[<-|[]]] & H); discriminate H|]. split; [vm_compute; reflexivity|].
  split; [vm_compute; reflexivity|]. split.
  { eexists _, _, (PCall (PName "Max_SumShiftExp_Reduction") [PCall (PName "Grad") [PBin SPlus (PName "x") (PName "y"); PName "x"; PName "eta"]; PNum 0]).
    split; [reflexivity|]. split; [added; added; added; apply dict_nil|]. split; [read|lazy; reflexivity]. }
  split; [exact sum_declared|]. split; [repeat split|]. split; [lia|]. split; [lia|].
  intros G. unfold lse_gradient_of in G. cbn [case_decl Z.eqb Z.of_nat] in G. specialize (G (fun _ _ => 1%R)).
  match type of G with derivable_pt_lim ?f 0 ?l => assert (E : l = ln 2); [|assert (D : derivable_pt_lim f 0 0%R)] end.
  { cbn [rows total inner]. unfold log_sum_exp, exp_weighted. cbn [reduced total]. cbn [at_entry eval IntCst Z.eqb point].
    match goal with |- (?a + (?b + ln ?c * 1))%R = _ => replace (ln c) with (ln 2); [ring|] end.
    f_equal. cbn. unfold point. cbn. rewrite exp_0. ring. }
  { apply (d0_ext (fun t => 0%R)).
    - intros t. cbn [rows total]. ring.
    - apply derivable_pt_lim_const. }
  assert (X := eq_trans (eq_sym E) (uniqueness_limite _ _ _ _ G D)).
  assert (L := ln_lt_2). lra.
Qed.

(** ** Vectors *)

Lemma vector_refuted : exists T ss o p r n eta og pg rg,
  keops_kernel T ss = Ok o /\ ss = ["x=Vi(3)"; "y=Vj(1)"] /\ operator_text o = Ok p /\ genred_makes p (RSum r) /\
  dim (sformula r) = 3 /\ n = "x" /\ keops_grad eta o (Name n) = Ok og /\ operator_text og = Ok pg /\ genred_makes pg (RSum rg) /\
  dim (sformula rg) = 1.
Proof.
  eexists "Sum_Reduction(x,1)", ["x=Vi(3)"; "y=Vj(1)"], _, _, _, "x", "eta", _, _, _.
  split; [vm_compute; reflexivity|]. split; [reflexivity|]. split; [vm_compute; reflexivity|]. split.
  { eexists _, _, (PCall (PName "Sum_Reduction") [PName "x"; PNum 0]).
    split; [reflexivity|]. split; [added; added; apply dict_nil|]. split; [read|lazy; reflexivity]. }
  split; [reflexivity|]. split; [reflexivity|]. split; [vm_compute; reflexivity|]. split; [vm_compute; reflexivity|]. split.
  { eexists _, _, (PCall (PName "Sum_Reduction") [PCall (PName "Grad") [PName "x"; PName "x"; PName "eta"]; PNum 0]).
    split; [reflexivity|]. split; [added; added; added; apply dict_nil|]. split; [read|lazy; reflexivity]. }
  reflexivity.
Qed.

(** ** Positions *)

Lemma position_refuted : exists o p r, keops_kernel "Sum_Reduction(x,1)" ["x=Vi(1,1)"; "y=Vj(0,1)"] = Ok o /\
  operator_text o = Ok p /\ genred_makes p (RSum r) /\ sformula r = Var 1 1 0 /\
  (forall eta, is_name eta -> keops_grad eta o (Position 0) = keops_grad eta o (Name "x")) /\
  forall nx fx ny fy, exists ax ay,
    operator_data o [(Some "x", Matrix nx 1 fx); (Some "y", Matrix ny 1 fy)] "col" = Ok [ax; ay] /\
    m_rows ay = ny /\ forall i, m_at ay i 0 = fy i 0.
Proof.
  eexists _, _, {| sformula := Var 1 1 0; stagI := 0 |}.
  split; [vm_compute; reflexivity|]. split; [vm_compute; reflexivity|]. split.
  { eexists _, _, (PCall (PName "Sum_Reduction") [PName "x"; PNum 0]).
    split; [reflexivity|]. split; [added; added; apply dict_nil|]. split; [read|lazy; reflexivity]. }
  split; [reflexivity|]. split; [intros eta _; reflexivity|].
  intros nx fx ny fy. do 2 eexists. split; [reflexivity|]. split; [reflexivity|]. intros i. reflexivity.
Qed.

(** ** Second derivatives *)

Lemma second_lost : exists T ss o g1 g2 eta1 eta2 d1 d2, keops_kernel T ss = Ok o /\ keops_grad eta1 o (Name "x") = Ok g1 /\
  keops_grad eta2 g1 (Name "x") = Ok g2 /\ get_pykeops_formula (o_formula g1) = Ok d1 /\ get_pykeops_formula (o_formula g2) = Ok d2 /\
  d1 = d2 /\ d_main d2 = "Grad(Square(x)*y,x,a1)".
Proof.
  eexists "Sum_Reduction(Square(x)*y,1)", xy_args, _, _, _, "a1", "b2", _, _.
  split; [vm_compute; reflexivity|]. split; [vm_compute; reflexivity|]. split; [vm_compute; reflexivity|].
  split; [vm_compute; reflexivity|]. split; [vm_compute; reflexivity|]. split; reflexivity.
Qed.

(** ** As claimed *)

Lemma kernel_claim : forall T X d, written X d -> spaced T X -> get_pykeops_formula T = Ok d.
Proof. intros T X d W S. exact (r_kernel T X d W (spaced_no_spaces T X S (written_space X d W))). Qed.
Lemma derivatives_space : forall X d l, written X d -> simple_names l -> has " " (derivatives X l) = false.
Proof. intros X d l W H. exact (wh_space _ (whole_derivs l X (whole_written X d W) H)). Qed.
Lemma grad_claim : forall T X d v e, written X d -> simple_name v -> simple_name e -> spaced T (grad_of X v e) ->
  get_pykeops_formula T = Ok (with_main d (grad_of (d_main d) v e)).
Proof.
  intros T X d v e W V E S. apply (r_grad T X d v e W V E). apply (spaced_no_spaces T _ S).
  apply (derivatives_space X d [(v, e)] W). constructor; [split; assumption|constructor].
Qed.
Lemma lost_claim : forall T X d v e l, written X d -> simple_names ((v, e) :: l) -> spaced T (derivatives X ((v, e) :: l)) ->
  get_pykeops_formula T = Ok (with_main d (grad_of (d_main d) v e)).
Proof.
  intros T X d v e l W N S. pose proof (proj1 (Forall_cons_iff _ _ _) N) as [[V E] _]. cbn [fst snd] in V, E.
  rewrite (r_lost T (grad_of X v e) X d v e l W N).
  - apply (grad_claim _ X d v e W V E).
    destruct (no_spaces_spaced (grad_of X v e)) as [S1 _]. rewrite no_spaces_same in S1; [exact S1|].
    apply (derivatives_space X d [(v, e)] W). constructor; [split; assumption|constructor].
  - apply (spaced_no_spaces T _ S). exact (derivatives_space X d ((v, e) :: l) W N).
  - apply no_spaces_same. apply (derivatives_space X d [(v, e)] W). constructor; [split; assumption|constructor].
Qed.

Lemma index_claim : forall T Y ss ds o p r F ax e, r_arguments ss ds -> keops_kernel T ss = Ok o ->
  written Y {| d_op := "Sum"; d_main := F; d_axis := Some ax; d_opt := NoOption |} -> spaced T Y -> reads F e ->
  operator_text o = Ok p -> genred_makes p (RSum r) -> Z.of_nat (stagI r) = (1 - ax)%Z.
Proof.
  intros T Y ss ds o p r F ax e RA KK W S RF OT GM. destruct RA as [R1 R2 R3 R4 R5].
  destruct (parse_all ss ds R1 R2) as (l & PE & MI).
  assert (EO : o = {| o_formula := T; o_args := ss; o_info := l |}).
  { unfold keops_kernel in KK. destruct ss as [|s0 ss0]; [discriminate|]. destruct (variable_in _); [discriminate|].
    rewrite PE in KK. cbn [rbind] in KK. destruct (_ || _); [|discriminate]. now injection KK as <-. }
  subst o. unfold operator_text in OT. cbn [o_formula o_args] in OT.
  rewrite (kernel_claim T _ _ W S) in OT. cbn [rbind] in OT. apply rbind_inv in OT. destruct OT as (t & GT & OT). injection OT as <-.
  cbn [genred_text d_axis d_opt d_op d_main] in GT. destruct (sum_text F ax t GT) as (c & Hc & Ec & ->).
  destruct GM as (al & dd & e0 & AL & DI & RE & RV). cbn [p_aliases p_formula] in *.
  assert (RE' := args_read "Sum_Reduction" F e c [] ident_sum RF). cbn [map String.concat append] in RE'.
  assert (E0 := reads_unique _ _ _ RE' RE). subst e0. apply reduction_ok in RV.
  assert (FV : exists h, formula_value (found dd) e = Ok h).
  { cbn [reduction_value map] in RV. destruct (formula_value (found dd) e) as [h| | |]; try discriminate. eauto. }
  destruct FV as (h & FV). destruct (sum_value _ _ c h Hc FV _ RV) as (f & _ & RR). injection RR as ->. cbn [stagI]. lia.
Qed.
Lemma gradient_claim : forall decl A M N, 0 < M -> 0 < N -> forall T Y ss ds o p r F ax e i n kd q m eta var og pg X,
  r_arguments ss ds -> keops_kernel T ss = Ok o ->
  written Y {| d_op := "Sum"; d_main := F; d_axis := Some ax; d_opt := NoOption |} -> spaced T Y -> reads F e ->
  operator_text o = Ok p -> genred_makes p (RSum r) ->
  nth_error ds i = Some (Named n kd q m) -> var = Name n \/ var = Position (Z.of_nat i) ->
  is_name eta -> ~ is_declared ds eta ->
  keops_grad eta o var = Ok og -> operator_text og = Ok pg -> genred_makes pg X ->
  r_declared decl ds kd -> regular decl A M N (sformula r) -> dim (sformula r) = 1 -> AliasSpec.category kd = Z.of_nat (stagI r) ->
  exists rg, X = RSum rg /\ stagI rg = stagI r /\
    gradient_of decl A M N r (Z.of_nat (List.length ds)) (Z.of_nat i) rg.
Proof.
  intros decl A M N HM HN T Y ss ds o p r F ax e i n kd q m eta var og pg X RA KK W S.
  rewrite <- (spaced_no_spaces T Y S (written_space Y _ W)) in W. revert RA KK W.
  exact (r_gradient decl A M N HM HN T ss ds o p r F ax e i n kd q m eta var og pg X).
Qed.
Lemma case_spaced : forall T, spaced T (no_spaces T).
Proof. intros T. apply no_spaces_spaced. Qed.
