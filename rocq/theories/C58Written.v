(** The reduction that the engine makes of the text of a reduction with two formulas. *)

From Coq Require Import ZArith Reals Lra Lia List Bool Ascii String.
From Verif Require Import Result Keys KeySpec Layout Aliases AliasSpec C22Proofs C26Proofs Formula FormulaSpec Simplify Build PyRead PyReadSpec PyReadProofs
  ReadArgs ReadSaved ReadLast RedText BackText BackSpec C58Proofs.
Import ListNotations.
Local Open Scope nat_scope.
Open Scope string_scope.

Lemma bind_ok : forall {A B} (r : res A) (k : A -> res B) b, (do x <- r ; k x) = Ok b -> exists x, r = Ok x /\ k x = Ok b.
Proof. intros A B r k b H. destruct r as [x| | |]; try discriminate. exists x. auto. Qed.

Lemma weight_identifier : identifier "Max_SumShiftExpWeight_Reduction".
Proof.
  split; [reflexivity|]; intros x; cbn [has]; intros Y;
      repeat (apply orb_true_iff in Y; destruct Y as [Y|Y]; [apply Ascii.eqb_eq in Y; subst x; reflexivity|]); discriminate Y.
Qed.

Lemma two_made : forall F G ef eg c al hd X, (0 <= c <= 1)%Z -> reads F ef -> reads G eg ->
  engine_makes {| p_formula := "Max_SumShiftExpWeight_Reduction(" ++ F ++ "," ++ str_int c ++ "," ++ G ++ ")"; p_aliases := al; p_highdim := hd |} X ->
  exists al' names f g, engine_aliases 0 None None al = Ok al' /\ dictionary (fun _ => None) al' names /\
    evaluate names ef = Ok (VF f) /\ evaluate names eg = Ok (VF g) /\ X = RLse f g (Z.to_nat c).
Proof.
  intros F G ef eg c al hd X Hc HF HG (al' & names & e & A & D & R & V). cbn [p_aliases p_formula] in *.
  assert (R' := two_read _ F ef c G eg weight_identifier HF HG).
  assert (E := reads_unique _ _ _ R' R). subst e. cbn [red_value] in V.
  change (String.eqb "Max_SumShiftExpWeight_Reduction" "Grad_WithSavedForward" || String.eqb "Max_SumShiftExpWeight_Reduction" "Diff_WithSavedForward")
    with false in V. cbv iota in V.
  apply bind_ok in V. destruct V as (l & VL & V). cbn [evaluate_all] in VL.
  apply bind_ok in VL. destruct VL as (vf & VF & VL). apply bind_ok in VL. destruct VL as (l' & VL' & VL). injection VL as <-.
  apply bind_ok in VL'. destruct VL' as (vc & VC & VL). apply bind_ok in VL. destruct VL as (l2 & VL' & VL). injection VL as <-.
  apply bind_ok in VL'. destruct VL' as (vg & VG & VL). injection VL as <-.
  assert (LC : evaluate names (literal c) = Ok (VZ c)) by (unfold literal; destruct (Z.ltb_spec c 0); [lia|reflexivity]).
  rewrite LC in VC. injection VC as <-. unfold plain in V. apply bind_ok in V. destruct V as ([o k] & C & V).
  cbn [construct] in C. destruct vf as [f| | | |]; try discriminate.
  destruct vg as [g| | | |]; try discriminate.
  exists al', names, f, g. split; [exact A|]. split; [exact D|]. split; [exact VF|]. split; [exact VG|].
  destruct (ro_tag o <? 0)%Z; [discriminate|]. cbn in V. now injection V as <-.
Qed.

Lemma axis_tag : forall ax c, axis2cat ax = Ok c -> (0 <= c <= 1)%Z /\ c = (1 - ax)%Z.
Proof.
  intros ax c H. unfold axis2cat in H. destruct (Z.eqb_spec ax 0) as [->|]; [injection H as <-; cbn; lia|].
  destruct (Z.eqb_spec ax 1) as [->|]; [injection H as <-; cbn; lia|discriminate].
Qed.

Lemma lse_written : forall op F G ef eg ax t al hd X, op = "LogSumExp" \/ op = "LogSumExpWeight" -> G <> "" ->
  reads F ef -> reads G eg -> red_text op F None ax G = Ok t ->
  engine_makes {| p_formula := t; p_aliases := al; p_highdim := hd |} X ->
  exists al' names f g, engine_aliases 0 None None al = Ok al' /\ dictionary (fun _ => None) al' names /\
    evaluate names ef = Ok (VF f) /\ evaluate names eg = Ok (VF g) /\ X = RLse f g (Z.to_nat (1 - ax)).
Proof.
  intros op F G ef eg ax t al hd X Hop NG HF HG T M. unfold red_text in T.
  destruct (String.eqb_spec G "") as [->|_]; [congruence|]. cbn [negb] in T.
  assert (P : Layout.preprocess op true = Ok ("Max_SumShiftExpWeight", Layout.Given)) by (destruct Hop as [-> | ->]; reflexivity).
  rewrite P in T. cbn [rbind] in T. apply bind_ok in T. destruct T as (c & C & T). destruct (axis_tag ax c C) as [Hc ->].
  injection T as <-. cbn [append] in M. exact (two_made F G ef eg (1 - ax) al hd X Hc HF HG M).
Qed.
Lemma soft_written : forall op F G ef eg ax t al hd X, op = "SumSoftMaxWeight" \/ op = "SoftMax" -> G <> "" ->
  reads F ef -> reads G eg -> red_text op F None ax G = Ok t ->
  engine_makes {| p_formula := t; p_aliases := al; p_highdim := hd |} X ->
  exists al' names f g h, engine_aliases 0 None None al = Ok al' /\ dictionary (fun _ => None) al' names /\
    evaluate names ef = Ok (VF f) /\ evaluate names eg = Ok (VF g) /\ X = RLse f h (Z.to_nat (1 - ax)) /\
    dim h = S (dim g) /\ forall e, eval h e 0 = 1%R /\ forall k, k < dim g -> eval h e (S k) = eval g e k.
Proof.
  intros op F G ef eg ax t al hd X Hop NG HF HG T M. unfold red_text in T.
  destruct (String.eqb_spec G "") as [->|_]; [congruence|]. cbn [negb] in T.
  assert (P : Layout.preprocess op true = Ok ("Max_SumShiftExpWeight", Layout.WithOne)) by (destruct Hop as [-> | ->]; reflexivity).
  rewrite P in T. cbn [rbind] in T. apply bind_ok in T. destruct T as (c & C & T). destruct (axis_tag ax c C) as [Hc ->].
  injection T as <-.
  destruct (two_made F ("Concat(IntCst(1)," ++ G ++ ")") ef _ (1 - ax) al hd X Hc HF (concat_read G eg HG))
    as (al' & names & f & h & A & D & VF & VH & ->).
  { cbn [append] in M |- *. rewrite ?app_assoc_s in *. cbn [append] in *. exact M. }
  cbn [evaluate] in VH. apply bind_ok in VH. destruct VH as (l & VL & VH).
  apply bind_ok in VL. destruct VL as (x & X1 & VL). injection X1 as <-. apply bind_ok in VL. destruct VL as (l1 & VL & E). injection E as <-.
  apply bind_ok in VL. destruct VL as (vg & VG & E). injection E as <-.
  destruct vg as [g|z|b| |lv]; [|destruct z; discriminate|destruct b; discriminate|discriminate|discriminate].
  exists al', names, f, g, h. split; [exact A|]. split; [exact D|]. split; [exact VF|]. split; [exact VG|]. split; [reflexivity|].
  change (lift (mk (Cat (IntCst 1) g)) = Ok (PyRead.VF h)) in VH. cbn [lift rbind] in VH.
  unfold mk in VH. destruct (node_ok (Cat (IntCst 1) g)); [|discriminate]. injection VH as <-.
  split; [reflexivity|]. intros e. split; [cbn; lra|]. intros k Hk. cbn. f_equal. lia.
Qed.

(** ** Tangents of constants *)

Lemma zero_tangent : forall p R given k a R', jvp_pass p R given k a -> (1 <= a_dim a)%Z -> (0 <= a_cat a)%Z ->
  (1 <= red_dim R)%Z -> (0 <= red_tag R)%Z ->
  (exists d t, R = RZero d t) \/ (exists o x, R = ROther o x) -> engine_makes (a_params a) R' ->
  R' = RZero (Z.to_nat (red_dim R)) (Z.to_nat (red_tag R)).
Proof.
  intros p R given k a R' J A C D T S E. apply (jvp_text p R given k a J A C D T) in E.
  destruct S as [(d & t & ->)|(o & x & ->)]; cbn [red_Diff] in E.
  - injection E as <-. cbn [red_dim red_tag]. now rewrite !Nat2Z.id.
  - destruct (existsb _ _) in E; [|discriminate]. now injection E as <-.
Qed.
Definition arg_tangent : params :=
  {| p_formula := "Diff_WithSavedForward(ArgMin_Reduction(x*y,0),Var(1,1,1),Var(2,1,1),Var(3,1,0))";
     p_aliases := ["x=Vi(0,1)"; "y=Vj(1,1)"; "Var(2,1,1)"; "Var(3,1,0)"]; p_highdim := FNone |}.
Lemma arg_jvp : exists o, jvp_pass arg_params (ROther o None) [false; true] 1
    {| a_pos := 1; a_dim := 1; a_cat := 1; a_params := arg_tangent |} /\ ro_dim o = 1%Z /\ ro_tag o = 0%Z /\ engine_makes arg_tangent (RZero 1 0).
Proof.
  assert (X : exists o, engine_makes arg_params (ROther o None) /\ ro_id o = "ArgMin_Reduction" /\ ro_dim o = 1%Z /\ ro_tag o = 0%Z).
  { eexists. split; [|split; [|split]].
    - eexists _, _, (PCall (PName "ArgMin_Reduction") [PBin SStar (PName "x") (PName "y"); PNum 0]).
      split; [reflexivity|]. split; [named; named; apply D_nil|]. split; [read|lazy; reflexivity].
    - reflexivity. - reflexivity. - reflexivity. }
  destruct X as (o & E & I & D & T). exists o.
  assert (P : jvp_pass arg_params (ROther o None) [false; true] 1 {| a_pos := 1; a_dim := 1; a_cat := 1; a_params := arg_tangent |}).
  { split; [exact E|]. split; [reflexivity|]. cbn [red_dim red_tag]. rewrite D, T. eexists. split; reflexivity. }
  split; [exact P|]. split; [exact D|]. split; [exact T|].
  apply (jvp_text _ _ _ _ _ P); cbn [a_dim a_cat a_params red_dim red_tag]; rewrite ?D, ?T; try lia.
  cbn [red_Diff]. rewrite I, D, T. reflexivity.
Qed.

(** ** Cases *)

Lemma x_read : reads "x" (PName "x").
Proof. read. Qed.
Lemma y_read : reads "y" (PName "y").
Proof. read. Qed.
Definition soft_params : params :=
  {| p_formula := "Max_SumShiftExpWeight_Reduction(x,1,Concat(IntCst(1),y))"; p_aliases := ["x=Vi(0,1)"; "y=Vj(1,1)"]; p_highdim := FNone |}.
Lemma soft_makes : engine_makes soft_params (RLse (Var 0 1 0) (Cat (IntCst 1) (Var 1 1 1)) 1).
Proof.
  eexists _, _, (PCall (PName "Max_SumShiftExpWeight_Reduction") [PName "x"; PNum 1; PCall (PName "Concat") [PCall (PName "IntCst") [PNum 1]; PName "y"]]).
  split; [reflexivity|]. split; [named; named; apply D_nil|]. split; [read|lazy; reflexivity].
Qed.
