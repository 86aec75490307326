(** Proofs for C67: the reductions are accepted. *)

From Coq Require Import ZArith Reals Lia List Bool Ascii String.
From Verif Require Import C64Grad RedText Result BackText Keys KeySpec Aliases AliasSpec C22Proofs C26Proofs Formula Methods MethodsSpec
  GenericOps GenericOpsSpec RKeops RKeopsSpec RLazy RLazySpec C65Args C65Read C65Proofs C65Cases RMethods RMethodsSpec C66Proofs RReduce RReduceSpec.
Import ListNotations.
Local Open Scope nat_scope.
Open Scope string_scope.

(** ** Texts without the beginning of a variable *)

Definition starts (s : string) : bool := String.prefix "Vi(" s || String.prefix "Vj(" s || String.prefix "Pm(" s || String.prefix "Var(" s.
Fixpoint opened (s : string) : bool := starts s || match s with EmptyString => false | String _ s => opened s end.

Lemma variable_starts : forall s, variable_at s = true -> starts s = true.
Proof.
  intros s H. unfold variable_at in H. unfold starts. apply orb_true_iff in H. destruct H as [H|H].
  - cbn [existsb] in H. repeat (apply orb_true_iff in H; destruct H as [H|H]); try discriminate H; apply andb_true_iff in H; destruct H as [H _]; cbn in H;
      cbn [append] in *; rewrite H, ?orb_true_r; reflexivity.
  - apply andb_true_iff in H. destruct H as [H _]. rewrite H, !orb_true_r. reflexivity.
Qed.
Lemma variable_opened : forall s, opened s = false -> variable_in s = false.
Proof.
  induction s as [|c s IH]; intros H; [reflexivity|]. cbn [opened] in H. apply orb_false_iff in H. destruct H as [H1 H2]. cbn [variable_in].
  rewrite (IH H2), orb_false_r. destruct (variable_at (String c s)) eqn:V; [|reflexivity]. apply variable_starts in V. congruence.
Qed.

Lemma prefix_cut : forall w a c b, has c w = false -> String.prefix w (a ++ String c b) = true -> String.prefix w a = true.
Proof.
  induction w as [|x w IH]; intros a c b H P; [destruct a; reflexivity|]. cbn [has] in H. apply orb_false_iff in H. destruct H as [H1 H2].
  destruct a as [|y a]; cbn [append String.prefix] in *.
  - destruct (ascii_dec x c) as [E|E]; [|discriminate]. subst. rewrite Ascii.eqb_refl in H1. discriminate.
  - destruct (ascii_dec x y); [|discriminate]. exact (IH a c b H2 P).
Qed.
Definition closing (c : ascii) : Prop := has c "VijmParx(" = false.
Lemma starts_cut : forall a c b, closing c -> starts (a ++ String c b) = true -> starts a = true.
Proof.
  intros a c b C H. unfold closing in C. cbn [has] in C. repeat (apply orb_false_iff in C; let X := fresh "X" in destruct C as [X C]).
  unfold starts in *. repeat (apply orb_true_iff in H; destruct H as [H|H]); (apply prefix_cut in H; [rewrite H, ?orb_true_r; reflexivity|]);
    cbn [has]; rewrite ?X, ?X0, ?X1, ?X2, ?X3, ?X4, ?X5, ?X6, ?X7; reflexivity.
Qed.
Lemma opened_join : forall a c b, closing c -> opened a = false -> opened (String c b) = false -> opened (a ++ String c b) = false.
Proof.
  induction a as [|x a IH]; intros c b C A B; [exact B|]. cbn [opened] in A. apply orb_false_iff in A. destruct A as [A1 A2].
  change (String x a ++ String c b) with (String x (a ++ String c b)). cbn [opened]. rewrite (IH c b C A2 B), orb_false_r.
  destruct (starts (String x (a ++ String c b))) eqn:S; [|reflexivity]. apply (starts_cut (String x a)) in S; [congruence|exact C].
Qed.
Lemma prefix_has : forall c w s, has c w = true -> String.prefix w s = true -> has c s = true.
Proof.
  intros c w. induction w as [|x w IH]; intros s H P; [discriminate|]. destruct s as [|y s]; [discriminate|]. cbn [String.prefix] in P.
  destruct (ascii_dec x y) as [<-|]; [|discriminate]. cbn [has] in *. apply orb_true_iff in H. apply orb_true_iff. destruct H as [H|H]; [now left|right; auto].
Qed.
Lemma closed_text : forall s, has "(" s = false -> opened s = false.
Proof.
  induction s as [|x s IH]; intros H; [reflexivity|]. assert (H' := H). cbn [has] in H. apply orb_false_iff in H. destruct H as [_ H]. cbn [opened]. rewrite (IH H), orb_false_r.
  unfold starts. repeat match goal with |- context [String.prefix ?w ?t] => let E := fresh in destruct (String.prefix w t) eqn:E; [apply (prefix_has "(") in E; [congruence|reflexivity]|] end.
  reflexivity.
Qed.

(** No such beginning and no space. *)
Definition clean (s : string) : Prop := opened s = false /\ has " " s = false.
Lemma clean_join : forall a c b, closing c -> clean a -> clean (String c b) -> clean (a ++ String c b).
Proof. intros a c b C [A1 A2] [B1 B2]. split; [now apply opened_join|]. rewrite has_app, A2. exact B2. Qed.
Lemma clean_number : forall z, clean (str_int z).
Proof. intros z. split; [apply closed_text|]; apply str_has; try reflexivity; discriminate. Qed.
Definition transparent (op : string) : Prop := forall t, clean t -> clean (op ++ "(" ++ t).
Lemma clean_comma : forall s, clean s -> clean ("," ++ s).
Proof. intros s [A B]. split; [exact A|exact B]. Qed.
Lemma clean_bar : forall s, clean s -> clean ("|" ++ s).
Proof. intros s [A B]. split; [exact A|exact B]. Qed.
Lemma clean_end : clean ")".
Proof. split; reflexivity. Qed.
Lemma clean_options : forall opts, clean (String.concat "" (map (fun k => "," ++ str_int k) opts) ++ ")") /\
  exists c s, closing c /\ String.concat "" (map (fun k => "," ++ str_int k) opts) ++ ")" = String c s.
Proof.
  induction opts as [|k l [IH (c & s & C & E)]]; [split; [exact clean_end|exists ")"%char, ""; split; reflexivity]|].
  assert (X : String.concat "" (map (fun k => "," ++ str_int k) (k :: l)) ++ ")" = "," ++ (str_int k ++ String.concat "" (map (fun k => "," ++ str_int k) l) ++ ")")).
  { destruct l as [|m l]; [reflexivity|]. cbn [map String.concat]. cbn [append]. f_equal. rewrite !C22Proofs.app_assoc_s. reflexivity. }
  rewrite X. split; [|exists ","%char; eexists; split; reflexivity]. apply clean_comma. rewrite E in *. apply clean_join; [exact C|apply clean_number|exact IH].
Qed.

Ltac simple_op := let t := fresh in let A := fresh in let B := fresh in intros t [A B]; split; [exact A|exact B].
Lemma unop_transparent : forall op, MethodsSpec.unop_of op <> None -> transparent op.
Proof.
  intros op H. unfold MethodsSpec.unop_of in H.
  repeat match type of H with context [String.eqb ?a ?b] => destruct (String.eqb_spec a b); [subst; simple_op|] end. now destruct H.
Qed.
Lemma arithmetic_transparent : forall op, arithmetic op <> None -> transparent op.
Proof.
  intros op H. unfold arithmetic in H.
  repeat match type of H with context [String.eqb ?a ?b] => destruct (String.eqb_spec a b); [subst; simple_op|] end. now destruct H.
Qed.

Lemma shown_clean : forall name, (forall a x, clean (name a x)) -> forall p, usual p -> clean (shown name p).
Proof.
  intros name NA. induction p as [a x v|n|op opts d p IH|op c d p IHp q IHq|p IHp q IHq|op c d p IHp q IHq r IHr]; intros U; cbn [shown].
  - apply NA.
  - assert (T : transparent "IntCst") by simple_op. apply (T (str_int n ++ ")")). apply clean_join; [reflexivity|apply clean_number|exact clean_end].
  - destruct U as [U1 U]. assert (T : transparent op).
    { destruct U1 as [(_ & [U1| ->] & _)|[(_ & U1 & _)|[(k & -> & _)|[(k & m & -> & _)|[(k & m & -> & _)|[(k & m & n & -> & _)|(m & -> & _)]]]]]]; try simple_op.
      - now apply unop_transparent.
      - destruct U1 as [<-|[<-|[<-|[]]]]; simple_op. }
    apply T. destruct (clean_options opts) as [CO (c & s & C & E)]. rewrite E in *. apply clean_join; auto.
  - destruct U as (U1 & Up & Uq). assert (T : transparent op).
    { destruct U1 as [(_ & [U1| ->] & _)|[(_ & -> & _)|[(_ & -> & _)|[(m & n & _ & -> & _)|[(m & n & _ & -> & _)|[(m & _ & -> & _)|(m & _ & -> & _)]]]]]]; try simple_op.
      now apply arithmetic_transparent. }
    apply T. apply (clean_join _ ","%char); [reflexivity|auto|]. apply clean_comma. apply clean_join; [reflexivity|auto|exact clean_end].
  - destruct U as [Up Uq]. assert (X : clean (shown name p ++ "|" ++ shown name q ++ ")")).
    { apply (clean_join _ "|"%char); [reflexivity|auto|]. apply clean_bar. apply clean_join; [reflexivity|auto|exact clean_end]. }
    destruct X as [A B]. split; [exact A|exact B].
  - destruct U as (U1 & _ & _ & Up & Uq & Ur). assert (T : transparent op) by (destruct U1 as [<-|[<-|[<-|[]]]]; simple_op).
    apply T. apply (clean_join _ ","%char); [reflexivity|auto|]. apply clean_comma. apply (clean_join _ ","%char); [reflexivity|auto|].
    apply clean_comma. apply clean_join; [reflexivity|auto|exact clean_end].
Qed.
Lemma no_space : forall s, has " " s = false -> one_space_less s = s.
Proof.
  induction s as [|c s IH]; intros H; [reflexivity|]. cbn [has one_space_less] in *. apply orb_false_iff in H. destruct H as [H1 H2]. now rewrite H1, IH.
Qed.
Lemma name_clean : forall o place a x, clean (name_in o place a x).
Proof.
  intros o place a x. unfold name_in, vname. assert (H : forall c, digit c = false -> c <> "-"%char -> c <> "V"%char -> has c "OptV" = false ->
    has c ((if o then "OptV" else "V") ++ str_int (Z.of_nat (place a x))) = false).
  { intros c D M V O. rewrite has_app, (str_has c) by assumption. rewrite orb_false_r. destruct o; [exact O|]. cbn [has].
    rewrite (proj2 (Ascii.eqb_neq "V" c)) by congruence. reflexivity. }
  split; [apply closed_text|]; apply H; try reflexivity; discriminate.
Qed.

(** ** Arguments *)

Lemma parse_those : forall ss, (forall s, In s ss -> exists r, parse_arg s = Some r /\ has_pos r = false) ->
  exists l, parse_each ss = Ok l /\ forallb (fun a => negb (has_pos a)) l = true.
Proof.
  induction ss as [|s ss IH]; intros H; [exists []; auto|]. destruct (H s (or_introl eq_refl)) as (r & P & Q).
  destruct IH as (l & E & F); [intros t J; apply H; now right|]. exists (r :: l). cbn [parse_each forallb]. rewrite P, E, Q, F. auto.
Qed.
Lemma declared_parsed : forall o p place l ss, placed p place l -> declared_at o p place ss -> List.length ss = List.length l ->
  forall s, In s ss -> exists r, parse_arg s = Some r /\ has_pos r = false.
Proof.
  intros o p place l ss (P1 & P2 & P3) D L s J. apply In_nth_error in J. destruct J as (k & N).
  destruct (P3 k) as (a & x & v & I & E); [rewrite <- L; apply nth_error_Some; now rewrite N|]. assert (Q := D a x v I). rewrite E, N in Q.
  assert (Q' : forall u v : string, Some u = Some v -> u = v) by (intros; congruence). apply Q' in Q. rewrite Q.
  eexists. split; [apply (parse_named _ (vname o k) (kind_of x) None (Z.of_nat (coordinates v)) (proj1 (vname_ok o k)) Logic.I); [lia|apply spaced_same]|reflexivity].
Qed.
Lemma some_argument : forall p place l (ss : list string), placed p place l -> List.length ss = List.length l -> leaves p <> [] -> ss <> [].
Proof.
  intros p place l ss (P1 & _) L NE E. subst ss. destruct (leaves p) as [|[[a x] v] t] eqn:Q; [congruence|]. specialize (P1 a x v (or_introl eq_refl)).
  destruct l; [destruct (place a x); discriminate|discriminate].
Qed.

Lemma kernel_accepts : forall T ss, clean T -> ss <> [] -> (forall s, In s ss -> exists r, parse_arg s = Some r /\ has_pos r = false) ->
  exists o, keops_kernel T ss = Ok o /\ o_args o = ss.
Proof.
  intros T ss [C S] NE H. unfold keops_kernel. destruct ss as [|s ss]; [congruence|]. rewrite no_space by exact S. rewrite variable_opened by exact C.
  destruct (parse_those (s :: ss) H) as (l & -> & F). cbn [rbind]. rewrite F, orb_true_r. eexists. split; reflexivity.
Qed.
Lemma data_accepts : forall o l, List.length (o_args o) = List.length l -> exists m, operator_data o (unnamed l) "col" = Ok m.
Proof.
  intros o l L. unfold operator_data. unfold unnamed at 1. rewrite map_length, L, Nat.eqb_refl, unnamed_no. eexists. reflexivity.
Qed.

Definition reductions : list string :=
  ["Sum"; "Min"; "Max"; "ArgMin"; "ArgMax"; "Min_ArgMin"; "Max_ArgMax"; "LogSumExp"; "KMin"; "ArgKMin"; "KMin_ArgKMin"; "SumSoftMaxWeight"].
Lemma reduction_transparent : forall op, In op reductions -> transparent (op ++ "_Reduction").
Proof. intros op I. unfold reductions in I. repeat (destruct I as [<-|I]; [simple_op|]). destruct I. Qed.

Lemma text_clean : forall op t, In op reductions -> clean t -> clean (op ++ "_Reduction(" ++ t).
Proof.
  intros op t I C. assert (T := reduction_transparent op I t C). rewrite C22Proofs.app_assoc_s in T. exact T.
Qed.

Lemma reduction_accepts : forall p z op index k, objects p -> usual p -> operations p -> run p = Ok z -> leaves p <> [] -> index <> RNA -> In op reductions ->
  (exists o l, reduction z op index NoArg = Ok (o, l)) /\ (exists o l, reduction z op index (IntArg k) = Ok (o, l)) /\
  forall q y, objects q -> usual q -> operations q -> run q = Ok y -> exists o l, reduction z op index (TensorArg y) = Ok (o, l).
Proof.
  intros p z op index k OB U OP R NE IX I. destruct (fixed_text false p z OB OP R) as (place & ss & PL & FX & DE & LE).
  assert (CF : clean (shown (name_in false place) p)) by (apply shown_clean; [intros; apply name_clean|exact U]).
  assert (PA := declared_parsed _ _ _ _ _ PL DE LE). assert (NS := some_argument _ _ _ _ PL LE NE).
  assert (TG : exists t, index_to_int index = Ok t) by (destruct index; [eexists; reflexivity|eexists; reflexivity|congruence]). destruct TG as (t & TG).
  assert (CE : clean ("," ++ str_int t ++ ")")) by (apply clean_comma, clean_join; [reflexivity|apply clean_number|exact clean_end]).
  unfold reduction, preprocess_reduction. rewrite TG, FX. cbn [rbind]. repeat split.
  - destruct (kernel_accepts (op ++ "_Reduction(" ++ shown (name_in false place) p ++ "," ++ str_int t ++ ")") ss) as (o & -> & A); auto.
    { apply text_clean; [exact I|]. apply (clean_join _ ","%char); [reflexivity|exact CF|exact CE]. }
    cbn [rbind]. destruct (data_accepts o (z_data z ++ [])) as (m & ->); [rewrite A, app_nil_r; exact LE|]. eexists. eexists. reflexivity.
  - destruct (kernel_accepts (op ++ "_Reduction(" ++ shown (name_in false place) p ++ "," ++ str_int k ++ "," ++ str_int t ++ ")") ss) as (o & -> & A); auto.
    { apply text_clean; [exact I|]. apply (clean_join _ ","%char); [reflexivity|exact CF|]. apply clean_comma.
      apply (clean_join _ ","%char); [reflexivity|apply clean_number|exact CE]. }
    cbn [rbind]. destruct (data_accepts o (z_data z ++ [])) as (m & ->); [rewrite A, app_nil_r; exact LE|]. eexists. eexists. reflexivity.
  - intros q y OB' U' OP' R'. destruct (fixed_text true q y OB' OP' R') as (place' & ss' & PL' & FX' & DE' & LE').
    assert (CF' : clean (shown (name_in true place') q)) by (apply shown_clean; [intros; apply name_clean|exact U']).
    assert (PA' := declared_parsed _ _ _ _ _ PL' DE' LE'). rewrite FX'. cbn [rbind fst snd].
    destruct (kernel_accepts (op ++ "_Reduction(" ++ shown (name_in false place) p ++ "," ++ shown (name_in true place') q ++ "," ++ str_int t ++ ")") (ss ++ ss')%list) as (o & -> & A).
    { apply text_clean; [exact I|]. apply (clean_join _ ","%char); [reflexivity|exact CF|]. apply clean_comma.
      apply (clean_join _ ","%char); [reflexivity|exact CF'|exact CE]. }
    { destruct ss; [congruence|discriminate]. }
    { intros s J. apply in_app_or in J. destruct J; auto. }
    cbn [rbind]. destruct (data_accepts o (z_data z ++ z_data y)) as (m & ->); [rewrite A, !app_length, LE, LE'; reflexivity|]. eexists. eexists. reflexivity.
Qed.

Lemma over_accepts : forall x op index opt w, index <> RNA -> (exists o l, reduction x op index opt = Ok (o, l)) -> exists o l, over x op index opt w = Ok (Reduced o l).
Proof. intros x op index opt w N (o & l & E). exists o, l. destruct index; [| |congruence]; cbn [over]; rewrite E; reflexivity. Qed.

Lemma accepted_reductions : forall c p z index, program_of c = Ok p -> run p = Ok z -> objects p -> not_empty c -> leaves p <> [] -> index <> RNA ->
  (forall f, In f ([RReduce.sum; sum_reduction] ++ map fst optima)%list -> exists o l, f z index = Ok (Reduced o l)) /\
  (forall f K, In f (map fst smallest) -> exists o l, f z K index = Ok (Reduced o l)) /\
  (forall f, In f [logsumexp; logsumexp_reduction] -> exists o l, f z index None = Ok (Reduced o l)) /\
  (forall f d q y, In f [sumsoftmaxweight; sumsoftmaxweight_reduction] -> program_of d = Ok q -> run q = Ok y -> objects q -> not_empty d ->
    exists o l, f z index y = Ok (Reduced o l)).
Proof.
  intros c p z index H R OB NE LV IX. assert (PO : pos p) by (intros a x v J; now apply (proj2 OB a x v)).
  destruct (calls c p z H R PO NE) as (U & O & _).
  assert (X := fun op k I => reduction_accepts p z op index k OB U O R LV IX I). repeat split.
  - intros f I. cbn in I. repeat (destruct I as [<-|I]; [refine (over_accepts _ _ _ _ _ IX (proj1 (X _ 0%Z _))); cbn; auto 20|]). destruct I.
  - intros f K I. cbn in I. repeat (destruct I as [<-|I]; [refine (over_accepts _ _ _ _ _ IX (proj1 (proj2 (X _ K _)))); cbn; auto 20|]). destruct I.
  - intros f I. repeat (destruct I as [<-|I]; [refine (over_accepts _ _ _ _ _ IX (proj1 (X _ 0%Z _))); cbn; auto 20|]). destruct I.
  - intros f d q y I H' R' OB' NE'. assert (PO' : pos q) by (intros a x v J; now apply (proj2 OB' a x v)).
    destruct (calls d q y H' R' PO' NE') as (U' & O' & _).
    assert (Y : exists o l, reduction z "SumSoftMaxWeight" index (TensorArg y) = Ok (o, l)).
    { destruct (X "SumSoftMaxWeight" 0%Z) as (_ & _ & W); [cbn; auto 20|]. exact (W q y OB' U' O' R'). }
    destruct I as [<-|[<-|[]]]; apply over_accepts; auto.
Qed.

(** Without index. *)
Lemma without_index : forall c p z, program_of c = Ok p -> run p = Ok z ->
  (is_number c = false -> exists q y, program_of (C1 Fsum c) = Ok q /\ run q = Ok y /\ RReduce.sum z RNA = Ok (Tensor y)) /\
  (forall f, In f [sum_reduction; min_reduction; argmin_reduction; min_argmin; min_argmin_reduction; max_reduction; argmax_reduction; max_argmax; max_argmax_reduction] ->
    f z RNA = KErr) /\
  (forall f K, In f (map fst smallest) -> f z K RNA = KErr) /\
  (forall f index w, In f [logsumexp; logsumexp_reduction] -> f z RNA None = KErr /\ f z index (Some w) = KErr) /\
  (forall f w, In f [sumsoftmaxweight; sumsoftmaxweight_reduction] -> f z RNA w = KErr).
Proof.
  intros c p z H R. repeat split.
  - intros N. exists (X1 "Sum" [] (Some 1%Z) p), (unaryop z "Sum" [] (Some 1%Z)). cbn [program_of]. rewrite H. cbn [rbind]. rewrite N. cbn [andb run]. rewrite R. auto.
  - intros f I. repeat (destruct I as [<-|I]; [reflexivity|]). destruct I.
  - intros f K I. cbn in I. repeat (destruct I as [<-|I]; [reflexivity|]). destruct I.
  - destruct H0 as [<-|[<-|[]]]; reflexivity.
  - destruct H0 as [<-|[<-|[]]]; reflexivity.
  - intros f w [<-|[<-|[]]]; reflexivity.
Qed.
