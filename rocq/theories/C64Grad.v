(** Gradients of the operators of the R interface. *)

From Coq Require Import ZArith Reals Lia List Bool Ascii String.
From Verif Require Import Result Keys KeySpec Folder C25Proofs Aliases AliasSpec C22Proofs C26Proofs Formula FormulaSpec Simplify SimplifyProofs Build
  GradSpec KernelSum KernelSumSpec C05Proofs Diff PyRead PyReadSpec PyReadProofs RedText BackText BackSpec ReadSaved C58Proofs GenericOps GenericOpsSpec GenericRead
  C61Proofs RKeops RKeopsSpec C64Proofs.
Import ListNotations.
Local Open Scope nat_scope.
Open Scope string_scope.

(** ** Declarations *)

Lemma name_filled : forall n, is_name n -> filled r_name_char n = true.
Proof.
  intros n (c & t & -> & H1 & H2). unfold filled. cbn [String.eqb negb andb every].
  assert (X : forall c, name_letter c || digit c = true -> r_name_char c = true).
  { intros x. unfold name_letter, r_name_char. destruct (letter x), (digit x), (x =? "_")%char; cbn; intros; try reflexivity; discriminate. }
  rewrite (X c) by (rewrite H1; reflexivity). cbn [andb].
  revert H2. clear H1. induction t as [|d t IH]; [reflexivity|]. cbn [every]. intros H. apply andb_true_iff in H.
  destruct H as [A B]. rewrite (X d A), (IH B). reflexivity.
Qed.
Lemma digits_filled : forall z, (0 <= z)%Z -> filled digit (str_int z) = true /\ int_from 0 (str_int z) = z.
Proof.
  intros z Hz. destruct (digits_of_str z Hz) as [N D]. unfold filled. rewrite D.
  destruct (String.eqb_spec (str_int z) ""); [congruence|]. split; [reflexivity|].
  pose proof (py_int_str z Hz) as P. unfold py_int in P. destruct (str_int z); [congruence|]. now injection P.
Qed.
Lemma numbers_has : forall c p m, digit c = false -> c <> "-"%char -> c <> ","%char -> has c (numbers p m) = false.
Proof.
  intros c [p|] m H1 H2 H3; cbn [numbers]; [|now apply str_has].
  rewrite !has_app, !str_has by assumption. cbn [has orb]. rewrite (proj2 (Ascii.eqb_neq "," c)) by congruence. reflexivity.
Qed.
Lemma parse_named : forall s n kd p m, is_name n -> natural p -> (0 <= m)%Z -> spaced s (text (Named n kd p m)) ->
  parse_arg s = Some {| ra_name := n; ra_type := kind_text kd; ra_pos := p; ra_dim := m |}.
Proof.
  intros s n kd p m Hn Hp Hm S. unfold parse_arg.
  rewrite (spaced_no_spaces _ _ S (text_space (Named n kd p m) (conj Hn (conj Hp Hm)))). cbn [text].
  assert (K : forall c, has c "VijPm" = false -> has c (kind_text kd) = false).
  { intros c H. cbn [has] in H. repeat (apply orb_false_iff in H; let X := fresh in destruct H as [X H]).
    destruct kd; cbn [kind_text has]; rewrite ?H0, ?H1, ?H2, ?H3, ?H4; reflexivity. }
  change ("=" ++ ?r) with (String "=" r). rewrite split_first by (apply name_has; [exact Hn|reflexivity]).
  rewrite split_none.
  2:{ rewrite !has_app, K by reflexivity. rewrite numbers_has by (reflexivity || discriminate). reflexivity. }
  rewrite (name_filled n Hn). change ("(" ++ ?r) with (String "(" r).
  rewrite split_first by (apply K; reflexivity).
  rewrite split_none.
  2:{ rewrite !has_app. rewrite numbers_has by (reflexivity || discriminate). reflexivity. }
  replace (existsb (String.eqb (kind_text kd)) ["Vi"; "Vj"; "Pm"]) with true by (destruct kd; reflexivity).
  rewrite split_first by (apply numbers_has; (reflexivity || discriminate)).
  cbn [split]. destruct (digits_filled m Hm) as [Fm Im].
  destruct p as [p|]; cbn [numbers].
  - destruct (digits_filled p Hp) as [Fp Ip]. change ("," ++ ?r) with (String "," r).
    rewrite split_first by (apply str_has; (reflexivity || discriminate)).
    rewrite split_none by (apply str_has; (reflexivity || discriminate)). rewrite Fp, Fm, Ip, Im. reflexivity.
  - rewrite split_none by (apply str_has; (reflexivity || discriminate)). rewrite Fm, Im. reflexivity.
Qed.

(** Arguments of the R interface: named, the position is the place. *)
Definition info_of (d : AliasSpec.declaration) : option rarg :=
  match d with Named n kd p m => Some {| ra_name := n; ra_type := kind_text kd; ra_pos := p; ra_dim := m |} | _ => None end.
Lemma parse_all : forall ss ds, Forall2 (fun s d => valid d /\ spaced s (text d)) ss ds ->
  Forall (fun d => name_of d <> None) ds -> exists l, parse_each ss = Ok l /\ map Some l = map info_of ds.
Proof.
  intros ss ds H. induction H as [|s d ss ds [V S] H IH]; intros N; [exists []; auto|].
  inversion N as [|? ? N1 N2]; subst. destruct (IH N2) as (l & E & M). destruct d as [n kd p m|kd p m|p m c]; try (cbn in N1; congruence).
  destruct V as (V1 & V2 & V3). cbn [parse_each]. rewrite (parse_named s n kd p m V1 V2 V3 S), E. cbn [rbind].
  eexists. split; [reflexivity|]. cbn [map info_of]. now rewrite M.
Qed.
Lemma max_places : forall ds l k, map Some l = map info_of ds ->
  (forall i n kd p m, nth_error ds i = Some (Named n kd p m) -> p = None \/ p = Some (Z.of_nat (k + i))) -> ds <> [] ->
  max_position k l = Z.of_nat (k + List.length ds - 1).
Proof.
  induction ds as [|d ds IH]; intros l k M P NE; [congruence|]. destruct l as [|a l]; [discriminate|]. cbn [map] in M.
  injection M as M1 M2. destruct d as [n kd p m|kd p m|p m c]; try discriminate. cbn [info_of] in M1. injection M1 as ->.
  cbn [max_position]. assert (E : position k {| ra_name := n; ra_type := kind_text kd; ra_pos := p; ra_dim := m |} = Z.of_nat k).
  { unfold position. cbn [ra_pos]. destruct (P 0 n kd p m eq_refl) as [-> | ->]; [reflexivity|]. f_equal. lia. }
  rewrite E. destruct ds as [|d ds].
  - destruct l; [|discriminate]. cbn [max_position List.length]. lia.
  - rewrite (IH l (S k)); [|exact M2| |discriminate].
    + cbn [List.length]. lia.
    + intros i n' kd' p' m' H. specialize (P (S i) n' kd' p' m' H). replace (S k + i) with (k + S i) by lia. exact P.
Qed.
Lemma find_place : forall ds l i n kd p m, map Some l = map info_of ds -> once ds -> nth_error ds i = Some (Named n kd p m) ->
  find_arg n l = info_of (Named n kd p m) /\ nth_error l i = info_of (Named n kd p m).
Proof.
  intros ds l i n kd p m M O H. assert (E : nth_error l i = info_of (Named n kd p m)).
  { assert (X : nth_error (map Some l) i = Some (info_of (Named n kd p m))) by (rewrite M; now rewrite (map_nth_error info_of i ds H)).
    rewrite nth_error_map in X. destruct (nth_error l i); [|discriminate]. cbn in X |- *. congruence. }
  split; [|exact E]. cbn [info_of] in *.
  assert (U : forall j a, nth_error l j = Some a -> ra_name a = n -> j = i).
  { intros j a Hj Na. assert (X : nth_error (map info_of ds) j = Some (Some a)) by (rewrite <- M; now rewrite (map_nth_error Some j l Hj)).
    rewrite nth_error_map in X. destruct (nth_error ds j) as [d|] eqn:Ej; [|discriminate]. cbn in X. injection X as X.
    destruct d as [n' kd' p' m'|kd' p' m'|p' m' c']; try discriminate. cbn in X. injection X as <-. cbn in Na. subst n'.
    eapply O; [exact Ej|exact H|reflexivity|reflexivity]. }
  clear M O H. revert i E U. induction l as [|a l IH]; intros i E U; [destruct i; discriminate|].
  cbn [find_arg]. destruct (String.eqb_spec (ra_name a) n) as [Na|Na].
  - specialize (U 0 a eq_refl Na). subst i. exact E.
  - destruct i as [|i]; [cbn in E; injection E as ->; cbn in Na; congruence|]. apply (IH i E).
    intros j b Hj Nb. specialize (U (S j) b Hj Nb). lia.
Qed.

(** ** More names *)

Section More.
  Variables names names' : string -> option pv.
  Hypothesis H : forall s v, names s = Some v -> names' s = Some v.

  Lemma more_names : forall e v, evaluate names e = Ok v -> evaluate names' e = Ok v.
  Proof.
    fix IH 1. intros e v E. destruct e as [s|z|e|a b|s a b|a l|f l|a i|l]; cbn [evaluate] in *.
    - destruct (names s) as [w|] eqn:N; [|discriminate]. rewrite (H s w N). exact E.
    - exact E.
    - destruct (evaluate names e) as [x| | |] eqn:X; try discriminate. rewrite (IH e x X). exact E.
    - destruct (evaluate names a) as [x| | |] eqn:X; try discriminate. rewrite (IH a x X). cbn [rbind] in *.
      destruct (evaluate names b) as [y| | |] eqn:Y; try discriminate. rewrite (IH b y Y). exact E.
    - destruct (evaluate names a) as [x| | |] eqn:X; try discriminate. rewrite (IH a x X). cbn [rbind] in *.
      destruct (evaluate names b) as [y| | |] eqn:Y; try discriminate. rewrite (IH b y Y). exact E.
    - destruct (evaluate names a) as [x| | |] eqn:X; try discriminate. rewrite (IH a x X). cbn [rbind] in *.
      clear X a. revert x E. induction l as [|[s b] l IHl]; intros x E; [exact E|].
      destruct (evaluate names b) as [y| | |] eqn:Y; try discriminate. rewrite (IH b y Y). cbn [rbind] in *.
      destruct (compare_op s x y) as [r| | |]; try discriminate. cbn [rbind] in *.
      destruct l as [|p l]; [exact E|]. destruct (truthy r); [|exact E]. apply IHl, E.
    - destruct f; try discriminate.
      match type of E with rbind ?g _ = _ => destruct g as [vs| | |] eqn:G; try discriminate end.
      match goal with |- rbind ?g _ = _ => assert (G' : g = Ok vs) end.
      { clear E. revert vs G. induction l as [|a l IHl]; intros vs G; [exact G|].
        destruct (evaluate names a) as [x| | |] eqn:X; try discriminate. rewrite (IH a x X). cbn [rbind] in *.
        match type of G with rbind ?g _ = _ => destruct g as [r| | |] eqn:R; try discriminate end.
        rewrite (IHl r eq_refl). exact G. }
      rewrite G'. exact E.
    - destruct (evaluate names a) as [x| | |] eqn:X; try discriminate. rewrite (IH a x X). cbn [rbind] in *.
      destruct (evaluate names i) as [y| | |] eqn:Y; try discriminate. rewrite (IH i y Y). exact E.
    - match type of E with rbind ?g _ = _ => destruct g as [vs| | |] eqn:G; try discriminate end.
      match goal with |- rbind ?g _ = _ => assert (G' : g = Ok vs) end.
      { clear E. revert vs G. induction l as [|a l IHl]; intros vs G; [exact G|].
        destruct (evaluate names a) as [x| | |] eqn:X; try discriminate. rewrite (IH a x X). cbn [rbind] in *.
        match type of G with rbind ?g _ = _ => destruct g as [r| | |] eqn:R; try discriminate end.
        rewrite (IHl r eq_refl). exact G. }
      rewrite G'. exact E.
  Qed.

  Lemma more_formula : forall e v, formula_value names e = Ok v -> formula_value names' e = Ok v.
  Proof.
    fix IH 1. intros e v E. destruct e as [s|z|e|a b|s a b|a l|f l|a i|l]; try (exact (more_names _ _ E)).
    destruct f; try (exact (more_names _ _ E)).
    destruct l as [|x [|y [|z [|w l]]]]; try (exact (more_names _ _ E)).
    cbn [formula_value] in *. destruct (String.eqb s "Grad"); [|exact (more_names _ _ E)].
    destruct (formula_value names x) as [f| | |] eqn:X; try discriminate. rewrite (IH x f X). cbn [rbind] in *.
    destruct (evaluate names y) as [g| | |] eqn:Y; try discriminate. rewrite (more_names y g Y). cbn [rbind] in *.
    destruct (evaluate names z) as [h| | |] eqn:Z; try discriminate. rewrite (more_names z h Z). exact E.
  Qed.
End More.

(** ** The text of a gradient *)

Lemma name_identifier : forall n, is_name n -> identifier n.
Proof.
  intros n (c & t & -> & H1 & H2). split.
  - exact H1.
  - intros d Hd. revert H2. induction t as [|x t IH]; [discriminate|]. cbn [has every] in *. intros H. apply andb_true_iff in H.
    destruct H as [A B]. apply orb_true_iff in Hd. destruct Hd as [Hd|Hd]; [|now apply IH].
    apply Ascii.eqb_eq in Hd. subst x. exact A.
Qed.
Lemma name_simple : forall n, is_name n -> simple_name n.
Proof.
  intros n H. assert (N : n <> "") by (destruct H as (c & t & -> & _); discriminate).
  repeat split; [exact N|apply (name_has _ n H); reflexivity..].
Qed.
Lemma no_spaces_app : forall a b, no_spaces (a ++ b) = no_spaces a ++ no_spaces b.
Proof. induction a as [|c a IH]; intros b; [reflexivity|]. cbn [append no_spaces]. destruct (c =? " ")%char; rewrite IH; reflexivity. Qed.
Lemma name_item : forall v s r, stops 6 (K s :: r) -> stops 0 (K s :: r) ->
  Ev (fun n => parse n 0 (KName v :: K s :: r)) (PName v) (K s :: r).
Proof.
  intros v s r S S0. apply (ev_from 6); [lia| |exact S0|intros _; exact Logic.I].
  eapply ev_6; [apply ev_name|now apply ev_trail_stop].
Qed.
Lemma grad_read : forall F e v eta, is_name v -> is_name eta -> reads F e ->
  reads (grad_text F v eta) (PCall (PName "Grad") [e; PName v; PName eta]).
Proof.
  intros F e v eta Hv He (ts & n & L & P).
  assert (I : identifier "Grad") by (split; [reflexivity|]; intros x; cbn [has]; intros Y;
      repeat (apply orb_true_iff in Y; destruct Y as [Y|Y]; [apply Ascii.eqb_eq in Y; subst x; reflexivity|]); discriminate Y).
  assert (L3 : lexed (eta ++ ")") [KName eta; K SRPar])
    by (apply (lexed_word_app eta ")" [KName eta] [K SRPar]);
        [apply C55Proofs.lexed_ident, name_identifier, He|exact C55Proofs.lexed_rpar|discriminate|reflexivity]).
  assert (L2 : lexed (v ++ "," ++ eta ++ ")") (KName v :: K SComma :: [KName eta; K SRPar]))
    by (apply (lexed_word_app v ("," ++ eta ++ ")") [KName v] (K SComma :: [KName eta; K SRPar]));
        [apply C55Proofs.lexed_ident, name_identifier, Hv
        |exact (lexed_app "," _ [K SComma] _ C55Proofs.lexed_comma L3)|discriminate|reflexivity]).
  assert (L1 := lexed_arg F ts _ _ L L2). unfold grad_text.
  change ("Grad(" ++ ?r) with ("Grad" ++ "(" ++ r).
  eapply reads_ev; [apply lexed_all, C55Proofs.lexed_call; [exact I|exact L1]|].
  apply (ev_from 6); [lia| |exact Logic.I|intros _; exact Logic.I]. apply C55Proofs.call_tree; [exact Logic.I|].
  destruct (ev_arg ts e (KName v :: K SComma :: [KName eta; K SRPar])%list) as [E NC]; [exists n; exact P|].
  eapply ev_items; [now left|exact NC|exact E|].
  eapply ev_more; [now left|apply name_item; exact Logic.I|].
  eapply ev_more; [now left|apply name_item; exact Logic.I|apply ev_more_nil].
Qed.

Lemma sum_value : forall names e c h, (0 <= c <= 1)%Z -> formula_value names e = Ok h ->
  forall X, reduction_value names (PCall (PName "Sum_Reduction") (e :: map PyReadSpec.literal [c])) = Ok X ->
  exists f, h = VF f /\ X = RSum {| sformula := f; stagI := Z.to_nat c |}.
Proof.
  intros names e c h Hc V X H. cbn [reduction_value] in H. rewrite V in H. cbn [rbind map evaluate_all] in H.
  assert (L : evaluate names (PyReadSpec.literal c) = Ok (VZ c))
    by (unfold PyReadSpec.literal; destruct (Z.ltb_spec c 0); [lia|reflexivity]).
  rewrite L in H. cbn [rbind] in H. unfold plain in H. destruct h as [f|z|b| |l]; try discriminate.
  - cbn [construct] in H. change (is_lse "Sum_Reduction") with false in H. cbv iota in H. unfold make2 in H.
    change (existsb (String.eqb "Sum_Reduction") ["Sum_Reduction"; "Min_Reduction"; "Max_Reduction"]) with true in H. cbv iota in H.
    cbn [rbind ro_tag simple] in H. destruct (Z.ltb_spec c 0); [lia|]. change (String.eqb "Sum_Reduction" "Sum_Reduction") with true in H.
    cbv iota in H. injection H as <-. exists f. split; reflexivity.
Qed.

Lemma dictionary_same : forall l a b, dictionary l a -> dictionary l b -> a = b.
Proof.
  intros l a b H. revert b. induction H as [|a l d C H IH|a l d n v e x C S R V H IH]; intros b H2.
  - inversion H2. reflexivity.
  - inversion H2; subst; [now apply IH|congruence].
  - inversion H2 as [|? ? ? C'|? ? d' n' v' e' x' C' S' R' V' H']; subst; [congruence|].
    rewrite S in S'. injection S' as <- <-. rewrite <- (reads_unique _ _ _ R R') in V'. rewrite V in V'. injection V' as <-.
    now rewrite (IH _ H').
Qed.

(** ** The gradient *)

Lemma sum_gradient : forall decl A M N, 0 < M -> 0 < N -> forall f t n k d c h,
  decl k = (d, c) -> decl n = (dim f, t) -> 1 <= d -> c <= 1 -> t = c -> regular decl A M N f ->
  DiffT f (Var k d c) (Var n (dim f) t) = Ok h ->
  gradient_of decl A M N {| sformula := f; stagI := t |} n k {| sformula := h; stagI := t |}.
Proof.
  intros decl A M N HM HN f t n k d c h DK DN D C -> (W & DC & U & SM) E. unfold gradient_of. rewrite DK. intros H.
  cbn [sformula stagI].
  assert (B : backward decl A M N {| sformula := f; stagI := c |} n k =
              Ok (collapsed (Z.of_nat c) M (reduce_sum decl A M N {| sformula := h; stagI := c |}))).
  { unfold backward. rewrite DK. unfold Sum_DiffT. cbn [sformula stagI]. rewrite E. cbn [rbind].
    assert (Cm : Nat.modulo c 2 = c) by (destruct c as [|[|c]]; [reflexivity|reflexivity|lia]). rewrite Cm.
    unfold collapsed. f_equal. destruct (Nat.eqb_spec c 2) as [->|Ne]; [lia|].
    destruct (Z.eqb_spec (Z.of_nat c) 2); [lia|reflexivity]. }
  eapply kernel_sum_gradient_output; [exact DK|exact D|lia|exact C|exact W|exact DC|exact U|exact DN|apply dim_pos, W|exact SM|exact B].
Qed.

Lemma grad_operator : forall ss ds T o l i n kd p m eta var og, r_arguments ss ds ->
  o = {| o_formula := T; o_args := ss; o_info := l |} -> parse_each ss = Ok l -> map Some l = map info_of ds ->
  nth_error ds i = Some (Named n kd p m) -> var = Name n \/ var = Position (Z.of_nat i) ->
  keops_grad eta o var = Ok og ->
  o_formula og = grad_text T n eta /\ exists q, natural q /\ (q = None \/ q = Some (Z.of_nat (List.length ds))) /\
    o_args og = (ss ++ [text (Named eta kd q 1)])%list.
Proof.
  intros ss ds T o l i n kd p m eta var og [R1 R2 R3 R4 R5] -> PE MI NE HV KG.
  assert (NN : ds <> []) by (intros ->; destruct i; discriminate).
  destruct (find_place ds l i n kd p m MI R3 NE) as [FP FN].
  assert (LP : max_position 0 l = Z.of_nat (List.length ds - 1)) by (apply (max_places ds l 0 MI); [exact R5|exact NN]).
  assert (IL : i < List.length ds) by (apply nth_error_Some; congruence).
  unfold keops_grad in KG.
  assert (GF : gradient_formula eta {| o_formula := T; o_args := ss; o_info := l |} var =
    Ok (grad_text T n eta, (ss ++ [text (Named eta kd (match p with Some _ => Some (Z.of_nat (List.length ds)) | None => None end) 1)])%list)).
  { unfold gradient_formula. cbn [o_info o_formula o_args]. rewrite LP.
    assert (AE : forall a, info_of (Named n kd p m) = Some a -> a = {| ra_name := n; ra_type := kind_text kd; ra_pos := p; ra_dim := m |})
      by (intros a X; cbn in X; now injection X).
    assert (S : (match var with
          | Position z => if (0 <=? z)%Z && (z <=? Z.of_nat (List.length ds - 1))%Z
                          then match nth_error l (Z.to_nat z) with Some a => Ok a | None => PyErr end
                          else KErr
          | Name n => match find_arg n l with Some a => Ok a | None => KErr end
          end) = Ok {| ra_name := n; ra_type := kind_text kd; ra_pos := p; ra_dim := m |}).
    { destruct HV as [-> | ->].
      - rewrite FP. reflexivity.
      - destruct (Z.leb_spec 0 (Z.of_nat i)); [|lia]. destruct (Z.leb_spec (Z.of_nat i) (Z.of_nat (List.length ds - 1))); [|lia].
        cbn [andb]. rewrite Nat2Z.id, FN. reflexivity. }
    rewrite S. cbn [rbind ra_name ra_type has_pos ra_pos]. do 3 f_equal.
    cbn [text]. unfold has_pos. cbn [ra_pos]. destruct p as [p|]; cbn [numbers].
    - replace (Z.of_nat (List.length ds - 1) + 1)%Z with (Z.of_nat (List.length ds)) by lia. rewrite !app_assoc_s. reflexivity.
    - reflexivity. }
  rewrite GF in KG. cbn [rbind fst snd] in KG. unfold keops_kernel in KG.
  set (q := match p with Some _ => Some (Z.of_nat (List.length ds)) | None => None end) in *.
  destruct (ss ++ [text (Named eta kd q 1)])%list as [|x y] eqn:EL; [destruct ss; discriminate|].
  destruct (variable_in _); [discriminate|]. destruct (parse_each (x :: y)) as [l'| | |]; try discriminate. cbn [rbind] in KG.
  destruct (forallb has_pos l' || forallb (fun a => negb (has_pos a)) l'); [|discriminate]. injection KG as <-. cbn [o_formula o_args].
  split; [reflexivity|]. exists q. split; [|split; [|symmetry; exact EL]].
  - subst q. destruct p; cbn; lia || exact Logic.I.
  - subst q. destruct p; auto.
Qed.

Lemma sum_text : forall F ax t, red_text "Sum" F None ax "" = Ok t ->
  exists c, (0 <= c <= 1)%Z /\ c = (1 - ax)%Z /\ t = "Sum_Reduction" ++ "(" ++ F ++ "," ++ str_int c ++ ")".
Proof.
  intros F ax t H. unfold red_text in H. change (Layout.preprocess "Sum" (negb (String.eqb "" ""))) with (Ok ("Sum", Layout.NoSecond)) in H.
  cbn [rbind] in H. unfold axis2cat in H.
  destruct (Z.eqb_spec ax 0) as [->|]; [cbn in H; injection H as <-; exists 1%Z; repeat split; lia|].
  destruct (Z.eqb_spec ax 1) as [->|]; [cbn in H; injection H as <-; exists 0%Z; repeat split; lia|discriminate].
Qed.

Lemma reduction_ok : forall d e X, reduction_of d e = Ok X -> reduction_value (found d) e = Ok X.
Proof. intros d e X H. unfold reduction_of in H. destruct (existsb _ _); [discriminate|exact H]. Qed.

Lemma ident_sum : identifier "Sum_Reduction".
Proof.
  split; [reflexivity|]; intros x; cbn [has]; intros Y;
      repeat (apply orb_true_iff in Y; destruct Y as [Y|Y]; [apply Ascii.eqb_eq in Y; subst x; reflexivity|]); discriminate Y.
Qed.

Lemma rbind_inv : forall {A B} (r : res A) (k : A -> res B) b, (do x <- r ; k x) = Ok b -> exists x, r = Ok x /\ k x = Ok b.
Proof. intros A B r k b H. destruct r as [x| | |]; try discriminate. exists x. auto. Qed.

Theorem r_gradient : forall decl A M N, 0 < M -> 0 < N -> forall T ss ds o p r F ax e i n kd q m eta var og pg X,
  r_arguments ss ds -> keops_kernel T ss = Ok o ->
  written (no_spaces T) {| d_op := "Sum"; d_main := F; d_axis := Some ax; d_opt := NoOption |} -> reads F e ->
  operator_text o = Ok p -> genred_makes p (RSum r) ->
  nth_error ds i = Some (Named n kd q m) -> var = Name n \/ var = Position (Z.of_nat i) ->
  is_name eta -> ~ is_declared ds eta ->
  keops_grad eta o var = Ok og -> operator_text og = Ok pg -> genred_makes pg X ->
  r_declared decl ds kd -> regular decl A M N (sformula r) -> dim (sformula r) = 1 -> AliasSpec.category kd = Z.of_nat (stagI r) ->
  exists rg, X = RSum rg /\ stagI rg = stagI r /\
    gradient_of decl A M N r (Z.of_nat (List.length ds)) (Z.of_nat i) rg.
Proof.
  intros decl A M N HM HN T ss ds o p r F ax e i n kd q m eta var og pg X RA KK W RF OT GM NE HV He Fr KG OG GG [DD DN] RG D1 CK.
  assert (RA' := RA). destruct RA' as [R1 R2 R3 R4 R5].
  destruct (parse_all ss ds R1 R2) as (l & PE & MI).
  assert (EO : o = {| o_formula := T; o_args := ss; o_info := l |}).
  { unfold keops_kernel in KK. destruct ss as [|s0 ss0]; [discriminate|]. destruct (variable_in _); [discriminate|].
    rewrite PE in KK. cbn [rbind] in KK. destruct (_ || _); [|discriminate]. now injection KK as <-. }
  destruct (grad_operator ss ds T o l i n kd q m eta var og RA EO PE MI NE HV KG) as (OF & q' & NQ & Q' & OA).
  assert (Vn : valid (Named n kd q m)).
  { clear -R1 NE. revert i NE. induction R1 as [|s d ss ds [V _] _ IH]; intros [|i] NE; try discriminate; [|now apply (IH i)].
    cbn in NE. now injection NE as ->. }
  destruct Vn as (Nn & Nq & Nm).
  (* the operator *)
  subst o. unfold operator_text in OT. cbn [o_formula o_args] in OT.
  rewrite (r_kernel T _ _ W eq_refl) in OT. cbn [rbind] in OT. apply rbind_inv in OT. destruct OT as (t & GT & OT). injection OT as <-.
  cbn [genred_text d_axis d_opt d_op d_main] in GT. destruct (sum_text F ax t GT) as (c & Hc & Ec & ->).
  destruct GM as (al & dd & e0 & AL & DI & RE & RV). cbn [p_aliases p_formula] in *.
  assert (RE' := args_read "Sum_Reduction" F e c [] ident_sum RF). cbn [map String.concat append] in RE'.
  assert (E0 := reads_unique _ _ _ RE' RE). subst e0. apply reduction_ok in RV.
  rewrite (engine_text ds ss 0 None None R1) in AL. injection AL as <-.
  assert (VV : Forall valid ds) by (clear -R1; induction R1 as [|s d ss ds [V _] _ IH]; constructor; auto).
  assert (DE := dictionary_same _ _ _ (table_ok ds 0 VV R4) DI). subst dd.
  assert (FV : exists h, formula_value (found (table 0 ds)) e = Ok h).
  { cbn [reduction_value map] in RV. destruct (formula_value (found (table 0 ds)) e) as [h| | |]; try discriminate. eauto. }
  destruct FV as (h & FV).
  destruct (sum_value _ _ c h Hc FV _ RV) as (f & -> & RR). injection RR as ->. cbn [sformula stagI] in *.
  (* the gradient *)
  set (nd := Named eta kd q' 1) in *. remember (text nd) as tnd eqn:TN.
  unfold operator_text in OG. rewrite OF, OA in OG.
  assert (NS : no_spaces (grad_text T n eta) = grad_text (no_spaces T) n eta).
  { unfold grad_text. rewrite !no_spaces_app. rewrite (no_spaces_same n), (no_spaces_same eta); [reflexivity|apply name_simple, He|apply name_simple, Nn]. }
  rewrite (r_grad _ _ _ n eta W (name_simple n Nn) (name_simple eta He) NS) in OG. cbn [rbind with_main d_main] in OG.
  apply rbind_inv in OG. destruct OG as (t' & GT' & OG). injection OG as <-.
  cbn [genred_text with_main d_axis d_opt d_op d_main] in GT'. destruct (sum_text _ ax t' GT') as (c' & Hc' & Ec' & ->).
  assert (CE : c' = c) by lia. clear Ec'. subst c'.
  destruct GG as (al' & dd' & e1 & AL' & DI' & RE1 & RV1). cbn [p_aliases p_formula] in *.
  assert (GR := grad_read F e n eta Nn He RF).
  assert (RE1' := args_read "Sum_Reduction" _ _ c [] ident_sum GR). cbn [map String.concat append] in RE1'.
  assert (E1 := reads_unique _ _ _ RE1' RE1). subst e1. apply reduction_ok in RV1.
  assert (Vnd : valid nd) by (split; [exact He|split; [exact NQ|lia]]).
  assert (SP : forall s, has " " s = false -> spaced s s) by (induction s as [|x s IH]; [constructor|]; cbn [has]; intros Hs;
     apply orb_false_iff in Hs; destruct Hs; constructor; auto).
  assert (R1' : Forall2 (fun s d => valid d /\ spaced s (text d)) (ss ++ [tnd])%list (ds ++ [nd])%list).
  { rewrite TN. apply Forall2_app; [exact R1|]. constructor; [|constructor]. split; [exact Vnd|]. apply SP, text_space, Vnd. }
  rewrite (engine_text _ _ 0 None None R1') in AL'. injection AL' as <-.
  assert (VV' : Forall valid (ds ++ [nd])%list) by (apply Forall_app; split; [exact VV|constructor; [exact Vnd|constructor]]).
  assert (R4' : Forall (fun d => 1 <= dimension d)%Z (ds ++ [nd])%list)
    by (apply Forall_app; split; [exact R4|constructor; [cbn; lia|constructor]]).
  assert (DE' := dictionary_same _ _ _ (table_ok _ 0 VV' R4') DI'). subst dd'.
  assert (O' : once (ds ++ [nd])%list).
  { intros a b x y w Ha Hb Hx Hy. destruct (Nat.lt_ge_cases a (List.length ds)) as [La|La], (Nat.lt_ge_cases b (List.length ds)) as [Lb|Lb].
    - rewrite nth_error_app1 in Ha, Hb by assumption. eapply R3; eassumption.
    - rewrite nth_error_app1 in Ha by assumption. rewrite nth_error_app2 in Hb by assumption.
      destruct (b - List.length ds) as [|k]; [cbn in Hb; injection Hb as <-|destruct k; discriminate].
      cbn in Hy. injection Hy as <-. destruct Fr. exists x. split; [eapply nth_error_In; eassumption|exact Hx].
    - rewrite nth_error_app1 in Hb by assumption. rewrite nth_error_app2 in Ha by assumption.
      destruct (a - List.length ds) as [|k]; [cbn in Ha; injection Ha as <-|destruct k; discriminate].
      cbn in Hx. injection Hx as <-. destruct Fr. exists y. split; [eapply nth_error_In; eassumption|exact Hy].
    - rewrite nth_error_app2 in Ha, Hb by assumption.
      destruct (a - List.length ds) as [|k] eqn:Ea; [|destruct k; discriminate].
      destruct (b - List.length ds) as [|k] eqn:Eb; [|destruct k; discriminate]. lia. }
  assert (IL : i < List.length ds) by (apply nth_error_Some; congruence).
  assert (F1 : found (table 0 (ds ++ [nd])%list) n = Some (VF (Var (Z.of_nat i) (Z.to_nat m) (Z.to_nat (AliasSpec.category kd))))).
  { apply found_declared; [exact O'|]. exists i, (Named n kd q m). split; [now rewrite nth_error_app1|]. split; [reflexivity|].
    cbn [triple]. destruct (R5 i n kd q m NE) as [-> | ->]; reflexivity. }
  assert (F2 : found (table 0 (ds ++ [nd])%list) eta = Some (VF (Var (Z.of_nat (List.length ds)) 1 (Z.to_nat (AliasSpec.category kd))))).
  { apply (found_declared _ eta _ 1 (Z.of_nat (List.length ds)) O'). exists (List.length ds), nd.
    split; [rewrite nth_error_app2, Nat.sub_diag by lia; reflexivity|]. split; [reflexivity|].
    unfold nd. cbn [triple]. destruct Q' as [-> | ->]; reflexivity. }
  assert (MORE : forall s v, found (table 0 ds) s = Some v -> found (table 0 (ds ++ [nd])%list) s = Some v).
  { intros s v Hs. unfold found in Hs. apply assoc_in, in_rev, table_in in Hs. destruct Hs as (j & d & Nj & Mj & Tj).
    rewrite Z.add_0_l in Tj. destruct (triple (Z.of_nat j) d) as [[tc tm] tp] eqn:Et. subst v.
    apply found_declared; [exact O'|]. exists j, d. split; [rewrite nth_error_app1; [exact Nj|apply nth_error_Some; congruence]|].
    split; [exact Mj|exact Et]. }
  assert (FV1 := more_formula _ _ MORE e _ FV).
  assert (FG : exists g, formula_value (found (table 0 (ds ++ [nd])%list)) (PCall (PName "Grad") [e; PName n; PName eta]) = Ok g).
  { cbn [reduction_value map] in RV1.
    destruct (formula_value (found (table 0 (ds ++ [nd])%list)) (PCall (PName "Grad") [e; PName n; PName eta])) as [g| | |]; try discriminate. eauto. }
  destruct FG as (g & FG).
  destruct (sum_value _ _ c g Hc FG _ RV1) as (hf & -> & ->).
  cbn [formula_value] in FG. change (String.eqb "Grad" "Grad") with true in FG. cbv iota in FG. rewrite FV1 in FG.
  cbn [rbind evaluate] in FG. rewrite F1, F2 in FG. cbn [rbind as_formula] in FG.
  destruct (DiffT f _ _) as [h'| | |] eqn:DT; try discriminate. cbn [lift rbind] in FG. injection FG as <-.
  exists {| sformula := h'; stagI := Z.to_nat c |}. split; [reflexivity|]. split; [reflexivity|].
  specialize (DD i _ NE). cbn [dimension kept] in DD. rewrite Forall_forall in R4.
  specialize (R4 _ (nth_error_In _ _ NE)). cbn [dimension] in R4.
  assert (CC : Z.to_nat (AliasSpec.category kd) = Z.to_nat c) by (rewrite CK, Nat2Z.id; reflexivity).
  apply (sum_gradient decl A M N HM HN f (Z.to_nat c) _ _ (Z.to_nat m) (Z.to_nat (AliasSpec.category kd)) h').
  - exact DD.
  - rewrite DN, D1, CC. reflexivity.
  - lia.
  - rewrite CC. lia.
  - symmetry. exact CC.
  - exact RG.
  - rewrite D1, <- CC. exact DT.
Qed.
