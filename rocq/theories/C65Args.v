(** Proofs for C65: arguments and data, and their places. *)

From Coq Require Import ZArith List Bool Ascii String Lia.
From Verif Require Import Result Keys KeySpec Aliases AliasSpec Methods MethodsSpec PyRead PyReadSpec PyReadProofs C22Proofs C26Proofs C55Proofs RKeops RKeopsSpec
  C64Proofs C64Grad RLazy RLazySpec C65Names.
Import ListNotations.
Local Open Scope nat_scope.
Open Scope string_scope.

Definition addr (q : leaf) : string := fst (fst q).
Definition ind (q : leaf) : rindex := snd (fst q).
Definition val (q : leaf) : rvalue := snd q.
Definition tail_of (q : leaf) : string := kind_text (kind_of (ind q)) ++ "(" ++ str_int (Z.of_nat (coordinates (val q))) ++ ")".
Definition arg_of (q : leaf) : string := lname (addr q) (ind q) ++ "=" ++ tail_of q.

(** ** Arguments once *)

Fixpoint keep (seen : list string) (ls : list leaf) : list leaf :=
  match ls with
  | [] => []
  | q :: ls => if existsb (String.eqb (arg_of q)) seen then keep seen ls else q :: keep (arg_of q :: seen) ls
  end.

Lemma unique_keep : forall ls seen, unique_from seen (map arg_of ls) = map arg_of (keep seen ls).
Proof.
  induction ls as [|q ls IH]; intros seen; [reflexivity|]. cbn [map unique_from keep].
  destruct (existsb _ seen); [apply IH|]. cbn [map]. f_equal. apply IH.
Qed.

Lemma existsb_nth : forall (pre l : list string) s,
  existsb (fun k => String.eqb (nth k (pre ++ l)%list "") s) (seq 0 (List.length pre)) = existsb (String.eqb s) pre.
Proof.
  intros pre l s. apply eq_true_iff_eq. rewrite !existsb_exists. split.
  - intros (k & I & E). apply in_seq in I. rewrite app_nth1 in E by lia. exists (nth k pre ""). split; [apply nth_In; lia|].
    rewrite String.eqb_sym. exact E.
  - intros (t & I & E). apply (In_nth _ _ "") in I. destruct I as (k & L & N). exists k. split; [apply in_seq; lia|].
    rewrite app_nth1 by lia. rewrite N, String.eqb_sym. exact E.
Qed.

Lemma data_keep : forall ls pre seen, (forall s, existsb (String.eqb s) seen = existsb (String.eqb s) pre) ->
  map snd (filter (fun p => negb (repeated (pre ++ map arg_of ls)%list (fst p)))
                  (combine (seq (List.length pre) (List.length (map val ls))) (map val ls))) = map val (keep seen ls).
Proof.
  induction ls as [|q ls IH]; intros pre seen S; [reflexivity|].
  cbn [map List.length seq combine filter fst keep].
  assert (E : repeated (pre ++ arg_of q :: map arg_of ls)%list (List.length pre) = existsb (String.eqb (arg_of q)) seen).
  { unfold repeated. rewrite S. rewrite (app_nth2 pre) by lia. rewrite Nat.sub_diag. cbn [nth]. apply existsb_nth. }
  rewrite E.
  assert (IH' := IH (pre ++ [arg_of q])%list). rewrite app_length in IH'. cbn [List.length] in IH'. rewrite Nat.add_1_r in IH'.
  rewrite <- app_assoc in IH'. cbn [app] in IH'.
  destruct (existsb (String.eqb (arg_of q)) seen) eqn:X; cbn [negb].
  - apply IH'. intros s. rewrite existsb_app, S. cbn [existsb]. rewrite orb_false_r.
    destruct (String.eqb_spec s (arg_of q)) as [->|]; [|now rewrite orb_false_r]. rewrite orb_true_r. now rewrite <- S.
  - cbn [map snd]. f_equal. apply IH'. intros s. rewrite existsb_app, <- S. cbn [existsb]. rewrite orb_false_r. apply orb_comm.
Qed.

Lemma keep_in : forall ls seen q, In q (keep seen ls) -> In q ls /\ existsb (String.eqb (arg_of q)) seen = false.
Proof.
  induction ls as [|p ls IH]; intros seen q H; [contradiction|]. cbn [keep] in H.
  destruct (existsb (String.eqb (arg_of p)) seen) eqn:E.
  - destruct (IH _ _ H). split; [now right|auto].
  - destruct H as [<-|H]; [split; [now left|exact E]|]. destruct (IH _ _ H) as [A B]. split; [now right|].
    cbn [existsb] in B. now apply orb_false_iff in B.
Qed.
Lemma keep_all : forall ls seen q, In q ls -> existsb (String.eqb (arg_of q)) seen = true \/ exists p, In p (keep seen ls) /\ arg_of p = arg_of q.
Proof.
  induction ls as [|p ls IH]; intros seen q H; [contradiction|]. cbn [keep].
  destruct (existsb (String.eqb (arg_of p)) seen) eqn:E.
  - destruct H as [<-|H]; [now left|]. now apply IH.
  - destruct H as [<-|H]; [right; exists p; split; [now left|reflexivity]|].
    destruct (IH (arg_of p :: seen) q H) as [X|(r & I & R)].
    + cbn [existsb] in X. apply orb_true_iff in X. destruct X as [X|X]; [|now left].
      apply String.eqb_eq in X. right. exists p. split; [now left|auto].
    + right. exists r. split; [now right|exact R].
Qed.
Lemma keep_once : forall ls seen, NoDup (map arg_of (keep seen ls)).
Proof.
  induction ls as [|p ls IH]; intros seen; [constructor|]. cbn [keep].
  destruct (existsb (String.eqb (arg_of p)) seen) eqn:E; [apply IH|]. cbn [map]. constructor; [|apply IH].
  intros H. apply in_map_iff in H. destruct H as (q & Q & I). apply keep_in in I. destruct I as [_ I]. cbn [existsb] in I.
  rewrite Q, String.eqb_refl in I. discriminate.
Qed.

(** ** Programs *)

Record holds (e : program) (z : lazy_tensor) (ls : list leaf) : Prop := {
  h_formula : z_formula z = shown lname e;
  h_args : z_args z = map arg_of ls;
  h_data : z_data z = map val ls;
  h_once : NoDup (map arg_of ls);
  h_in : forall q, In q ls -> In q (leaves e);
  h_all : forall q, In q (leaves e) -> exists p, In p ls /\ arg_of p = arg_of q }.

Lemma merged_holds : forall e ls f d, (forall q, In q ls -> In q (leaves e)) ->
  (forall q, In q (leaves e) -> exists p, In p ls /\ arg_of p = arg_of q) -> f = shown lname e ->
  exists ls', holds e (merged f (map arg_of ls) (map val ls) d) ls'.
Proof.
  intros e ls f d I A F. exists (keep [] ls). constructor; cbn [merged z_formula z_args z_data].
  - exact F.
  - apply unique_keep.
  - apply (data_keep ls [] []). reflexivity.
  - apply keep_once.
  - intros q H. apply keep_in in H. now apply I.
  - intros q H. destruct (A q H) as (p & P & E). destruct (keep_all ls [] p P) as [X|(r & R & Q)]; [discriminate|].
    exists r. split; [exact R|congruence].
Qed.

Lemma run_holds : forall e z, run e = Ok z -> exists ls, holds e z ls.
Proof.
  induction e as [a x v|n|op opts d e IH|op c d e IHe f IHf|e IHe f IHf|op c d e IHe f IHf g IHg]; intros z H; cbn [run] in H.
  - exists [(a, x, v)]. unfold new_tensor in H.
    assert (X : z = {| z_formula := lname a x; z_args := [arg_of (a, x, v)]; z_data := [v]; z_dim := Z.of_nat (coordinates v) |}).
    { destruct v, x; try discriminate; cbn [rbind] in H; injection H as <-; reflexivity. }
    subst z. constructor; cbn [z_formula z_args z_data map leaves]; auto.
    + constructor; [intros []|constructor].
    + intros q Q. exists q. split; auto.
  - injection H as <-. exists []. constructor; cbn; auto; [constructor|contradiction].
  - apply rbind_inv in H. destruct H as (x & E & H). injection H as <-. destruct (IH x E) as (ls & [A B C D F G]).
    exists ls. constructor; cbn [unaryop z_formula z_args z_data leaves]; auto. cbn [shown]. now rewrite A.
  - apply rbind_inv in H. destruct H as (x & E & H). apply rbind_inv in H. destruct H as (y & E' & H).
    destruct (IHe x E) as (ls & [A B C D F G]). destruct (IHf y E') as (ls' & [A' B' C' D' F' G']).
    unfold binaryop in H. destruct (match c with Some _ => _ | None => _ end); [|discriminate]. injection H as <-.
    rewrite B, B', C, C', <- !map_app. apply merged_holds.
    + intros q Q. cbn [leaves]. apply in_app_iff in Q. apply in_app_iff. destruct Q; auto.
    + intros q Q. cbn [leaves] in Q. apply in_app_iff in Q. destruct Q as [Q|Q]; [destruct (G q Q) as (p & P & X)|destruct (G' q Q) as (p & P & X)];
        exists p; split; auto; apply in_app_iff; auto.
    + cbn [shown]. now rewrite A, A'.
  - apply rbind_inv in H. destruct H as (x & E & H). apply rbind_inv in H. destruct H as (y & E' & H).
    destruct (IHe x E) as (ls & [A B C D F G]). destruct (IHf y E') as (ls' & [A' B' C' D' F' G']).
    unfold scalar_product, binaryop in H. destruct (check2 Same (z_dim x) (z_dim y)); [|discriminate]. cbn [rbind] in H. injection H as <-.
    rewrite B, B', C, C', <- !map_app.
    destruct (merged_holds (XScal e f) (ls ++ ls')%list (shown lname (XScal e f)) 1%Z) as (l & [P1 P2 P3 P4 P5 P6]).
    + intros q Q. cbn [leaves]. apply in_app_iff in Q. apply in_app_iff. destruct Q; auto.
    + intros q Q. cbn [leaves] in Q. apply in_app_iff in Q. destruct Q as [Q|Q]; [destruct (G q Q) as (p & P & X)|destruct (G' q Q) as (p & P & X)];
        exists p; split; auto; apply in_app_iff; auto.
    + reflexivity.
    + exists l. constructor; auto. cbn [z_formula merged shown]. rewrite A, A', !app_assoc_s. reflexivity.
  - apply rbind_inv in H. destruct H as (x & E & H). apply rbind_inv in H. destruct H as (y & E' & H).
    apply rbind_inv in H. destruct H as (w & E'' & H).
    destruct (IHe x E) as (ls & [A B C D F G]). destruct (IHf y E') as (ls' & [A' B' C' D' F' G']). destruct (IHg w E'') as (ls'' & [A'' B'' C'' D'' F'' G'']).
    unfold ternaryop in H. destruct (check3 _ _ _ _); [|discriminate]. injection H as <-.
    rewrite B, B', B'', C, C', C'', <- !map_app. apply merged_holds.
    + intros q Q. cbn [leaves]. rewrite !in_app_iff in *. destruct Q as [Q|[Q|Q]]; auto.
    + intros q Q. cbn [leaves] in Q. rewrite !in_app_iff in Q. destruct Q as [Q|[Q|Q]];
        [destruct (G q Q) as (p & P & X)|destruct (G' q Q) as (p & P & X)|destruct (G'' q Q) as (p & P & X)];
        exists p; (split; [rewrite !in_app_iff; auto|exact X]).
    + cbn [shown]. now rewrite A, A', A''.
Qed.

(** ** Places *)

Lemma index_eq_dec : forall x y : rindex, {x = y} + {x <> y}. Proof. decide equality. Qed.
Definition same_key (a : string) (x : rindex) (q : leaf) : bool :=
  String.eqb a (addr q) && if index_eq_dec x (ind q) then true else false.
Fixpoint place_in (ls : list leaf) (a : string) (x : rindex) : nat :=
  match ls with [] => 0 | q :: ls => if same_key a x q then 0 else S (place_in ls a x) end.

Lemma same_key_true : forall a x q, same_key a x q = true -> a = addr q /\ x = ind q.
Proof.
  intros a x q H. unfold same_key in H. apply andb_true_iff in H. destruct H as [H1 H2]. apply String.eqb_eq in H1.
  destruct (index_eq_dec x (ind q)); [auto|discriminate].
Qed.
Lemma same_key_refl : forall q, same_key (addr q) (ind q) q = true.
Proof. intros q. unfold same_key. rewrite String.eqb_refl. destruct (index_eq_dec _ _); [reflexivity|congruence]. Qed.

Lemma place_found : forall ls q, In q ls -> exists p, nth_error ls (place_in ls (addr q) (ind q)) = Some p /\ addr p = addr q /\ ind p = ind q.
Proof.
  induction ls as [|p ls IH]; intros q H; [contradiction|]. cbn [place_in].
  destruct (same_key (addr q) (ind q) p) eqn:E.
  - apply same_key_true in E. destruct E. exists p. cbn. auto.
  - destruct H as [<-|H]; [rewrite same_key_refl in E; discriminate|]. exact (IH q H).
Qed.

(** [ls] are the arguments of [e]. *)
Section Places.
  Variables (e : program) (z : lazy_tensor) (ls : list leaf).
  Hypothesis HO : holds e z ls.
  Hypothesis OB : objects e.
  Let place := place_in ls.

  Lemma leaf_of : forall q, In q (leaves e) -> is_address (addr q) /\ 1 <= coordinates (val q).
  Proof. intros [[a x] v] H. exact (proj2 OB a x v H). Qed.
  Lemma same_leaf : forall p q, In p (leaves e) -> In q (leaves e) -> addr p = addr q -> ind p = ind q -> p = q.
  Proof.
    intros [[a x] v] [[a' x'] v'] P Q A B. cbn in A, B. subst a' x'. f_equal. exact (proj1 OB a x v x v' P Q).
  Qed.
  Lemma upto_name : forall q, is_address (addr q) -> arg_identifier (arg_of q) = Some (lname (addr q) (ind q)).
  Proof.
    intros q A. unfold arg_identifier, arg_of. assert (A' := A). destruct A as (h & Ah & _).
    assert (P : from_first "A0x" (lname (addr q) (ind q) ++ "=" ++ tail_of q) = Some (lname (addr q) (ind q) ++ "=" ++ tail_of q)).
    { rewrite Ah. change (lname ("0x" ++ h) (ind q) ++ "=" ++ tail_of q) with ("A0x" ++ ((h ++ index_text (ind q)) ++ "=" ++ tail_of q)).
      assert (P := prefix_app "A0x" ((h ++ index_text (ind q)) ++ "=" ++ tail_of q)).
      destruct ("A0x" ++ _) in P |- *; [discriminate|]. cbn [from_first]. now rewrite P. }
    rewrite P. change ("=" ++ tail_of q) with (String "=" (tail_of q)). apply upto_app; [exact (prefix_app "=" (tail_of q))|].
    apply upto_none. apply (contains_has "="); [reflexivity|]. unfold tail_of. rewrite !has_app, str_int_has by (reflexivity || discriminate).
    destruct (ind q); reflexivity.
  Qed.
  Lemma arg_key : forall p q, In p (leaves e) -> In q (leaves e) -> arg_of p = arg_of q -> addr p = addr q /\ ind p = ind q.
  Proof.
    intros p q P Q E. apply name_contains; [apply leaf_of; auto..|].
    assert (X := upto_name p (proj1 (leaf_of p P))). rewrite E, (upto_name q (proj1 (leaf_of q Q))) in X. injection X as X. fold (lname (addr q) (ind q)) in X.
    assert (X' : lname (addr q) (ind q) = lname (addr p) (ind p)) by exact (f_equal (String "A") X).
    rewrite <- X'. clear. assert (P := prefix_app (lname (addr q) (ind q)) ""). rewrite app_nil_r_s in P.
    unfold lname in *. cbn [append contains]. cbn [append] in P. now rewrite P.
  Qed.
  Lemma in_ls : forall q, In q (leaves e) -> In q ls.
  Proof.
    intros q Q. destruct (h_all _ _ _ HO q Q) as (p & P & E). assert (PL := h_in _ _ _ HO p P).
    destruct (arg_key p q PL Q E). now rewrite <- (same_leaf p q).
  Qed.
  Lemma place_is : forall q, In q (leaves e) -> nth_error ls (place (addr q) (ind q)) = Some q.
  Proof.
    intros q Q. destruct (place_found ls q (in_ls q Q)) as (p & N & A & B). unfold place. rewrite N. f_equal.
    apply same_leaf; auto. apply (h_in _ _ _ HO). now apply (nth_error_In _ _ N).
  Qed.
  Lemma place_at : forall k q, nth_error ls k = Some q -> place (addr q) (ind q) = k.
  Proof.
    intros k q N. assert (I := nth_error_In _ _ N). assert (P := place_is q (h_in _ _ _ HO q I)).
    assert (ND := h_once _ _ _ HO). rewrite NoDup_nth_error in ND. apply ND.
    - rewrite map_length. apply nth_error_Some. rewrite P. discriminate.
    - rewrite !nth_error_map, P, N. reflexivity.
  Qed.

  Lemma are_placed : placed e place (z_data z).
  Proof.
    rewrite (h_data _ _ _ HO). split; [|split].
    - intros a x v H. rewrite nth_error_map. rewrite (place_is (a, x, v) H : nth_error ls (place a x) = _). reflexivity.
    - intros a x v a' x' v' H H' E. assert (A := place_is _ H). assert (A' := place_is _ H'). cbn [addr ind fst snd] in *.
      rewrite E in A. rewrite A in A'. injection A' as -> -> _. auto.
    - intros k L. rewrite map_length in L. destruct (nth_error ls k) as [[[a x] v]|] eqn:N; [|apply nth_error_None in N; lia].
      exists a, x, v. split; [exact (h_in _ _ _ HO _ (nth_error_In _ _ N))|exact (place_at _ _ N)].
  Qed.

  (** ** [fix_variables] *)

  Variable is_opt : bool.
  Hypothesis OP : operations e.

  Definition name_at (i : nat) (a : string) (x : rindex) : string := if Nat.ltb (place a x) i then tag_name is_opt (place a x) else lname a x.
  Definition arg_at (i k : nat) (q : leaf) : string := (if Nat.ltb k i then tag_name is_opt k else lname (addr q) (ind q)) ++ String "=" (tail_of q).
  Fixpoint args_at (i k : nat) (l : list leaf) : list string :=
    match l with [] => [] | q :: l => arg_at i k q :: args_at i (S k) l end.

  Lemma args_at_nth : forall l i k n, nth_error (args_at i k l) n = option_map (arg_at i (k + n)) (nth_error l n).
  Proof.
    induction l as [|q l IH]; intros i k n; [destruct n; reflexivity|]. destruct n as [|n]; cbn [args_at nth_error option_map].
    - now rewrite Nat.add_0_r.
    - rewrite IH. now rewrite Nat.add_succ_comm.
  Qed.
  Lemma tag_A : forall k, has "A" (tag_name is_opt k) = false.
  Proof. intros k. unfold tag_name. rewrite has_app, int_A. destruct is_opt; reflexivity. Qed.
  Lemma tail_A : forall q, has "A" (tail_of q) = false.
  Proof. intros q. unfold tail_of. rewrite !has_app, int_A. destruct (ind q); reflexivity. Qed.

  Lemma map_nth_ext : forall (A B : Type) (f : A -> A) (l m : list A), List.length l = List.length m ->
    (forall k x, nth_error l k = Some x -> nth_error m k = Some (f x)) -> map f l = m.
  Proof.
    intros A B f. induction l as [|x l IH]; intros [|y m] L H; try discriminate; auto. cbn [map].
    assert (X := H 0 x eq_refl). cbn in X. injection X as ->. f_equal. apply IH; [cbn in L; lia|]. intros k w K. exact (H (S k) w K).
  Qed.
  Lemma args_at_length : forall l i k, List.length (args_at i k l) = List.length l.
  Proof. induction l as [|q l IH]; intros i k; cbn; auto. Qed.

  Lemma one_step : forall i q, nth_error ls i = Some q ->
    replace_all (lname (addr q) (ind q)) (tag_name is_opt i) (shown (name_at i) e) = shown (name_at (S i)) e
    /\ map (replace_first (lname (addr q) (ind q)) (tag_name is_opt i)) (args_at i 0 ls) = args_at (S i) 0 ls.
  Proof.
    intros i q N. assert (Q := h_in _ _ _ HO q (nth_error_In _ _ N)). assert (AQ := proj1 (leaf_of q Q)). split.
    - apply shown_replace; auto. intros a x v H. assert (PI := place_is (a, x, v) H). cbn [addr ind fst snd] in PI. unfold name_at.
      destruct (Nat.ltb_spec (place a x) i) as [L|L], (Nat.ltb_spec (place a x) (S i)) as [L'|L']; try lia.
      + apply replace_absent. apply A_absent, tag_A.
      + assert (E : place a x = i) by lia. rewrite E in *. rewrite N in PI. injection PI as ->. cbn [addr ind fst snd]. apply replace_self. apply name_ne.
      + apply replace_absent. destruct (contains (lname (addr q) (ind q)) (lname a x)) eqn:C; [|reflexivity].
        apply name_contains in C; auto; [|exact (proj1 (leaf_of _ H))]. destruct C as [<- <-]. assert (P := place_at i q N). lia.
    - apply (map_nth_ext string string); [now rewrite !args_at_length|]. intros k s K.
      rewrite args_at_nth in *. cbn [plus] in *. destruct (nth_error ls k) as [p|] eqn:NP; [|discriminate]. cbn [option_map] in *.
      injection K as <-. f_equal. unfold arg_at. assert (PL := h_in _ _ _ HO p (nth_error_In _ _ NP)).
      assert (HE : has "=" (lname (addr q) (ind q)) = false) by (apply id_has; [exact AQ|cbn; tauto]).
      destruct (Nat.ltb_spec k i) as [L|L], (Nat.ltb_spec k (S i)) as [L'|L']; try lia.
      + symmetry. apply first_absent. apply contains_two; auto; [apply A_absent, tag_A|apply A_absent, tail_A|apply name_ne].
      + assert (k = i) by lia. subst k. rewrite N in NP. injection NP as <-. symmetry. apply first_here.
      + symmetry. apply first_absent. apply contains_two; auto; [|apply A_absent, tail_A|apply name_ne].
        destruct (contains (lname (addr q) (ind q)) (lname (addr p) (ind p))) eqn:C; [|reflexivity].
        apply name_contains in C; auto; [|exact (proj1 (leaf_of _ PL))]. destruct C as [C1 C2].
        assert (P := place_at i q N). assert (P' := place_at k p NP). rewrite C1, C2 in P. lia.
  Qed.

  Lemma all_steps : forall n i, i + n = List.length ls ->
    fix_from is_opt n i (shown (name_at i) e) (args_at i 0 ls) = Ok (shown (name_at (List.length ls)) e, args_at (List.length ls) 0 ls).
  Proof.
    induction n as [|n IH]; intros i L; cbn [fix_from]; [now replace i with (List.length ls) by lia|].
    rewrite args_at_nth. cbn [plus]. destruct (nth_error ls i) as [q|] eqn:N; [|apply nth_error_None in N; lia]. cbn [option_map].
    assert (E : arg_at i i q = arg_of q). { unfold arg_at. rewrite (proj2 (Nat.ltb_ge i i)) by lia. reflexivity. }
    rewrite E, upto_name by (apply leaf_of, (h_in _ _ _ HO), (nth_error_In _ _ N)).
    destruct (one_step i q N) as [-> ->]. apply IH. lia.
  Qed.

  Lemma shown_ext : forall nm nm' e', (forall a x v, In (a, x, v) (leaves e') -> nm a x = nm' a x) -> shown nm e' = shown nm' e'.
  Proof.
    intros nm nm'. induction e' as [a x v|n|op opts d f IH|op c d f IHf g IHg|f IHf g IHg|op c d f IHf g IHg h IHh]; intros H; cbn [shown leaves] in *; auto.
    - apply (H a x v). now left.
    - now rewrite IH.
    - rewrite IHf, IHg; auto; intros; apply (H a x v); apply in_or_app; auto.
    - rewrite IHf, IHg; auto; intros; apply (H a x v); apply in_or_app; auto.
    - rewrite IHf, IHg, IHh; auto; intros; apply (H a x v); rewrite !in_app_iff; auto.
  Qed.

  Lemma fixed : fix_variables is_opt z =
    Ok (shown (fun a x => tag_name is_opt (place a x)) e, args_at (List.length ls) 0 ls).
  Proof.
    unfold fix_variables. rewrite (h_args _ _ _ HO), map_length, (h_formula _ _ _ HO).
    assert (A : map arg_of ls = args_at 0 0 ls).
    { assert (X : forall l k, map arg_of l = args_at 0 k l); [|apply X].
      induction l as [|q l IH]; intros k; [reflexivity|]. cbn [map args_at]. rewrite (IH (S k)). reflexivity. }
    rewrite A. rewrite (shown_ext lname (name_at 0)) by (intros; reflexivity).
    rewrite all_steps by lia. f_equal. f_equal. apply shown_ext. intros a x v H. unfold name_at.
    assert (P := place_is (a, x, v) H). cbn [addr ind fst snd] in P.
    assert (L : place a x < List.length ls) by (apply nth_error_Some; rewrite P; discriminate).
    apply Nat.ltb_lt in L. now rewrite L.
  Qed.
  Lemma fixed_declared : declared_at is_opt e place (args_at (List.length ls) 0 ls).
  Proof.
    intros a x v H. rewrite args_at_nth. assert (P := place_is (a, x, v) H). cbn [addr ind fst snd] in P. rewrite P. cbn [option_map plus]. f_equal.
    assert (L : place a x < List.length ls) by (apply nth_error_Some; rewrite P; discriminate).
    unfold arg_at. apply Nat.ltb_lt in L. rewrite L. reflexivity.
  Qed.
End Places.
