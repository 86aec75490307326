(** Reading of the texts of gradients. *)

From Coq Require Import ZArith Lia List Bool Ascii String.
From Verif Require Import Result Keys KeySpec Aliases C22Proofs C26Proofs Formula FormulaSpec Simplify Build LazyTensors Methods
  MethodsSpec PyRead PyReadSpec PyReadProofs C55Proofs C55More RedText C57Proofs ReadArgs BackText.
Import ListNotations.
Open Scope string_scope.

(** ** Reading *)

Definition vtree (i d c : Z) : py := PCall (PName "Var") [literal i; literal d; literal c].

Lemma lexed_arg : forall x ts b tb, lex "" x = Some ts -> lexed b tb -> lexed (x ++ "," ++ b) (ts ++ K SComma :: tb)%list.
Proof.
  intros x ts b tb L B s. rewrite app_assoc_s. change (("," ++ b) ++ s) with (String "," (b ++ s)).
  rewrite (lex_comma (String.length x) x "" ts) by auto.
  change (String "," (b ++ s)) with ("," ++ (b ++ s)). rewrite lexed_comma, B.
  destruct (lex "" s); cbn; [rewrite <- app_assoc|]; reflexivity.
Qed.

Lemma ev_arg : forall ts e r, (exists n, forall m, n <= m -> parse m 0 ts = Some (e, [])) ->
  Ev (fun n => parse n 0 (ts ++ K SComma :: r)%list) e (K SComma :: r) /\ notclose (ts ++ K SComma :: r)%list.
Proof.
  intros ts e r [n H]. split.
  - exists n. intros m Hm. specialize (H m Hm). apply (extend r) in H. exact H.
  - specialize (H n (le_n n)). destruct ts as [|[nm|z|s] ts]; try exact Logic.I.
    destruct (no_close n 0 ts) as [C1 C2]. destruct s; try exact Logic.I; congruence.
Qed.

Lemma saved_read : forall kw x e i1 d1 c1 i2 d2 c2 i3 d3 c3, identifier kw -> reads x e ->
  reads (saved_text kw x (Aliases.var_text i1 d1 c1) (Aliases.var_text i2 d2 c2) (Aliases.var_text i3 d3 c3))
    (PCall (PName kw) [e; vtree i1 d1 c1; vtree i2 d2 c2; vtree i3 d3 c3]).
Proof.
  intros kw x e i1 d1 c1 i2 d2 c2 i3 d3 c3 I (ts & n & L & P).
  set (U1 := TVar i1 d1 c1). set (U2 := TVar i2 d2 c2). set (U3 := TVar i3 d3 c3).
  assert (W : forall T, (T = U1 \/ T = U2 \/ T = U3) -> well_named T) by (intros T [-> | [-> | ->]]; exact Logic.I).
  assert (L3 : lexed (written U3 ++ ")") (tokens U3 ++ [K SRPar])%list)
    by (apply lexed_app; [apply lexed_written, W; auto|exact lexed_rpar]).
  assert (L2 : lexed (written U2 ++ "," ++ written U3 ++ ")") (tokens U2 ++ K SComma :: tokens U3 ++ [K SRPar])%list)
    by (apply lexed_arg; [apply lexed_all, lexed_written, W; auto|exact L3]).
  assert (L1 : lexed (written U1 ++ "," ++ written U2 ++ "," ++ written U3 ++ ")")
                 (tokens U1 ++ K SComma :: tokens U2 ++ K SComma :: tokens U3 ++ [K SRPar])%list)
    by (apply lexed_arg; [apply lexed_all, lexed_written, W; auto|exact L2]).
  assert (L0 := lexed_arg x ts _ _ L L1).
  change (saved_text kw x (Aliases.var_text i1 d1 c1) (Aliases.var_text i2 d2 c2) (Aliases.var_text i3 d3 c3))
    with (kw ++ "(" ++ x ++ "," ++ written U1 ++ "," ++ written U2 ++ "," ++ written U3 ++ ")").
  eapply reads_ev; [apply lexed_all, lexed_call; [exact I|exact L0]|].
  apply (ev_from 6); [lia| |exact Logic.I|intros _; exact Logic.I]. apply call_tree; [exact Logic.I|].
  destruct (ev_arg ts e (tokens U1 ++ K SComma :: tokens U2 ++ K SComma :: tokens U3 ++ [K SRPar])%list) as [E NC]; [exists n; exact P|].
  eapply ev_items; [now left|exact NC|exact E|].
  eapply ev_more; [now left|apply ev_term0; [apply W; auto|exact Logic.I]|].
  eapply ev_more; [now left|apply ev_term0; [apply W; auto|exact Logic.I]|].
  eapply ev_more; [now left|apply ev_term0; [apply W; auto|exact Logic.I]|apply ev_more_nil].
Qed.

Lemma value_var : forall names i d c, (1 <= d)%Z -> (0 <= c)%Z ->
  evaluate names (vtree i d c) = Ok (VF (Var i (Z.to_nat d) (Z.to_nat c))).
Proof.
  intros names i d c D C.
  assert (X : forall z, evaluate names (literal z) = Ok (VZ z)).
  { intros z. unfold literal. destruct (Z.ltb_spec z 0); cbn; [f_equal; f_equal; lia|reflexivity]. }
  unfold vtree. cbn [evaluate]. rewrite !X. cbn [rbind call integers ocons lift call_ints].
  cbn [String.eqb Ascii.eqb Bool.eqb]. unfold nonneg.
  destruct (Z.ltb_spec d 0); [lia|]. destruct (Z.ltb_spec c 0); [lia|].
  unfold mk. cbn [node_ok]. destruct (Nat.leb_spec 1 (Z.to_nat d)); [reflexivity|lia].
Qed.
