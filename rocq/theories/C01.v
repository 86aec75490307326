(** C01 -- formula simplification never changes values. *)

From Coq Require Import ZArith Reals Lra Lia.
From Verif Require Import Result Formula Simplify Build FormulaSpec C01Proofs.

Theorem C01_add : forall f g h, wf f -> wf g -> Add f g = Ok h ->
  computes2 Rplus (fun _ _ => True) f g h.
Proof. exact add_value. Qed.
Print Assumptions C01_add.

Theorem C01_subtract : forall f g h, wf f -> wf g -> Subtract f g = Ok h ->
  computes2 Rminus (fun _ _ => True) f g h.
Proof. exact sub_value. Qed.
Print Assumptions C01_subtract.

Theorem C01_mult : forall f g h, wf f -> wf g -> Mult f g = Ok h ->
  computes2 Rmult (fun _ _ => True) f g h.
Proof. exact mult_value. Qed.
Print Assumptions C01_mult.

Theorem C01_minus : forall f h, wf f -> Minus f = Ok h ->
  computes1 Ropp (fun _ => True) f h.
Proof. exact minus_value. Qed.
Print Assumptions C01_minus.

Theorem C01_square : forall f h, wf f -> Square f = Ok h ->
  computes1 (fun x => x * x)%R (fun _ => True) f h.
Proof. exact square_value. Qed.
Print Assumptions C01_square.

Theorem C01_divide : forall f g h, wf f -> wf g -> Divide f g = Ok h ->
  computes2 Rdiv (fun _ y => y <> 0%R) f g h.
Proof. exact divide_value. Qed.
Print Assumptions C01_divide.

Theorem C01_pow : forall f m h, wf f -> Pow f m = Ok h ->
  computes1 (fun x => powerRZ x m) (fun x => (0 <= m)%Z \/ x <> 0%R) f h.
Proof. exact pow_value. Qed.
Print Assumptions C01_pow.

Theorem C01_sum : forall f h, wf f -> Sum f = Ok h ->
  wf h /\ dim h = 1%nat /\ forall e, safe e f -> safe e h /\
    eval h e 0%nat = total (dim f) (eval f e).
Proof. exact sum_value. Qed.
Print Assumptions C01_sum.

Theorem C01_scalprod : forall f g h, wf f -> wf g -> Scalprod f g = Ok h ->
  wf h /\ compatible (dim f) (dim g) /\ dim h = 1%nat /\
  forall e, safe e f -> safe e g -> safe e h /\
    eval h e 0%nat = total (Nat.max (dim f) (dim g))
      (fun k => entry (dim f) (eval f e) k * entry (dim g) (eval g e) k)%R.
Proof. exact scalprod_value. Qed.
Print Assumptions C01_scalprod.

Theorem C01_sumT : forall f d h, wf f -> SumT f d = Ok h ->
  dim f = 1%nat /\ wf h /\ dim h = d /\ forall e, safe e f -> safe e h /\
    forall k, (k < d)%nat -> eval h e k = eval f e 0%nat.
Proof. exact sumT_value. Qed.
Print Assumptions C01_sumT.

Theorem C01_rational : forall a b h, RatCst a b = Ok h ->
  b <> 0%Z /\ wf h /\ dim h = 1%nat /\
  forall e, safe e h /\ eval h e 0%nat = (IZR a / IZR b)%R.
Proof. exact rat_value. Qed.
Print Assumptions C01_rational.

(** A whole expression, built bottom-up. *)
Theorem C01_expression : forall f h, wf f -> build f = Ok h -> equivalent f h.
Proof. exact build_value. Qed.
Print Assumptions C01_expression.

(** 3 exp(x) / 2 + exp(x) (y * y - 5/2): hypotheses met, and the rewriting is not the
    identity. *)
Example C01_case :
  let x := Var 0 3 0 in let y := Var 1 3 1 in
  let f := Bin BAdd (Bin BDiv (Bin BMult (Int 3) (Un UExp x)) (Int 2))
             (Bin BMult (Un UExp x) (Bin BSub (Bin BMult y y) (Rat 5 2))) in
  wf f /\ (forall e, safe e f) /\ exists h, build f = Ok h /\ h <> f.
Proof.
  cbv zeta. split; [|split].
  - repeat split.
  - intros e. repeat split. intros k _. cbn. lra.
  - eexists. split; [lazy; reflexivity|discriminate].
Qed.
