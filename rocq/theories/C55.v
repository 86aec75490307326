(** C55: the formulas written by symbolic tensors are read by the engine as the expressions that were meant. *)

From Coq Require Import ZArith List Bool Ascii String.
From Verif Require Import Result Keys Aliases Formula FormulaSpec Simplify Build LazyTensors Methods MethodsSpec LazySpec
  PyRead PyReadSpec PyReadProofs C55Proofs C55More.
Import ListNotations.
Open Scope string_scope.

(** A text has at most one reading. *)
Theorem C55_one_reading : forall s a b, reads s a -> reads s b -> a = b.
Proof. exact reads_unique. Qed.
Print Assumptions C55_one_reading.

(** Precedence, associativity, chains of comparisons, signs. *)
Example C55_one_reading_case :
  reads "a - b - c*-2**d" (PBin SDash (PBin SDash (PName "a") (PName "b"))
     (PBin SStar (PName "c") (PNeg (PPow (PNum 2) (PName "d")))))
  /\ reads "a|b + c < d <= e" (PCmp (PBin SBar (PName "a") (PBin SPlus (PName "b") (PName "c")))
       [(SLt, PName "d"); (SLe, PName "e")])
  /\ lex "" "a $ b" = None /\ lex "" "007" = None /\ parse 50 0 [KName "a"; KName "b"] = Some (PName "a", [KName "b"]).
Proof.
  repeat split.
  - eexists. exists 20. split; [reflexivity|]. intros m L. do 20 (destruct m; [exfalso; repeat apply le_S_n in L; inversion L|]).
    reflexivity.
  - eexists. exists 20. split; [reflexivity|]. intros m L. do 20 (destruct m; [exfalso; repeat apply le_S_n in L; inversion L|]).
    reflexivity.
Qed.

(** Whatever the method that made the tensor, and the operands, its formula is read as this method applied to these
    operands. *)
Theorem C55_reading : forall l t, made l t -> reads (formula l) (tree t).
Proof. exact made_read. Qed.
Print Assumptions C55_reading.

Theorem C55_reading_any : forall t, well_named t -> reads (written t) (tree t).
Proof. exact written_read. Qed.
Print Assumptions C55_reading_any.

Example C55_reading_case : exists x y z w a b r,
  lt_array "float32" 900 [10; 3]%Z (Some 0%Z) = Ok x /\ lt_array "float32" 950 [20; 3]%Z (Some 1%Z) = Ok y
  /\ m_arith Alt false (lt_symbolic 0 1 2) (lt_int (-2)) = Ok z /\ w = m_pow (-3) y
  /\ m_arith Amul false w z = Ok a /\ m_arith Asub false x a = Ok r /\ b = formula r
  /\ b = "(Var(900,3,0) - (Pow(Var(950,3,1),-3) * (VarSymb(0,1,2) < IntCst(-2))))"
  /\ made r example_term
  /\ tree example_term
     = PBin SDash (PCall (PName "Var") [PNum 900; PNum 3; PNum 0])
         (PBin SStar (PCall (PName "Pow") [PCall (PName "Var") [PNum 950; PNum 3; PNum 1]; PNeg (PNum 3)])
            (PCmp (PCall (PName "VarSymb") [PNum 0; PNum 1; PNum 2]) [(SLt, PCall (PName "IntCst") [PNeg (PNum 2)])])).
Proof.
  do 7 eexists. repeat (split; [vm_compute; reflexivity|]). split; [|vm_compute; reflexivity].
  eapply (made_arith Asub).
  - eapply (made_array "float32" 900 [10; 3]%Z (Some 0%Z)); [vm_compute; reflexivity|repeat constructor; discriminate|reflexivity..].
  - eapply (made_arith Amul).
    + apply (made_pow (-3)).
      eapply (made_array "float32" 950 [20; 3]%Z (Some 1%Z)); [vm_compute; reflexivity|repeat constructor; discriminate|reflexivity..].
    + eapply (made_arith Alt); [constructor; discriminate|constructor|vm_compute; reflexivity].
    + vm_compute; reflexivity.
  - vm_compute; reflexivity.
Qed.

(** The same holds for the text after the variables have got their positions (C27). *)
Theorem C55_numbered : forall s l t, made l t ->
  text (as_expr t) = formula l /\ reads (text (rename s (as_expr t))) (tree (numbered_term s t)).
Proof. exact numbered_read. Qed.
Print Assumptions C55_numbered.

Example C55_numbered_case :
  text (rename (fun i => if (i =? 900)%Z then 1 else 2)%Z (as_expr example_term))
  = "(Var(1,3,0) - (Pow(Var(2,3,1),-3) * (Var(0,1,2) < IntCst(-2))))".
Proof. reflexivity. Qed.

(** Evaluated by Python, the expression gives the formula that the engine builds for it (C01). *)
Theorem C55_value_partial : forall names t f, engine_term t -> as_formula t = Some f -> wf f ->
  forall h, evaluate names (tree t) = Ok (VF h) <-> build f = Ok h.
Proof. exact read_value. Qed.
Print Assumptions C55_value_partial.

Theorem C55_meaning_partial : forall s l t f names, made l t -> engine_term (numbered_term s t) ->
  as_formula (numbered_term s t) = Some f -> wf f ->
  exists e, reads (text (rename s (as_expr t))) e
  /\ (forall h, evaluate names e = Ok (VF h) <-> build f = Ok h)
  /\ (forall h, evaluate names e = Ok (VF h) -> equivalent f h).
Proof. exact read_equivalent. Qed.
Print Assumptions C55_meaning_partial.

Example C55_meaning_case :
  let t := numbered_term (fun i => if (i =? 900)%Z then 1 else 2)%Z example_term in
  let f := Bin BSub (Var 1 3 0) (Bin BMult (Un (UPow (-3)) (Var 2 3 1)) (Bin BLess (Var 0 1 2) (Int (-2)))) in
  engine_term t /\ as_formula t = Some f /\ wf f
  /\ evaluate (fun _ => None) (tree t) = Ok (VF f) /\ build f = Ok f.
Proof.
  cbv zeta. split; [|split; [reflexivity|split; [|split; reflexivity]]].
  - cbn. repeat split; try discriminate. intros [H|[H|H]]; discriminate.
  - cbn. repeat split.
Qed.

(** Method by method, [computes] tells the formula that is meant, in which the tensors are variables at given positions:
    this is the formula that is read and built. *)
Theorem C55_methods_partial : forall l f, computes l f -> (forall s, wf (f s)) ->
  exists x, text x = formula l
  /\ forall s names, exists e, reads (text (rename s x)) e
     /\ (forall h, evaluate names e = Ok (VF h) <-> build (f s) = Ok h)
     /\ (forall h, evaluate names e = Ok (VF h) -> equivalent (f s) h).
Proof. exact methods_meaning. Qed.
Print Assumptions C55_methods_partial.

Example C55_methods_case : exists x y a b r,
  lt_array "float32" 900 [10; 3]%Z (Some 0%Z) = Ok x /\ lt_array "float32" 950 [20; 3]%Z (Some 1%Z) = Ok y
  /\ a = m_pow (-3) y /\ m_arith Asub false x a = Ok b /\ m_or false b x = Ok r
  /\ formula r = "((Var(900,3,0) - Pow(Var(950,3,1),-3)) | Var(900,3,0))"
  /\ computes r (fun s => Bil KScal (Bin BSub (Var (s 900%Z) 3 0) (Un (UPow (-3)) (Var (s 950%Z) 3 1))) (Var (s 900%Z) 3 0))
  /\ forall s, wf (Bil KScal (Bin BSub (Var (s 900%Z) 3 0) (Un (UPow (-3)) (Var (s 950%Z) 3 1))) (Var (s 900%Z) 3 0)).
Proof.
  do 5 eexists. do 2 (split; [vm_compute; reflexivity|]). split; [reflexivity|]. do 3 (split; [vm_compute; reflexivity|]). split.
  - assert (X : forall l, lt_array "float32" 900 [10; 3]%Z (Some 0%Z) = Ok l -> axis l = Some 0%Z ->
      computes l (fun s => Var (s 900%Z) 3 0)).
    { intros l H E. eapply (c_array "float32" 900 [10; 3]%Z (Some 0%Z) l 3 0); auto. repeat constructor; discriminate. }
    eapply (c_or _ (fun s => Bin BSub (Var (s 900%Z) 3 0) (Un (UPow (-3)) (Var (s 950%Z) 3 1))) _ (fun s => Var (s 900%Z) 3 0)).
    + eapply (c_arith Asub _ (fun s => Var (s 900%Z) 3 0) _ (fun s => Un (UPow (-3)) (Var (s 950%Z) 3 1))).
      * eapply X; vm_compute; reflexivity.
      * eapply (c_pow (-3) _ (fun s => Var (s 950%Z) 3 1)); [|discriminate].
        eapply (c_array "float32" 950 [20; 3]%Z (Some 1%Z) _ 3 1); [vm_compute; reflexivity|repeat constructor; discriminate|reflexivity..].
      * vm_compute. reflexivity.
    + eapply X; vm_compute; reflexivity.
    + vm_compute. reflexivity.
  - intros s. cbn. tauto.
Qed.
