(** Results of Python functions: a value, a [KeOps_Error]
    (keopscore/keopscore/utils/misc_utils.py, KeOps_Error), another Python exception
    (AttributeError, TypeError, ZeroDivisionError, ...), or exhaustion of the recursion
    fuel of the model (never a behaviour of the code; shown unreachable in Termination.v). *)

Inductive res (A : Type) : Type :=
| Ok (a : A)
| KErr
| PyErr
| OutOfFuel.

Arguments Ok {A} a.
Arguments KErr {A}.
Arguments PyErr {A}.
Arguments OutOfFuel {A}.

Definition rbind {A B} (r : res A) (k : A -> res B) : res B :=
  match r with
  | Ok a => k a
  | KErr => KErr
  | PyErr => PyErr
  | OutOfFuel => OutOfFuel
  end.

Notation "'do' x <- r ; k" := (rbind r (fun x => k))
  (at level 200, x name, r at level 100, k at level 200, right associativity).

Lemma rbind_ok : forall A B (r : res A) (k : A -> res B) b,
  rbind r k = Ok b -> exists a, r = Ok a /\ k a = Ok b.
Proof. intros A B [a| | |] k b H; simpl in H; try discriminate. eauto. Qed.
