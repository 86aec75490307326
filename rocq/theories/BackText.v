(** * The texts of the gradients, and the reductions that the engine makes of them.

    Models pykeops/pykeops/torch/generic/generic_red.py lines 21-44 ([check_AD_supported]), 152-259 (the loop of
    [_backward]: which texts and declarations are asked for) and 319-380 (the loop of [jvp]);
    keopscore/keopscore/formulas/autodiff/Grad_WithSavedForward.py and Diff_WithSavedForward.py, and the methods DiffT and Diff of
    keopscore/keopscore/formulas/reductions; the names of GetReduction.py lines 26-31.

    Simplifications: arguments are two-dimensional, no batch dimensions (no collapsed dimensions); devices and
    backends are left out.  The tensors themselves appear in KernelSum.  Formulas are real. *)

From Coq Require Import ZArith Reals List Bool Ascii String.
From Verif Require Import Result Keys Folder Aliases Formula Simplify Diff LinOps KernelSum RedGrad PyRead RedText.
Import ListNotations.
Open Scope string_scope.

(** ** The loop of [_backward] *)

(** [rec_multVar_highdim]: None, a boolean or a position. *)
Inductive flag := FNone | FBool (b : bool) | FInt (z : Z).

(** The attributes of [Genred_parameters] that the loops read or write. *)
Record params := { p_formula : string; p_aliases : list string; p_highdim : flag }.

Definition not_supported : list string :=
  ["Min_ArgMin_Reduction"; "Min_Reduction"; "Max_ArgMax_Reduction"; "Max_Reduction"; "KMin_ArgKMin_Reduction";
   "KMin_Reduction"].
Definition check_AD_supported (formula : string) : res unit :=
  if existsb (fun n => String.prefix n formula) not_supported then PyErr else Ok tt.

Definition saved_text (kw formula var eta resvar : string) : string :=
  kw ++ "(" ++ formula ++ "," ++ var ++ "," ++ eta ++ "," ++ resvar ++ ")".

(** Lines 197-205: kept for the variable itself, dropped otherwise. *)
Definition next_flag (fl : flag) (pos nargs : Z) : flag :=
  match fl with FInt h => if (pos =? h)%Z then FInt nargs else FNone | _ => FNone end.

(** A call that is made: which variable, with which parameters. *)
Record asked := { a_pos : Z; a_dim : Z; a_cat : Z; a_params : params }.

(** Lines 173-213, for the declaration at place [k]; [p] is the object that the loop changes (lines 201 and 205). *)
Definition back_one (p : params) (nargs dimout tagIJ k : Z) (sig : string) : res (asked * params) :=
  let eta := var_text nargs dimout tagIJ in
  let resvar := var_text (nargs + 1) dimout tagIJ in
  do a <- get_type sig (Some k) ;
  match ar_pos a with
  | None => PyErr
  | Some pos =>
      let fl := next_flag (p_highdim p) pos nargs in
      let p' := {| p_formula := p_formula p; p_aliases := p_aliases p; p_highdim := fl |} in
      let pg := {| p_formula := saved_text "Grad_WithSavedForward" (p_formula p) (var_text pos (ar_dim a) (ar_cat a)) eta resvar;
                   p_aliases := (p_aliases p ++ [eta; resvar])%list; p_highdim := fl |} in
      Ok ({| a_pos := pos; a_dim := ar_dim a; a_cat := ar_cat a; a_params := pg |}, p')
  end.

(** [needs]: ctx.needs_input_grad for each argument; as many as arguments. *)
Fixpoint back_loop (p : params) (nargs dimout tagIJ k : Z) (sigs : list string) (needs : list bool)
  : res (list (option asked) * params) :=
  match sigs, needs with
  | s :: sigs, b :: needs =>
      if b then
        do r <- back_one p nargs dimout tagIJ k s ;
        do q <- back_loop (snd r) nargs dimout tagIJ (k + 1) sigs needs ;
        Ok (Some (fst r) :: fst q, snd q)
      else
        do q <- back_loop p nargs dimout tagIJ (k + 1) sigs needs ;
        Ok (None :: fst q, snd q)
  | _, _ => Ok ([], p)
  end.
Definition backward_calls (p : params) (dimout tagIJ : Z) (needs : list bool) : res (list (option asked) * params) :=
  do _ <- check_AD_supported (p_formula p) ;
  back_loop p (Z.of_nat (List.length needs)) dimout tagIJ 0 (p_aliases p) needs.

(** ** The loop of [jvp]: the flag is set on the copy; [given]: the arguments that have a tangent. *)
Definition jvp_one (p : params) (nargs dimout tagIJ k : Z) (sig : string) : res asked :=
  let resvar := var_text (nargs + 1) dimout tagIJ in
  do a <- get_type sig (Some k) ;
  match ar_pos a with
  | None => PyErr
  | Some pos =>
      let eta := var_text nargs (ar_dim a) (ar_cat a) in
      Ok {| a_pos := pos; a_dim := ar_dim a; a_cat := ar_cat a;
            a_params := {| p_formula := saved_text "Diff_WithSavedForward" (p_formula p) (var_text pos (ar_dim a) (ar_cat a)) eta resvar;
                           p_aliases := (p_aliases p ++ [eta] ++ [resvar])%list;
                           p_highdim := next_flag (p_highdim p) pos nargs |} |}
  end.
Fixpoint jvp_loop (p : params) (nargs dimout tagIJ k : Z) (sigs : list string) (given : list bool)
  : res (list (option asked)) :=
  match sigs, given with
  | s :: sigs, b :: given =>
      do x <- (if b then do r <- jvp_one p nargs dimout tagIJ k s ; Ok (Some r) else Ok None) ;
      do q <- jvp_loop p nargs dimout tagIJ (k + 1) sigs given ;
      Ok (x :: q)
  | _, _ => Ok []
  end.
Definition jvp_calls (p : params) (dimout tagIJ : Z) (given : list bool) : res (list (option asked)) :=
  do _ <- check_AD_supported (p_formula p) ;
  jvp_loop p (Z.of_nat (List.length given)) dimout tagIJ 0 (p_aliases p) given.

(** ** The engine *)

(** GetReduction.py lines 26-31: the names that the aliases declare, added to the ones of [d]. *)
Inductive dictionary (d : string -> option pv) : list string -> (string -> option pv) -> Prop :=
| D_nil : dictionary d [] d
| D_plain a l d' : contains "=" a = false -> dictionary d l d' -> dictionary d (a :: l) d'
| D_named a n x e v l d' : contains "=" a = true -> split "=" a = [n; x] -> reads x e ->
    evaluate (fun _ => None) e = Ok v ->
    dictionary (fun s => if String.eqb s n then Some v else d s) l d' -> dictionary d (a :: l) d'.

Inductive red :=
| RSum (r : sum_reduction)
| RLse (F G : fm) (tag : nat)
| RZero (d tag : nat)
| ROther (o : redobj) (k : option Z).

Definition red_dim (R : red) : Z :=
  match R with
  | RSum r => zdim (sformula r)
  | RLse F G _ => zdim F + zdim G
  | RZero d _ => Z.of_nat d
  | ROther o _ => ro_dim o
  end.
Definition red_tag (R : red) : Z :=
  match R with RSum r => Z.of_nat (stagI r) | RLse _ _ t | RZero _ t => Z.of_nat t | ROther o _ => ro_tag o end.

(** The reductions of the texts of C57, with the formulas that their DiffT uses. *)
Definition plain (name : string) (l : list pv) : res red :=
  do r <- construct name l ;
  let '(o, k) := r in
  if (ro_tag o <? 0)%Z then PyErr
  else if is_lse name then
    match l with
    | [VF f; VZ c] => Ok (RLse f (IntCst 1) (Z.to_nat c))
    | [VF f; VZ c; VF g] => Ok (RLse f g (Z.to_nat c))
    | _ => PyErr
    end
  else if String.eqb name "Sum_Reduction" then Ok (RSum {| sformula := ro_formula o; stagI := Z.to_nat (ro_tag o) |})
  else Ok (ROther o k).

(** DiffT of the classes that have it. *)
Definition red_DiffT (R : red) (v g f0 : fm) : res red :=
  match R with
  | RSum r => do s <- Sum_DiffT r v g ; Ok (RSum s)
  | RLse F G t => do s <- lse_DiffT F G t v g f0 ; Ok (RSum s)
  | RZero _ _ => match v with Var _ d c => Ok (RZero d (Nat.modulo c 2)) | _ => PyErr end
  | ROther o _ =>
      if existsb (String.eqb (ro_id o)) ["ArgMin_Reduction"; "ArgMax_Reduction"; "ArgKMin_Reduction"] then
        match v with Var _ d c => Ok (RZero d (Nat.modulo c 2)) | _ => PyErr end
      else PyErr
  end.
Definition red_Diff (R : red) (v u f0 : fm) : res red :=
  match R with
  | RSum r => do s <- Sum_Diff r v u ; Ok (RSum s)
  | RLse F G t => do s <- lse_Diff F G t v u f0 ; Ok (RSum s)
  | RZero d t => Ok (RZero d t)
  | ROther o _ =>
      if existsb (String.eqb (ro_id o)) ["ArgMin_Reduction"; "ArgMax_Reduction"; "ArgKMin_Reduction"] then
        Ok (RZero (Z.to_nat (ro_dim o)) (Z.to_nat (ro_tag o)))
      else PyErr
  end.

Definition as_formula (v : pv) : res fm := match v with VF f => Ok f | _ => PyErr end.

(** The value of an expression that is a reduction. *)
Fixpoint red_value (names : string -> option pv) (e : py) : res red :=
  match e with
  | PCall (PName s) l =>
      if String.eqb s "Grad_WithSavedForward" || String.eqb s "Diff_WithSavedForward" then
        match l with
        | [r; v; g; f0] =>
            do R <- red_value names r ;
            do v <- evaluate names v ; do g <- evaluate names g ; do f0 <- evaluate names f0 ;
            do v <- as_formula v ; do g <- as_formula g ; do f0 <- as_formula f0 ;
            if String.eqb s "Grad_WithSavedForward" then red_DiffT R v g f0 else red_Diff R v g f0
        | _ => PyErr
        end
      else
        do v <- evaluate_all names l ;
        plain s v
  | _ => PyErr
  end.

(** What the engine makes of the parameters: LoadKeOps.py lines 47-64 for the declarations, then GetReduction. *)
Definition engine_makes (p : params) (R : red) : Prop :=
  exists al names e,
    engine_aliases 0 None None (p_aliases p) = Ok al /\ dictionary (fun _ => None) al names /\
    reads (p_formula p) e /\ red_value names e = Ok R.

(** ** The arrays *)

(** Lines 215-228 and 255: the sum over the rows for a parameter. *)
Definition collapsed (c : Z) (M : nat) (grad : nat -> nat -> Rdefinitions.R) : nat -> nat -> Rdefinitions.R :=
  if (c =? 2)%Z then fun _ k => rsum M (fun i => grad i k) else grad.
Definition red_output (decl : declaration) (A : arguments) (M N : nat) (R : red) : res (nat -> nat -> Rdefinitions.R) :=
  match R with
  | RSum r => Ok (reduce_sum decl A M N r)
  | RZero _ _ => Ok (fun _ _ => 0%R)
  | _ => PyErr
  end.
