(** C45 -- Options on their way from the front-ends to the engine. *)

From Coq Require Import ZArith Reals List Bool String Lia.
From Verif Require Import Result Formula Simplify Loader XReal Reductions KernelSum KernelSumSpec CpuReduc
  CpuConvSpec GpuConv FinalChunks LazyTensors Options OptionsSpec C21Proofs C45Proofs C45Lazy.
Import ListNotations.
Open Scope string_scope.

(** The backend: the tags are those of the name; what the name leaves open follows the machine, the
    1D scheme and the memory where the arrays are. *)
Theorem C45_backend : forall gpu tf backend vars a b c,
  define_tag_backend gpu tf backend vars = Ok (a, b, c) ->
  exists d g m, names backend d g m /\
    a = OptionsSpec.tag (match d with Some x => x | None => gpu end) /\
    b = (match g with Some n => n - 1 | None => 0 end)%nat /\
    match m with
    | Some x => c = OptionsSpec.tag x
    | None => exists x, c = OptionsSpec.tag x /\ kept_in x vars
    end.
Proof. exact backend_ok. Qed.
Print Assumptions C45_backend.

Theorem C45_backend_accepts : forall gpu tf backend vars d g m,
  names backend d g m -> (m <> None \/ exists x, kept_in x vars) ->
  (tf = true \/ Forall (fun a => a = Numpy) vars) ->
  exists t, define_tag_backend gpu tf backend vars = Ok t.
Proof. exact backend_accepts. Qed.
Print Assumptions C45_backend_accepts.

Theorem C45_backend_rejects : forall gpu tf backend vars,
  (forall d g m, ~ names backend d g m) -> define_tag_backend gpu tf backend vars = KErr.
Proof. exact backend_rejects. Qed.
Print Assumptions C45_backend_rejects.

(** get_tag_backend(..., str=True), which should give the names, always fails. *)
Theorem C45_names_refuted : forall gpu tf backend vars r, define_backend gpu tf backend vars <> Ok r.
Proof. exact names_lookup. Qed.
Print Assumptions C45_names_refuted.

(** "CPU" is accepted for arrays of the device, although it is documented for arrays of the host. *)
Theorem C45_cpu_refuted : forall gpu n,
  define_tag_backend gpu true "CPU" [Torch (Some n)] = Ok (0, 0, 1)%nat.
Proof. exact cpu_on_device. Qed.
Print Assumptions C45_cpu_refuted.

(** The device: on the GPU with arrays of the device, all the arrays are on the same one, and it is
    the one used unless another one is requested; a request different from a device of positive
    index is refused. *)
Theorem C45_device : forall (x y : bool) request args id,
  set_device (OptionsSpec.tag x) (OptionsSpec.tag y) request args = Ok id ->
  exists a rest, args = a :: rest /\
    (x = true -> y = true -> forall b, In b rest -> b = a) /\
    (request <> (-1)%Z -> id = request /\ forall n, a = Some (S n) -> id = Z.of_nat (S n)) /\
    (request = (-1)%Z ->
       match a with
       | Some n => if x then id = Z.of_nat n else n <> 0%nat -> id = Z.of_nat n
       | None => id = if x then default_device_id else (-1)%Z
       end).
Proof. exact device_ok. Qed.
Print Assumptions C45_device.

(** A request for the device 1 is accepted with arrays of the device 0, refused with arrays of the
    device 2. *)
Theorem C45_device_refuted :
  set_device 1 1 1 [Some 0; Some 0]%nat = Ok 1%Z /\ set_device 1 1 1 [Some 2; Some 2]%nat = KErr.
Proof. exact device_zero. Qed.
Print Assumptions C45_device_refuted.

(** The final-chunks mode is selected only if the user asked for it: numpy and the solvers, and
    torch when the argument is not False. *)
Theorem C45_selected_partial : forall v gpu g ranges r,
  (final_selected gpu g ranges (numpy_flag v) r = true -> asked v) /\
  (v <> VBool false -> final_selected gpu g ranges (torch_flag v) r = true -> asked v).
Proof. exact selected_asked. Qed.
Print Assumptions C45_selected_partial.

(** numpy: the mode is used exactly on the GPU, for more than 146 components, with an argument that Python
    reads as true, except in the 2D scheme without ranges. *)
Theorem C45_selected_when : forall v gpu g ranges d,
  final_selected gpu g ranges (numpy_flag v) (Sum_Red d) = true <->
  gpu = true /\ (146 < d)%nat /\ (g <> 1%nat \/ ranges = true) /\ (v = VBool true \/ exists n, v = VInt n /\ n <> 0%Z).
Proof. exact selected_when. Qed.
Print Assumptions C45_selected_when.

(** False is the default of torch, and it selects the mode: x_i + b_j is computed as x_i * b_j. *)
Theorem C45_default_refuted : forall A m out,
  ~ asked torch_default /\
  final_selected true 0 false (torch_flag torch_default) (Sum_Red (dim add_formula)) = true /\
  exists out', launch_final {| load_order := fun _ _ l => l; store_order := fun l => l |} m block_sum
    add_formula 0 A 1 1 192 out = Ok out' /\
  out' 0%nat = Fin (A 0%Z 0%nat * A 1%Z 0%nat) /\
  reduce_sum add_decl (contiguous add_decl A) 1 1 {| sformula := add_formula; stagI := 0 |} 0 0 =
  (A 0%Z 0%nat + A 1%Z 0%nat)%R.
Proof. exact default_wrong. Qed.
Print Assumptions C45_default_refuted.

(** When the mode is asked for: the sum of the product of a scalar formula, as simplified, and of a
    variable is computed.  Partial: the scalar formula is not rewritten in the product, and the
    position of the variable is the last one unless it occurs in the formula. *)
Theorem C45_product_partial : forall decl g b d tagI A M N bd o m out,
  dim g = 1%nat -> (2 <= d)%nat -> bare g -> (tagI <= 1)%nat -> wf g ->
  declared decl g -> decl b = (d, 1 - tagI)%nat -> categories decl ->
  In (b, d, 1 - tagI)%nat (vars g) \/ (forall i e, In (i, e, 1 - tagI)%nat (vars g) -> (i < b)%Z) ->
  orders_ok o -> (1 <= bd)%nat -> (0 < out_rows tagI M N)%nat ->
  exists f out', Mult g (Var b d (1 - tagI)) = Ok f /\
    launch_final o m block_sum f tagI A M N bd out = Ok out' /\
    forall n k, (n < out_rows tagI M N)%nat -> (k < d)%nat ->
       out' (n * d + k)%nat =
       Fin (reduce_sum decl (contiguous decl A) M N {| sformula := f; stagI := tagI |} n k).
Proof. exact scalar_sum. Qed.
Print Assumptions C45_product_partial.

(** The opposite of a scalar formula, or its product by an integer, times a variable: an error. *)
Theorem C45_opposite_refuted : forall k i d c s o m tagI A M N bd out,
  dim k = 1%nat -> (2 <= d)%nat -> bare k -> (forall z, k <> Int z) -> (forall p q, k <> Rat p q) ->
  exists f, Mult (Un UMinus k) (Var i d c) = Ok f /\ launch_final o m s f tagI A M N bd out = PyErr.
Proof. exact opposite_refused. Qed.
Print Assumptions C45_opposite_refuted.

Theorem C45_scaled_refuted : forall z k i d c o m tagI A M N bd out,
  dim k = 1%nat -> (2 <= d)%nat -> bare k -> (forall z, k <> Int z) -> (forall p q, k <> Rat p q) ->
  (2 <= z)%Z ->
  exists f, Mult (Bin BMult (Int z) k) (Var i d c) = Ok f /\
            launch_final o m block_sum f tagI A M N bd out = PyErr.
Proof. exact scaled_refused. Qed.
Print Assumptions C45_scaled_refuted.

(** LazyTensors ask for the mode for the entry-wise product of two variables of 150 components: an
    error. *)
Theorem C45_entrywise_refuted : exists l c,
  entrywise = Ok l /\ sum_reduction l 1 = Ok (Call c) /\
  c_formula c = "(Var(0,150,0) * Var(1,150,1))" /\ c_highdim c = Some 1%Z /\
  final_selected true 0 false (torch_flag (VInt 1)) (Sum_Red 150) = true /\
  forall s o m A M N bd out,
    launch_final o m s (Bin BMult (Var 0 150 0) (Var 1 150 1)) 0 A M N bd out = KErr.
Proof. exact entrywise_refused. Qed.
Print Assumptions C45_entrywise_refuted.

(** In a backward pass the mode is requested again for the gradient with respect to the same
    variable, if no other gradient has been computed before. *)
Theorem C45_backward : forall nargs args rec, NoDup (map fst args) -> ~ In nargs (map fst args) ->
  forall p o, In (p, o) (fst (backward_options rec nargs args)) ->
  (torch_flag o = true <->
   rec = VInt p /\
   exists pre post, args = (pre ++ (p, true) :: post)%list /\ forall a, In a pre -> snd a = false).
Proof. exact flagged. Qed.
Print Assumptions C45_backward.

(** A second pass through the same graph never requests it. *)
Theorem C45_second_pass : forall nargs args rec,
  ~ In nargs (map fst args) -> (exists p, In (p, true) args) ->
  forall p o, In (p, o) (fst (backward_options (snd (backward_options rec nargs args)) nargs args)) ->
  torch_flag o = false.
Proof. exact second_pass. Qed.
Print Assumptions C45_second_pass.

(** Forward differentiation requests it for this variable, whatever the others. *)
Theorem C45_jvp : forall rec nargs args p o, In (p, o) (jvp_options rec nargs args) ->
  (torch_flag o = true <-> rec = VInt p).
Proof. exact jvp_flag. Qed.
Print Assumptions C45_jvp.

(** The gradient of sum_j k(x_i,y_j) * b_j with respect to b in this mode is the right one, if b does
    not occur in k.  Partial: k without branch, clamp or modulo. *)
Theorem C45_gradient_partial : forall decl g b d tagI eta A M N bd o m out r,
  dim g = 1%nat -> (2 <= d)%nat -> bare g -> plain g -> (tagI <= 1)%nat -> wf g ->
  declared decl g -> decl b = (d, 1 - tagI)%nat -> decl eta = (d, tagI) -> categories decl ->
  (forall e k, ~ In (b, e, k) (vars g)) ->
  (forall i e k, In (i, e, k) (vars g) -> (i < eta)%Z) ->
  orders_ok o -> (1 <= bd)%nat -> (0 < out_rows (1 - tagI) M N)%nat ->
  Sum_DiffT {| sformula := Bin BMult g (Var b d (1 - tagI)); stagI := tagI |} (Var b d (1 - tagI))
    (Var eta d tagI) = Ok r ->
  exists out', launch_final o m block_sum (sformula r) (stagI r) A M N bd out = Ok out' /\
    dim (sformula r) = d /\ stagI r = (1 - tagI)%nat /\
    forall n k, (n < out_rows (1 - tagI) M N)%nat -> (k < d)%nat ->
       out' (n * d + k)%nat = Fin (reduce_sum decl (contiguous decl A) M N r n k).
Proof. exact gradient_sum. Qed.
Print Assumptions C45_gradient_partial.

(** sum_j exp(-|x_i-y_j|^2) y_j with y of dimension 147: its gradient with respect to y is an
    error. *)
Theorem C45_repeated_refuted : exists r,
  Sum_DiffT {| sformula := Bin BMult mean_kernel (Var 1 147 1); stagI := 0 |} (Var 1 147 1) (Var 2 147 0)
    = Ok r /\
  rdim (Sum_Red (dim (sformula r))) = 147%nat /\
  forall o m A M N bd out, launch_final o m block_sum (sformula r) (stagI r) A M N bd out = PyErr.
Proof. exact repeated_refused. Qed.
Print Assumptions C45_repeated_refuted.

(** So is the gradient with respect to b when k is a branch, because the zeros of the two sides are
    not simplified. *)
Theorem C45_branch_refuted : exists r,
  Sum_DiffT {| sformula := Bin BMult (Ter TIfElse (Var 0 1 0) (Var 1 1 1) (Int 1)) (Var 2 147 1);
               stagI := 0 |} (Var 2 147 1) (Var 3 147 0) = Ok r /\
  rdim (Sum_Red (dim (sformula r))) = 147%nat /\
  forall o m A M N bd out, launch_final o m block_sum (sformula r) (stagI r) A M N bd out = KErr.
Proof. exact branch_refused. Qed.
Print Assumptions C45_branch_refuted.

(** exp(-|x_i-y_j|^2) * b_j with b of dimension 150 at position 2, and the gradient at position 3:
    the hypotheses of C45_product_partial and C45_gradient_partial hold, and LazyTensors ask for the mode
    in the forward pass and in the gradient. *)
Example C45_case :
  let g := Un UExp (Un UMinus (Lin LSum (Un USquare (Bin BSub (Var 0 3 0) (Var 1 3 1))))) in
  let decl := fun a : Z => if Z.eqb a 3 then (150, 0)%nat else if Z.eqb a 2 then (150, 1)%nat
                           else if Z.eqb a 1 then (3, 1)%nat else (3, 0)%nat in
  dim g = 1%nat /\ bare g /\ plain g /\ wf g /\ declared decl g /\ categories decl /\
  (forall e k, ~ In (2%Z, e, k) (vars g)) /\
  (forall i e k, In (i, e, k) (vars g) -> (i < 2)%Z) /\
  Sum_DiffT {| sformula := Bin BMult g (Var 2 150 1); stagI := 0 |} (Var 2 150 1) (Var 3 150 0)
    = Ok {| sformula := Bin BMult g (Var 3 150 0); stagI := 1 |} /\
  fst (backward_options (VInt 2) 3 [(0, false); (1, false); (2, true)]%Z) = [(2%Z, VInt 3)] /\
  fst (backward_options (VInt 2) 3 [(0, true); (1, false); (2, true)]%Z) = [(0%Z, VNone); (2%Z, VNone)] /\
  define_tag_backend true true "GPU_2D" [Torch (Some 1%nat); Torch (Some 1%nat)] = Ok (1, 1, 1)%nat /\
  define_tag_backend true true "auto" [Torch (Some 1%nat); Torch None] = KErr /\
  set_device 1 1 (-1) [Some 1; Some 1]%nat = Ok 1%Z /\ set_device 1 1 (-1) [Some 1; Some 0]%nat = KErr.
Proof.
  cbv zeta. split; [reflexivity|]. split; [exact I|]. split; [repeat split|]. split; [repeat split|].
  split; [repeat split|]. split.
  { intros a. destruct (Z.eqb a 3); [cbn; lia|]. destruct (Z.eqb a 2); [cbn; lia|].
    destruct (Z.eqb a 1); cbn; lia. }
  split. { intros e k H. cbn in H. destruct H as [H|[H|[]]]; inversion H. }
  split. { intros i e k H. cbn in H. destruct H as [H|[H|[]]]; inversion H; subst; lia. }
  split; [lazy; reflexivity|]. repeat split.
Qed.
