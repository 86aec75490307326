(** Proofs about the generated code: the methods [Op]. *)

From Coq Require Import ZArith Reals List Bool String Ascii Lia Lra Arith.
From Verif Require Import Result Formula Keys XReal CodeGen CSem C47Proofs.
Import ListNotations.
Local Open Scope list_scope.
Local Open Scope nat_scope.

Ltac bool := repeat match goal with
  | |- context [?a =? ?b] => destruct (Nat.eqb_spec a b)
  | |- context [?a <=? ?b] => destruct (Nat.leb_spec a b)
  | |- context [?a <? ?b] => destruct (Nat.ltb_spec a b)
  end; cbn [andb]; try lia; try reflexivity; try (do 3 f_equal; lia); try (f_equal; f_equal; lia); try (f_equal; lia).

Section Rho.
Context {rho : indices}.
Local Notation off := (CSem.off rho).
Local Notation read := (CSem.read rho).
Local Notation write := (CSem.write rho).
Local Notation ceval := (CSem.ceval rho).
Local Notation exec := (CSem.exec rho).
Local Notation region := (@C47Proofs.region rho).
Local Notation room := (@C47Proofs.room rho).

(** ** What an operation finds in memory *)
Definition bound (m : mem) (x : string) : Prop := get x m <> None.
Definition input (m : mem) (p : ptr) (a : c_array) (v : nat -> R) : Prop :=
  bound m (base (aptr a)) /\ base (aptr a) <> base p
  /\ forall k, k < adim a -> read m (aptr a) k = Some (Fin (v k)).
Definition fresh (g : gen) (m : mem) : Prop := forall t c, bound m (name t c) -> c < g t.

Lemma fresh_new : forall g m t, fresh g m -> get (name t (g t)) m = None.
Proof.
  intros g m t H. destruct (get (name t (g t)) m) eqn:E; [|reflexivity].
  specialize (H t (g t)). unfold bound in H. rewrite E in H. specialize (H ltac:(discriminate)). lia.
Qed.
Lemma next_same : forall g t, next g t t = S (g t).
Proof. intros. unfold next. now rewrite String.eqb_refl. Qed.
Lemma next_le : forall g t u, g u <= next g t u.
Proof. intros. unfold next. destruct (String.eqb u t); lia. Qed.
Lemma fresh_mono : forall g g' m, fresh g m -> (forall t, g t <= g' t) -> fresh g' m.
Proof. intros g g' m H L t c B. specialize (H t c B). specialize (L t). lia. Qed.
Lemma fresh_cons : forall g m t o, fresh g m -> fresh (next g t) ((name t (g t), o) :: m).
Proof.
  intros g m t o H u c B. unfold bound in B. cbn [get] in B.
  destruct (String.eqb_spec (name u c) (name t (g t))) as [E|N].
  - apply name_inj in E as [-> ->]. rewrite next_same. lia.
  - specialize (H u c B). assert (X := next_le g t u). lia.
Qed.
Lemma bound_ne : forall m x y, get x m = None -> bound m y -> x <> y.
Proof. intros m x y H B ->. now apply B. Qed.
Lemma room_bound : forall m p n, room m p n -> bound m (base p).
Proof. intros m p n (c & E & _). unfold bound. rewrite E. discriminate. Qed.

Lemma bound_cons : forall m x o y, bound m y -> bound ((x, o) :: m) y.
Proof. intros m x o y B. unfold bound in *. cbn [get]. destruct (String.eqb y x); [discriminate|auto]. Qed.
Lemma read_cons : forall m x o q i, x <> base q -> read ((x, o) :: m) q i = read m q i.
Proof. intros m x o q i N. unfold CSem.read. cbn [get]. destruct (String.eqb_spec (base q) x); [congruence|reflexivity]. Qed.
Lemma input_cons : forall m x o p a v, get x m = None -> input m p a v -> input ((x, o) :: m) p a v.
Proof.
  intros m x o p a v U (B & N & H). split; [now apply bound_cons|]. split; [exact N|].
  intros k K. rewrite read_cons by (eapply bound_ne; eauto). auto.
Qed.
Lemma input_region : forall m p a v n w k, input m p a v -> k < adim a ->
  read (region m p n w) (aptr a) k = Some (Fin (v k)).
Proof. intros m p a v n w k (B & N & H) K. rewrite region_read_other by auto. auto. Qed.

Lemma ivar_region : forall m p n w x j, x <> base p ->
  ieval (region ((x, OInt j) :: m) p n w) (IVar x) = Some j.
Proof. intros. cbn [ieval]. rewrite region_get_other by auto. cbn [get]. now rewrite String.eqb_refl. Qed.

(** ** A loop that fills a part of the output *)
Definition fill (w : nat -> option xr) (a b : nat) (v : nat -> R) : nat -> option xr :=
  fun i => if (a <=? i) && (i <? b) then Some (Fin (v i)) else w i.

Lemma set_loop : forall m p d w x q s a b ie e v,
  room m p d -> get x m = None -> base q = base p -> off q = off p + s -> s + b <= d ->
  (forall j w, a <= j < b ->
     ieval (region ((x, OInt j) :: m) p d w) ie = Some j
     /\ ceval (region ((x, OInt j) :: m) p d w) e = Some (Fin (v j))) ->
  exec (SFor x a b (SSet q ie e)) (region m p d w)
  = Some (region m p d (fill w (s + a) (s + b) (fun i => v (i - s)))).
Proof.
  intros m p d w x q s a b ie e v Hr U B O L H. cbn [CSem.exec].
  assert (N : x <> base p) by (eapply bound_ne; eauto using room_bound).
  pose (W := fun j => fill w (s + a) (s + j) (fun i => v (i - s))).
  replace (region m p d w) with (region m p d (W a)).
  2:{ apply region_ext. intros k K. unfold W, fill. bool. }
  rewrite for_region with (W := W); auto.
  - f_equal. apply region_ext. intros k K. unfold W, fill. bool.
  - intros j J. cbn [CSem.exec]. destruct (H j (W j)) as [H1 H2]; [lia|].
    rewrite H1, H2. cbn [obind]. erewrite region_write; [|apply room_cons; eauto|exact B|exact O|lia].
    f_equal. apply region_ext. intros k K. unfold W, at_, fill. bool.
Qed.

Lemma assign_ok : forall m p d w g q s n e r,
  room m p d -> fresh g m -> base q = base p -> off q = off p + s -> s + n <= d ->
  (forall x j w, get x m = None -> ceval (region ((x, OInt j) :: m) p d w) e = Some (Fin r)) ->
  exec (fst (assign (Array q n) e g)) (region m p d w)
  = Some (region m p d (fill w s (s + n) (fun _ => r))).
Proof.
  intros m p d w g q s n e r Hr F B O L H. cbn [assign fst adim aptr].
  assert (U := fresh_new g m "k" F).
  rewrite set_loop with (p := p) (d := d) (s := s) (v := fun _ => r); auto.
  - now rewrite Nat.add_0_r.
  - intros j w' J. split; [apply ivar_region; eapply bound_ne; eauto using room_bound|now apply H].
Qed.

Lemma copy_ok : forall m p d w g q s n a v,
  room m p d -> fresh g m -> base q = base p -> off q = off p + s -> s + n <= d ->
  input m p a v -> n <= adim a ->
  exec (fst (VectCopy (Array q n) a g)) (region m p d w)
  = Some (region m p d (fill w s (s + n) (fun i => v (i - s)))).
Proof.
  intros m p d w g q s n a v Hr F B O L Hi Ha. cbn [VectCopy fst adim aptr].
  assert (U := fresh_new g m "k" F).
  rewrite set_loop with (p := p) (d := d) (s := s) (v := v); auto.
  - now rewrite Nat.add_0_r.
  - intros j w' J. assert (E := ivar_region m p d w' (name "k" (g "k")) j
                                  ltac:(eapply bound_ne; eauto using room_bound)).
    split; [exact E|]. cbn [CSem.ceval]. rewrite E. cbn [obind].
    apply input_region; [now apply input_cons|lia].
Qed.

(** ** [VectApply] *)
Definition idx (k : string) (L d : nat) : iexpr := IMul (IVar k) (IConst (if d =? L then 1 else 0)).

Lemma list_max_le : forall l d, In d l -> d <= list_max l.
Proof. induction l as [|x l IH]; cbn; intros d I; [contradiction|]. destruct I as [E|I]; [subst; lia|]. specialize (IH d I). unfold list_max in *. lia. Qed.

Lemma vect_dims : forall l L, L <> 0 -> (forall d, In d l -> d = L \/ d = 1) -> In L l ->
  list_max l = L /\ forallb (fun d => Nat.eqb d (list_max l) || Nat.eqb d 1) l = true.
Proof.
  intros l L N H I.
  assert (E : list_max l = L).
  { apply Nat.le_antisymm; [|now apply list_max_le].
    clear I. induction l as [|x l IH]; cbn; [lia|]. apply Nat.max_lub.
    - destruct (H x) as [->| ->]; [now left|lia|lia].
    - apply IH. intros. apply H. now right. }
  split; [exact E|]. rewrite E. apply forallb_forall. intros d D.
  destruct (H d D) as [->| ->]; [now rewrite Nat.eqb_refl|now rewrite orb_true_r].
Qed.

Lemma arg_at : forall m p n w k j L a v, k <> base p -> get k m = None -> input m p a v ->
  (adim a = L \/ adim a = 1) -> j < L ->
  ceval (region ((k, OInt j) :: m) p n w) (EAt (aptr a) (idx k L (adim a))) = Some (Fin (bcv (adim a) v j)).
Proof.
  intros m p n w k j L a v N U Hi D J. unfold idx. cbn [CSem.ceval ieval].
  assert (E := ivar_region m p n w k j N). cbn [ieval] in *. rewrite E. cbn [obind].
  unfold bcv. destruct (Nat.eqb_spec (adim a) L) as [E1|N1].
  - rewrite Nat.mul_1_r. erewrite input_region; [|now apply input_cons; eauto|lia].
    destruct (Nat.eqb_spec (adim a) 1); [do 3 f_equal; lia|reflexivity].
  - destruct D as [D|D]; [contradiction|]. rewrite Nat.mul_0_r, D. cbn [Nat.eqb].
    erewrite input_region; [|now apply input_cons; eauto|lia]. reflexivity.
Qed.

Lemma map_cexpr : forall k L args,
  map (fun a => EAt (aptr a) (IMul (IVar k) (IConst (if adim a =? L then 1 else 0)))) args
  = map (fun a => EAt (aptr a) (idx k L (adim a))) args.
Proof. reflexivity. Qed.

Lemma vect_ok : forall m p d w g code args v,
  room m p d -> fresh g m -> d <> 0 ->
  (forall a, In a args -> adim a = d \/ adim a = 1) ->
  (forall k j w, get k m = None -> j < d ->
     ceval (region ((k, OInt j) :: m) p d w) (code (map (fun a => EAt (aptr a) (idx k d (adim a))) args))
     = Some (Fin (v j))) ->
  exists s, VectApply (vect code) (Array p d) args g = Ok (s, next g "k")
    /\ exec s (region m p d w) = Some (region m p d (fun i => Some (Fin (v i)))).
Proof.
  intros m p d w g code args v Hr F N D H. unfold VectApply, VectApplyV. rewrite !map_map. change (fun x => vdim (VArr x)) with adim. cbn [adim aptr].
  destruct (vect_dims (d :: map adim args) d N) as [E1 E2].
  - intros x [<-|I]; [now left|]. apply in_map_iff in I as (a & <- & I). now apply D.
  - now left.
  - rewrite E2, E1. eexists. split; [reflexivity|].
    assert (U := fresh_new g m "k" F).
    assert (Nk : name "k" (g "k") <> base p) by (eapply bound_ne; eauto using room_bound).
    unfold vect. rewrite set_loop with (p := p) (d := d) (s := 0) (v := v); auto.
    + f_equal. apply region_ext. intros k K. unfold fill. bool.
    + intros j w' J. split.
      * assert (E := ivar_region m p d w' _ j Nk). cbn [ieval] in *. rewrite E, Nat.eqb_refl. cbn [obind].
        now rewrite Nat.mul_1_r.
      * apply H; [exact U|lia].
Qed.

(** A loop that accumulates in the only cell of the output. *)
Lemma acc_ok : forall m p w g body args L v,
  room m p 1 -> fresh g m -> L <> 0 -> In L (map adim args) ->
  (forall a, In a args -> adim a = L \/ adim a = 1) ->
  w 0 = Some (Fin 0%R) ->
  (forall k j w r, get k m = None -> j < L -> w 0 = Some (Fin r) ->
     exec (body p (idx k L 1) (map (fun a => EAt (aptr a) (idx k L (adim a))) args))
       (region ((k, OInt j) :: m) p 1 w)
     = Some (region ((k, OInt j) :: m) p 1 (fun _ => Some (Fin (r + v j))))) ->
  exists s, VectApply body (Array p 1) args g = Ok (s, next g "k")
    /\ exec s (region m p 1 w) = Some (region m p 1 (fun _ => Some (Fin (rsum L v)))).
Proof.
  intros m p w g body args L v Hr F N I D W0 H. unfold VectApply, VectApplyV. rewrite !map_map. change (fun x => vdim (VArr x)) with adim. cbn [adim aptr].
  destruct (vect_dims (1 :: map adim args) L N) as [E1 E2].
  - intros x [<-|X]; [now right|]. apply in_map_iff in X as (a & <- & X). now apply D.
  - now right.
  - rewrite E2, E1. eexists. split; [reflexivity|].
    assert (U := fresh_new g m "k" F).
    assert (Nk : name "k" (g "k") <> base p) by (eapply bound_ne; eauto using room_bound).
    cbn [CSem.exec]. rewrite Nat.sub_0_r.
    pose (W := fun j (_ : nat) => Some (Fin (rsum j v))).
    replace (region m p 1 w) with (region m p 1 (W 0)).
    2:{ apply region_ext. intros k K. unfold W. replace k with 0 by lia. now rewrite W0. }
    rewrite for_region with (W := W); [reflexivity|exact Nk|].
    intros j J. change (IMul (IVar (name "k" (g "k"))) (IConst (if 1 =? L then 1 else 0)))
      with (idx (name "k" (g "k")) L 1). rewrite map_cexpr.
    rewrite H with (r := rsum j v); [reflexivity|exact U|lia|reflexivity].
Qed.
Lemma idx1 : forall m p n w k j L, k <> base p -> j < L -> L <> 0 ->
  ieval (region ((k, OInt j) :: m) p n w) (idx k L 1) = Some 0.
Proof.
  intros m p n w k j L N J NL. assert (E := ivar_region m p n w k j N). unfold idx. cbn [ieval] in *. rewrite E. cbn [obind].
  destruct (Nat.eqb_spec 1 L); f_equal; lia.
Qed.

(** ** The methods [Op] *)
Definition op_ok (m : mem) (p : ptr) (d : nat) (g : gen) (r : res (stmt * gen)) (v : nat -> R) : Prop :=
  exists s g' pre, r = Ok (s, g') /\ (forall t, g t <= g' t)
    /\ exec s m = Some (pre ++ region m p d (fun k => Some (Fin (v k)))).

Lemma un_ok : forall m p g u a x, room m p (adim a) -> fresh g m -> adim a <> 0 -> input m p a x ->
  (forall k, k < adim a -> unDom u (x k)) ->
  op_ok m p (adim a) g (VectApply (vect (code1 (un_code u))) (Array p (adim a)) [a] g) (fun k => unR u (x k)).
Proof.
  intros m p g u a x Hr F N Hi D. destruct (region_init m p _ Hr) as [w Ew].
  destruct (vect_ok m p (adim a) w g (code1 (un_code u)) [a] (fun k => unR u (x k))) as (s & E & X); auto.
  - intros b [<-|[]]. now left.
  - intros k j w' U J. cbn [map code1]. assert (Nk : k <> base p) by (eapply bound_ne; eauto using room_bound).
    rewrite un_code_ok with (r := x j); auto. rewrite arg_at with (v := x); auto.
    unfold bcv. bool.
  - exists s, (next g "k"), []. split; [exact E|]. split; [intros; apply next_le|]. rewrite Ew at 1. exact X.
Qed.

Lemma bin_ok : forall m p g d b a1 a2 x y, room m p d -> fresh g m -> d <> 0 ->
  input m p a1 x -> input m p a2 y ->
  (adim a1 = d \/ adim a1 = 1) -> (adim a2 = d \/ adim a2 = 1) ->
  (forall k, k < d -> binDom b (bcv (adim a1) x k) (bcv (adim a2) y k)) ->
  op_ok m p d g (VectApply (vect (code2 (bin_code b))) (Array p d) [a1; a2] g)
    (fun k => binR b (bcv (adim a1) x k) (bcv (adim a2) y k)).
Proof.
  intros m p g d b a1 a2 x y Hr F N H1 H2 D1 D2 D. destruct (region_init m p _ Hr) as [w Ew].
  destruct (vect_ok m p d w g (code2 (bin_code b)) [a1; a2]
              (fun k => binR b (bcv (adim a1) x k) (bcv (adim a2) y k))) as (s & E & X); auto.
  - intros c [<-|[<-|[]]]; auto.
  - intros k j w' U J. cbn [map code2]. assert (Nk : k <> base p) by (eapply bound_ne; eauto using room_bound).
    apply bin_code_ok; [now apply arg_at|now apply arg_at|auto].
  - exists s, (next g "k"), []. split; [exact E|]. split; [intros; apply next_le|]. rewrite Ew at 1. exact X.
Qed.

Lemma ter_ok : forall m p g d t a1 a2 a3 x y z, room m p d -> fresh g m -> d <> 0 ->
  input m p a1 x -> input m p a2 y -> input m p a3 z ->
  (adim a1 = d \/ adim a1 = 1) -> (adim a2 = d \/ adim a2 = 1) -> (adim a3 = d \/ adim a3 = 1) ->
  (forall k, k < d -> terDom t (bcv (adim a1) x k) (bcv (adim a2) y k) (bcv (adim a3) z k)) ->
  op_ok m p d g (VectApply (vect (code3 (ter_code t))) (Array p d) [a1; a2; a3] g)
    (fun k => terR t (bcv (adim a1) x k) (bcv (adim a2) y k) (bcv (adim a3) z k)).
Proof.
  intros m p g d t a1 a2 a3 x y z Hr F N H1 H2 H3 D1 D2 D3 D. destruct (region_init m p _ Hr) as [w Ew].
  destruct (vect_ok m p d w g (code3 (ter_code t)) [a1; a2; a3]
              (fun k => terR t (bcv (adim a1) x k) (bcv (adim a2) y k) (bcv (adim a3) z k))) as (s & E & X); auto.
  - intros c [<-|[<-|[<-|[]]]]; auto.
  - intros k j w' U J. cbn [map code3]. assert (Nk : k <> base p) by (eapply bound_ne; eauto using room_bound).
    apply ter_code_ok; [now apply arg_at|now apply arg_at|now apply arg_at|auto].
  - exists s, (next g "k"), []. split; [exact E|]. split; [intros; apply next_le|]. rewrite Ew at 1. exact X.
Qed.

Lemma value_ok : forall m p n w x j a v, get x m = None -> input m p a v -> adim a <> 0 ->
  ceval (region ((x, OInt j) :: m) p n w) (value a) = Some (Fin (v 0)).
Proof.
  intros m p n w x j a v U Hi N. cbn [value CSem.ceval ieval obind].
  apply input_region; [now apply input_cons|lia].
Qed.

Lemma fresh_next : forall g m t, fresh g m -> fresh (next g t) m.
Proof. intros g m t H. eapply fresh_mono; [exact H|]. intros. apply next_le. Qed.

Lemma lin_ok : forall m p g d l a x, room m p d -> fresh g m -> d <> 0 -> adim a <> 0 -> input m p a x ->
  match l with
  | LSum => d = 1
  | LSumT d' => d' = d /\ adim a = 1
  | LElem i => i < adim a /\ d = 1
  | LElemT n i => n = d /\ i < n /\ adim a = 1
  | LExtract s d' => d' = d /\ s + d <= adim a
  | LExtractT s d' => d' = d /\ s + adim a <= d
  end ->
  op_ok m p d g (lin_op l (Array p d) a g) (linR l (adim a) x).
Proof.
  intros m p g d l a x Hr F N Na Hi C. destruct (region_init m p _ Hr) as [w Ew].
  assert (O0 : off p = off p + 0) by lia.
  destruct l; cbn [lin_op linR].
  - subst d. pose (w0 := fill w 0 1 (fun _ => 0%R)).
    assert (A := assign_ok m p 1 w g p 0 1 (EZ 0) 0%R Hr F eq_refl O0 ltac:(lia) (fun _ _ _ _ => eq_refl)).
    destruct (acc_ok m p w0 (next g "k")
        (fun q i args => SAdd q i (code1 (fun x => x) args)) [a] (adim a) x) as (s & E & X);
      auto using fresh_next.
    + now left.
    + intros b [<-|[]]. now left.
    + intros k j w' r U J W'. cbn [map code1 CSem.exec].
      assert (Nk : k <> base p) by (eapply bound_ne; eauto using room_bound).
      rewrite arg_at with (v := x); auto. rewrite idx1 by auto. cbn [obind].
      assert (Hr' : room ((k, OInt j) :: m) p 1) by (apply room_cons; auto).
      rewrite (region_read_self _ _ _ _ _ 0 0 Hr' eq_refl O0) by lia. cbn [Nat.add]. rewrite W'. cbn [obind].
      rewrite (region_write _ _ _ _ _ 0 0 _ Hr' eq_refl O0) by lia. f_equal. apply region_ext.
      intros i I. unfold at_, bcv. replace i with 0 by lia. bool; cbn [xadd]; do 4 f_equal; lia.
    + unfold seq2. change (snd (assign (Array p 1) (EZ 0) g)) with (next g "k"). rewrite E. cbn [rbind fst snd].
      set (s0 := fst (assign (Array p 1) (EZ 0) g)) in *.
      exists (SSeq s0 s), (next (next g "k") "k"), []. split; [reflexivity|]. split.
      { intros t. assert (X1 := next_le g "k" t). assert (X2 := next_le (next g "k") "k" t). lia. }
      cbn [CSem.exec]. rewrite Ew at 1. rewrite A. cbn [obind]. exact X.
  - destruct C as [-> C].
    assert (A := assign_ok m p d w g p 0 d (value a) (x 0) Hr F eq_refl O0 ltac:(lia)
                   (fun k j w' U => value_ok m p d w' k j a x U Hi Na)).
    exists (fst (assign (Array p d) (value a) g)), (next g "k"), []. split; [reflexivity|]. split; [intros; apply next_le|].
    rewrite Ew at 1. rewrite A. cbn [List.app]. f_equal. apply region_ext. intros. unfold fill. cbn [linR]. bool.
  - destruct C as [C ->].
    eexists _, g, []. split; [reflexivity|]. split; [auto|]. cbn [CSem.exec aptr CSem.ceval ieval obind].
    rewrite (proj2 (proj2 Hi) m0 C). cbn [obind]. rewrite Ew at 1.
    rewrite (region_write _ _ _ _ _ 0 0 _ Hr eq_refl O0) by lia. cbn [List.app]. f_equal. apply region_ext.
    intros i I. unfold at_. bool.
  - destruct C as (-> & C & Ca).
    eexists _, _, []. split; [reflexivity|]. split.
    { intros t. assert (X1 := next_le g "k" t). assert (X2 := next_le (next g "k") "k" t). lia. }
    cbn [aptr]. cbn [CSem.exec]. rewrite Ew at 1.
    assert (A := fun e v w => set_loop m p d w (name "k" (g "k")) p 0 0 m0 (IVar (name "k" (g "k"))) e v
              Hr (fresh_new g m "k" F) eq_refl O0 ltac:(lia)).
    specialize (A (EZ 0) (fun _ => 0%R) w). cbn [CSem.exec] in A. rewrite A.
    2:{ intros j w' J. split; [|reflexivity]. apply ivar_region. eapply bound_ne; eauto using room_bound, fresh_new. }
    cbn [obind value ieval CSem.ceval]. rewrite (input_region m p a x d _ 0 Hi) by lia. cbn [obind].
    rewrite (region_write _ _ _ _ _ 0 m0 _ Hr eq_refl O0) by lia. cbn [obind].
    assert (B := fun e v w => set_loop m p d w (name "k" (next g "k" "k")) p 0 (m0 + 1) d
              (IVar (name "k" (next g "k" "k"))) e v
              Hr (fresh_new _ m "k" (fresh_next _ _ "k" F)) eq_refl O0 ltac:(lia)).
    specialize (B (EZ 0) (fun _ => 0%R)). cbn [CSem.exec] in B. rewrite B.
    2:{ intros j w' J. split; [|reflexivity]. apply ivar_region.
        eapply bound_ne; [|eauto using room_bound]. apply fresh_new, fresh_next, F. }
    cbn [List.app]. f_equal. apply region_ext. intros i I. unfold fill, at_. cbn [linR]. bool.
  - destruct C as [-> C].
    assert (Hi' : input m p (Array (PAdd (aptr a) s) d) (fun k => x (s + k))).
    { destruct Hi as (B & Nb & H). split; [exact B|]. split; [exact Nb|]. cbn [adim aptr]. intros k K.
      specialize (H (s + k) ltac:(lia)). unfold CSem.read in *. cbn [base CSem.off].
      now replace (off (aptr a) + s + k) with (off (aptr a) + (s + k)) by lia. }
    assert (A := copy_ok m p d w g p 0 d _ _ Hr F eq_refl O0 ltac:(lia) Hi' ltac:(cbn; lia)).
    cbn [adim]. exists (fst (VectCopy (Array p d) (Array (PAdd (aptr a) s) d) g)), (next g "k"), []. split; [reflexivity|]. split; [intros; apply next_le|].
    rewrite Ew at 1. rewrite A. cbn [List.app]. f_equal. apply region_ext. intros. unfold fill. cbn [linR]. bool.
  - destruct C as [-> C].
    unfold split3. cbn [adim aptr]. destruct (Nat.eqb_spec (s + adim a + (d - s - adim a)) d); [|lia].
    cbn [rbind]. unfold seq2. cbn [assign VectCopy fst snd rbind adim aptr].
    eexists _, _, []. split; [reflexivity|]. split.
    { intros t. assert (X1 := next_le g "k" t). assert (X2 := next_le (next g "k") "k" t).
      assert (X3 := next_le (next (next g "k") "k") "k" t). lia. }
    assert (A1 := assign_ok m p d w g (PAdd p 0) 0 s (EZ 0) 0%R Hr F eq_refl eq_refl ltac:(lia) (fun _ _ _ _ => eq_refl)).
    assert (A2 := fun w => copy_ok m p d w (next g "k") (PAdd p s) s (adim a) a x Hr (fresh_next _ _ _ F)
                    eq_refl eq_refl ltac:(lia) Hi ltac:(lia)).
    assert (A3 := fun w => assign_ok m p d w (next (next g "k") "k") (PAdd p (s + adim a)) (s + adim a) (d - s - adim a)
                    (EZ 0) 0%R Hr (fresh_next _ _ _ (fresh_next _ _ _ F)) eq_refl eq_refl ltac:(lia) (fun _ _ _ _ => eq_refl)).
    cbn [assign VectCopy fst adim aptr] in A1, A2, A3.
    cbn [CSem.exec] in A1, A2, A3 |- *. rewrite Ew at 1. rewrite A1. cbn [obind]. rewrite A2. cbn [obind]. rewrite A3.
    cbn [List.app]. f_equal. apply region_ext. intros i I. unfold fill. cbn [linR]. bool.
Qed.

(** ** Loops with a counter *)
Lemma for_region2 : forall body x n i (mm : nat -> mem) p d (W : nat -> nat -> option xr), x <> base p ->
  (forall j, List.length (mm j) = List.length (mm 0)) ->
  (forall j, i <= j < i + n ->
     body (region ((x, OInt j) :: mm j) p d (W j)) = Some (region ((x, OInt j) :: mm (S j)) p d (W (S j)))) ->
  loop body x n i (region (mm i) p d (W i)) = Some (region (mm (i + n)) p d (W (i + n))).
Proof.
  intros body x n i mm p d W N L H. apply (loop_rule body x n i (fun j => region (mm j) p d (W j))).
  intros j J. exists [(x, OInt j)]. rewrite !region_length, (L (S j)), (L j). split; [|reflexivity].
  rewrite <- region_cons by auto. rewrite H by auto. now rewrite region_cons.
Qed.

Lemma put_region : forall x o o' m p d w, x <> base p ->
  put x o (region ((x, o') :: m) p d w) = region ((x, o) :: m) p d w.
Proof. intros. rewrite !region_cons by auto. cbn [put]. now rewrite String.eqb_refl. Qed.
Lemma put_region_skip : forall x y o oy m p d w m', x <> y -> y <> base p ->
  put x o (region m p d w) = region m' p d w ->
  put x o (region ((y, oy) :: m) p d w) = region ((y, oy) :: m') p d w.
Proof.
  intros. rewrite !region_cons by auto. cbn [put]. destruct (String.eqb_spec x y); [contradiction|]. congruence.
Qed.
Lemma get_region_skip : forall x y oy m p d w, x <> y -> x <> base p ->
  get x (region ((y, oy) :: m) p d w) = get x (region m p d w).
Proof.
  intros. rewrite !region_get_other by auto. cbn [get]. destruct (String.eqb_spec x y); [contradiction|reflexivity].
Qed.

Lemma name_ne : forall t c t' c', t <> t' \/ c <> c' -> name t c <> name t' c'.
Proof. intros t c t' c' H E. apply name_inj in E. tauto. Qed.

Lemma get_cons_none : forall x y o (m : mem), x <> y -> get x m = None -> get x ((y, o) :: m) = None.
Proof. intros. cbn [get]. destruct (String.eqb_spec x y); [contradiction|auto]. Qed.

Section Bil.
Context (m : mem) (p : ptr) (g : gen) (d : nat) (a1 a2 : c_array) (x y : nat -> R).
Context (Hr : room m p d) (F : fresh g m) (N1 : adim a1 <> 0) (N2 : adim a2 <> 0).
Context (H1 : input m p a1 x) (H2 : input m p a2 y).

Let q := name "var" (g "var").
Let i := name "k" (next g "var" "k").
Let k := name "k" (next (next g "var") "k" "k").

Lemma gvar : next g "var" "k" = g "k". Proof. reflexivity. Qed.
Lemma gvark : next (next g "var") "k" "k" = S (g "k"). Proof. reflexivity. Qed.
Lemma ne_qi : q <> i. Proof. apply name_ne. left. discriminate. Qed.
Lemma ne_qk : q <> k. Proof. apply name_ne. left. discriminate. Qed.
Lemma ne_ik : i <> k. Proof. apply name_ne. right. rewrite gvar, gvark. lia. Qed.
Lemma uq : get q m = None. Proof. now apply fresh_new. Qed.
Lemma ui : get i m = None. Proof. unfold i. apply fresh_new. now apply fresh_next. Qed.
Lemma uk : get k m = None. Proof. unfold k. apply fresh_new. now apply fresh_next, fresh_next. Qed.
Lemma bq : q <> base p. Proof. eapply bound_ne; [exact uq|eauto using room_bound]. Qed.
Lemma bi : i <> base p. Proof. eapply bound_ne; [exact ui|eauto using room_bound]. Qed.
Lemma bk : k <> base p. Proof. eapply bound_ne; [exact uk|eauto using room_bound]. Qed.
Lemma le3 : forall t, g t <= next (next (next g "var") "k") "k" t.
Proof.
  intros t. assert (X1 := next_le g "var" t). assert (X2 := next_le (next g "var") "k" t).
  assert (X3 := next_le (next (next g "var") "k") "k" t). lia.
Qed.

Definition M3 (c u v : nat) : mem := (k, OInt v) :: (i, OInt u) :: (q, OInt c) :: m.
Lemma room3 : forall c u v, room (M3 c u v) p d.
Proof.
  intros. unfold M3. apply room_cons; [exact bk|]. apply room_cons; [exact bi|]. apply room_cons; [exact bq|exact Hr].
Qed.
Lemma room2 : forall c u, room ((i, OInt u) :: (q, OInt c) :: m) p d.
Proof. intros. apply room_cons; [exact bi|]. apply room_cons; [exact bq|exact Hr]. Qed.
Lemma input3 : forall c u v a z, input m p a z -> input (M3 c u v) p a z.
Proof.
  intros c u v a z H. unfold M3. assert (A := ne_qi). assert (B := ne_qk). assert (C := ne_ik).
  assert (D := uq). assert (E := ui). assert (G := uk).
  apply input_cons; [apply get_cons_none; [congruence|apply get_cons_none; [congruence|exact G]]|].
  apply input_cons; [apply get_cons_none; [congruence|exact E]|].
  now apply input_cons.
Qed.
Lemma var_k : forall c u v w, ieval (region (M3 c u v) p d w) (IVar k) = Some v.
Proof. intros. apply ivar_region. exact bk. Qed.
Lemma var_i : forall c u v w, ieval (region (M3 c u v) p d w) (IVar i) = Some u.
Proof.
  intros. cbn [ieval]. unfold M3. rewrite get_region_skip; [|exact ne_ik|exact bi].
  apply (ivar_region ((q, OInt c) :: m) p d w i u bi).
Qed.
Lemma var_i2 : forall c u w, ieval (region ((i, OInt u) :: (q, OInt c) :: m) p d w) (IVar i) = Some u.
Proof. intros. apply ivar_region. exact bi. Qed.
Lemma var_q : forall c u v w, ieval (region (M3 c u v) p d w) (IVar q) = Some c.
Proof.
  intros. cbn [ieval]. unfold M3. rewrite get_region_skip; [|exact ne_qk|exact bq].
  rewrite get_region_skip; [|exact ne_qi|exact bq]. apply (ivar_region m p d w q c bq).
Qed.
Lemma incr_q : forall c u v w, exec (SIncr q 1) (region (M3 c u v) p d w) = Some (region (M3 (c + 1) u v) p d w).
Proof.
  intros. assert (E := var_q c u v w). cbn [ieval] in E. cbn [CSem.exec].
  destruct (get q (region (M3 c u v) p d w)) as [[ | | ]|]; try discriminate. injection E as ->. f_equal.
  unfold M3. apply put_region_skip; [exact ne_qk|exact bk|]. apply put_region_skip; [exact ne_qi|exact bi|].
  apply put_region. exact bq.
Qed.

Lemma matvec_ok : adim a1 = d * adim a2 ->
  op_ok m p d g (bil_op KMatVec d (Array p d) a1 a2 g) (bilR KMatVec (adim a1) (adim a2) x y).
Proof.
  intros Ea. destruct (region_init m p _ Hr) as [w Ew]. assert (O0 : off p = off p + 0) by lia.
  cbn [bil_op aptr adim]. fold q. fold i. fold k.
  pose (v := bilR KMatVec (adim a1) (adim a2) x y).
  pose (W := fun j => fill w 0 j v).
  exists (SSeq (SInt q 0)
            (SFor i 0 d
               (SSeq (SSet p (IVar i) (EZ 0))
                  (SFor k 0 (adim a2)
                     (SSeq (SAdd p (IVar i) (EMul (EAt (aptr a1) (IVar q)) (EAt (aptr a2) (IVar k))))
                           (SIncr q 1)))))), (next (next (next g "var") "k") "k"), [(q, OInt (d * adim a2))].
  split; [reflexivity|]. split; [exact le3|].
  set (inner := SSeq _ (SIncr q 1)).
  cbn [CSem.exec]. rewrite !Nat.sub_0_r. cbn [obind].
  transitivity (Some (region ((q, OInt (d * adim a2)) :: m) p d (W d))).
  2:{ rewrite region_cons by exact bq. cbn [List.app]. f_equal. f_equal. apply region_ext. intros j J. unfold W, fill. bool. }
  rewrite Ew at 1. rewrite <- region_cons by exact bq.
  replace (region ((q, OInt 0) :: m) p d w) with (region ((q, OInt (0 * adim a2)) :: m) p d (W 0)).
  2:{ apply region_ext. intros j J. unfold W, fill. bool. }
  rewrite (for_region2 _ i d 0 (fun j => (q, OInt (j * adim a2)) :: m) p d W); [reflexivity|exact bi|reflexivity|].
  intros u Hu.
  assert (X := var_i2 (u * adim a2) u (W u)). rewrite X. cbn [obind CSem.ceval].
  rewrite (region_write _ _ _ _ _ 0 u _ (room2 _ _) eq_refl O0) by lia. cbn [obind Nat.add xadd xmul].
  pose (W2 := fun n => at_ (W u) u (Fin (rsum n (fun j => x (u * adim a2 + j) * y j)%R))).
  replace (region ((i, OInt u) :: (q, OInt (u * adim a2)) :: m) p d (at_ (W u) u (Fin (IZR 0))))
    with (region ((i, OInt u) :: (q, OInt (u * adim a2 + 0)) :: m) p d (W2 0)).
  2:{ rewrite Nat.add_0_r. reflexivity. }
  rewrite (for_region2 _ k (adim a2) 0 (fun j => (i, OInt u) :: (q, OInt (u * adim a2 + j)) :: m) p d W2);
    [|exact bk|reflexivity|].
  - cbn [Nat.add]. replace (u * adim a2 + adim a2) with (S u * adim a2) by lia.
    f_equal. apply region_ext. intros j J. unfold W2, W, at_, fill. bool. subst j. reflexivity.
  - intros c Hc. change ((k, OInt c) :: (i, OInt u) :: (q, OInt (u * adim a2 + c)) :: m) with (M3 (u * adim a2 + c) u c).
    unfold inner. cbn [CSem.exec CSem.ceval]. rewrite var_q, var_k, var_i. cbn [obind].
    rewrite (input_region _ p a1 x d _ (u * adim a2 + c) (input3 _ _ _ _ _ H1)) by nia.
    rewrite (input_region _ p a2 y d _ c (input3 _ _ _ _ _ H2)) by lia. cbn [obind].
    rewrite (region_read_self _ _ _ _ _ 0 u (room3 _ _ _) eq_refl O0) by lia. cbn [Nat.add].
    unfold W2 at 1. unfold at_ at 1. rewrite Nat.eqb_refl. cbn [obind].
    rewrite (region_write _ _ _ _ _ 0 u _ (room3 _ _ _) eq_refl O0) by lia. cbn [obind Nat.add xadd xmul].
    assert (IQ := incr_q (u * adim a2 + c) u c
      (at_ (W2 c) u (Fin (rsum c (fun j => x (u * adim a2 + j) * y j) + x (u * adim a2 + c) * y c)%R))).
    cbn [CSem.exec] in IQ. rewrite IQ.
    replace (u * adim a2 + S c) with (u * adim a2 + c + 1) by lia. f_equal. apply region_ext. intros j J.
    unfold W2, at_. bool.
Qed.

Lemma vecmat_ok : adim a2 = d * adim a1 ->
  op_ok m p d g (bil_op KVecMat d (Array p d) a1 a2 g) (bilR KVecMat (adim a1) (adim a2) x y).
Proof.
  intros Ea. destruct (region_init m p _ Hr) as [w Ew]. assert (O0 : off p = off p + 0) by lia.
  cbn [bil_op aptr adim]. fold q. fold i. fold k.
  assert (Ed : adim a2 / adim a1 = d) by (rewrite Ea; now apply Nat.div_mul).
  pose (v := bilR KVecMat (adim a1) (adim a2) x y).
  pose (W := fun j => fill w 0 j v).
  exists (SSeq (SInt q 0)
            (SFor i 0 d
               (SSeq (SSet p (IVar i) (EZ 0))
                  (SFor k 0 (adim a1)
                     (SAdd p (IVar i) (EMul (EAt (aptr a2) (IAdd (IMul (IVar k) (IConst d)) (IVar i)))
                        (EAt (aptr a1) (IVar k)))))))), (next (next (next g "var") "k") "k"), [(q, OInt 0)].
  split; [reflexivity|]. split; [exact le3|].
  set (inner := SAdd _ _ _).
  cbn [CSem.exec]. rewrite !Nat.sub_0_r. cbn [obind].
  transitivity (Some (region ((q, OInt 0) :: m) p d (W d))).
  2:{ rewrite region_cons by exact bq. cbn [List.app]. f_equal. f_equal. apply region_ext. intros j J. unfold W, fill. bool. }
  rewrite Ew at 1. rewrite <- region_cons by exact bq.
  replace (region ((q, OInt 0) :: m) p d w) with (region ((q, OInt 0) :: m) p d (W 0)).
  2:{ apply region_ext. intros j J. unfold W, fill. bool. }
  rewrite (for_region2 _ i d 0 (fun j => (q, OInt 0) :: m) p d W); [reflexivity|exact bi|reflexivity|].
  intros u Hu.
  assert (X := var_i2 0 u (W u)). rewrite X. cbn [obind CSem.ceval].
  rewrite (region_write _ _ _ _ _ 0 u _ (room2 _ _) eq_refl O0) by lia. cbn [obind Nat.add xadd xmul].
  pose (W2 := fun n => at_ (W u) u (Fin (rsum n (fun j => y (j * d + u) * x j)%R))).
  change (at_ (W u) u (Fin (IZR 0))) with (W2 0).
  rewrite (for_region2 _ k (adim a1) 0 (fun j => (i, OInt u) :: (q, OInt 0) :: m) p d W2);
    [|exact bk|reflexivity|].
  - cbn [Nat.add].
    f_equal. apply region_ext. intros j J. unfold W2, W, at_, fill. bool. subst j. unfold v. cbn [bilR]. now rewrite Ed.
  - intros c Hc. change ((k, OInt c) :: (i, OInt u) :: (q, OInt 0) :: m) with (M3 0 u c).
    unfold inner. cbn [CSem.exec CSem.ceval].
    assert (E : ieval (region (M3 0 u c) p d (W2 c)) (IAdd (IMul (IVar k) (IConst d)) (IVar i)) = Some (c * d + u)).
    { assert (A := var_k 0 u c (W2 c)). assert (B := var_i 0 u c (W2 c)). cbn [ieval] in *.
      rewrite A. cbn [obind]. rewrite B. reflexivity. }
    rewrite E, var_k, var_i. cbn [obind].
    rewrite (input_region _ p a1 x d _ c (input3 _ _ _ _ _ H1)) by lia.
    rewrite (input_region _ p a2 y d _ (c * d + u) (input3 _ _ _ _ _ H2)) by nia. cbn [obind].
    rewrite (region_read_self _ _ _ _ _ 0 u (room3 _ _ _) eq_refl O0) by lia. cbn [Nat.add].
    unfold W2 at 1. unfold at_ at 1. rewrite Nat.eqb_refl. cbn [obind].
    rewrite (region_write _ _ _ _ _ 0 u _ (room3 _ _ _) eq_refl O0) by lia. cbn [Nat.add].
    f_equal. apply region_ext. intros j J. unfold W2, at_. bool.
Qed.

Lemma tensorprod_ok : d = adim a1 * adim a2 ->
  op_ok m p d g (bil_op KTensorProd d (Array p d) a1 a2 g) (bilR KTensorProd (adim a1) (adim a2) x y).
Proof.
  intros Ea. destruct (region_init m p _ Hr) as [w Ew]. assert (O0 : off p = off p + 0) by lia.
  cbn [bil_op aptr adim]. fold q. fold i. fold k.
  pose (v := bilR KTensorProd (adim a1) (adim a2) x y).
  pose (W := fun j => fill w 0 j v).
  exists (SSeq (SInt q 0)
            (SFor i 0 (adim a1)
                  (SFor k 0 (adim a2)
                     (SSeq (SSet p (IVar q) (EMul (EAt (aptr a1) (IVar i)) (EAt (aptr a2) (IVar k))))
                           (SIncr q 1))))), (next (next (next g "var") "k") "k"), [(q, OInt d)].
  split; [reflexivity|]. split; [exact le3|].
  set (inner := SSeq _ (SIncr q 1)).
  cbn [CSem.exec]. rewrite !Nat.sub_0_r. cbn [obind].
  transitivity (Some (region ((q, OInt (adim a1 * adim a2)) :: m) p d (W (adim a1 * adim a2)))).
  2:{ rewrite <- Ea, region_cons by exact bq. cbn [List.app]. f_equal. f_equal. apply region_ext. intros j J. unfold W, fill. bool. }
  rewrite Ew at 1. rewrite <- region_cons by exact bq.
  replace (region ((q, OInt 0) :: m) p d w) with (region ((q, OInt (0 * adim a2)) :: m) p d (W (0 * adim a2))).
  2:{ apply region_ext. intros j J. unfold W, fill. bool. }
  rewrite (for_region2 _ i (adim a1) 0 (fun j => (q, OInt (j * adim a2)) :: m) p d (fun j => W (j * adim a2)));
    [reflexivity|exact bi|reflexivity|].
  intros u Hu.
  pose (W2 := fun n => W (u * adim a2 + n)).
  replace (region ((i, OInt u) :: (q, OInt (u * adim a2)) :: m) p d (W (u * adim a2)))
    with (region ((i, OInt u) :: (q, OInt (u * adim a2 + 0)) :: m) p d (W2 0)).
  2:{ unfold W2. rewrite Nat.add_0_r. reflexivity. }
  rewrite (for_region2 _ k (adim a2) 0 (fun j => (i, OInt u) :: (q, OInt (u * adim a2 + j)) :: m) p d W2);
    [|exact bk|reflexivity|].
  - cbn [Nat.add]. unfold W2. replace (u * adim a2 + adim a2) with (S u * adim a2) by lia. reflexivity.
  - intros c Hc. change ((k, OInt c) :: (i, OInt u) :: (q, OInt (u * adim a2 + c)) :: m) with (M3 (u * adim a2 + c) u c).
    unfold inner. cbn [CSem.exec CSem.ceval]. rewrite var_q, var_k, var_i. cbn [obind].
    rewrite (input_region _ p a1 x d _ u (input3 _ _ _ _ _ H1)) by lia.
    rewrite (input_region _ p a2 y d _ c (input3 _ _ _ _ _ H2)) by lia. cbn [obind].
    rewrite (region_write _ _ _ _ _ 0 (u * adim a2 + c) _ (room3 _ _ _) eq_refl O0) by nia. cbn [obind Nat.add xadd xmul].
    assert (IQ := incr_q (u * adim a2 + c) u c (at_ (W2 c) (u * adim a2 + c) (Fin (x u * y c)%R))).
    cbn [CSem.exec] in IQ. rewrite IQ.
    replace (u * adim a2 + S c) with (u * adim a2 + c + 1) by lia. f_equal. apply region_ext. intros j J.
    unfold W2, W, at_, fill. bool. subst j. unfold v. cbn [bilR].
    rewrite (Nat.add_comm _ c), Nat.div_add, Nat.mod_add, Nat.div_small, Nat.mod_small by lia. reflexivity.
Qed.

Lemma scal_ok : d = 1 -> adim a1 = adim a2 ->
  op_ok m p d g (bil_op KScal d (Array p d) a1 a2 g) (bilR KScal (adim a1) (adim a2) x y).
Proof.
  intros Ed Ea. rewrite Ed in *. destruct (region_init m p _ Hr) as [w Ew]. assert (O0 : off p = off p + 0) by lia.
  cbn [bil_op bilR]. pose (w0 := fill w 0 1 (fun _ => 0%R)).
  assert (A := assign_ok m p 1 w g p 0 1 (EZ 0) 0%R Hr F eq_refl O0 ltac:(lia) (fun _ _ _ _ => eq_refl)).
  destruct (acc_ok m p w0 (next g "k")
      (fun q i args => SSet q i (code2 (fun u v => EFma u v (EAt q i)) args)) [a1; a2] (adim a1)
      (fun i => x i * y i)%R) as (s & E & X); auto using fresh_next.
  - now left.
  - intros b [<-|[<-|[]]]; auto.
  - intros c j w' r U J W'. cbn [map code2 CSem.exec].
    assert (Nk : c <> base p) by (eapply bound_ne; eauto using room_bound).
    assert (Hr' : room ((c, OInt j) :: m) p 1) by (apply room_cons; auto).
    assert (E1 := arg_at m p 1 w' c j (adim a1) a1 x Nk U H1 (or_introl eq_refl) J).
    assert (E2 := arg_at m p 1 w' c j (adim a1) a2 y Nk U H2 (or_introl (eq_sym Ea)) J).
    cbn [CSem.ceval] in *. rewrite E1, E2. cbn [obind]. rewrite idx1 by auto. cbn [obind].
    rewrite (region_read_self _ _ _ _ _ 0 0 Hr' eq_refl O0) by lia. cbn [Nat.add]. rewrite W'. cbn [obind].
    rewrite (region_write _ _ _ _ _ 0 0 _ Hr' eq_refl O0) by lia. f_equal. apply region_ext.
    intros n Hn. unfold at_, bcv. replace n with 0 by lia. rewrite <- Ea.
    destruct (Nat.eqb_spec (adim a1) 1); cbn [Nat.eqb Nat.add xadd xmul]; do 2 f_equal; [replace j with 0 by lia|]; ring.
  - unfold seq2. change (snd (assign (Array p 1) (EZ 0) g)) with (next g "k"). rewrite E. cbn [rbind fst snd].
    set (s0 := fst (assign (Array p 1) (EZ 0) g)) in *.
    exists (SSeq s0 s), (next (next g "k") "k"), []. split; [reflexivity|]. split.
    { intros t. assert (X1 := next_le g "k" t). assert (X2 := next_le (next g "k") "k" t). lia. }
    cbn [CSem.exec]. rewrite Ew at 1. rewrite A. cbn [obind]. exact X.
Qed.

Lemma cat_ok : d = adim a1 + adim a2 ->
  op_ok m p d g (cat_op (Array p d) a1 a2 g)
    (fun j => if Nat.ltb j (adim a1) then x j else y (j - adim a1)).
Proof.
  intros Ed. destruct (region_init m p _ Hr) as [w Ew].
  unfold cat_op, split2. cbn [adim aptr]. destruct (Nat.eqb_spec (adim a1 + adim a2) d); [|lia]. cbn [rbind].
  unfold seq2. cbn [VectCopy fst snd rbind adim aptr].
  eexists _, _, []. split; [reflexivity|]. split.
  { intros t. assert (X1 := next_le g "k" t). assert (X2 := next_le (next g "k") "k" t). lia. }
  assert (A1 := copy_ok m p d w g (PAdd p 0) 0 (adim a1) a1 x Hr F eq_refl eq_refl ltac:(lia) H1 ltac:(lia)).
  assert (A2 := fun w => copy_ok m p d w (next g "k") (PAdd p (adim a1)) (adim a1) (adim a2) a2 y Hr
                  (fresh_next _ _ _ F) eq_refl eq_refl ltac:(lia) H2 ltac:(lia)).
  cbn [VectCopy fst adim aptr] in A1, A2. cbn [CSem.exec] in A1, A2 |- *. rewrite Ew at 1. rewrite A1. cbn [obind].
  rewrite A2. cbn [List.app]. f_equal. apply region_ext. intros j J. unfold fill. bool.
Qed.
End Bil.

(** ** Extrema *)
Lemma leave_region : forall m p d w w', leave (region m p d w) (region m p d w') = region m p d w'.
Proof. intros. unfold leave. rewrite !region_length, Nat.sub_diag. reflexivity. Qed.

Lemma argsel_S : forall lt v n, n <> 0 ->
  argsel lt v (S n) = if lt (v (argsel lt v n)) (v n) then n else argsel lt v n.
Proof. intros lt v [|n] H; [lia|reflexivity]. Qed.

Definition order (c : cmp) : R -> R -> bool := fun a b => compare c (Fin b) (Fin a).

Lemma order_gt : forall a b, order CGt a b = Rltb a b. Proof. reflexivity. Qed.
Lemma order_lt : forall a b, order CLt a b = Rgtb a b. Proof. reflexivity. Qed.
Lemma argsel_ext : forall lt lt' v n, (forall a b, lt a b = lt' a b) -> argsel lt v n = argsel lt' v n.
Proof.
  intros lt lt' v n H. induction n as [|n IH]; [reflexivity|]. destruct n; [reflexivity|].
  rewrite !argsel_S by lia. now rewrite IH, H.
Qed.

Section Sel.
Context (m : mem) (p : ptr) (g : gen) (a : c_array) (x : nat -> R).
Context (Hr : room m p 1) (F : fresh g m) (N : adim a <> 0) (Hi : input m p a x).

Lemma extremum_ok : forall c bnd, bnd = adim a ->
  op_ok m p 1 g (Ok (extremum c bnd (Array p 1) a g)) (fun _ => x (argsel (order c) x bnd)).
Proof.
  intros c bnd Eb. destruct (region_init m p _ Hr) as [w Ew]. assert (O0 : off p = off p + 0) by lia.
  eexists _, _, []. split; [reflexivity|]. split; [intros; apply next_le|].
  assert (U := fresh_new g m "k" F). set (k := name "k" (g "k")) in *.
  assert (Nk : k <> base p) by (eapply bound_ne; eauto using room_bound).
  cbn [aptr]. set (body := SIf _ _ _ _). cbn [CSem.exec CSem.ceval ieval obind].
  rewrite (proj2 (proj2 Hi) 0 ltac:(lia)). cbn [obind]. rewrite Ew at 1.
  rewrite (region_write _ _ _ _ _ 0 0 _ Hr eq_refl O0) by lia. cbn [obind].
  pose (W := fun j (_ : nat) => Some (Fin (x (argsel (order c) x j)))).
  replace (region m p 1 (at_ w (0 + 0) (Fin (x 0)))) with (region m p 1 (W 1)).
  2:{ apply region_ext. intros j J. unfold W, at_. bool. }
  rewrite for_region with (W := W); [|exact Nk|].
  - cbn [List.app]. unfold W. replace (1 + (bnd - 1)) with bnd by lia. reflexivity.
  - intros j J. unfold body. cbn [CSem.exec CSem.ceval]. rewrite (ivar_region m p 1 _ k j Nk). cbn [obind].
    rewrite (input_region _ p a x 1 _ j (input_cons _ _ _ _ _ _ U Hi)) by lia. cbn [obind value aptr CSem.ceval ieval].
    assert (Hr' : room ((k, OInt j) :: m) p 1) by (apply room_cons; auto).
    rewrite (region_read_self _ _ _ _ _ 0 0 Hr' eq_refl O0) by lia. unfold W at 1. cbn [obind].
    change (compare c (Fin (x j)) (Fin (x (argsel (order c) x j)))) with (order c (x (argsel (order c) x j)) (x j)).
    destruct (order c (x (argsel (order c) x j)) (x j)) eqn:E.
    + rewrite (region_write _ _ _ _ _ 0 0 _ Hr' eq_refl O0) by lia. cbn [obind]. rewrite leave_region.
      f_equal. apply region_ext. intros i I. unfold W, at_. rewrite argsel_S, E by lia. bool.
    + f_equal. apply region_ext. intros i I. unfold W. rewrite argsel_S, E by lia. reflexivity.
Qed.

Lemma arg_extremum_ok : forall c,
  op_ok m p 1 g (Ok (arg_extremum c (Array p 1) a g)) (fun _ => INR (argsel (order c) x (adim a))).
Proof.
  intros c. destruct (region_init m p _ Hr) as [w Ew]. assert (O0 : off p = off p + 0) by lia.
  pose (b := fun j => argsel (order c) x j).
  eexists _, _, [(name "var" (g "var"), OFlt (Some (Fin (x (b (adim a))))))]. split; [reflexivity|]. split.
  { intros t. assert (X1 := next_le g "var" t). assert (X2 := next_le (next g "var") "k" t). lia. }
  assert (Ut := fresh_new g m "var" F). set (t := name "var" (g "var")) in *.
  assert (U := fresh_new (next g "var") m "k" (fresh_next _ _ _ F)). set (k := name "k" (next g "var" "k")) in *.
  assert (Nk : k <> base p) by (eapply bound_ne; eauto using room_bound).
  assert (Nt : t <> base p) by (eapply bound_ne; eauto using room_bound).
  assert (Ntk : t <> k) by (apply name_ne; left; discriminate).
  cbn [aptr]. set (body := SIf _ _ _ _). cbn [CSem.exec CSem.ceval ieval obind].
  rewrite Ew at 1. rewrite (region_write _ _ _ _ _ 0 0 _ Hr eq_refl O0) by lia. cbn [obind].
  rewrite (input_region m p a x 1 _ 0 Hi) by lia. cbn [obind]. rewrite <- region_cons by exact Nt.
  pose (W := fun j (_ : nat) => Some (Fin (INR (b j)))).
  pose (mm := fun j => (t, OFlt (Some (Fin (x (b j))))) :: m).
  replace (region ((t, OFlt (Some (Fin (x 0)))) :: m) p 1 (at_ w (0 + 0) (Fin (IZR 0)))) with (region (mm 1) p 1 (W 1)).
  2:{ unfold mm, b. cbn [argsel]. apply region_ext. intros j J. unfold W, at_, b. cbn [argsel INR]. bool. }
  rewrite for_region2 with (W := W) (mm := mm); [|exact Nk|reflexivity|].
  - replace (1 + (adim a - 1)) with (adim a) by lia. unfold mm. rewrite region_cons by exact Nt. reflexivity.
  - intros j J. unfold body, mm. cbn [CSem.exec CSem.ceval].
    rewrite (ivar_region ((t, OFlt (Some (Fin (x (b j))))) :: m) p 1 _ k j Nk). cbn [obind].
    assert (Uk : get k ((t, OFlt (Some (Fin (x (b j))))) :: m) = None) by (apply get_cons_none; [congruence|exact U]).
    rewrite (input_region _ p a x 1 _ j (input_cons _ _ _ _ _ _ Uk (input_cons _ _ _ _ _ _ Ut Hi))) by lia.
    assert (Gt : forall w, get t (region ((k, OInt j) :: (t, OFlt (Some (Fin (x (b j))))) :: m) p 1 w) = Some (OFlt (Some (Fin (x (b j)))))).
    { intros w'. rewrite get_region_skip by auto. rewrite region_get_other by auto. cbn [get].
      now rewrite String.eqb_refl. }
    rewrite Gt. cbn [obind].
    assert (Hr' : forall r, room ((k, OInt j) :: (t, OFlt r) :: m) p 1)
      by (intros; apply room_cons; [exact Nk|]; apply room_cons; auto).
    change (compare c (Fin (x j)) (Fin (x (b j)))) with (order c (x (b j)) (x j)).
    assert (BS : b (S j) = if order c (x (b j)) (x j) then j else b j) by (apply argsel_S; lia).
    destruct (order c (x (b j)) (x j)) eqn:E.
    + rewrite (put_region_skip t k (OFlt (Some (Fin (x j)))) (OInt j) ((t, OFlt (Some (Fin (x (b j))))) :: m) p 1 (W j) ((t, OFlt (Some (Fin (x j)))) :: m));
        [|exact Ntk|exact Nk|apply put_region; exact Nt]. cbn [obind].
      rewrite (ivar_region ((t, OFlt (Some (Fin (x j)))) :: m) p 1 _ k j Nk). cbn [obind ieval].
      rewrite (region_write _ _ _ _ _ 0 0 _ (Hr' _) eq_refl O0) by lia. cbn [obind].
      unfold leave. rewrite !region_length. cbn [List.length]. rewrite Nat.sub_diag. cbn [skipn].
      rewrite BS. f_equal. apply region_ext. intros i I. unfold W, at_. rewrite BS. bool.
    + rewrite BS. f_equal. apply region_ext. intros i I. unfold W. now rewrite BS.
Qed.
End Sel.

Lemma onehot_ok : forall m p g d n a x, room m p d -> fresh g m -> adim a = 1 -> input m p a x ->
  (0 <= Rtrunc (x O + / 2) < Z.of_nat d)%Z ->
  op_ok m p d g (sel_op (SOneHot n) 1 (Array p d) a g) (selR (SOneHot n) (adim a) x).
Proof.
  intros m p g d n a x Hr F E Hi D. destruct (region_init m p _ Hr) as [w Ew].
  assert (O0 : off p = off p + 0) by lia. cbn [sel_op]. unfold seq2. cbn [rbind].
  assert (A := assign_ok m p d w g p 0 d (EZ 0) 0%R Hr F eq_refl O0 ltac:(lia) (fun _ _ _ _ => eq_refl)).
  set (s0 := fst (assign (Array p d) (EZ 0) g)) in *.
  eexists _, _, []. split; [reflexivity|]. split; [intros; apply next_le|].
  cbn [CSem.exec fst aptr]. rewrite Ew at 1. rewrite A. cbn [obind CSem.ceval value ieval].
  rewrite (input_region m p a x d _ 0 Hi) by lia. cbn [obind Z.eqb xadd].
  replace (x O + 1 / 2)%R with (x O + / 2)%R by lra.
  destruct (Z.ltb_spec (Rtrunc (x 0%nat + / 2)) 0); [lia|].
  rewrite (region_write _ _ _ _ _ 0 (Z.to_nat (Rtrunc (x 0%nat + / 2))) _ Hr eq_refl O0) by lia. cbn [List.app]. f_equal.
  apply region_ext. intros i I. unfold at_, fill. cbn [selR].
  destruct (Z.eqb_spec (Z.of_nat i) (Rtrunc (x 0%nat + / 2))) as [Q|Q]; bool.
Qed.

Lemma sel_ok : forall m p g d s a x, room m p d -> fresh g m -> adim a <> 0 -> input m p a x ->
  match s with SOneHot n => n = d /\ adim a = 1 | _ => d = 1 end ->
  selDom s (adim a) x ->
  op_ok m p d g (sel_op s (adim a) (Array p d) a g) (selR s (adim a) x).
Proof.
  intros m p g d s a x Hr F N Hi C D. destruct s; cbn [sel_op selR].
  - subst d. now apply extremum_ok.
  - subst d. now apply extremum_ok.
  - subst d. now apply arg_extremum_ok.
  - subst d. now apply arg_extremum_ok.
  - destruct C as [-> C]. cbn [selDom] in D. rewrite C. apply (onehot_ok m p g d d a x); auto.
Qed.
End Rho.
