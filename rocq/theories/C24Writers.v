From Coq Require Import ZArith List Bool Ascii String Lia.
From Verif Require Import Result Keys C22Proofs Folder FolderSpec.
Import ListNotations.
Open Scope string_scope.

Lemma get_none : forall i s, String.length s <= i -> String.get i s = None.
Proof.
  induction i as [|i IH]; intros s H; destruct s; cbn in *; try reflexivity; try lia.
  apply IH. lia.
Qed.

Lemma get_some : forall i s, i < String.length s -> exists a, String.get i s = Some a.
Proof.
  induction i as [|i IH]; intros s H; destruct s; cbn in *; try lia.
  - now exists a.
  - apply IH. lia.
Qed.

Lemma get_overwrite : forall s c i,
  String.get i (overwrite c s)
  = if Nat.ltb i (String.length s) then String.get i s else String.get i c.
Proof.
  induction s as [|a s IH]; intros c i; [reflexivity|].
  destruct i as [|i]; [reflexivity|]. cbn [overwrite String.get String.length].
  rewrite IH. change (Nat.ltb (S i) (S (String.length s))) with (Nat.ltb i (String.length s)).
  destruct (Nat.ltb i (String.length s)); [reflexivity|]. destruct c; [|reflexivity].
  now destruct i.
Qed.

Lemma get_put : forall off c s i,
  String.get i (put c off s)
  = if Nat.ltb i off then match String.get i c with Some a => Some a | None => Some "000"%char end
    else if Nat.ltb i (off + String.length s) then String.get (i - off) s
    else String.get i c.
Proof.
  induction off as [|off IH]; intros c s i.
  - cbn [put]. rewrite get_overwrite. cbn [Nat.ltb]. rewrite Nat.sub_0_r. reflexivity.
  - cbn [put]. destruct c as [|a c].
    + destruct i as [|i]; [reflexivity|]. cbn [String.get]. rewrite IH.
      change (Nat.ltb (S i) (S off)) with (Nat.ltb i off).
      change (Nat.ltb (S i) (S off + String.length s)) with (Nat.ltb i (off + String.length s)).
      cbn [Nat.sub]. now destruct i.
    + destruct i as [|i]; [reflexivity|]. cbn [String.get]. rewrite IH.
      change (Nat.ltb (S i) (S off)) with (Nat.ltb i off).
      change (Nat.ltb (S i) (S off + String.length s)) with (Nat.ltb i (off + String.length s)).
      reflexivity.
Qed.

Section Writers.
  Variable p : string.
  Variable s : string.

  (** A process that will write the positions from [n] on. *)
  Inductive writer : list op_at -> nat -> Prop :=
  | W_open : forall l, joined l = s -> writer (write_at p l) 0
  | W_run : forall pre l, s = pre ++ joined l ->
      writer (puts p (String.length pre) l) (String.length pre).

  Definition holds (d : disk) (a b : list op_at) (na nb : nat) : Prop :=
    writer a na /\ writer b nb
    /\ ((exists c, d p = Some c
         /\ (forall i, String.length s <= i -> String.get i c = None)
         /\ (forall i, i < String.length s ->
               String.get i c = String.get i s \/ na <= i \/ nb <= i))
        \/ (d p = None /\ (exists l, a = write_at p l) /\ (exists l, b = write_at p l))).

  Lemma holds_sym : forall d a b na nb, holds d a b na nb -> holds d b a nb na.
  Proof.
    intros d a b na nb [A [B [[c [C1 [C2 C3]]]|[C [C1 C2]]]]].
    - split; [exact B|]. split; [exact A|]. left. exists c. split; [exact C1|].
      split; [exact C2|]. intros i Hi. destruct (C3 i Hi) as [H|[H|H]]; auto.
    - split; [exact B|]. split; [exact A|]. right. auto.
  Qed.

  Lemma get_pre : forall (pre x y : string) i,
    String.length pre <= i -> i < String.length pre + String.length x ->
    String.get (i - String.length pre) x = String.get i (pre ++ x ++ y).
  Proof.
    intros pre x y i H1 H2.
    replace i with ((i - String.length pre) + String.length pre) at 2 by lia.
    rewrite <- append_correct2. apply append_correct1. lia.
  Qed.

  Lemma first_step : forall d x a b na nb, holds d (x :: a) b na nb ->
    exists n, holds (apply_at d x) a b n nb.
  Proof.
    intros d x a b na nb [A [B C]]. inversion A as [l J E|pre l J E].
    - subst x. exists 0. split.
      + exact (W_run "" l (eq_sym J)).
      + split; [exact B|]. left. exists "". split.
        * cbn. now destruct (string_dec p p).
        * split; [intros; apply get_none; cbn; lia|]. intros. right. left. lia.
    - destruct l as [|s1 l]; [discriminate|]. cbn in E. injection E as <- <-.
      destruct C as [[c [C1 [C2 C3]]]|[_ [[l' C] _]]].
      2:{ discriminate. }
      exists (String.length pre + String.length s1). split.
      { rewrite <- length_app_s. apply W_run. rewrite app_assoc_s. exact J. }
      split; [exact B|]. left. exists (put c (String.length pre) s1).
      assert (L : String.length s = String.length pre + String.length s1 + String.length (joined l)).
      { rewrite J. cbn [joined]. rewrite !length_app_s. lia. }
      split.
      { cbn. destruct (string_dec p p); [|congruence]. now rewrite C1. }
      split.
      + intros i Hi. rewrite get_put.
        destruct (Nat.ltb_spec i (String.length pre)); [lia|].
        destruct (Nat.ltb_spec i (String.length pre + String.length s1)); [lia|]. now apply C2.
      + intros i Hi. rewrite get_put.
        destruct (Nat.ltb_spec i (String.length pre)) as [H|H].
        * destruct (C3 i Hi) as [G|[G|G]]; [|lia|auto].
          rewrite G. destruct (get_some i s Hi) as [z ->]. now left.
        * destruct (Nat.ltb_spec i (String.length pre + String.length s1)) as [H'|H'].
          -- left. rewrite (get_pre pre s1 (joined l) i H H'). now rewrite J.
          -- right. left. exact H'.
  Qed.

  Lemma last_step : forall d na nb, holds d [] [] na nb -> d p = Some s.
  Proof.
    intros d na nb [A [B [[c [C1 [C2 C3]]]|[_ [[l C] _]]]]]; [|discriminate].
    assert (W : forall a n, writer a n -> a = [] -> String.length s <= n).
    { intros a n W E. destruct W as [l J|pre l J].
      - discriminate.
      - destruct l; [|discriminate]. rewrite J. cbn. rewrite app_nil_r_s. lia. }
    assert (WA := W _ _ A eq_refl). assert (WB := W _ _ B eq_refl).
    rewrite C1. f_equal. apply get_correct. intros i.
    destruct (Nat.lt_ge_cases i (String.length s)) as [L|L].
    - destruct (C3 i L) as [H|[H|H]]; [exact H|lia|lia].
    - rewrite C2 by exact L. symmetry. now apply get_none.
  Qed.

  Lemma all_steps : forall a b l, interleaved a b l -> forall d na nb,
    holds d a b na nb -> fold_left apply_at l d p = Some s.
  Proof.
    intros a b l H. induction H as [|x a b l H IH|x a b l H IH]; intros d na nb G.
    - exact (last_step d na nb G).
    - destruct (first_step _ _ _ _ _ _ G) as [n G']. exact (IH _ _ _ G').
    - apply holds_sym in G. destruct (first_step _ _ _ _ _ _ G) as [n G'].
      apply holds_sym in G'. exact (IH _ _ _ G').
  Qed.
End Writers.

(** ** Several files *)

Definition target_at (o : op_at) : string := match o with Open p => p | Put p _ _ => p end.
Definition on (p : string) (o : op_at) : bool :=
  if string_dec (target_at o) p then true else false.

Lemma interleaved_filter : forall A (f : A -> bool) a b l,
  interleaved a b l -> interleaved (filter f a) (filter f b) (filter f l).
Proof.
  intros A f a b l H. induction H; cbn; [constructor| |]; destruct (f x); auto; now constructor.
Qed.

Lemma filter_content : forall p l d d', d p = d' p ->
  fold_left apply_at l d p = fold_left apply_at (filter (on p) l) d' p.
Proof.
  induction l as [|o l IH]; intros d d' E; [exact E|]. cbn [filter].
  unfold on at 1. destruct (string_dec (target_at o) p) as [T|T]; cbn [fold_left]; apply IH.
  - destruct o; cbn in *; subst; (destruct (string_dec _ _); [rewrite ?E; reflexivity|congruence]).
  - destruct o; cbn in *; (destruct (string_dec p p0); [congruence|exact E]).
Qed.

Lemma filter_puts_same : forall p l k, filter (on p) (puts p k l) = puts p k l.
Proof.
  induction l as [|s l IH]; intros k; [reflexivity|]. cbn [puts filter].
  change (on p (Put p k s)) with (if string_dec p p then true else false).
  destruct (string_dec p p); [|congruence]. f_equal. apply IH.
Qed.

Lemma filter_puts_other : forall p q l k, q <> p -> filter (on p) (puts q k l) = [].
Proof.
  induction l as [|s l IH]; intros k N; [reflexivity|]. cbn [puts filter].
  change (on p (Put q k s)) with (if string_dec q p then true else false).
  destruct (string_dec q p); [congruence|]. now apply IH.
Qed.

Lemma filter_write_same : forall p l, filter (on p) (write_at p l) = write_at p l.
Proof.
  intros. unfold write_at. cbn [filter].
  change (on p (Open p)) with (if string_dec p p then true else false).
  destruct (string_dec p p); [|congruence]. now rewrite filter_puts_same.
Qed.

Lemma filter_write_other : forall p q l, q <> p -> filter (on p) (write_at q l) = [].
Proof.
  intros. unfold write_at. cbn [filter].
  change (on p (Open q)) with (if string_dec q p then true else false).
  destruct (string_dec q p); [congruence|].
  now rewrite filter_puts_other.
Qed.

Lemma two_writers : forall p s a b la lb l d,
  filter (on p) a = write_at p la -> filter (on p) b = write_at p lb ->
  joined la = s -> joined lb = s -> d p = None -> interleaved a b l ->
  fold_left apply_at l d p = Some s.
Proof.
  intros p s a b la lb l d Ha Hb Ja Jb Hd I.
  rewrite (filter_content p l d d eq_refl).
  apply (interleaved_filter _ (on p)) in I. rewrite Ha, Hb in I.
  apply (all_steps p s _ _ _ I d 0 0). split; [now constructor|]. split; [now constructor|].
  right. split; [exact Hd|]. split; eauto.
Qed.

(** Two processes that both found the module missing. *)
Lemma two_generations : forall cut cut' m d l,
  proper_cut cut -> proper_cut cut' -> distinct_files m -> absent m d ->
  interleaved (generation_at cut m) (generation_at cut' m) l ->
  let d' := fold_left apply_at l d in
  d' (md_source m) = Some (md_code m)
  /\ d' (md_info m) = Some (info_text (md_formula m) (md_meta m))
  /\ (md_gpu m = true -> d' (md_low m) = Some (md_target m)).
Proof.
  intros cut cut' m d l K K' N A I d'.
  assert (D : md_source m <> md_low m /\ md_source m <> md_info m /\ md_low m <> md_info m).
  { unfold distinct_files in N.
    repeat match goal with H : NoDup (_ :: _) |- _ => inversion H; clear H; subst end.
    cbn in *. intuition congruence. }
  destruct D as [D1 [D2 D3]].
  assert (F : forall c p q, filter (on p) (if md_gpu m then write_at q c else []) =
              if md_gpu m then filter (on p) (write_at q c) else []).
  { intros. now destruct (md_gpu m). }
  split; [|split].
  - unfold d'. eapply two_writers; try exact I.
    + unfold generation_at. rewrite !filter_app, filter_write_same, F.
      rewrite !filter_write_other by congruence.
      destruct (md_gpu m); rewrite ?app_nil_r; reflexivity.
    + unfold generation_at. rewrite !filter_app, filter_write_same, F.
      rewrite !filter_write_other by congruence.
      destruct (md_gpu m); rewrite ?app_nil_r; reflexivity.
    + apply K.
    + apply K'.
    + apply A. cbn. auto.
  - unfold d'. eapply two_writers; try exact I.
    + unfold generation_at. rewrite !filter_app, filter_write_same, F.
      rewrite !filter_write_other by congruence.
      destruct (md_gpu m); reflexivity.
    + unfold generation_at. rewrite !filter_app, filter_write_same, F.
      rewrite !filter_write_other by congruence.
      destruct (md_gpu m); reflexivity.
    + apply K.
    + apply K'.
    + apply A. cbn. auto.
  - intros G. unfold d'. eapply two_writers; try exact I.
    + unfold generation_at. rewrite G, !filter_app, filter_write_same.
      rewrite !filter_write_other by congruence.
      rewrite app_nil_r. reflexivity.
    + unfold generation_at. rewrite G, !filter_app, filter_write_same.
      rewrite !filter_write_other by congruence.
      rewrite app_nil_r. reflexivity.
    + apply K.
    + apply K'.
    + apply A. cbn. auto.
Qed.
