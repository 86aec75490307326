(** * Proofs about half precision and ranges. *)

From Coq Require Import List Arith Bool Lia Permutation.
From Verif Require Import Half2 Half2Spec HalfRanges C31Proofs.
Import ListNotations.

Definition whole (M N : nat) : ranges := {| r_i := [(0, M)]; r_slices := [1]; r_red := [(0, N)] |}.

Lemma whole_single : forall M N i, i < M -> visited (whole M N) i = seq 0 N.
Proof.
  intros M N i H. unfold visited, whole. cbn [r_i r_slices r_red List.length seq flat_map nth_error].
  destruct (Nat.ltb_spec i M); [|lia]. cbn. now rewrite Nat.sub_0_r, !app_nil_r.
Qed.

Lemma whole_half : forall M N i, i < M ->
  Permutation (visited_half (whole M N) N i) (visited (whole M N) i).
Proof.
  intros M N i H. rewrite whole_single by auto. unfold visited_half.
  replace (visited (ranges2half2 (whole M N) N) (i / 2)) with (seq 0 N).
  - apply lane_permutation. apply Nat.mod_upper_bound. lia.
  - unfold visited, ranges2half2, whole.
    cbn [r_i r_slices r_red List.length seq flat_map nth_error map fst snd app].
    assert (T : i / 2 < ceil2 M).
    { unfold ceil2. apply Nat.div_lt_upper_bound; [lia|].
      pose proof (Nat.div_mod (M + 1) 2). pose proof (Nat.mod_upper_bound (M + 1) 2). lia. }
    destruct (Nat.leb_spec (floor2 0) (i / 2)) as [_|F]; [|unfold floor2 in F; simpl in F; lia].
    destruct (Nat.ltb_spec (i / 2) (ceil2 M)); [|lia]. cbn [andb].
    change (1 - 0) with 1. cbn [skipn firstn flat_map fst snd].
    now rewrite Nat.sub_0_r, !app_nil_r.
Qed.

Definition some_columns : ranges := {| r_i := [(0, 2)]; r_slices := [1]; r_red := [(0, 2)] |}.
Definition two_blocks : ranges :=
  {| r_i := [(0, 2); (2, 4)]; r_slices := [1; 2]; r_red := [(0, 4); (0, 4)] |}.

Lemma some_columns_half : visited some_columns 0 = [0; 1] /\ visited some_columns 1 = [0; 1]
  /\ visited_half some_columns 4 0 = [0; 2] /\ visited_half some_columns 4 1 = [1; 3].
Proof. vm_compute. auto. Qed.

Lemma second_call : visited_half two_blocks 4 2 = [0; 2; 3; 1]
  /\ visited_half (caller_after two_blocks) 4 2 = []
  /\ visited (caller_after two_blocks) 2 = [].
Proof. vm_compute. auto. Qed.

Definition odd_block : ranges := {| r_i := [(0, 1); (1, 2)]; r_slices := [1; 2]; r_red := [(0, 4); (0, 2)] |}.

Lemma odd_rows : visited odd_block 0 = [0; 1; 2; 3]
  /\ r_i (ranges2half2 odd_block 4) = [(0, 1); (0, 1)].
Proof. vm_compute. auto. Qed.

(** ** The second half of the slices and of the ranges of the reduction *)
Lemma flat_map_same : forall A B (f g : A -> list B) l, (forall x, In x l -> f x = g x) -> flat_map f l = flat_map g l.
Proof.
  induction l as [|x l IH]; intros H; [reflexivity|]. cbn [flat_map]. rewrite (H x) by now left. f_equal.
  apply IH. intros y Y. apply H. now right.
Qed.

Lemma first_half_only : forall r N i, List.length (r_slices r) = List.length (r_i r) ->
  Forall (fun s => s <= List.length (r_red r)) (r_slices r) ->
  visited (ranges2half2 r N) i
  = visited {| r_i := map (fun p => (fst p / 2, (snd p + 1) / 2)) (r_i r);
               r_slices := r_slices r; r_red := r_red r |} i.
Proof.
  intros r N i L F. unfold visited, ranges2half2. cbn [r_i r_slices r_red]. rewrite !map_length.
  apply flat_map_same. intros b B. apply in_seq in B.
  unfold floor2, ceil2. destruct (nth_error (map _ (r_i r)) b) as [[s e]|]; [|reflexivity].
  rewrite nth_error_app1 by lia. destruct (nth_error (r_slices r) b) as [hi|] eqn:H; [|reflexivity].
  destruct ((s <=? i) && (i <? e)); [|reflexivity]. cbv zeta.
  assert (Hi : hi <= List.length (r_red r)).
  { apply nth_error_In in H. rewrite Forall_forall in F. now apply F. }
  assert (E : match b with O => 0 | S b' => nth b' (r_slices r ++ map (fun s => s + List.length (r_red r)) (r_slices r)) 0 end
            = match b with O => 0 | S b' => nth b' (r_slices r) 0 end).
  { destruct b as [|b']; [reflexivity|]. apply app_nth1. lia. }
  rewrite E. set (lo := match b with O => 0 | S b' => nth b' (r_slices r) 0 end). clearbody lo. clear E.
  f_equal. destruct (Nat.le_gt_cases hi lo) as [Q|Q].
  - replace (hi - lo) with 0 by lia. reflexivity.
  - rewrite skipn_app, firstn_app, skipn_length.
    replace (hi - lo - (List.length (r_red r) - lo)) with 0 by lia. cbn [firstn]. apply app_nil_r.
Qed.
