(** C19 -- grid_cluster: same label if and only if same cell.

    [same_cell D o s p q]: some cell of the grid of origin o and steps s contains p and q. *)

From Coq Require Import ZArith Reals Lia Lra List Bool.
From Verif Require Import Result Clusters ClusterSpec C19Proofs.
Import ListNotations.

(** numpy: true when the coordinates other than the first spread over at most 1023 cell sizes (and
    the points are at most 2^40 cells away from the origin). *)
Theorem C19_numpy : forall junk D x size, (1 <= D <= 3)%nat -> x <> [] -> (forall p, In p x -> length p = D) ->
  length size = D -> (forall d, (d < D)%nat -> (0 < nth d size 0)%R) ->
  (forall p d, In p x -> (d < D)%nat -> (- 2 ^ 40 * nth d size 0 <= nth d p 0 < 2 ^ 40 * nth d size 0)%R) ->
  (forall p q d, In p x -> In q x -> (1 <= d < D)%nat -> (Rabs (nth d p 0 - nth d q 0) <= 1023 * nth d size 0)%R) ->
  exists lab, grid_cluster junk D x size = Ok lab /\ length lab = length x /\ compact_range lab /\
    forall a b, (a < length x)%nat -> (b < length x)%nat ->
      (nth a lab 0%Z = nth b lab 0%Z <->
       same_cell D (fun _ => 0%R) (fun d => nth d size 0%R) (nth a x []) (nth b x [])).
Proof. exact numpy_grid. Qed.
Print Assumptions C19_numpy.

(** torch: origin at the smallest coordinates; the first coordinate is limited too (32 bits). *)
Theorem C19_torch : forall junk D x size, (1 <= D <= 3)%nat -> x <> [] -> (forall p, In p x -> length p = D) ->
  length size = D -> (forall d, (d < D)%nat -> (0 < nth d size 0)%R) ->
  (forall p q, In p x -> In q x -> (nth 0 p 0 - nth 0 q 0 < 2 ^ (42 - 10 * D) * nth 0 size 0)%R) ->
  (forall p q d, In p x -> In q x -> (1 <= d < D)%nat -> (nth d p 0 - nth d q 0 < 1024 * nth d size 0)%R) ->
  exists lab o, grid_cluster_torch junk D x size = Ok lab /\ smallest D o x /\
    length lab = length x /\ compact_range lab /\
    forall a b, (a < length x)%nat -> (b < length x)%nat ->
      (nth a lab 0%Z = nth b lab 0%Z <-> same_cell D o (fun d => nth d size 0%R) (nth a x []) (nth b x [])).
Proof. exact torch_grid. Qed.
Print Assumptions C19_torch.

(** numpy, dimension 2: the cells (0, 1024) and (1, 0) get the same label. *)
Theorem C19_numpy_refuted : forall junk, exists lab,
  grid_cluster junk 2 [[0; 1024]; [1; 0]]%R [1; 1]%R = Ok lab /\ nth 0 lab 0%Z = nth 1 lab 0%Z /\
  ~ same_cell 2 (fun _ => 0%R) (fun _ => 1%R) [0; 1024]%R [1; 0]%R.
Proof. exact numpy_collision. Qed.
Print Assumptions C19_numpy_refuted.

(** torch, dimension 3: the cells (0, 0, 0) and (4096, 0, 0) get the same label. *)
Theorem C19_torch_refuted : forall junk, exists lab,
  grid_cluster_torch junk 3 [[0; 0; 0]; [4096; 0; 0]]%R [1; 1; 1]%R = Ok lab /\ nth 0 lab 0%Z = nth 1 lab 0%Z /\
  ~ same_cell 3 (fun _ => 0%R) (fun _ => 1%R) [0; 0; 0]%R [4096; 0; 0]%R.
Proof. exact torch_collision. Qed.
Print Assumptions C19_torch_refuted.

(** A cloud meeting the hypotheses of both, with two points in the same cell and one in another. *)
Example C19_case :
  let x := [[0; 5]; [1 / 4; 5]; [7; 2]]%R in let size := [1 / 2; 1]%R in
  (forall p, In p x -> length p = 2%nat) /\ (forall d, (d < 2)%nat -> (0 < nth d size 0)%R) /\
  (forall p d, In p x -> (d < 2)%nat -> (- 2 ^ 40 * nth d size 0 <= nth d p 0 < 2 ^ 40 * nth d size 0)%R) /\
  (forall p q d, In p x -> In q x -> (d < 2)%nat -> (Rabs (nth d p 0 - nth d q 0) <= 1023 * nth d size 0)%R) /\
  (forall p q d, In p x -> In q x -> (d < 2)%nat -> (nth d p 0 - nth d q 0 < 1024 * nth d size 0)%R) /\
  same_cell 2 (fun _ => 0%R) (fun d => nth d size 0%R) [0; 5]%R [1 / 4; 5]%R /\
  ~ same_cell 2 (fun _ => 0%R) (fun d => nth d size 0%R) [0; 5]%R [7; 2]%R.
Proof.
  cbv zeta. split; [intros p [<-|[<-|[<-|[]]]]; reflexivity|].
  split; [intros [|[|d]] Hd; cbn; [lra|lra|lia]|].
  split; [intros p [|[|d]] [<-|[<-|[<-|[]]]] Hd; cbn; lra || lia|].
  split.
  { intros p q [|[|d]] [<-|[<-|[<-|[]]]] [<-|[<-|[<-|[]]]] Hd; cbn; try lia; apply Rabs_le; lra. }
  split; [intros p q [|[|d]] [<-|[<-|[<-|[]]]] [<-|[<-|[<-|[]]]] Hd; cbn; lra || lia|].
  split.
  - exists (fun d => if Nat.eqb d 0 then 0%Z else 5%Z). split; intros [|[|d]] Hd; cbn; lra || lia.
  - intros (k & Hp & Hq). specialize (Hp 1%nat ltac:(lia)). specialize (Hq 1%nat ltac:(lia)). cbn in Hp, Hq. lra.
Qed.
