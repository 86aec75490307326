(** Accumulators of the final reductions, cell by cell.

    Models keopscore/keopscore/formulas/reductions: Reduction.py, Sum_Reduction.py,
    Min_Reduction.py, Max_Reduction.py, Min_ArgMin_Reduction_Base.py,
    Max_ArgMax_Reduction_Base.py, (Arg)Min/(Arg)Max and Min_ArgMin/Max_ArgMax reductions,
    KMin_ArgKMin_Reduction.py, KMin_Reduction.py, ArgKMin_Reduction.py,
    Max_SumShiftExpWeight_Reduction.py.

    An array of C++ cells is a function from positions to extended reals.  Data type "half2"
    is not modelled (the code raises for all these reductions except Sum). *)

From Coq Require Import ZArith Reals Arith List Bool.
From Verif Require Import Result XReal.
Import ListNotations.

Definition cells := nat -> xr.

Definition upd (a : cells) (p : nat) (v : xr) : cells :=
  fun q => if Nat.eqb q p then v else a q.

(** for (k = 0; k < n; k++) body *)
Fixpoint for_up {S : Type} (n : nat) (body : nat -> S -> S) (s : S) : S :=
  match n with O => s | S m => body m (for_up m body s) end.

(** What the map-reduce schemes use of a reduction object.  [rshort acc xi ind] is
    ReducePairShort, [rpair acc xi] is ReducePair: it is a result because building its code
    may raise; [rkahan acc xi tmp] is the update of (acc, tmp) by KahanScheme, an error when the
    attribute dim_kahan, read by kahan_scheme.__init__ (sum_schemes.py line 77), is missing;
    [rfinal acc] is the content of the output written by FinalizeOutput. *)
Record reduction := {
  rdimred : nat;
  rdim : nat;
  rinit : cells;
  rshort : cells -> cells -> Z -> cells;
  rpair : res (cells -> cells -> cells);
  rkahan : res (cells -> cells -> cells -> cells * cells);
  rfinal : cells -> cells
}.

(** ** Sum_Reduction.py lines 10-49, Reduction.py lines 22-46 *)

Definition sum_pair (d : nat) (acc xi : cells) : cells :=
  for_up d (fun k a => upd a k (xadd (a k) (xi k))) acc.

(** KahanScheme, lines 31-41. *)
Definition sum_kahan (d : nat) (acc xi tmp : cells) : cells * cells :=
  for_up d (fun k (st : cells * cells) =>
    let (acc, tmp) := st in
    let a := xsub (xi k) (tmp k) in
    let b := xadd (acc k) a in
    (upd acc k b, upd tmp k (xsub (xsub b (acc k)) a))) (acc, tmp).

Definition Sum_Red (d : nat) : reduction := {|
  rdimred := d; rdim := d;
  rinit := fun _ => Fin 0;
  rshort := fun acc xi _ => sum_pair d acc xi;
  rpair := Ok (sum_pair d);
  rkahan := Ok (sum_kahan d);
  rfinal := fun acc => acc |}.

(** ** Min_Reduction.py lines 6-30, Max_Reduction.py lines 6-30 *)

(** [better x y]: x < y for Min, x > y for Max. *)
Definition better (mx : bool) (x y : xr) : bool := if mx then xltb y x else xltb x y.
Definition worst (mx : bool) : xr := if mx then NInf else PInf.

Definition opt_pair (mx : bool) (d : nat) (acc xi : cells) : cells :=
  for_up d (fun k a => if better mx (xi k) (a k) then upd a k (xi k) else a) acc.

Definition Opt_Red (mx : bool) (d : nat) : reduction := {|
  rdimred := d; rdim := d;
  rinit := fun _ => worst mx;
  rshort := fun acc xi _ => opt_pair mx d acc xi;
  rpair := Ok (opt_pair mx d);
  rkahan := PyErr;
  rfinal := fun acc => acc |}.

(** ** Min_ArgMin_Reduction_Base.py lines 12-51, Max_ArgMax_Reduction_Base.py

    The accumulator is (values, indices), each of dimension d (split at line 24). *)
Definition optarg_init (mx : bool) (d : nat) : cells :=
  fun p => if p <? d then worst mx else Fin 0.

Definition optarg_short (mx : bool) (d : nat) (acc xi : cells) (ind : Z) : cells :=
  for_up d (fun k a => if better mx (xi k) (a k)
                       then upd (upd a k (xi k)) (d + k) (of_long ind) else a) acc.

(** ReducePair (lines 33-38) calls VectApply(self.ReducePairScalar, acc_val, xi_val, xi_ind),
    hence ReducePairScalar with three arguments instead of four: TypeError. *)
Definition optarg_pair : res (cells -> cells -> cells) := PyErr.

Inductive optarg_out := OBoth | OArg | OVal.

(** Min_ArgMin_Reduction.py 19-20 copies everything; ArgMin_Reduction.py 20-22 copies the
    indices. *)
Definition optarg_final (o : optarg_out) (d : nat) (acc : cells) : cells :=
  match o with OArg => fun k => acc (d + k) | _ => acc end.

Definition OptArg_Red (mx : bool) (o : optarg_out) (d : nat) : reduction := {|
  rdimred := 2 * d; rdim := match o with OBoth => 2 * d | _ => d end;
  rinit := optarg_init mx d;
  rshort := optarg_short mx d;
  rpair := optarg_pair;
  rkahan := PyErr;
  rfinal := optarg_final o d |}.

(** ** KMin_ArgKMin_Reduction.py lines 16-104

    Component k of slot s is in cell k + s*2*fdim, its index in cell k + s*2*fdim + fdim. *)

(** InitializeReduction, lines 36-48. *)
Definition kmin_init (K fdim : nat) : cells :=
  for_up fdim (fun k a =>
    for_up K (fun s a =>
      let l := k + s * (2 * fdim) in
      upd (upd a l PInf) (l + fdim) (Fin 0)) a) (fun _ => NaN).

(** ReducePairShort, lines 76-104: the loop on l runs downwards from k+(K-1)*2*fdim by steps
    of 2*fdim while l >= k && xik < acc[l]; here it is indexed by the slot s. *)
Fixpoint kmin_insert (K fdim k : nat) (xik : xr) (ind : Z) (n : nat) (acc : cells) : cells :=
  match n with
  | O => acc
  | S s =>
      let l := k + s * (2 * fdim) in
      if xltb xik (acc l) then
        let tmpl := acc l in
        let indtmpl := to_long (acc (l + fdim)) in
        let acc1 := upd (upd acc l xik) (l + fdim) (of_long ind) in
        let acc2 :=
          if l <? k + 2 * fdim * (K - 1)
          then upd (upd acc1 (l + 2 * fdim) tmpl) (l + 2 * fdim + fdim) (of_long indtmpl)
          else acc1 in
        kmin_insert K fdim k xik ind s acc2
      else acc
  end.

Definition kmin_short (K fdim : nat) (acc xi : cells) (ind : Z) : cells :=
  for_up fdim (fun k a => kmin_insert K fdim k (xi k) ind K a) acc.

(** ReducePair, lines 50-74: merge of two accumulators.  State of the inner loop: out, p, q. *)
Definition kmin_merge_body (fdim k : nat) (acc xi : cells) (s : nat)
    (st : cells * nat * nat) : cells * nat * nat :=
  let '(out, p, q) := st in
  let l := k + s * (2 * fdim) in
  if xltb (xi p) (acc q)
  then (upd (upd out l (xi p)) (l + fdim) (xi (p + fdim)), p + 2 * fdim, q)
  else (upd (upd out l (acc q)) (l + fdim) (acc (q + fdim)), p, q + 2 * fdim).

(** The inner loop "for l = k; l < 2*K*fdim; l += 2*fdim" makes K steps since k < fdim. *)
Definition kmin_merge (K fdim : nat) (acc xi : cells) : cells :=
  let out := for_up fdim (fun k out =>
    fst (fst (for_up K (kmin_merge_body fdim k acc xi) (out, k, k)))) (fun _ => NaN) in
  for_up (2 * K * fdim) (fun k a => upd a k (out k)) acc.

(** FinalizeOutput: copy (KMin_ArgKMin), values (KMin_Reduction.py 24-31) or indices
    (ArgKMin_Reduction.py 24-34). *)
Definition kmin_final (o : optarg_out) (K fdim : nat) (acc : cells) : cells :=
  match o with
  | OBoth => acc
  | _ => for_up fdim (fun k out =>
      fst (for_up K (fun s (st : cells * nat) =>
        let (out, p) := st in
        let l := k + s * (2 * fdim) in
        (upd out p (acc (match o with OArg => l + fdim | _ => l end)), p + fdim))
      (out, k))) (fun _ => NaN)
  end.

Definition KMin_Red (o : optarg_out) (K fdim : nat) : reduction := {|
  rdimred := 2 * K * fdim;
  rdim := match o with OBoth => 2 * K * fdim | _ => K * fdim end;
  rinit := kmin_init K fdim;
  rshort := kmin_short K fdim;
  rpair := Ok (kmin_merge K fdim);
  rkahan := PyErr;
  rfinal := kmin_final o K fdim |}.

(** ** Max_SumShiftExpWeight_Reduction.py lines 16-63: cell 0 is m, cells 1..d are s *)

Definition lse_init : cells := fun p => match p with O => NInf | _ => Fin 0 end.

(** Argument of the exponential computed by ReducePair (lines 54, 57). *)
Definition lse_exponent (acc xi : cells) : xr :=
  if xltb (xi 0) (acc 0) then xsub (xi 0) (acc 0) else xsub (acc 0) (xi 0).

(** ReducePair, lines 40-60. *)
Definition lse_pair (d : nat) (acc xi : cells) : cells :=
  let tmpexp := xexp (lse_exponent acc xi) in
  if xltb (xi 0) (acc 0) then
    for_up d (fun k a => upd a (S k) (xadd (a (S k)) (xmul (xi (S k)) tmpexp))) acc
  else
    upd (for_up d (fun k a => upd a (S k) (xadd (xi (S k)) (xmul tmpexp (a (S k))))) acc)
        0 (xi 0).

Definition LSE_Red (d : nat) : reduction := {|
  rdimred := S d; rdim := S d;
  rinit := lse_init;
  rshort := fun acc xi _ => lse_pair d acc xi;
  rpair := Ok (lse_pair d);
  rkahan := PyErr; (* KahanScheme is defined but dim_kahan is not *)
  rfinal := fun acc => acc |}.

(** Accumulation of a sequence of (index, value of the formula), from the initial state:
    the loop "for j ... ReducePairShort(acc, fout, j)" of sum_schemes.py, direct_sum
    (lines 33-41). *)
Definition run (r : reduction) (l : list (Z * cells)) (acc : cells) : cells :=
  fold_left (fun a p => rshort r a (snd p) (fst p)) l acc.
