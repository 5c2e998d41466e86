(* Model of /repo/pytorch3d/implicitron/models/view_pooler/feature_aggregator.py: ReductionFeatureAggregator with
   concatenate_output, for one sampled point of the batch element of one target view.  The features sampled from the source
   views are a list (the values of the dict) of channels, each a function of the number of the view; the masks are binary.
   Floats are reals. *)
From Coq Require Import Reals List Bool Arith.
From Verif Require Import Base RBase.
Import ListNotations.
Local Open Scope R_scope.

(* ReductionFunction, 23-27 *)
Inductive fn := AVG | MAX | STD | STD_AVG.
Definition fn_eqb (a b : fn) : bool :=
  match a, b with AVG, AVG | MAX, MAX | STD, STD | STD_AVG, STD_AVG => true | _, _ => false end.
Definition has (f : fn) (l : list fn) : bool := existsb (fn_eqb f) l.
Definition channel := nat -> R.

(* x.max() *)
Definition maximum (l : list R) : R := match l with [] => 0 | x :: l => fold_right Rmax x l end.
(* row b of _get_view_sampling_mask, 468-478 *)
Definition view_mask (b : nat) (exclude : bool) (v : nat) : R :=
  - (if (v =? b)%nat then 1 else 0) * (if exclude then 1 else 0) + 1.
(* _mask_target_view_features, 481-497 *)
Definition mask_target (b : nat) (c : channel) : channel := fun v => c v * view_mask b true v.

Section reduce.
Variable n : nat. (* n_source_views *)
Definition over (f : channel) : list R := map f (seq 0 n).
(* ops/utils.py:106, eps=1e-2 *)
Definition wmean (x w : channel) : R := rsum (over (fun v => x v * w v)) / Rmax (rsum (over w)) (1 / 100).
(* 646-652 *)
Definition avg_reduction (w x : channel) : R := wmean x w.
(* 655-666 *)
Definition std_reduction (w x : channel) : R :=
  let mu := avg_reduction w x in sqrt (Rmax (wmean (fun v => (x v - mu) ^ 2) w) (1 / 10000)).
(* 669-679; the mean over no channels is nan *)
Definition std_avg_reduction (w : channel) (xs : list channel) : R :=
  rsum (map (std_reduction w) xs) / INR (length xs).
(* 682-690 *)
Definition max_reduction (w x : channel) : R :=
  let big := Rabs (maximum (over x)) * 10 in maximum (over (fun v => x v * w v - (1 - w v) * big)).
(* _avgmaxstd_reduction_function, 590-643; torch.cat of nothing raises *)
Definition reduction (fns : list fn) (w : channel) (xs : list channel) : result (list R) :=
  match fns with
  | [] => Fail ERuntime
  | _ =>
      let pooled := (if has AVG fns then map (avg_reduction w) xs else []) ++
                    (if has STD fns then map (std_reduction w) xs else []) ++
                    (if has STD_AVG fns then [std_avg_reduction w xs] else []) ++
                    (if has MAX fns then map (max_reduction w) xs else []) in
      let any_active := if Rltb (1 / 10000) (maximum (over w)) then 1 else 0 in
      Ok (map (fun y => y * any_active) pooled)
  end.
(* ReductionFeatureAggregator.forward, 190-240; b is the number of the target view, less than n; without views the
   maximum raises, without features there is nothing to concatenate *)
Definition aggregate (exclude_target mask_features : bool) (fns : list fn) (b : nat) (feats : list (list channel)) (masks : nat -> bool) : result (list R) :=
  if (n =? 0)%nat then Fail EIndex else
  match feats with
  | [] => Fail ERuntime
  | _ =>
      let feats := if mask_features then map (map (mask_target b)) feats else feats in
      let w := fun v => (if masks v then 1 else 0) * view_mask b exclude_target v in
      rs <- rmap (reduction fns w) feats ;;
      Ok (concat rs)
  end.
End reduce.
(* _get_reduction_aggregator_feature_dim, 439-465, of the total number of channels *)
Definition fn_dim (dim : nat) (f : fn) : nat := match f with STD_AVG => 1%nat | _ => dim end.
Definition aggregated_dim (fns : list fn) (feats : list nat) : nat :=
  let dim := fold_right Nat.add 0%nat feats in
  match fns with [] => dim | _ => fold_right Nat.add 0%nat (map (fn_dim dim) fns) end.
