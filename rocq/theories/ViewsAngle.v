(* Model of /repo/pytorch3d/implicitron/models/view_pooler/feature_aggregator.py: AngleWeightedReductionFeatureAggregator, as
   Views.v models ReductionFeatureAggregator.  The cameras are given by their centres, weight_by_ray_angle_gamma is a natural
   number (by default 1); batches of one point. *)
From Coq Require Import Reals List Bool Arith.
From Verif Require Import Base RBase Geom Views.
Import ListNotations.
Local Open Scope R_scope.

(* F.normalize *)
Definition unit_dir (v : vec3) : vec3 := scal3 (/ Rmax (norm3 v) (/ 10 ^ 12)) v.
(* _get_ray_dir_dot_prods, 527-573 *)
Definition ray_dot (centres : nat -> vec3) (p : vec3) (b v : nat) : R :=
  dot3 (unit_dir (sub3 p (centres b))) (unit_dir (sub3 p (centres v))).
(* _get_ray_angle_weights, 576-587 *)
Definition angle_weight (min_weight : R) (gamma : nat) (centres : nat -> vec3) (p : vec3) (b v : nat) : R :=
  (ray_dot centres p b v * (1 / 2) + 1 / 2 + min_weight) ^ gamma.
(* AngleWeightedReductionFeatureAggregator.forward, 283-345, with _get_angular_reduction_weights, 500-524 *)
Definition angle_aggregate (n : nat) (exclude_target mask_features : bool) (fns : list fn) (min_weight : R) (gamma : nat) (centres : nat -> vec3) (p : vec3)
    (b : nat) (feats : list (list channel)) (masks : nat -> bool) : result (list R) :=
  if (n =? 0)%nat then Fail EIndex else
  match feats with
  | [] => Fail ERuntime
  | _ =>
      let feats := if mask_features then map (map (mask_target b)) feats else feats in
      let w := fun v => (if masks v then 1 else 0) * angle_weight min_weight gamma centres p b v * view_mask b exclude_target v in
      rs <- rmap (reduction n fns w) feats ;;
      Ok (concat rs)
  end.
