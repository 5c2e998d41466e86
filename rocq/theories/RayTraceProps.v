(* C88: where rays meet the surface of a signed distance function. *)
From Coq Require Import Reals List Bool Arith Lra Lia.
From Verif Require Import Base RBase Geom RayTrace RayTraceSpec RayTraceProofs RayTraceProofs2 RayTraceProofs3 RayTraceProofs4
  RayTraceProofs5 RayTraceProofs6 RayTraceProofs7.
Import ListNotations.
Local Open Scope R_scope.

(* A ray is traced exactly when its line enters the bounding sphere. *)
Theorem traced_iff_enters_sphere s r : unit_ray r -> 0 <= s ->
  (meets s r = true <-> exists t, length3 (along r t) < s).
Proof. exact (meets_iff s r). Qed.
Print Assumptions traced_iff_enters_sphere.
(* The traced segment is the part of the sphere in front of the camera. *)
Theorem segment_is_inside_sphere s r t : unit_ray r -> 0 <= s -> meets s r = true ->
  (exists u, 0 <= u /\ length3 (along r u) <= s) ->
  (fst (sphere_intersection s r) <= t <= snd (sphere_intersection s r) <-> 0 <= t /\ length3 (along r t) <= s).
Proof. exact (sphere_segment s r t). Qed.
Print Assumptions segment_is_inside_sphere.
Example segment_case : unit_ray down /\ meets 1 down = true /\ sphere_intersection 1 down = (1, 3) /\
  exists u, 0 <= u /\ length3 (along down u) <= 1.
Proof.
  repeat split; [exact down_unit|exact down_meets|exact down_segment|]. exists 2. split; [lra|].
  unfold length3, along, down. cbn. replace (_ + _) with 0 by ring. rewrite sqrt_0. lra.
Qed.

(* One result for every ray. *)
Theorem tracer_returns argmin tr sdf training us rays : picks_minimum argmin -> (2 <= n_steps tr)%nat -> 0 <= threshold tr ->
  (training = true -> us <> []) -> exists outs, forward argmin tr sdf training us rays = Ok outs /\ length outs = length rays.
Proof. intros A N T. exact (forward_total argmin tr sdf A N T training us rays). Qed.
Print Assumptions tracer_returns.
(* Whether and where a ray finds the surface does not depend on the other rays of its batch. *)
Theorem rays_are_independent argmin tr sdf training us rays outs k r p n z p' n' z' : 0 <= threshold tr ->
  forward argmin tr sdf training us rays = Ok outs -> nth_error rays k = Some r -> nth_error outs k = Some (p, n, z) ->
  forward argmin tr sdf training us [r] = Ok [(p', n', z')] ->
  n = n' /\ z = z' /\ (meets (sphere tr) r = true -> p = p').
Proof. intros T E K O. exact (independent argmin tr sdf T training us rays outs k r p n z E K O p' n' z'). Qed.
Print Assumptions rays_are_independent.
(* Not so for the point of a ray that misses the sphere: alone it is the origin of the world, in
   company it is the camera. *)
Theorem missed_points_are_independent_refuted :
  ~ (forall argmin tr sdf rays outs k r p n z p' n' z', picks_minimum argmin -> (2 <= n_steps tr)%nat -> 0 <= threshold tr ->
       forward argmin tr sdf false [] rays = Ok outs -> nth_error rays k = Some r -> nth_error outs k = Some (p, n, z) ->
       forward argmin tr sdf false [] [r] = Ok [(p', n', z')] -> p = p').
Proof.
  intros H. destruct alone as (n' & z' & A). destruct accompanied as (n & z & o & B).
  specialize (H first_min small far_away [aside; down] _ 0%nat aside _ n z _ n' z' first_min_picks (le_n _) ltac:(cbn; lra) B eq_refl eq_refl A).
  apply (f_equal z3) in H. cbn in H. lra.
Qed.
Print Assumptions missed_points_are_independent_refuted.

(* Evaluation, any function.  The point lies on the ray at the distance; where a surface is reported,
   the function is at most the threshold or changes sign around the distance. *)
Theorem found_is_surface argmin tr sdf us rays outs k r p n z : picks_minimum argmin -> (2 <= n_steps tr)%nat -> 0 <= threshold tr ->
  forward argmin tr sdf false us rays = Ok outs -> nth_error rays k = Some r -> nth_error outs k = Some (p, n, z) ->
  (meets (sphere tr) r = true -> p = along r z) /\
  (n = true -> meets (sphere tr) r = true /\
     (sdf (along r z) <= threshold tr \/ exists lo hi, lo <= z <= hi /\ 0 <= sdf (along r lo) /\ sdf (along r hi) < 0)).
Proof. intros A N T. exact (eval_ray argmin tr sdf A N T us rays outs k r p n z). Qed.
Print Assumptions found_is_surface.
(* Evaluation, a function that behaves like a distance.  The distance reported is inside the segment,
   and it is either within the threshold with no surface before it, or as close to a surface as the
   samples are to each other. *)
Theorem found_distance argmin tr sdf us rays outs k r p z : picks_minimum argmin -> (2 <= n_steps tr)%nat -> 0 <= threshold tr ->
  distance_like sdf -> unit_ray r ->
  forward argmin tr sdf false us rays = Ok outs -> nth_error rays k = Some r -> nth_error outs k = Some (p, true, z) ->
  let t := sphere_intersection (sphere tr) r in
  fst t <= z <= snd t /\
  ((sdf (along r z) <= threshold tr /\ forall s, fst t <= s < z -> 0 < sdf (along r s)) \/
   exists w, sdf (along r w) = 0 /\ fst t <= w <= snd t /\ Rabs (z - w) <= (snd t - fst t) / INR (n_steps tr - 1)).
Proof. intros A N T D U E K O. exact (eval_lipschitz argmin tr sdf A N T D us rays outs k r p true z E K O U eq_refl). Qed.
Print Assumptions found_distance.
(* Of any function, a distance or not: with a line search step from 1/2 to 1 stepping back never undoes more than the last
   step, so that what is found lies inside the sphere. *)
Theorem found_in_sphere argmin tr sdf us rays outs k r p z : picks_minimum argmin -> (2 <= n_steps tr)%nat -> 0 <= threshold tr ->
  1 / 2 <= line_search_step tr <= 1 ->
  forward argmin tr sdf false us rays = Ok outs -> nth_error rays k = Some r -> nth_error outs k = Some (p, true, z) ->
  fst (sphere_intersection (sphere tr) r) <= z <= snd (sphere_intersection (sphere tr) r).
Proof. intros A N T L. exact (found_inside argmin tr sdf A N T L us rays outs k r p z). Qed.
Print Assumptions found_in_sphere.
Example search_case : 1 / 2 <= line_search_step small <= 1 /\ 0 <= threshold small /\ (2 <= n_steps small)%nat.
Proof. cbn. split; [lra|]. split; [lra|lia]. Qed.
(* An object at least as thick along the ray as one sampling step is never missed. *)
Theorem thick_objects_are_found argmin tr sdf us rays outs k r p n z s s' : picks_minimum argmin -> (2 <= n_steps tr)%nat -> 0 <= threshold tr ->
  distance_like sdf -> unit_ray r -> meets (sphere tr) r = true ->
  forward argmin tr sdf false us rays = Ok outs -> nth_error rays k = Some r -> nth_error outs k = Some (p, n, z) ->
  let t := sphere_intersection (sphere tr) r in
  fst t <= s -> s < s' -> s' <= snd t -> (snd t - fst t) / INR (n_steps tr - 1) <= s' - s ->
  (forall v, s <= v <= s' -> sdf (along r v) < 0) -> n = true.
Proof. intros A N T D U M E K O. exact (eval_complete argmin tr sdf A N T D us rays outs k r p n z s s' E K O U M). Qed.
Print Assumptions thick_objects_are_found.
Example thick_case : picks_minimum first_min /\ distance_like plane /\ unit_ray down /\ meets 1 down = true /\
  let t := sphere_intersection 1 down in fst t <= 5/2 /\ 5/2 < 3 /\ 3 <= snd t /\ (snd t - fst t) / INR (100 - 1) <= 3 - 5/2 /\
  forall v, 5/2 <= v <= 3 -> plane (along down v) < 0.
Proof.
  split; [exact first_min_picks|]. split; [exact plane_distance|]. split; [exact down_unit|]. split; [exact down_meets|].
  rewrite down_segment. cbn [fst snd]. split; [lra|]. split; [lra|]. split; [lra|]. split.
  - assert (4 <= INR (100 - 1)) by (rewrite INR_IZR_INZ; cbn; lra).
    apply (Rmult_le_reg_r (INR (100 - 1))); [lra|]. unfold Rdiv. rewrite Rmult_assoc, Rinv_l by lra. lra.
  - intros v V. unfold plane, along, down. cbn. lra.
Qed.

(* Training.  A surface found on a pixel of the object is the one of evaluation. *)
Theorem training_keeps_found argmin tr sdf us rays outs outs' k r p n z : picks_minimum argmin -> (2 <= n_steps tr)%nat -> 0 <= threshold tr ->
  forward argmin tr sdf true us rays = Ok outs -> forward argmin tr sdf false us rays = Ok outs' ->
  nth_error rays k = Some r -> nth_error outs k = Some (p, n, z) -> n = true -> in_object r = true -> nth_error outs' k = Some (p, n, z).
Proof.
  intros A N T E E' K O N' I. apply (training_found argmin tr sdf A N T us rays outs outs' k r p n z E E' K O). rewrite N', I. reflexivity.
Qed.
Print Assumptions training_keeps_found.
(* Otherwise a ray through the sphere gets the candidate of least value, *)
Theorem training_lowest_candidate argmin tr sdf us rays outs k r p n z : picks_minimum argmin -> (2 <= n_steps tr)%nat -> 0 <= threshold tr ->
  us <> [] -> forward argmin tr sdf true us rays = Ok outs -> nth_error rays k = Some r -> nth_error outs k = Some (p, n, z) ->
  meets (sphere tr) r = true -> n && in_object r = false ->
  p = along r z /\ exists cs, In z cs /\ (length cs = length us \/ length cs = n_steps tr) /\
    forall c, In c cs -> sdf (along r z) <= sdf (along r c).
Proof. intros A N T. exact (training_lowest argmin tr sdf A N T us rays outs k r p n z). Qed.
Print Assumptions training_lowest_candidate.
(* and a ray past the sphere the point nearest to its centre. *)
Theorem training_missed_nearest argmin tr sdf us rays outs k r p n z : picks_minimum argmin -> (2 <= n_steps tr)%nat -> 0 <= threshold tr ->
  unit_ray r -> forward argmin tr sdf true us rays = Ok outs -> nth_error rays k = Some r -> nth_error outs k = Some (p, n, z) ->
  meets (sphere tr) r = false -> n = false /\ p = along r z /\ forall t, length3 p <= length3 (along r t).
Proof.
  intros A N T U E K O M. destruct (training_missed argmin tr sdf A N T us rays outs k r p n z E K O M) as (-> & -> & ->).
  split; [reflexivity|]. split; [reflexivity|]. intros t. apply closest, U.
Qed.
Print Assumptions training_missed_nearest.
(* In training too the distance of a ray that meets the sphere is inside it; of a ray that finds the surface outside the
   mask it is not in front of the surface that evaluation finds. *)
Theorem training_in_sphere argmin tr sdf us rays outs k r p n z : picks_minimum argmin -> (2 <= n_steps tr)%nat -> 0 <= threshold tr ->
  1 / 2 <= line_search_step tr <= 1 -> Forall (fun u => 0 <= u <= 1) us -> us <> [] ->
  forward argmin tr sdf true us rays = Ok outs -> nth_error rays k = Some r -> nth_error outs k = Some (p, n, z) -> meets (sphere tr) r = true ->
  fst (sphere_intersection (sphere tr) r) <= z <= snd (sphere_intersection (sphere tr) r).
Proof. intros A N T L. exact (training_inside argmin tr sdf A N T L us rays outs k r p n z). Qed.
Print Assumptions training_in_sphere.
Theorem training_not_in_front argmin tr sdf us rays outs outs' k r p n z p' z' : picks_minimum argmin -> (2 <= n_steps tr)%nat -> 0 <= threshold tr ->
  1 / 2 <= line_search_step tr <= 1 -> Forall (fun u => 0 <= u <= 1) us -> us <> [] ->
  forward argmin tr sdf true us rays = Ok outs -> forward argmin tr sdf false us rays = Ok outs' -> nth_error rays k = Some r ->
  nth_error outs k = Some (p, n, z) -> nth_error outs' k = Some (p', true, z') -> in_object r = false -> n = true /\ z' <= z.
Proof. intros A N T L. exact (training_behind argmin tr sdf A N T L us rays outs outs' k r p n z p' z'). Qed.
Print Assumptions training_not_in_front.
Example missed_case : unit_ray aside /\ meets 1 aside = false.
Proof. split; [exact aside_unit|exact aside_misses]. Qed.

(* The secant method stays between its ends, with a change of sign around the result. *)
Theorem secant_stays sdf r n x y : x <= y -> 0 <= sdf (along r x) -> sdf (along r y) < 0 ->
  exists x' y', x <= x' /\ x' <= secant sdf n r (sdf (along r x)) (sdf (along r y)) x y <= y' /\ y' <= y /\
    0 <= sdf (along r x') /\ sdf (along r y') < 0.
Proof.
  intros L A B. destruct (secant_between sdf r n x y L A B) as (_ & x' & y' & H1 & H2 & H3 & H4 & H5 & H6).
  exists x', y'. split; [exact H1|]. split; [exact H6|]. split; [exact H3|]. split; [exact H4|exact H5].
Qed.
Print Assumptions secant_stays.
