(* C90: fisheye cameras project as documented and unproject what they project. *)
From Coq Require Import Reals List Bool Arith Lra Lia.
From Coquelicot Require Import Coquelicot.
From Verif Require Import Base RBase FishEye FishEyeSpec FishEyeProofs FishEyeProofs2.
Import ListNotations.
Local Open Scope R_scope.

(* All points of a line through the camera's centre have the same image, those behind the camera included. *)
Theorem fisheye_ray c s x y z : s <> 0 -> z <> 0 -> project c (s * x, s * y, s * z) = project c (x, y, z).
Proof. exact (project_ray c s x y z). Qed.
(* Off the optical axis the image is that of the documented formulas; on it, the principal point. *)
Theorem fisheye_documented c x y z : length (radial c) = 6%nat -> z <> 0 -> epsilon <= norm2 (x / z, y / z) ->
  project c (x, y, z) = Ok (fst (image_of c (x / z) (y / z)), snd (image_of c (x / z) (y / z)), 1).
Proof. exact (project_image c x y z). Qed.
Theorem fisheye_centre c z : length (radial c) = 6%nat -> z <> 0 -> project c (0, 0, z) = Ok (fst (principal c), snd (principal c), 1).
Proof. exact (project_centre c z). Qed.
(* Without distortion the image is as far from the principal point as the angle to the axis, times the focal length. *)
Theorem fisheye_equidistant c x y z u v w : length (radial c) = 6%nat -> (forall a, In a (radial c) -> a = 0) -> no_shear c -> use_radial c = true ->
  z <> 0 -> epsilon <= norm2 (x / z, y / z) -> project c (x, y, z) = Ok (u, v, w) ->
  norm2 (u - fst (principal c), v - snd (principal c)) = Rabs (focal c) * atan (norm2 (x / z, y / z)).
Proof.
  intros L K N U Z E P. rewrite (project_image c x y z L Z E), (image_none c _ _ N U) in P. cbn [fst snd] in P. pose proof epsilon_pos as EP.
  destruct (bent_zero (radial c) (atan (norm2 (x / z, y / z))) K) as [B _]. rewrite B in P. set (r := norm2 (x / z, y / z)) in *. injection P as <- <- _.
  assert (A0 : 0 < atan r) by (rewrite <- atan_0; apply atan_increasing; lra).
  replace (focal c * (atan r * (x / z / r)) + fst (principal c) - fst (principal c)) with (focal c * (atan r / r) * (x / z)) by (field; split; [exact Z|lra]).
  replace (focal c * (atan r * (y / z / r)) + snd (principal c) - snd (principal c)) with (focal c * (atan r / r) * (y / z)) by (field; split; [exact Z|lra]).
  rewrite norm2_scale. fold r. rewrite Rabs_mult, (Rabs_right (atan r / r)) by (apply Rle_ge, Rlt_le, Rdiv_lt_0_compat; lra). field. lra.
Qed.
(* The matrix used to undo the distortion is its derivative; a point stays fixed exactly when its distortion is the one wanted. *)
Theorem fisheye_jacobian c x y : let '(j00, j01, j10, j11) := jacobian c (x, y) in
  is_derive (fun t => fst (distorted c (t, y))) x j00 /\ is_derive (fun t => fst (distorted c (x, t))) y j01 /\
  is_derive (fun t => snd (distorted c (t, y))) x j10 /\ is_derive (fun t => snd (distorted c (x, t))) y j11.
Proof. exact (jacobian_derivative c x y). Qed.
Theorem fisheye_distorted c x y : distorted c (x, y) =
  (x + fst (when (use_tangential c) (tangential_term (tangential c) (x, y))) + fst (when (use_prism c) (prism_term (prism c) (x, y))),
   y + snd (when (use_tangential c) (tangential_term (tangential c) (x, y))) + snd (when (use_prism c) (prism_term (prism c) (x, y)))).
Proof. unfold distorted, add_prism, add_tangential, when, tangential_term, prism_term. cbv zeta. all_cases c; f_equal; ring. Qed.
Theorem fisheye_undistort_stops c uv x : (newton c uv x = Ok x -> distorted c x = uv) /\
  (distorted c x = uv -> (let '(a, b, c', d) := jacobian c x in a * d - b * c' <> 0) -> newton c uv x = Ok x).
Proof. split; [exact (newton_stops c uv x)|exact (newton_fixed c uv x)]. Qed.
(* The angle found for a radius is never too small, and too large by a bound that the fifty steps make small. *)
Theorem fisheye_angle k a : (forall b, In b k -> 0 <= b) -> 0 <= a <= 999 / 1000 * PI / 2 -> exists th, theta_of k (bent k a) = Ok th /\ a <= th <= bent k a /\
  th - a <= (1 - / slope k (bent k a)) ^ 50 * (bent k a - a).
Proof. exact (theta_near k a). Qed.
(* Unprojecting the image of a point gives a point in the same direction from the axis, on the plane z = 1, at that angle. *)
Theorem fisheye_round_trip c x y z : length (radial c) = 6%nat -> (forall b, In b (radial c) -> 0 <= b) -> no_shear c -> use_radial c = true -> focal c <> 0 ->
  z <> 0 -> epsilon <= norm2 (x / z, y / z) -> atan (norm2 (x / z, y / z)) <= 999 / 1000 * PI / 2 ->
  let r := norm2 (x / z, y / z) in let d := bent (radial c) (atan r) in
  exists q th, project c (x, y, z) = Ok q /\ unproject c q = Ok (tan th / r * (x / z), tan th / r * (y / z), 1) /\
    atan r <= th <= d /\ th - atan r <= (1 - / slope (radial c) d) ^ 50 * (d - atan r).
Proof. exact (round_trip c x y z). Qed.
Theorem fisheye_round_trip_exact c x y z : length (radial c) = 6%nat -> (forall a, In a (radial c) -> a = 0) -> no_shear c -> use_radial c = true -> focal c <> 0 ->
  z <> 0 -> epsilon <= norm2 (x / z, y / z) -> atan (norm2 (x / z, y / z)) <= 999 / 1000 * PI / 2 ->
  exists q, project c (x, y, z) = Ok q /\ unproject c q = Ok (x / z, y / z, 1).
Proof. exact (round_trip_exact c x y z). Qed.
(* Findings: the principal point cannot be unprojected; the depth is lost; without radial distortion there is no round trip. *)
Theorem fisheye_centre_refuted c z : length (radial c) = 6%nat -> no_shear c -> focal c <> 0 -> z <> 0 ->
  exists q, project c (0, 0, z) = Ok q /\ forall p, unproject c q <> Ok p.
Proof. intros L N F Z. eexists. split; [apply (project_centre c z L Z)|]. exact (centre_fails c 1 L N F). Qed.
Theorem fisheye_depth_refuted c q p : unproject c q = Ok p -> snd p = 1.
Proof.
  unfold unproject. destruct q as [[u v] w]. destruct (negb _); [discriminate|]. destruct (Reqb _ _); [discriminate|].
  destruct (undistort _ _); cbn [rbind]; [|discriminate]. destruct (theta_of _ _); cbn [rbind]; [|discriminate]. destruct (Reqb _ _); [discriminate|].
  intros [= <-]. reflexivity.
Qed.
Definition default_camera (radial_on : bool) : fisheye := FishEye 1 (0, 0) [0; 0; 0; 0; 0; 0] (0, 0) (0, 0, 0, 0) radial_on true true.
Lemma default_plain b : no_shear (default_camera b) /\ forall a, In a (radial (default_camera b)) -> a = 0.
Proof. split; [split; right; reflexivity|]. cbn. intuition. Qed.
Lemma pi_below_4 : PI < 4.
Proof. destruct (PI_ineq 1) as [_ H]. unfold tg_alt, PI_tg in H. cbn in H. lra. Qed.
Theorem fisheye_no_radial_refuted : project (default_camera false) (1, 0, 1) = Ok (1, 0, 1) /\ exists p, unproject (default_camera false) (1, 0, 1) = Ok p /\ p <> (1, 0, 1).
Proof.
  pose proof PI2_1 as P1. pose proof pi_below_4 as P4. destruct (default_plain false) as [N K].
  assert (N1 : norm2 (1, 0) = 1) by (unfold norm2; cbn [fst snd]; rewrite <- sqrt_1 at 3; f_equal; ring).
  assert (T : forall th, theta_step [0; 0; 0; 0; 0; 0] 1 1 = Ok th -> th = 1).
  { intros th. unfold theta_step. cbv zeta. rewrite bent_code, slope_code. destruct (bent_zero [0; 0; 0; 0; 0; 0] 1 K) as [-> ->].
    destruct (Reqb_spec 1 0); [lra|]. rewrite Rabs_R1. pose proof epsilon_pos. destruct (Rltb_spec epsilon 1); [|lra].
    replace (1 + (1 - 1) / 1) with 1 by field. rewrite Rabs_R1. destruct (Rleb_spec (PI / 2) 1); [lra|]. now intros [= <-]. }
  split.
  - rewrite project_image; [|reflexivity|lra|]; replace (1 / 1) with 1 by field; replace (0 / 1) with 0 by field.
    + unfold image_of, when, tangential_term, prism_term. cbn [use_radial use_tangential use_prism default_camera focal principal tangential prism fst snd]. f_equal; f_equal; f_equal; ring.
    + rewrite N1. pose proof epsilon_pos. lra.
  - exists (tan 1 / 1 * 1, tan 1 / 1 * 0, 1). split.
    + unfold unproject. cbn [radial length default_camera Nat.eqb negb]. change (focal _) with 1. change (principal _) with (0, 0). cbn [fst snd].
      destruct (Reqb_spec 1 0); [lra|]. replace ((1 - 0) / 1) with 1 by field. replace ((0 - 0) / 1) with 0 by field.
      change (FishEye 1 (0, 0) [0; 0; 0; 0; 0; 0] (0, 0) (0, 0, 0, 0) false true true) with (default_camera false).
      rewrite (undistort_none _ _ N). cbn [rbind]. rewrite N1. unfold theta_of. rewrite times_fixed.
      2:{ destruct (theta_step [0; 0; 0; 0; 0; 0] 1 1) as [t|] eqn:E; [now rewrite (T t eq_refl)|]. exfalso. unfold theta_step in E. cbv zeta in E.
          rewrite slope_code in E. destruct (bent_zero [0; 0; 0; 0; 0; 0] 1 K) as [_ Z]. rewrite Z in E. destruct (Reqb_spec 1 0); [lra|discriminate]. }
      cbn [rbind]. destruct (Reqb_spec 1 0); [lra|]. reflexivity.
    + intros E. injection E as E. assert (T1 : tan 1 = 1) by lra. assert (atan (tan 1) = 1) by (apply atan_tan; lra). rewrite T1, atan_1 in *. lra.
Qed.

(* the hypotheses are met: a camera with all radial terms, looking at a point at 45 degrees *)
Definition barrel : fisheye := FishEye 2 (1, 1) [1 / 10; 0; 1 / 100; 0; 0; 0] (0, 0) (1, 1, 1, 1) true true false.
Example ex_camera : length (radial barrel) = 6%nat /\ (forall b, In b (radial barrel) -> 0 <= b) /\ no_shear barrel /\
  epsilon <= norm2 (3 / 3, 0 / 3) /\ atan (norm2 (3 / 3, 0 / 3)) <= 999 / 1000 * PI / 2.
Proof.
  assert (N1 : norm2 (3 / 3, 0 / 3) = 1) by (unfold norm2; cbn [fst snd]; transitivity (sqrt 1); [f_equal; field|apply sqrt_1]).
  split; [reflexivity|]. split; [cbn; intros b H; intuition (subst; lra)|]. split; [split; [now right|now left]|]. rewrite N1, atan_1. pose proof epsilon_pos. pose proof PI_RGT_0. split; lra.
Qed.

Print Assumptions fisheye_ray.
Print Assumptions fisheye_documented.
Print Assumptions fisheye_centre.
Print Assumptions fisheye_equidistant.
Print Assumptions fisheye_jacobian.
Print Assumptions fisheye_distorted.
Print Assumptions fisheye_undistort_stops.
Print Assumptions fisheye_angle.
Print Assumptions fisheye_round_trip.
Print Assumptions fisheye_round_trip_exact.
Print Assumptions fisheye_centre_refuted.
Print Assumptions fisheye_depth_refuted.
Print Assumptions fisheye_no_radial_refuted.
