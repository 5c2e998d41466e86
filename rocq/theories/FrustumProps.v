(* C85: the Gaussians of a ray cast as a cone. *)
From Coquelicot Require Import Coquelicot.
From Coq Require Import Lra Lia.
From Verif Require Import Base RBase Geom Rays Frustum FrustumSpec FrustumProofs FrustumProofs2.
Local Open Scope R_scope.

(* Every interval of the ray gets the mean and the coordinate variances of a point drawn
   uniformly from the piece of the cone between its bins. *)
Theorem cone_gaussians_are_moments b r bins u v gs :
  b_radius b = Some r -> b_bins b = Some bins -> r <> 0 ->
  frame (b_direction b) u v -> 1 / 10 ^ 6 <= dot3 (b_direction b) (b_direction b) ->
  (forall k, (S k < length bins)%nat -> nth k bins 0 < nth (S k) bins 0) ->
  conical_frustum_to_gaussian b = Ok gs ->
  length gs = (length bins - 1)%nat /\
  forall k, (S k < length bins)%nat -> exists mu cov, nth_error gs k = Some (Some (mu, cov)) /\
    let t0 := nth k bins 0 in let t1 := nth (S k) bins 0 in
    let p := cone_point (b_origin b) (b_direction b) u v in
    (x3 mu = cone_average r t0 t1 (fun t s a => x3 (p t s a)) /\
     y3 mu = cone_average r t0 t1 (fun t s a => y3 (p t s a)) /\
     z3 mu = cone_average r t0 t1 (fun t s a => z3 (p t s a))) /\
    (x3 cov = cone_average r t0 t1 (fun t s a => (x3 (p t s a) - x3 mu) ^ 2) /\
     y3 cov = cone_average r t0 t1 (fun t s a => (y3 (p t s a) - y3 mu) ^ 2) /\
     z3 cov = cone_average r t0 t1 (fun t s a => (z3 (p t s a) - z3 mu) ^ 2)).
Proof.
  intros R B Hr F D I E. unfold conical_frustum_to_gaussian in E. rewrite R, B in E.
  apply (f_equal (fun x => match x with Ok a => a | Fail _ => gs end)) in E. cbn beta iota in E.
  rewrite <- E. split; [rewrite map_length; apply pairs_length|].
  intros k K. rewrite nth_error_map, (pairs_nth bins k K). cbn [option_map].
  specialize (I k K). set (t0 := nth k bins 0) in *. set (t1 := nth (S k) bins 0) in *.
  destruct (cone_gaussian (1 / 10 ^ 6) r (b_origin b) (b_direction b) (t0, t1)) as [[mu cov]|] eqn:G.
  - exists mu, cov. split; [reflexivity|].
    apply (moments (1 / 10 ^ 6) r (b_origin b) (b_direction b) u v t0 t1 mu cov I Hr F); [|exact G].
    split; [apply Rdiv_lt_0_compat; [lra|apply pow_lt; lra]|exact D].
  - exfalso. unfold cone_gaussian in G. rewrite (gaussian_some r t0 t1 I) in G. discriminate.
Qed.
Print Assumptions cone_gaussians_are_moments.
Example cone_case : exists b gs, new_bundle (V3 1 2 3) (V3 0 0 2) None (Some [1; 2; 4]) (Some (1 / 10)) = Ok b /\
  frame (b_direction b) (V3 1 0 0) (V3 0 1 0) /\ 1 / 10 ^ 6 <= dot3 (b_direction b) (b_direction b) /\
  conical_frustum_to_gaussian b = Ok gs.
Proof.
  eexists. eexists. split; [reflexivity|]. split; [unfold frame, dot3; cbn [b_direction x3 y3 z3]; repeat split; ring|].
  split; [unfold dot3; cbn; lra|reflexivity].
Qed.

(* The mean is a point of the ray inside of the interval, beyond its middle, and the variances
   are not negative. *)
Theorem cone_gaussian_shape eps r o d t0 t1 : 0 < eps -> 0 <= t0 < t1 ->
  exists t cov, cone_gaussian eps r o d (t0, t1) = Some (add3 o (scal3 t d), cov) /\
    t0 < t < t1 /\ (t0 + t1) / 2 <= t /\ 0 <= x3 cov /\ 0 <= y3 cov /\ 0 <= z3 cov.
Proof.
  intros E [Z L]. unfold cone_gaussian. rewrite (gaussian_some r t0 t1 L). cbv zeta. unfold ray_points. cbn [map].
  destruct (mean_between t0 t1 L Z) as [M M'].
  pose proof (den_pos t0 t1 L) as D.
  eexists. eexists. split; [unfold add3, scal3; cbn [x3 y3 z3]; reflexivity|].
  split; [exact M|]. split; [replace ((t0 + t1) / 2) with (lerp_half t1 t0) by (unfold lerp_half; field); exact M'|].
  apply cov_nonneg; [exact E|apply var_nonneg; lra|apply off_nonneg; lra].
Qed.
Print Assumptions cone_gaussian_shape.

(* An interval without extent is the disk of the cone there, *)
Theorem cone_gaussian_disk r t : t <> 0 -> frustum_gaussian r (t, t) = Some (t, 0, r ^ 2 * t ^ 2 / 4).
Proof.
  intros T. unfold frustum_gaussian. cbn [fst snd]. cbv zeta.
  replace (lerp_half t t) with t by (unfold lerp_half; field). replace ((t - t) / 2) with 0 by field.
  destruct (Reqb_spec (3 * t ^ 2 + 0 ^ 2) 0) as [E|E].
  - exfalso. assert (0 < t ^ 2) by (apply pow2_gt_0, T). lra.
  - f_equal. f_equal; [f_equal|]; field; repeat split; lra.
Qed.
Print Assumptions cone_gaussian_disk.
(* and only the interval at the apex has no Gaussian. *)
Theorem cone_gaussian_defined eps r o d t0 t1 :
  (cone_gaussian eps r o d (t0, t1) = None <-> t0 = 0 /\ t1 = 0).
Proof.
  unfold cone_gaussian, frustum_gaussian. cbn [fst snd]. cbv zeta.
  destruct (Reqb_spec (3 * lerp_half t1 t0 ^ 2 + ((t1 - t0) / 2) ^ 2) 0) as [E|E].
  - split; [intros _|reflexivity].
    assert (A : ((t1 - t0) / 2) ^ 2 = 0) by (pose proof (pow2_ge_0 (lerp_half t1 t0)); pose proof (pow2_ge_0 ((t1 - t0) / 2)); lra).
    assert (B : lerp_half t1 t0 ^ 2 = 0) by lra.
    assert (A' : (t1 - t0) / 2 = 0) by (apply Rsqr_0_uniq; unfold Rsqr; lra).
    assert (B' : lerp_half t1 t0 = 0) by (apply Rsqr_0_uniq; unfold Rsqr; lra).
    unfold lerp_half in B'. lra.
  - cbn [ray_points map]. split; [discriminate|]. intros [-> ->]. exfalso. apply E. unfold lerp_half. field.
Qed.
Print Assumptions cone_gaussian_defined.
(* Bundles without radii or bins are refused. *)
Theorem cone_gaussian_refused b :
  (conical_frustum_to_gaussian b = Fail EValue <-> b_radius b = None \/ b_bins b = None).
Proof.
  unfold conical_frustum_to_gaussian. destruct (b_radius b), (b_bins b); split; intros X; try discriminate; auto.
  destruct X; discriminate.
Qed.
Print Assumptions cone_gaussian_refused.

(* The moments are wrong for directions shorter than a thousandth. *)
Theorem cone_gaussian_short_refuted :
  ~ (forall r o d u v t0 t1 mu cov, t0 < t1 -> r <> 0 -> frame d u v -> 0 < dot3 d d ->
     cone_gaussian (1 / 10 ^ 6) r o d (t0, t1) = Some (mu, cov) ->
     x3 cov = cone_average r t0 t1 (fun t s a => (x3 (cone_point o d u v t s a) - x3 mu) ^ 2)).
Proof.
  intros A.
  set (d := V3 (1 / 10000) 0 0). set (u := V3 0 1 0). set (v := V3 0 0 1). set (o := V3 0 0 0).
  assert (L : 1 < 2) by lra. assert (N : (1 : R) <> 0) by lra.
  assert (F : frame d u v) by (unfold frame, dot3; cbn; repeat split; ring).
  assert (D : 0 < dot3 d d) by (unfold dot3; cbn; lra).
  destruct (cone_gaussian (1 / 10 ^ 6) 1 o d (1, 2)) as [[mu cov]|] eqn:E.
  2: { apply (cone_gaussian_defined (1 / 10 ^ 6) 1 o d) in E. lra. }
  specialize (A 1 o d u v 1 2 mu cov L N F D E).
  unfold cone_gaussian in E. rewrite (gaussian_some 1 1 2 L) in E. cbv zeta in E. unfold ray_points in E. cbn [map] in E.
  pose proof (second_moment 1 2 1 L N 0 (1 / 10000) 0 0) as S.
  set (mean := lerp_half 2 1 + _) in *. set (var := _ / 3 - _) in *. set (off := 1 ^ 2 * _) in *.
  assert (EM : V3 (x3 o + mean * x3 d) (y3 o + mean * y3 d) (z3 o + mean * z3 d) = mu)
    by exact (f_equal (fun x => match x with Some (a, _) => a | None => mu end) E).
  assert (EC : diagonal_covariance (1 / 10 ^ 6) d var off = cov)
    by exact (f_equal (fun x => match x with Some (_, a) => a | None => cov end) E).
  rewrite <- EM, <- EC in A. unfold cone_point, add3, scal3 in A.
  cbn [x3 y3 z3 o d u v] in A.
  pose proof (eq_trans A S) as B.
  unfold diagonal_covariance in B. cbn [x3 y3 z3 d] in B.
  rewrite (Rmax_right _ (1 / 10 ^ 6)) in B by lra.
  assert (O : off <> 0) by (unfold off, lerp_half; lra).
  apply O. clearbody off var mean. lra.
Qed.
Print Assumptions cone_gaussian_short_refuted.

(* A bundle has the middles of its bins as lengths, whatever lengths it was given, and refuses
   others; without bins it has the lengths it was given last. *)
Theorem bundle_bins o d ls bins r b : new_bundle o d ls (Some bins) r = Ok b ->
  (2 <= length bins)%nat /\
  (exists l, get_lengths b = Some l /\ length l = (length bins - 1)%nat /\
    forall k, (S k < length bins)%nat -> nth k l 0 = (nth k bins 0 + nth (S k) bins 0) / 2) /\
  forall v, set_lengths b v = Fail EValue.
Proof.
  unfold new_bundle. destruct (Nat.leb_spec (length bins) 1); [discriminate|].
  intros E. injection E as <-. split; [lia|]. split; [|intros v; reflexivity].
  eexists. split; [reflexivity|]. split; [rewrite map_length; apply pairs_length|].
  intros k K. apply nth_error_nth. rewrite nth_error_map, (pairs_nth bins k K). cbn [option_map fst snd].
  f_equal. unfold lerp_half. field.
Qed.
Print Assumptions bundle_bins.
Theorem bundle_lengths o d l r v : exists b b', new_bundle o d (Some l) None r = Ok b /\ get_lengths b = Some l /\
  set_lengths b v = Ok b' /\ get_lengths b' = Some v.
Proof. eexists. eexists. repeat split. Qed.
Print Assumptions bundle_lengths.
Theorem bundle_refused o d ls bs r : new_bundle o d ls bs r = Fail EValue <->
  (ls = None /\ bs = None) \/ (exists b, bs = Some b /\ (length b <= 1)%nat).
Proof.
  unfold new_bundle. destruct bs as [b|].
  - destruct (Nat.leb_spec (length b) 1); split; intros X; try reflexivity; try discriminate.
    + right. exists b. split; [reflexivity|lia].
    + destruct X as [[_ X]|(b' & X & Y)]; [discriminate|]. injection X as <-. lia.
  - destruct ls; split; intros X; try reflexivity; try discriminate.
    + destruct X as [[X _]|(b' & X & Y)]; discriminate.
    + left. split; reflexivity.
Qed.
Print Assumptions bundle_refused.
