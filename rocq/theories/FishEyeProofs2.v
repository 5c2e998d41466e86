From Coq Require Import Reals List Bool Arith Lra Lia Psatz.
From Coquelicot Require Import Coquelicot.
From Verif Require Import Base RBase FishEye FishEyeSpec FishEyeProofs.
Import ListNotations.
Local Open Scope R_scope.

(* ---- the matrix of the iteration is the derivative of the distortion ---- *)
Ltac all_cases c := destruct (prism c) as [[[s0 s1] s2] s3], (tangential c) as [p0 p1]; destruct (use_tangential c), (use_prism c); cbn [fst snd].
Ltac split_and := repeat match goal with |- _ /\ _ => split end.
Lemma jacobian_derivative c x y : let '(j00, j01, j10, j11) := jacobian c (x, y) in
  is_derive (fun t => fst (distorted c (t, y))) x j00 /\ is_derive (fun t => fst (distorted c (x, t))) y j01 /\
  is_derive (fun t => snd (distorted c (t, y))) x j10 /\ is_derive (fun t => snd (distorted c (x, t))) y j11.
Proof.
  unfold jacobian, distorted, add_prism, add_tangential. cbv zeta. all_cases c; split_and; first [apply (@is_derive_id R_AbsRing) | apply (@is_derive_const R_AbsRing R_NormedModule) | auto_derive; trivial; ring].
Qed.

(* ---- solved points stay ---- *)
Lemma solve_zero m : (let '(a, b, c, d) := m in a * d - b * c <> 0) -> solve2 m (0, 0) = Ok (0, 0).
Proof.
  destruct m as [[[a b] c] d]. intros H. unfold solve2. cbv zeta. destruct (Reqb_spec (a * d - b * c) 0); [tauto|]. cbn [fst snd].
  do 2 f_equal; field; exact H.
Qed.
Lemma newton_fixed c uv x : distorted c x = uv -> (let '(a, b, c', d) := jacobian c x in a * d - b * c' <> 0) -> newton c uv x = Ok x.
Proof.
  intros D J. unfold newton. cbv zeta. rewrite D. replace (fst uv - fst uv) with 0 by ring. replace (snd uv - snd uv) with 0 by ring.
  rewrite (solve_zero _ J). cbn [rbind fst snd]. rewrite !Rplus_0_r. destruct x; reflexivity.
Qed.
(* what the iteration stops at is a solution *)
Lemma newton_stops c uv x : newton c uv x = Ok x -> distorted c x = uv.
Proof.
  unfold newton. cbv zeta. destruct (jacobian c x) as [[[j00 j01] j10] j11]. unfold solve2. cbv zeta.
  destruct (Reqb_spec (j00 * j11 - j01 * j10) 0) as [|N]; [discriminate|]. cbn [rbind fst snd]. destruct (distorted c x) as [e0 e1], uv as [u v], x as [a b]. cbn [fst snd].
  intros H. injection H as H1 H2. set (det := j00 * j11 - j01 * j10) in *.
  set (q0 := u - e0) in *. set (q1 := v - e1) in *.
  assert (A : j11 * q0 - j01 * q1 = 0).
  { replace (j11 * q0 - j01 * q1) with ((j11 * q0 - j01 * q1) / det * det) by (field; exact N). replace ((j11 * q0 - j01 * q1) / det) with 0 by lra. ring. }
  assert (B : j00 * q1 - j10 * q0 = 0).
  { replace (j00 * q1 - j10 * q0) with ((j00 * q1 - j10 * q0) / det * det) by (field; exact N). replace ((j00 * q1 - j10 * q0) / det) with 0 by lra. ring. }
  assert (Q0 : det * q0 = 0) by (unfold det; replace ((j00 * j11 - j01 * j10) * q0) with (j00 * (j11 * q0 - j01 * q1) + j01 * (j00 * q1 - j10 * q0)) by ring; rewrite A, B; ring).
  assert (Q1 : det * q1 = 0) by (unfold det; replace ((j00 * j11 - j01 * j10) * q1) with (j10 * (j11 * q0 - j01 * q1) + j11 * (j00 * q1 - j10 * q0)) by ring; rewrite A, B; ring).
  apply Rmult_integral in Q0, Q1. unfold q0, q1 in *. f_equal; lra.
Qed.
Lemma times_fixed {A} n (f : A -> result A) a : f a = Ok a -> times n f a = Ok a.
Proof. intros H. induction n; [reflexivity|]. cbn [times]. rewrite H. cbn [rbind]. exact IHn. Qed.
Lemma undistort_none c uv : no_shear c -> undistort c uv = Ok uv.
Proof.
  intros [T P]. unfold undistort. destruct (negb (use_tangential c) && negb (use_prism c)) eqn:E; [reflexivity|].
  apply times_fixed, newton_fixed.
  - unfold distorted, add_prism, add_tangential. destruct uv as [u v]. destruct (use_tangential c); [destruct T as [T|T]; [discriminate|rewrite T]|];
      (destruct (use_prism c); [destruct P as [P|P]; [discriminate|rewrite P]|]); cbn [fst snd]; try reflexivity; f_equal; ring.
  - unfold jacobian. destruct (use_tangential c); [destruct T as [T|T]; [discriminate|rewrite T]|];
      (destruct (use_prism c); [destruct P as [P|P]; [discriminate|rewrite P]|]); cbn [fst snd]; lra.
Qed.
Lemma image_none c a b : no_shear c -> use_radial c = true ->
  image_of c a b = (focal c * (bent (radial c) (atan (norm2 (a, b))) * (a / norm2 (a, b))) + fst (principal c),
                    focal c * (bent (radial c) (atan (norm2 (a, b))) * (b / norm2 (a, b))) + snd (principal c)).
Proof.
  intros [T P] U. unfold image_of. cbv zeta. rewrite U. unfold when, tangential_term, prism_term. destruct (use_tangential c); [destruct T as [T|T]; [discriminate|rewrite T]|];
      (destruct (use_prism c); [destruct P as [P|P]; [discriminate|rewrite P]|]); cbn [fst snd]; f_equal; ring.
Qed.
Lemma bent_pos k a : positive k -> 0 < a -> 0 < bent k a.
Proof. intros P A. pose proof (bent_ge k a P ltac:(lra)). lra. Qed.
Lemma round_trip c x y z : length (radial c) = 6%nat -> positive (radial c) -> no_shear c -> use_radial c = true -> focal c <> 0 ->
  z <> 0 -> epsilon <= norm2 (x / z, y / z) -> atan (norm2 (x / z, y / z)) <= 999 / 1000 * PI / 2 ->
  let r := norm2 (x / z, y / z) in let d := bent (radial c) (atan r) in
  exists q th, project c (x, y, z) = Ok q /\ unproject c q = Ok (tan th / r * (x / z), tan th / r * (y / z), 1) /\
    atan r <= th <= d /\ th - atan r <= (1 - / slope (radial c) d) ^ distortion_iters * (d - atan r).
Proof.
  intros L P N U F Z E A r d. pose proof epsilon_pos as EP. assert (R0 : 0 < r) by (fold r in E; lra).
  assert (A0 : 0 < atan r) by (rewrite <- atan_0; apply atan_increasing, R0).
  assert (D0 : 0 < d) by (apply bent_pos; assumption).
  destruct (theta_near (radial c) (atan r) P) as (th & T1 & T2 & T3); [fold r in A; lra|]. fold d in T1, T2, T3.
  rewrite (project_image c x y z L Z E). rewrite (image_none c _ _ N U). fold r. fold d. eexists. exists th. split; [reflexivity|]. split; [|auto].
  unfold unproject. cbn [fst snd]. rewrite L. cbn [Nat.eqb negb]. destruct (Reqb_spec (focal c) 0); [tauto|].
  replace ((focal c * (d * (x / z / r)) + fst (principal c) - fst (principal c)) / focal c) with (d / r * (x / z)) by (field; repeat split; try assumption; lra).
  replace ((focal c * (d * (y / z / r)) + snd (principal c) - snd (principal c)) / focal c) with (d / r * (y / z)) by (field; repeat split; try assumption; lra).
  rewrite (undistort_none c _ N). cbn [rbind]. rewrite (norm2_scale (d / r)). fold r.
  assert (Q : 0 < d / r) by (apply Rdiv_lt_0_compat; assumption). rewrite (Rabs_right (d / r)) by lra.
  replace (d / r * r) with d by (field; lra). rewrite T1. cbn [rbind]. destruct (Reqb_spec d 0); [lra|]. cbn [fst snd].
  f_equal; f_equal; f_equal; field; repeat split; try assumption; lra.
Qed.
Lemma bent_zero k th : (forall a, In a k -> a = 0) -> bent k th = th /\ slope k th = 1.
Proof.
  intros H. assert (N : forall i, nth i k 0 = 0). { intros i. destruct (le_lt_dec (length k) i) as [G|G]; [apply nth_overflow, G|apply H, nth_In, G]. }
  unfold bent, slope. rewrite !rsum_map_zero by (intros i _; rewrite N; ring). split; ring.
Qed.
Lemma round_trip_exact c x y z : length (radial c) = 6%nat -> (forall a, In a (radial c) -> a = 0) -> no_shear c -> use_radial c = true -> focal c <> 0 ->
  z <> 0 -> epsilon <= norm2 (x / z, y / z) -> atan (norm2 (x / z, y / z)) <= 999 / 1000 * PI / 2 ->
  exists q, project c (x, y, z) = Ok q /\ unproject c q = Ok (x / z, y / z, 1).
Proof.
  intros L K N U F Z E A. assert (P : positive (radial c)) by (intros a I; rewrite (K a I); lra). pose proof epsilon_pos.
  destruct (round_trip c x y z L P N U F Z E A) as (q & th & Q & R0 & B & C). exists q. split; [exact Q|].
  destruct (bent_zero (radial c) (atan (norm2 (x / z, y / z))) K) as [B1 _]. rewrite B1 in *.
  assert (th = atan (norm2 (x / z, y / z))) by lra. subst th. rewrite R0. rewrite tan_atan. f_equal; f_equal; f_equal; field; split; try assumption; lra.
Qed.
Lemma centre_fails c w : length (radial c) = 6%nat -> no_shear c -> focal c <> 0 -> forall p, unproject c (fst (principal c), snd (principal c), w) <> Ok p.
Proof.
  intros L N F p. unfold unproject. rewrite L. cbn [Nat.eqb negb]. destruct (Reqb_spec (focal c) 0); [tauto|].
  replace ((fst (principal c) - fst (principal c)) / focal c) with 0 by (field; exact F). replace ((snd (principal c) - snd (principal c)) / focal c) with 0 by (field; exact F).
  rewrite (undistort_none c _ N). cbn [rbind]. assert (Z : norm2 (0, 0) = 0) by (unfold norm2; cbn [fst snd]; rewrite Rmult_0_l, Rplus_0_l; apply sqrt_0).
  rewrite Z. destruct (theta_of _ _); cbn [rbind]; [|discriminate]. destruct (Reqb_spec 0 0); [discriminate|tauto].
Qed.
