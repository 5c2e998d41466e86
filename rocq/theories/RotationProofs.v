From Verif Require Import Base RBase Geom LinAlg Transform Rotation RotationSpec.
From Coq Require Import Nsatz.
Local Open Scope R_scope.

(* ---- angles ---- *)
Lemma sqrt_sq_abs x : sqrt (x * x) = Rabs x.
Proof. apply sqrt_Rsqr_abs. Qed.

Lemma atan2_polar x y r : 0 < r -> x * x + y * y = r * r ->
  r * cos (atan2 y x) = x /\ r * sin (atan2 y x) = y.
Proof.
  intros Hr H. unfold atan2.
  assert (S : x <> 0 -> sqrt (1 + (y / x)²) = r / Rabs x).
  { intros Hx. assert (Hax : 0 < Rabs x) by (apply Rabs_pos_lt; exact Hx).
    replace (1 + (y / x)²) with ((r / Rabs x) * (r / Rabs x)).
    - apply sqrt_square. apply Rlt_le, Rdiv_lt_0_compat; assumption.
    - assert (Rabs x * Rabs x = x * x) by (rewrite <- Rabs_mult; apply Rabs_right; nra).
      unfold Rsqr, Rdiv. replace (r * / Rabs x * (r * / Rabs x)) with ((r * r) * / (Rabs x * Rabs x)) by (field; lra).
      rewrite H0, <- H. field. exact Hx. }
  destruct (Rltb_spec 0 x) as [Hx|Hx].
  - rewrite cos_atan, sin_atan, S by lra. rewrite Rabs_right by lra. split; field; lra.
  - destruct (Rltb_spec x 0) as [Hx'|Hx'].
    + assert (E : forall s, (cos (atan (y / x) + s) = cos (atan (y/x)) * cos s - sin (atan (y/x)) * sin s) /\
                            (sin (atan (y / x) + s) = sin (atan (y/x)) * cos s + cos (atan (y/x)) * sin s))
        by (intros s; split; [apply cos_plus|apply sin_plus]).
      destruct (Rltb_spec y 0).
      * unfold Rminus. destruct (E (- PI)) as [-> ->]. rewrite cos_neg, sin_neg, cos_PI, sin_PI.
        rewrite cos_atan, sin_atan, S by lra. rewrite Rabs_left by lra. split; field; lra.
      * destruct (E PI) as [-> ->]. rewrite cos_PI, sin_PI.
        rewrite cos_atan, sin_atan, S by lra. rewrite Rabs_left by lra. split; field; lra.
    + assert (x = 0) by lra. subst x.
      destruct (Rltb_spec 0 y).
      * rewrite cos_PI2, sin_PI2. split; nra.
      * destruct (Rltb_spec y 0).
        -- rewrite cos_neg, sin_neg, cos_PI2, sin_PI2. split; nra.
        -- nra.
Qed.

Lemma atan2_range x y : - PI < atan2 y x <= PI.
Proof.
  pose proof PI_RGT_0. unfold atan2. pose proof (atan_bound (y / x)) as B.
  destruct (Rltb_spec 0 x); [lra|]. destruct (Rltb_spec x 0) as [Hx|Hx].
  - destruct (Rltb_spec y 0).
    + assert (0 < atan (y / x)).
      { rewrite <- atan_0. apply atan_increasing. apply Rmult_lt_reg_r with (- x); [lra|].
        replace (y / x * - x) with (- y) by (field; lra). lra. }
      lra.
    + assert (atan (y / x) <= 0).
      { rewrite <- atan_0. destruct (Req_dec y 0) as [->|]; [replace (0 / x) with 0 by (field; lra); lra|].
        left. apply atan_increasing. apply Rmult_lt_reg_r with (- x); [lra|].
        replace (y / x * - x) with (- y) by (field; lra). lra. }
      lra.
  - destruct (Rltb_spec 0 y); [lra|]. destruct (Rltb_spec y 0); lra.
Qed.

Lemma cos_1_zero d : cos d = 1 -> - (2 * PI) < d < 2 * PI -> d = 0.
Proof.
  intros Hc Hd. assert (S : sin (d / 2) = 0).
  { assert (X : cos d = 1 - 2 * sin (d / 2) * sin (d / 2)).
    { replace d with (2 * (d / 2)) at 1 by field. apply cos_2a_sin. }
    rewrite Hc in X. assert (sin (d/2) * sin (d/2) = 0) by lra. apply Rmult_integral in H. tauto. }
  destruct (Rtotal_order d 0) as [H|[H|H]]; [|exact H|].
  - assert (0 < sin (- (d / 2))) by (apply sin_gt_0; lra). rewrite sin_neg in H0. lra.
  - assert (0 < sin (d / 2)) by (apply sin_gt_0; lra). lra.
Qed.

Lemma angle_unique a b : cos a = cos b -> sin a = sin b -> - PI < a <= PI -> - PI < b <= PI -> a = b.
Proof.
  intros Hc Hs Ha Hb. assert (a - b = 0); [|lra]. apply cos_1_zero; [|lra].
  rewrite cos_minus, Hc, Hs. pose proof (sin2_cos2 b). unfold Rsqr in H. lra.
Qed.

Lemma atan2_eq r a : 0 < r -> - PI < a <= PI -> atan2 (r * sin a) (r * cos a) = a.
Proof.
  intros Hr Ha. pose proof (sin2_cos2 a) as T. unfold Rsqr in T.
  destruct (atan2_polar (r * cos a) (r * sin a) r Hr) as [H1 H2]; [nra|].
  apply angle_unique; [| |apply atan2_range|exact Ha].
  - apply (Rmult_eq_reg_l r); lra.
  - apply (Rmult_eq_reg_l r); lra.
Qed.

Lemma sinc_mul x : x * sinc_pi x = sin x.
Proof.
  unfold sinc_pi. destruct (Reqb_spec x 0) as [->|E]; [rewrite sin_0; ring|field; exact E].
Qed.
Lemma sinc_pos x : 0 <= x < PI -> 0 < sinc_pi x.
Proof.
  intros H. unfold sinc_pi. destruct (Reqb_spec x 0); [lra|].
  apply Rdiv_lt_0_compat; [apply sin_gt_0; lra|lra].
Qed.

Lemma norm3_sq v : norm3 v * norm3 v = dot3 v v.
Proof. unfold norm3. apply sqrt_sqrt. unfold dot3. nra. Qed.
Lemma norm3_nonneg v : 0 <= norm3 v.
Proof. apply sqrt_pos. Qed.
Lemma norm3_unique v n : 0 <= n -> n * n = dot3 v v -> norm3 v = n.
Proof. intros H E. unfold norm3. rewrite <- E. apply sqrt_square. exact H. Qed.
Lemma len_norm3 v : len v = norm3 v.
Proof. unfold len, norm3, dot3. f_equal. ring. Qed.

(* ---- quaternion to matrix ---- *)
Lemma qnorm2_unit q : unit_quat q <-> qnorm2 q = 1.
Proof. unfold unit_quat, qnorm2. split; intros H; rewrite <- H; ring. Qed.
Lemma qnorm2_zero q : qnorm2 q = 0 <-> q = Q 0 0 0 0.
Proof.
  destruct q as [w x y z]. unfold qnorm2. cbn [qw qx qy qz]. split.
  - intros H. assert (w = 0) by nra. assert (x = 0) by nra. assert (y = 0) by nra. assert (z = 0) by nra. subst; reflexivity.
  - intros H. injection H as -> -> -> ->. ring.
Qed.
Lemma qnorm2_nonneg q : 0 <= qnorm2 q.
Proof. unfold qnorm2. nra. Qed.

Definition qmat (r i j k s : R) : mat3 :=
  M3 (1 - s * (j * j + k * k)) (s * (i * j - k * r)) (s * (i * k + j * r))
     (s * (i * j + k * r)) (1 - s * (i * i + k * k)) (s * (j * k - i * r))
     (s * (i * k - j * r)) (s * (j * k + i * r)) (1 - s * (i * i + j * j)).
Lemma qtm_ok q m : quaternion_to_matrix q = Ok m ->
  qnorm2 q <> 0 /\ m = qmat (qw q) (qx q) (qy q) (qz q) (2 / qnorm2 q).
Proof.
  destruct q as [w x y z]. unfold quaternion_to_matrix.
  destruct (Reqb_spec (qnorm2 (Q w x y z)) 0); [discriminate|]. intros H; injection H as <-.
  split; [assumption|reflexivity].
Qed.
Lemma qtm_def q : qnorm2 q <> 0 ->
  quaternion_to_matrix q = Ok (qmat (qw q) (qx q) (qy q) (qz q) (2 / qnorm2 q)).
Proof.
  intros H. destruct q as [w x y z]. unfold quaternion_to_matrix.
  destruct (Reqb_spec (qnorm2 (Q w x y z)) 0); [contradiction|reflexivity].
Qed.
Lemma qtm_unit q : unit_quat q -> quaternion_to_matrix q = Ok (qmat (qw q) (qx q) (qy q) (qz q) 2).
Proof.
  intros H. apply qnorm2_unit in H. rewrite qtm_def by lra. rewrite H. do 2 f_equal. field.
Qed.

Lemma qmat_rotation r i j k s : s * (r * r + i * i + j * j + k * k) = 2 -> rotation (qmat r i j k s).
Proof.
  intros H. unfold rotation, qmat, mul3, tr3, det3, id3.
  cbn [m00 m01 m02 m10 m11 m12 m20 m21 m22]. split.
  - apply M3_eq.
    + transitivity (1 + (s * (j * j + k * k)) * ((s * (r * r + i * i + j * j + k * k)) - 2)); [ring|rewrite H; ring].
    + transitivity ((s * (i * j + k * r) * 0 - s * (i * j)) * ((s * (r * r + i * i + j * j + k * k)) - 2)); [ring|rewrite H; ring].
    + transitivity (- (s * (i * k)) * ((s * (r * r + i * i + j * j + k * k)) - 2)); [ring|rewrite H; ring].
    + transitivity (- (s * (i * j)) * ((s * (r * r + i * i + j * j + k * k)) - 2)); [ring|rewrite H; ring].
    + transitivity (1 + (s * (i * i + k * k)) * ((s * (r * r + i * i + j * j + k * k)) - 2)); [ring|rewrite H; ring].
    + transitivity (- (s * (j * k)) * ((s * (r * r + i * i + j * j + k * k)) - 2)); [ring|rewrite H; ring].
    + transitivity (- (s * (i * k)) * ((s * (r * r + i * i + j * j + k * k)) - 2)); [ring|rewrite H; ring].
    + transitivity (- (s * (j * k)) * ((s * (r * r + i * i + j * j + k * k)) - 2)); [ring|rewrite H; ring].
    + transitivity (1 + (s * (i * i + j * j)) * ((s * (r * r + i * i + j * j + k * k)) - 2)); [ring|rewrite H; ring].
  - assert (X : forall N, N = s * (r * r + i * i + j * j + k * k) -> N = 2 ->
      (1 - s * (j * j + k * k)) * ((1 - s * (i * i + k * k)) * (1 - s * (i * i + j * j)) - s * (j * k - i * r) * (s * (j * k + i * r))) -
      s * (i * j - k * r) * (s * (i * j + k * r) * (1 - s * (i * i + j * j)) - s * (j * k - i * r) * (s * (i * k - j * r))) +
      s * (i * k + j * r) * (s * (i * j + k * r) * (s * (j * k + i * r)) - (1 - s * (i * i + k * k)) * (s * (i * k - j * r))) =
      1 + s * (i * i + j * j + k * k) * (N - 2)).
    { intros N -> _. ring. }
    rewrite (X _ eq_refl H), H. ring.
Qed.

Lemma qtm_rotation q m : quaternion_to_matrix q = Ok m -> rotation m.
Proof.
  intros H. apply qtm_ok in H. destruct H as (Hn & ->). apply qmat_rotation.
  unfold qnorm2 in *. field. exact Hn.
Qed.

Lemma qnorm2_mul a b : qnorm2 (quaternion_raw_multiply a b) = qnorm2 a * qnorm2 b.
Proof. destruct a, b. unfold qnorm2, quaternion_raw_multiply. cbn [Rotation.qw Rotation.qx Rotation.qy Rotation.qz]. ring. Qed.

Lemma qtm_mul a b ma mb :
  quaternion_to_matrix a = Ok ma -> quaternion_to_matrix b = Ok mb ->
  quaternion_to_matrix (quaternion_raw_multiply a b) = Ok (mul3 ma mb).
Proof.
  intros Ha Hb. apply qtm_ok in Ha. apply qtm_ok in Hb. destruct Ha as (Na & ->). destruct Hb as (Nb & ->).
  rewrite qtm_def by (rewrite qnorm2_mul; apply Rmult_integral_contrapositive_currified; assumption).
  rewrite qnorm2_mul. f_equal.
  destruct a as [aw ax ay az], b as [bw bx by_ bz].
  unfold qmat, mul3, quaternion_raw_multiply, qnorm2 in *. cbn [qw qx qy qz m00 m01 m02 m10 m11 m12 m20 m21 m22] in *.
  apply M3_eq; field; split; assumption.
Qed.

Lemma qtm_neg q : quaternion_to_matrix (neg_quat q) = quaternion_to_matrix q.
Proof.
  destruct q as [w x y z]. unfold neg_quat. cbn [qw qx qy qz]. unfold quaternion_to_matrix.
  replace (qnorm2 (Q (-w) (-x) (-y) (-z))) with (qnorm2 (Q w x y z)) by (unfold qnorm2; cbn [qw qx qy qz]; ring).
  destruct (Reqb_spec (qnorm2 (Q w x y z)) 0); [reflexivity|]. f_equal. apply M3_eq; ring.
Qed.
Lemma standardize_cases q : standardize q = q \/ standardize q = neg_quat q.
Proof. unfold standardize, neg_quat. destruct (Rltb_spec (qw q) 0); auto. Qed.
Lemma standardize_w q : 0 <= qw (standardize q).
Proof. unfold standardize. destruct (Rltb_spec (qw q) 0); [cbn|]; lra. Qed.
Lemma qtm_standardize q : quaternion_to_matrix (standardize q) = quaternion_to_matrix q.
Proof. destruct (standardize_cases q) as [-> | ->]; [reflexivity|apply qtm_neg]. Qed.
Lemma standardize_unit q : unit_quat q -> unit_quat (standardize q).
Proof.
  destruct (standardize_cases q) as [-> | ->]; [auto|]. unfold unit_quat, neg_quat. cbn [qw qx qy qz].
  intros H. rewrite <- H. ring.
Qed.

Lemma qtm_scale c q : c <> 0 ->
  quaternion_to_matrix (Q (c * qw q) (c * qx q) (c * qy q) (c * qz q)) = quaternion_to_matrix q.
Proof.
  intros Hc. set (q' := Q _ _ _ _).
  assert (N : qnorm2 q' = c * c * qnorm2 q) by (unfold q', qnorm2; cbn [qw qx qy qz]; ring).
  destruct (Req_dec (qnorm2 q) 0) as [E|E].
  - destruct q as [w x y z]. unfold quaternion_to_matrix, q'. cbn [qw qx qy qz] in *. fold q'.
    rewrite N, E, Rmult_0_r. destruct (Reqb_spec 0 0); [reflexivity|congruence].
  - rewrite !qtm_def; [|exact E|rewrite N; apply Rmult_integral_contrapositive_currified; [nra|exact E]].
    rewrite N. f_equal. unfold q'. cbn [qw qx qy qz]. unfold qmat.
    apply M3_eq; field; auto.
Qed.

Lemma qtm_invert q m : quaternion_to_matrix q = Ok m -> quaternion_to_matrix (quaternion_invert q) = Ok (tr3 m).
Proof.
  intros H. apply qtm_ok in H. destruct H as (N & ->).
  assert (N' : qnorm2 (quaternion_invert q) = qnorm2 q) by (unfold qnorm2, quaternion_invert; cbn [qw qx qy qz]; ring).
  rewrite qtm_def by (rewrite N'; exact N). rewrite N'. f_equal.
  unfold qmat, tr3, quaternion_invert. cbn [qw qx qy qz m00 m01 m02 m10 m11 m12 m20 m21 m22]. apply M3_eq; ring.
Qed.

Lemma quat_apply_act q p m : quaternion_to_matrix q = Ok m ->
  quaternion_apply q p = scal3 (qnorm2 q) (act m p).
Proof.
  intros H. apply qtm_ok in H. destruct H as (N & ->). destruct q as [w x y z], p as [px py pz].
  unfold quaternion_apply, quaternion_raw_multiply, quaternion_invert, act, scal3, qmat, qnorm2 in *.
  cbn [qw qx qy qz x3 y3 z3 m00 m01 m02 m10 m11 m12 m20 m21 m22] in *.
  apply V3_eq; field; exact N.
Qed.

(* ---- matrix to quaternion ---- *)
Record rot_rel (m : mat3) : Prop := {
  c00 : m00 m = m11 m * m22 m - m12 m * m21 m;
  c01 : m01 m = m12 m * m20 m - m10 m * m22 m;
  c02 : m02 m = m10 m * m21 m - m11 m * m20 m;
  c10 : m10 m = m02 m * m21 m - m01 m * m22 m;
  c11 : m11 m = m00 m * m22 m - m02 m * m20 m;
  c12 : m12 m = m01 m * m20 m - m00 m * m21 m;
  c20 : m20 m = m01 m * m12 m - m02 m * m11 m;
  c21 : m21 m = m02 m * m10 m - m00 m * m12 m;
  c22 : m22 m = m00 m * m11 m - m01 m * m10 m;
  r0 : m00 m * m00 m + m01 m * m01 m + m02 m * m02 m = 1;
  r1 : m10 m * m10 m + m11 m * m11 m + m12 m * m12 m = 1;
  r2 : m20 m * m20 m + m21 m * m21 m + m22 m * m22 m = 1;
  k0 : m00 m * m00 m + m10 m * m10 m + m20 m * m20 m = 1;
  k1 : m01 m * m01 m + m11 m * m11 m + m21 m * m21 m = 1;
  k2 : m02 m * m02 m + m12 m * m12 m + m22 m * m22 m = 1;
  r01 : m00 m * m10 m + m01 m * m11 m + m02 m * m12 m = 0;
  r02 : m00 m * m20 m + m01 m * m21 m + m02 m * m22 m = 0;
  r12 : m10 m * m20 m + m11 m * m21 m + m12 m * m22 m = 0;
  k01 : m00 m * m01 m + m10 m * m11 m + m20 m * m21 m = 0;
  k02 : m00 m * m02 m + m10 m * m12 m + m20 m * m22 m = 0;
  k12 : m01 m * m02 m + m11 m * m12 m + m21 m * m22 m = 0 }.

Lemma rotation_rel m : rotation m -> rot_rel m.
Proof.
  intros [H D]. pose proof (mul3_inv_comm _ _ H) as H'.
  assert (A : adj3 m = tr3 m).
  { pose proof (inv3_eq _ _ H) as E. unfold inv3 in E. rewrite D in E.
    destruct (Reqb_spec 1 0); [lra|]. assert (E' : mscal3 (/ 1) (adj3 m) = tr3 m) by congruence. clear E. rename E' into E.
    assert (X : forall a, mscal3 (/ 1) a = a) by (intros; m3r; apply M3_eq; field).
    rewrite <- E at 1. symmetry. apply X. }
  destruct m as [a b c d e f g h i]. unfold mul3, tr3, id3, adj3 in *.
  cbn [m00 m01 m02 m10 m11 m12 m20 m21 m22] in *.
  injection H as H0 H1 H2 H3 H4 H5 H6 H7 H8. injection H' as G0 G1 G2 G3 G4 G5 G6 G7 G8.
  injection A as A0 A1 A2 A3 A4 A5 A6 A7 A8.
  constructor; cbn [m00 m01 m02 m10 m11 m12 m20 m21 m22]; lra.
Qed.

Lemma sqrt_pp_sq x : 0 <= x -> sqrt_positive_part x * sqrt_positive_part x = x.
Proof.
  intros H. unfold sqrt_positive_part. destruct (Rltb_spec 0 x); [apply sqrt_sqrt; exact H|lra].
Qed.
Lemma sqrt_pp_nonneg x : 0 <= sqrt_positive_part x.
Proof. unfold sqrt_positive_part. destruct (Rltb_spec 0 x); [apply sqrt_pos|lra]. Qed.

(* the four squares of the quaternion of a rotation *)
Lemma rot_four m : rot_rel m ->
  let s0 := 1 + m00 m + m11 m + m22 m in
  let s1 := 1 + m00 m - m11 m - m22 m in
  let s2 := 1 - m00 m + m11 m - m22 m in
  let s3 := 1 - m00 m - m11 m + m22 m in
  let u1 := m21 m - m12 m in let u2 := m02 m - m20 m in let u3 := m10 m - m01 m in
  let p12 := m10 m + m01 m in let p13 := m02 m + m20 m in let p23 := m12 m + m21 m in
  (s0 * s1 = u1 * u1 /\ s0 * s2 = u2 * u2 /\ s0 * s3 = u3 * u3) /\
  (s1 * s2 = p12 * p12 /\ s1 * s3 = p13 * p13 /\ s2 * s3 = p23 * p23) /\
  (s0 * p12 = u1 * u2 /\ s0 * p13 = u1 * u3 /\ s0 * p23 = u2 * u3) /\
  (s1 * u2 = u1 * p12 /\ s1 * u3 = u1 * p13 /\ s1 * p23 = p12 * p13) /\
  (s2 * u1 = u2 * p12 /\ s2 * u3 = u2 * p23 /\ s2 * p13 = p12 * p23) /\
  (s3 * u1 = u3 * p13 /\ s3 * u2 = u3 * p23 /\ s3 * p12 = p13 * p23).
Proof.
  intros H. cbv zeta. destruct H.
  repeat split; lra.
Qed.
