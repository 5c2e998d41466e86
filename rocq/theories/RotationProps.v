(* Properties C32 (rotation conversions) and C33 (so3 / se3). *)
From Verif Require Import Base RBase Geom LinAlg Transform Rotation RotationSpec RotationProofs RotationProofs2
  RotationProofs3 RotationProofs4 RotationProofs5 RotationProofs6 RotationProofs7.
Local Open Scope R_scope.

(* ---- quaternions ---- *)
(* every non-zero quaternion gives a proper rotation matrix; only zero fails *)
Theorem quaternion_matrix_rotation q m : quaternion_to_matrix q = Ok m -> rotation m.
Proof. exact (qtm_rotation q m). Qed.
Print Assumptions quaternion_matrix_rotation.
Theorem quaternion_matrix_defined q : q <> Q 0 0 0 0 -> exists m, quaternion_to_matrix q = Ok m.
Proof. intros H. eexists. apply qtm_def. intros E. apply H, qnorm2_zero, E. Qed.
Print Assumptions quaternion_matrix_defined.
(* (cos t/2, sin t/2 k) turns by t about k *)
Theorem quaternion_matrix_turns k t m u : dot3 k k = 1 ->
  quaternion_to_matrix (Q (cos (t / 2)) (sin (t / 2) * x3 k) (sin (t / 2) * y3 k) (sin (t / 2) * z3 k)) = Ok m ->
  act m u = turn k t u.
Proof. exact (quat_turn k t m u). Qed.
Print Assumptions quaternion_matrix_turns.
Theorem quaternion_matrix_scale c q : c <> 0 ->
  quaternion_to_matrix (Q (c * qw q) (c * qx q) (c * qy q) (c * qz q)) = quaternion_to_matrix q.
Proof. exact (qtm_scale c q). Qed.
Print Assumptions quaternion_matrix_scale.
Theorem quaternion_multiply_matrix a b ma mb :
  quaternion_to_matrix a = Ok ma -> quaternion_to_matrix b = Ok mb ->
  quaternion_to_matrix (quaternion_multiply a b) = Ok (mul3 ma mb) /\ 0 <= qw (quaternion_multiply a b).
Proof.
  intros Ha Hb. unfold quaternion_multiply. split; [rewrite qtm_standardize; apply qtm_mul; assumption|apply standardize_w].
Qed.
Print Assumptions quaternion_multiply_matrix.
Theorem quaternion_invert_matrix q m : quaternion_to_matrix q = Ok m ->
  quaternion_to_matrix (quaternion_invert q) = Ok (tr3 m) /\ mul3 m (tr3 m) = id3.
Proof. intros H. split; [apply qtm_invert; exact H|apply (qtm_rotation q m H)]. Qed.
Print Assumptions quaternion_invert_matrix.
Theorem quaternion_apply_matrix q m p : unit_quat q -> quaternion_to_matrix q = Ok m -> quaternion_apply q p = act m p.
Proof.
  intros U H. rewrite (quat_apply_act q p m H). apply qnorm2_unit in U. rewrite U.
  generalize (act m p). intros [x y z]. unfold scal3. cbn [x3 y3 z3]. apply V3_eq; ring.
Qed.
Print Assumptions quaternion_apply_matrix.
(* a quaternion of norm n scales the rotated point by n^2 *)
Theorem quaternion_apply_scales q m p : quaternion_to_matrix q = Ok m ->
  quaternion_apply q p = scal3 (qw q ^ 2 + qx q ^ 2 + qy q ^ 2 + qz q ^ 2) (act m p).
Proof. intros H. rewrite (quat_apply_act q p m H). f_equal. unfold qnorm2. ring. Qed.
Print Assumptions quaternion_apply_scales.
Theorem matrix_to_quaternion_inverts m : rotation m ->
  quaternion_to_matrix (matrix_to_quaternion m) = Ok m /\
  unit_quat (matrix_to_quaternion m) /\ 0 <= qw (matrix_to_quaternion m).
Proof. exact (mtq_roundtrip m). Qed.
Print Assumptions matrix_to_quaternion_inverts.
Theorem quaternion_recovered_up_to_sign q m : unit_quat q -> quaternion_to_matrix q = Ok m ->
  matrix_to_quaternion m = q \/ matrix_to_quaternion m = neg_quat q.
Proof. exact (qtm_mtq q m). Qed.
Print Assumptions quaternion_recovered_up_to_sign.
Theorem quaternion_recovered_standard q m : unit_quat q -> qw q <> 0 -> quaternion_to_matrix q = Ok m ->
  matrix_to_quaternion m = standardize q.
Proof. exact (qtm_mtq_std q m). Qed.
Print Assumptions quaternion_recovered_standard.
Theorem standardize_same_rotation q : quaternion_to_matrix (standardize q) = quaternion_to_matrix q /\ 0 <= qw (standardize q).
Proof. split; [apply qtm_standardize|apply standardize_w]. Qed.
Print Assumptions standardize_same_rotation.
(* random_quaternions: whatever was sampled, the result is a unit quaternion, real part >= 0 *)
Theorem random_quaternion_unit o q : normalize_sample o = Ok q ->
  unit_quat q /\ 0 <= qw q /\ exists c, c <> 0 /\ o = Q (c * qw q) (c * qx q) (c * qy q) (c * qz q).
Proof. exact (sample_unit o q). Qed.
Print Assumptions random_quaternion_unit.
Example quaternion_example : unit_quat (Q (3 / 5) 0 (4 / 5) 0) /\
  quaternion_to_matrix (Q (3 / 5) 0 (4 / 5) 0) = Ok (M3 (-7 / 25) 0 (24 / 25) 0 1 0 (-24 / 25) 0 (-7 / 25)).
Proof.
  assert (U : unit_quat (Q (3 / 5) 0 (4 / 5) 0)) by (unfold unit_quat; cbn [qw qx qy qz]; field).
  split; [exact U|]. rewrite qtm_unit by exact U. f_equal. unfold qmat. cbn [qw qx qy qz]. apply M3_eq; field.
Qed.

(* ---- Euler angles ---- *)
Theorem euler_matrix_rotation e conv m : euler_angles_to_matrix e conv = Ok m -> rotation m.
Proof. exact (euler_rotation e conv m). Qed.
Print Assumptions euler_matrix_rotation.
(* all twelve conventions, every rotation away from gimbal lock *)
Theorem euler_angles_invert_matrix m a b c : rotation m -> b <> a -> b <> c ->
  Rabs (central_entry m a c) < 1 ->
  exists e, matrix_to_euler_angles m [a; b; c] = Ok e /\ euler_angles_to_matrix e [a; b; c] = Ok m.
Proof.
  intros R Ha Hc K. apply euler_inverse; [exact R|destruct a, b, c; try reflexivity; congruence|].
  apply Rabs_def2 in K. nra.
Qed.
Print Assumptions euler_angles_invert_matrix.
Theorem euler_angles_recovered e a b c m :
  - PI < x3 e <= PI -> - PI < z3 e <= PI ->
  (if tait_bryan_conv a c then - (PI / 2) < y3 e < PI / 2 else 0 < y3 e < PI) ->
  euler_angles_to_matrix e [a; b; c] = Ok m -> matrix_to_euler_angles m [a; b; c] = Ok e.
Proof. exact (euler_recover e a b c m). Qed.
Print Assumptions euler_angles_recovered.
Theorem euler_angles_in_range m a b c e : matrix_to_euler_angles m [a; b; c] = Ok e ->
  - PI < x3 e <= PI /\ - PI < z3 e <= PI /\
  (if tait_bryan_conv a c then - (PI / 2) <= y3 e <= PI / 2 else 0 <= y3 e <= PI).
Proof. exact (euler_range m a b c e). Qed.
Print Assumptions euler_angles_in_range.
Theorem euler_invalid_convention conv :
  (forall a b c, conv = [a; b; c] -> b = a \/ b = c) ->
  (forall e, euler_angles_to_matrix e conv = Fail EValue) /\ (forall m, matrix_to_euler_angles m conv = Fail EValue).
Proof.
  intros H. apply euler_invalid. destruct conv as [|a [|b [|c [|d l]]]]; try reflexivity.
  destruct (H a b c eq_refl) as [-> | ->]; [destruct a, c|destruct a, c]; reflexivity.
Qed.
Print Assumptions euler_invalid_convention.
Theorem euler_gimbal_lock_refuted : exists m e m', rotation m /\ matrix_to_euler_angles m [AX; AY; AZ] = Ok e /\
  euler_angles_to_matrix e [AX; AY; AZ] = Ok m' /\ m' <> m.
Proof. exact gimbal_fails. Qed.
Print Assumptions euler_gimbal_lock_refuted.
Example euler_example : euler_angles_to_matrix (V3 0 (PI / 2) 0) [AZ; AX; AZ] = Ok (M3 1 0 0 0 0 (-1) 0 1 0).
Proof.
  unfold euler_angles_to_matrix. cbn [valid_convention axis_eqb negb andb x3 y3 z3]. f_equal.
  unfold mul3, axis_rot. cbn [m00 m01 m02 m10 m11 m12 m20 m21 m22]. rewrite cos_PI2, sin_PI2, cos_0, sin_0. apply M3_eq; ring.
Qed.

(* ---- axis / angle ---- *)
Theorem axis_angle_fast_slow_agree v : axis_angle_to_matrix v true = axis_angle_to_matrix v false.
Proof. symmetry. exact (aatm_fast_slow v). Qed.
Print Assumptions axis_angle_fast_slow_agree.
Theorem axis_angle_matrix_rotation v fast : exists m, axis_angle_to_matrix v fast = Ok m /\ rotation m.
Proof. destruct (aatm_total v fast) as [m H]. exists m. split; [exact H|exact (aatm_rotation v fast m H)]. Qed.
Print Assumptions axis_angle_matrix_rotation.
(* k a unit vector, s the signed angle *)
Theorem axis_angle_matrix_turns k s fast m u : dot3 k k = 1 -> axis_angle_to_matrix (scal3 s k) fast = Ok m ->
  act m u = turn k s u.
Proof. exact (exp_scaled k s fast m u). Qed.
Print Assumptions axis_angle_matrix_turns.
Theorem axis_angle_quaternion_roundtrip v : len v < 2 * PI ->
  unit_quat (axis_angle_to_quaternion v) /\ quaternion_to_axis_angle (axis_angle_to_quaternion v) = Ok v.
Proof. intros H. rewrite len_norm3 in H. split; [apply aatq_unit|apply aatq_qtaa; exact H]. Qed.
Print Assumptions axis_angle_quaternion_roundtrip.
Theorem quaternion_axis_angle_roundtrip q : unit_quat q -> q <> Q (-1) 0 0 0 ->
  exists v, quaternion_to_axis_angle q = Ok v /\ axis_angle_to_quaternion v = q.
Proof. intros U H. destruct (qtaa_total q U H) as [v E]. exists v. split; [exact E|exact (qtaa_aatq q v U E)]. Qed.
Print Assumptions quaternion_axis_angle_roundtrip.
Theorem quaternion_axis_angle_minus_one_refuted :
  unit_quat (Q (-1) 0 0 0) /\ quaternion_to_axis_angle (Q (-1) 0 0 0) = Fail ERuntime.
Proof. split; [unfold unit_quat; cbn [qw qx qy qz]; ring|exact qtaa_minus_one]. Qed.
Print Assumptions quaternion_axis_angle_minus_one_refuted.
Theorem matrix_axis_angle_roundtrip m fast : rotation m ->
  exists v, matrix_to_axis_angle_slow m = Ok v /\ len v <= PI /\ axis_angle_to_matrix v fast = Ok m.
Proof.
  intros R. destruct (mtaa_total m R) as [v E]. exists v. rewrite len_norm3. split; [exact E|].
  split; [exact (mtaa_range m v R E)|exact (mtaa_roundtrip m v fast R E)].
Qed.
Print Assumptions matrix_axis_angle_roundtrip.
Theorem axis_angle_recovered v fast m : len v < PI -> axis_angle_to_matrix v fast = Ok m ->
  matrix_to_axis_angle_slow m = Ok v.
Proof. intros H. rewrite len_norm3 in H. exact (aatm_mtaa v fast m H). Qed.
Print Assumptions axis_angle_recovered.
(* the fast path, away from angle pi: the logarithm, or 0 instead of one shorter than 1e-8 *)
Theorem fast_matrix_axis_angle ms : Forall rotation ms -> Forall (fun m => near_pi m = false) ms ->
  exists vs, matrix_to_axis_angle_fast ms = Ok vs /\
    Forall2 (fun m v => exists w, matrix_to_axis_angle_slow m = Ok w /\
      (v = w \/ (v = V3 0 0 0 /\ len w <= / 100000000))) ms vs.
Proof.
  intros R N. destruct (fast_log_ok ms R N) as (vs & E & F). exists vs. split; [exact E|].
  clear E R N. induction F as [|m v ms vs (w & A & B) F IH]; constructor; [|exact IH]. exists w. rewrite len_norm3. split; assumption.
Qed.
Print Assumptions fast_matrix_axis_angle.
(* at angle pi it divides by zero for axes with no x part, and mixes up batch elements *)
Theorem fast_matrix_axis_angle_pi_refuted :
  (exists m, rotation m /\ matrix_to_axis_angle_fast [m] = Fail ERuntime) /\
  (exists m vs, rotation m /\ matrix_to_axis_angle_fast [m; m] = Ok vs /\
     Forall (fun v => axis_angle_to_matrix v false <> Ok m) vs).
Proof.
  destruct rotXY_rotation as [RX RY]. split; [exists rotY_pi; split; [exact RY|exact fast_log_Y]|].
  destruct fast_log_batch as (vs & E & F). exists rotX_pi, vs. split; [exact RX|]. split; [exact E|exact F].
Qed.
Print Assumptions fast_matrix_axis_angle_pi_refuted.

(* ---- 6D ---- *)
(* a, b with a and the part of b orthogonal to a not shorter than 1e-12: Gram-Schmidt *)
Theorem rotation_6d_gram_schmidt a b : norm_eps <= len a -> norm_eps <= len (perp a b) ->
  rotation (rotation_6d_to_matrix a b) /\
  exists p q r, 0 < p /\ 0 < r /\ a = scal3 p (mrow (rotation_6d_to_matrix a b) 0) /\
    b = add3 (scal3 q (mrow (rotation_6d_to_matrix a b) 0)) (scal3 r (mrow (rotation_6d_to_matrix a b) 1)).
Proof. rewrite !len_norm3. exact (sixd_rotation' a b). Qed.
Print Assumptions rotation_6d_gram_schmidt.
Theorem rotation_6d_roundtrip m : rotation m ->
  rotation_6d_to_matrix (fst (matrix_to_rotation_6d m)) (snd (matrix_to_rotation_6d m)) = m.
Proof. exact (sixd_roundtrip m). Qed.
Print Assumptions rotation_6d_roundtrip.
Theorem rotation_6d_parallel_refuted : exists a b, a <> V3 0 0 0 /\ b <> V3 0 0 0 /\ ~ rotation (rotation_6d_to_matrix a b).
Proof.
  exists (V3 1 0 0), (V3 2 0 0). split; [intros H; injection H; lra|]. split; [intros H; injection H; lra|].
  replace (V3 2 0 0) with (scal3 2 (V3 1 0 0)) by (unfold scal3; cbn [x3 y3 z3]; apply V3_eq; ring).
  rewrite sixd_parallel by (unfold dot3; cbn [x3 y3 z3]; ring).
  intros [_ D]. unfold det3, rows3 in D. cbn [m00 m01 m02 m10 m11 m12 m20 m21 m22 x3 y3 z3] in D. lra.
Qed.
Print Assumptions rotation_6d_parallel_refuted.
Example sixd_example : norm_eps <= len (V3 3 0 0) /\ norm_eps <= len (perp (V3 3 0 0) (V3 5 2 0)).
Proof.
  rewrite !len_norm3. assert (norm_eps <= 1) by (unfold norm_eps; rewrite <- Rinv_1; apply Rinv_le_contravar; lra).
  rewrite (norm3_unique (V3 3 0 0) 3) by (try lra; unfold dot3; cbn [x3 y3 z3]; ring).
  rewrite (norm3_unique (perp (V3 3 0 0) (V3 5 2 0)) 2); [lra|lra|]. unfold perp, sub3, scal3, dot3. cbn [x3 y3 z3]. field.
Qed.

(* ---- so3 ---- *)
Theorem so3_exp_rotation v : exists m, so3_exp_map v = Ok m /\ rotation m /\ act m v = v.
Proof.
  destruct (aatm_total v false) as [m H]. exists m. split; [exact H|]. split; [exact (aatm_rotation v false m H)|exact (exp_fixes_axis v m H)].
Qed.
Print Assumptions so3_exp_rotation.
Theorem so3_exp_group s t v a b c : so3_exp_map (scal3 s v) = Ok a -> so3_exp_map (scal3 t v) = Ok b ->
  so3_exp_map (scal3 (s + t) v) = Ok c -> mul3 a b = c.
Proof. exact (exp_sum s t v a b c). Qed.
Print Assumptions so3_exp_group.
Theorem so3_exp_log m : rotation m -> exists v, so3_log_map m = Ok v /\ len v <= PI /\ so3_exp_map v = Ok m.
Proof. exact (matrix_axis_angle_roundtrip m false). Qed.
Print Assumptions so3_exp_log.
Theorem so3_log_exp v m : len v < PI -> so3_exp_map v = Ok m -> so3_log_map m = Ok v.
Proof. exact (axis_angle_recovered v false m). Qed.
Print Assumptions so3_log_exp.
Theorem so3_log_exp_beyond_pi_refuted v m : PI < len v -> so3_exp_map v = Ok m -> so3_log_map m <> Ok v.
Proof. rewrite len_norm3. exact (log_exp_beyond v m). Qed.
Print Assumptions so3_log_exp_beyond_pi_refuted.
Theorem so3_angle_of_exp v m eps : 0 <= eps -> len v <= PI -> so3_exp_map v = Ok m ->
  so3_rotation_angle m eps false 0 = Ok (len v) /\ so3_rotation_angle m eps true 0 = Ok (cos (len v)).
Proof.
  rewrite len_norm3. intros He Hv H. split; [exact (rotation_angle_exp v m eps He Hv H)|].
  rewrite rotation_angle_ok by (try exact He; exact (aatm_rotation v false m H)). f_equal. rewrite (exp_trace v false m H). field.
Qed.
Print Assumptions so3_angle_of_exp.
(* the trace check never rejects a rotation and always rejects a trace out of range *)
Theorem so3_angle_trace_check m eps c b : trace3 m < -1 - eps \/ 3 + eps < trace3 m ->
  so3_rotation_angle m eps c b = Fail EValue.
Proof. exact (rotation_angle_bad m eps c b). Qed.
Print Assumptions so3_angle_trace_check.
Theorem so3_relative_angle_metric a b eps : 0 <= eps -> rotation a -> rotation b ->
  exists t, so3_relative_angle a b eps false 0 = Ok t /\ so3_relative_angle b a eps false 0 = Ok t /\
    0 <= t <= PI /\ (t = 0 <-> a = b).
Proof.
  intros He Ra Rb. pose proof (rotation_mul _ _ Ra (rotation_tr _ Rb)) as Rm.
  exists (acos ((trace3 (mul3 a (tr3 b)) - 1) / 2)).
  assert (H : so3_relative_angle a b eps false 0 = Ok (acos ((trace3 (mul3 a (tr3 b)) - 1) / 2)))
    by (unfold so3_relative_angle; rewrite rotation_angle_ok by assumption; reflexivity).
  split; [exact H|]. split; [rewrite relative_angle_sym; exact H|]. split; [apply acos_bound|exact (relative_angle_zero a b eps _ He Ra Rb H)].
Qed.
Print Assumptions so3_relative_angle_metric.
Theorem hat_is_cross_product v u : act (hat v) u = cross3 v u.
Proof. exact (hat_cross v u). Qed.
Print Assumptions hat_is_cross_product.
Theorem hat_inv_of_hat vs : vs <> [] -> hat_inv (map hat vs) = Ok vs.
Proof. exact (hat_inv_hat vs). Qed.
Print Assumptions hat_inv_of_hat.
Theorem hat_of_hat_inv ms vs : Forall (fun m => tr3 m = mscal3 (-1) m) ms -> hat_inv ms = Ok vs -> map hat vs = ms.
Proof. exact (hat_hat_inv ms vs). Qed.
Print Assumptions hat_of_hat_inv.
Theorem hat_inv_rejects ms m : In m ms -> / 100000 < Rabs (m01 m + m10 m) -> hat_inv ms = Fail EValue.
Proof.
  intros Hi H. apply (hat_inv_raises ms m Hi). unfold skew_ok.
  destruct (Rleb_spec (Rabs (m01 m + m10 m)) hat_tol) as [L|L]; [unfold hat_tol in L; lra|].
  rewrite andb_false_r. reflexivity.
Qed.
Print Assumptions hat_inv_rejects.
Theorem hat_inv_empty_refuted : hat_inv [] = Fail ERuntime.
Proof. reflexivity. Qed.
Print Assumptions hat_inv_empty_refuted.

(* ---- acos_linear_extrapolation ---- *)
Theorem acos_extrapolation_smooth lo hi : -1 < lo -> lo <= hi -> hi < 1 -> exists f,
  (forall x, acos_linear_extrapolation x lo hi = Ok (f x)) /\ (forall x, lo <= x <= hi -> f x = acos x) /\
  continuity f /\ (forall x y, x < y -> f y < f x) /\
  (forall x, derivable_pt_lim f x (- / sqrt (1 - Rmax lo (Rmin x hi) * Rmax lo (Rmin x hi)))).
Proof. exact (extrap_spec lo hi). Qed.
Print Assumptions acos_extrapolation_smooth.
Theorem acos_extrapolation_bounds x lo hi : (hi < lo \/ lo <= -1 \/ 1 <= hi) -> acos_linear_extrapolation x lo hi = Fail EValue.
Proof. exact (extrap_bad lo hi x). Qed.
Print Assumptions acos_extrapolation_bounds.

(* ---- se3 ---- *)
Theorem se3_exp_is_rigid lt lr eps : 0 < eps ->
  exists t r p, se3_exp_map lt lr eps = Ok t /\ so3_exp_map lr = Ok r /\ is_rigid t r p.
Proof. exact (se3_exp_rigid lt lr eps). Qed.
Print Assumptions se3_exp_is_rigid.
(* the translation is the screw displacement: along lr it moves by lt, across it by (R - I) lt *)
Theorem se3_exp_translation lt lr eps t r p : 0 < eps -> eps <= dot3 lr lr ->
  se3_exp_map lt lr eps = Ok t -> so3_exp_map lr = Ok r -> is_rigid t r p ->
  cross3 lr p = sub3 (act r lt) lt /\ dot3 lr p = dot3 lr lt.
Proof. exact (se3_exp_screw lt lr eps t r p). Qed.
Print Assumptions se3_exp_translation.
Theorem se3_exp_no_rotation lt eps t : 0 < eps -> se3_exp_map lt (V3 0 0 0) eps = Ok t -> is_rigid t id3 lt.
Proof. exact (se3_zero lt eps t). Qed.
Print Assumptions se3_exp_no_rotation.
Theorem se3_exp_inverse lt lr eps a b : 0 < eps -> eps <= dot3 lr lr ->
  se3_exp_map lt lr eps = Ok a -> se3_exp_map (scal3 (-1) lt) (scal3 (-1) lr) eps = Ok b -> mul4 a b = id4.
Proof. exact (se3_exp_neg lt lr eps a b). Qed.
Print Assumptions se3_exp_inverse.
Theorem se3_log_of_exp lt lr eps eps' t : len lr < PI ->
  (eps = / 10000 \/ (eps <= len lr * len lr /\ / 10000 <= len lr * len lr)) ->
  se3_exp_map lt lr eps = Ok t -> se3_log_map t eps' = Ok (lt, lr).
Proof. intros H C. pose proof (clamp_agree lr eps C) as A. rewrite len_norm3 in H. exact (se3_log_exp lt lr eps eps' t H A). Qed.
Print Assumptions se3_log_of_exp.
Theorem se3_exp_of_log t r p eps : is_rigid t r p ->
  exists lt lr, se3_log_map t eps = Ok (lt, lr) /\ len lr <= PI /\ se3_exp_map lt lr (/ 10000) = Ok t.
Proof.
  intros (R & B & _ & Z0 & Z1 & Z2 & Z3). destruct (se3_exp_log t eps) as (lt & lr & H1 & H2 & H3); try assumption.
  - rewrite B. apply rotation_tr. exact R.
  - exists lt, lr. rewrite len_norm3. auto.
Qed.
Print Assumptions se3_exp_of_log.
Theorem se3_log_rejects t eps :
  (/ 100000000 < Rabs (n03 t) \/ / 100000000 < Rabs (n13 t) \/ / 100000000 < Rabs (n23 t)) -> se3_log_map t eps = Fail EValue.
Proof. exact (se3_log_bad t eps). Qed.
Print Assumptions se3_log_rejects.
(* with another eps, the same one on both sides, the round trip fails *)
Theorem se3_same_eps_refuted : exists lt lr eps t, 0 < eps /\ len lr < PI /\
  se3_exp_map lt lr eps = Ok t /\ se3_log_map t eps <> Ok (lt, lr).
Proof. destruct se3_eps_mismatch as (lt & lr & eps & t & H). exists lt, lr, eps, t. rewrite len_norm3. exact H. Qed.
Print Assumptions se3_same_eps_refuted.
Example se3_example : exists t r p, se3_exp_map (V3 1 2 3) (V3 0 0 1) (/ 10000) = Ok t /\ is_rigid t r p /\ / 10000 <= dot3 (V3 0 0 1) (V3 0 0 1).
Proof.
  destruct (se3_exp_rigid (V3 1 2 3) (V3 0 0 1) (/ 10000) ltac:(lra)) as (t & r & p & A & _ & B).
  exists t, r, p. split; [exact A|]. split; [exact B|]. unfold dot3. cbn [x3 y3 z3]. lra.
Qed.
