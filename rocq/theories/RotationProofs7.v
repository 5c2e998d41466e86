From Verif Require Import Base RBase Geom LinAlg Transform Rotation RotationSpec RotationProofs RotationProofs2 RotationProofs3 RotationProofs4 RotationProofs5 RotationProofs6.
Local Open Scope R_scope.

(* ---- acos with linear extrapolation ---- *)
Definition clampR (x lo hi : R) : R := if Rleb x lo then lo else if Rleb hi x then hi else x.
Definition extrap (lo hi x : R) : R :=
  if Rleb x lo then acos_linear_approximation x lo
  else if Rleb hi x then acos_linear_approximation x hi else acos x.

Lemma extrap_ok lo hi x : -1 < lo -> lo <= hi -> hi < 1 -> acos_linear_extrapolation x lo hi = Ok (extrap lo hi x).
Proof.
  intros H1 H2 H3. unfold acos_linear_extrapolation. destruct (Rltb_spec hi lo); [lra|].
  destruct (Rleb_spec lo (-1)); [lra|]. destruct (Rleb_spec 1 hi); [lra|]. reflexivity.
Qed.
Lemma extrap_bad lo hi x : (hi < lo \/ lo <= -1 \/ 1 <= hi) -> acos_linear_extrapolation x lo hi = Fail EValue.
Proof.
  intros H. unfold acos_linear_extrapolation. destruct (Rltb_spec hi lo); [reflexivity|].
  destruct (Rleb_spec lo (-1)); [reflexivity|]. destruct (Rleb_spec 1 hi); [reflexivity|lra].
Qed.
Lemma approx_at x : acos_linear_approximation x x = acos x.
Proof. unfold acos_linear_approximation. ring. Qed.
Lemma extrap_inside lo hi x : lo <= x <= hi -> extrap lo hi x = acos x.
Proof.
  intros H. unfold extrap. destruct (Rleb_spec x lo); [replace lo with x by lra; apply approx_at|].
  destruct (Rleb_spec hi x); [replace hi with x by lra; apply approx_at|reflexivity].
Qed.

Lemma acos_deriv x : -1 < x < 1 -> derivable_pt_lim acos x (dacos_dx x).
Proof.
  intros H. pose proof (derive_pt_acos x H) as X. apply derive_pt_eq_1 in X. unfold dacos_dx. exact X.
Qed.
Lemma approx_deriv x0 x : derivable_pt_lim (fun y => acos_linear_approximation y x0) x (dacos_dx x0).
Proof.
  intros e He. exists (mkposreal 1 Rlt_0_1). intros h Hh _. unfold acos_linear_approximation.
  replace (((x + h - x0) * dacos_dx x0 + acos x0 - ((x - x0) * dacos_dx x0 + acos x0)) / h - dacos_dx x0) with 0 by (field; exact Hh).
  rewrite Rabs_R0. exact He.
Qed.
(* a function that is locally one of two tangent functions is differentiable *)
Lemma glue f g h x d del : 0 < del -> f x = g x -> f x = h x ->
  (forall y, Rabs (y - x) < del -> f y = g y \/ f y = h y) ->
  derivable_pt_lim g x d -> derivable_pt_lim h x d -> derivable_pt_lim f x d.
Proof.
  intros Hd Eg Eh C Dg Dh e He. destruct (Dg e He) as [d1 H1]. destruct (Dh e He) as [d2 H2].
  assert (P : 0 < Rmin del (Rmin d1 d2)) by (repeat apply Rmin_pos; [exact Hd|apply cond_pos|apply cond_pos]).
  exists (mkposreal _ P). intros t Ht Lt. cbn in Lt.
  pose proof (Rmin_l del (Rmin d1 d2)). pose proof (Rmin_r del (Rmin d1 d2)). pose proof (Rmin_l d1 d2). pose proof (Rmin_r d1 d2).
  destruct (C (x + t)) as [E|E]; [replace (x + t - x) with t by ring; lra| |].
  - rewrite E, Eg. apply H1; [exact Ht|lra].
  - rewrite E, Eh. apply H2; [exact Ht|lra].
Qed.
Lemma extrap_deriv lo hi x : -1 < lo -> lo <= hi -> hi < 1 ->
  derivable_pt_lim (extrap lo hi) x (dacos_dx (clampR x lo hi)).
Proof.
  intros H1 H2 H3. unfold clampR. destruct (Rleb_spec x lo) as [L|L].
  - destruct (Req_dec x lo) as [->|N].
    + destruct (Req_dec lo hi) as [<-|Nh].
      * apply (glue _ (fun y => acos_linear_approximation y lo) (fun y => acos_linear_approximation y lo) _ _ 1); try lra.
        -- unfold extrap. destruct (Rleb_spec lo lo); [reflexivity|lra].
        -- unfold extrap. destruct (Rleb_spec lo lo); [reflexivity|lra].
        -- intros y _. left. unfold extrap. destruct (Rleb_spec y lo); [reflexivity|]. destruct (Rleb_spec lo y); [reflexivity|lra].
        -- apply approx_deriv.
        -- apply approx_deriv.
      * apply (glue _ (fun y => acos_linear_approximation y lo) acos _ _ (hi - lo)); try lra.
        -- unfold extrap. destruct (Rleb_spec lo lo); [reflexivity|lra].
        -- apply extrap_inside. lra.
        -- intros y Hy. apply Rabs_def2 in Hy. unfold extrap. destruct (Rleb_spec y lo); [left; reflexivity|].
           destruct (Rleb_spec hi y); [lra|right; reflexivity].
        -- apply approx_deriv.
        -- apply acos_deriv. lra.
    + apply (glue _ (fun y => acos_linear_approximation y lo) (fun y => acos_linear_approximation y lo) _ _ (lo - x)); try lra.
      * unfold extrap. destruct (Rleb_spec x lo); [reflexivity|lra].
      * unfold extrap. destruct (Rleb_spec x lo); [reflexivity|lra].
      * intros y Hy. apply Rabs_def2 in Hy. left. unfold extrap. destruct (Rleb_spec y lo); [reflexivity|lra].
      * apply approx_deriv.
      * apply approx_deriv.
  - destruct (Rleb_spec hi x) as [G|G].
    + destruct (Req_dec x hi) as [->|N].
      * apply (glue _ (fun y => acos_linear_approximation y hi) acos _ _ (hi - lo)); try lra.
        -- unfold extrap. destruct (Rleb_spec hi lo); [lra|]. destruct (Rleb_spec hi hi); [reflexivity|lra].
        -- apply extrap_inside. lra.
        -- intros y Hy. apply Rabs_def2 in Hy. unfold extrap. destruct (Rleb_spec y lo); [lra|].
           destruct (Rleb_spec hi y); [left|right]; reflexivity.
        -- apply approx_deriv.
        -- apply acos_deriv. lra.
      * apply (glue _ (fun y => acos_linear_approximation y hi) (fun y => acos_linear_approximation y hi) _ _ (x - hi)); try lra.
        -- unfold extrap. destruct (Rleb_spec x lo); [lra|]. destruct (Rleb_spec hi x); [reflexivity|lra].
        -- unfold extrap. destruct (Rleb_spec x lo); [lra|]. destruct (Rleb_spec hi x); [reflexivity|lra].
        -- intros y Hy. apply Rabs_def2 in Hy. left. unfold extrap. destruct (Rleb_spec y lo); [lra|]. destruct (Rleb_spec hi y); [reflexivity|lra].
        -- apply approx_deriv.
        -- apply approx_deriv.
    + apply (glue _ acos acos _ _ (Rmin (x - lo) (hi - x))).
      * apply Rmin_pos; lra.
      * apply extrap_inside. lra.
      * apply extrap_inside. lra.
      * intros y Hy. left. pose proof (Rmin_l (x - lo) (hi - x)). pose proof (Rmin_r (x - lo) (hi - x)).
        apply Rabs_def2 in Hy. apply extrap_inside. lra.
      * apply acos_deriv. lra.
      * apply acos_deriv. lra.
Qed.
Lemma dacos_neg x : -1 < x < 1 -> dacos_dx x < 0.
Proof.
  intros H. unfold dacos_dx. assert (0 < sqrt (1 - x * x)) by (apply sqrt_lt_R0; nra).
  assert (0 < / sqrt (1 - x * x)) by (apply Rinv_0_lt_compat; assumption). unfold Rdiv. lra.
Qed.
Lemma clampR_in x lo hi : lo <= hi -> lo <= clampR x lo hi <= hi.
Proof. intros H. unfold clampR. destruct (Rleb_spec x lo); [lra|]. destruct (Rleb_spec hi x); lra. Qed.
Lemma extrap_decreasing lo hi x y : -1 < lo -> lo <= hi -> hi < 1 -> x < y -> extrap lo hi y < extrap lo hi x.
Proof.
  intros H1 H2 H3 H.
  assert (D : derivable (extrap lo hi)) by (intros z; eexists; apply extrap_deriv; assumption).
  assert (N : forall z, derive_pt (extrap lo hi) z (D z) < 0).
  { intros z. rewrite (derive_pt_eq_0 _ _ _ (D z) (extrap_deriv lo hi z H1 H2 H3)). apply dacos_neg. pose proof (clampR_in z lo hi H2). lra. }
  exact (negative_derivative _ D N x y H).
Qed.

(* ---- what fails ---- *)
Lemma log_exp_beyond v m : PI < norm3 v -> so3_exp_map v = Ok m -> so3_log_map m <> Ok v.
Proof.
  intros Hv H E. pose proof (mtaa_range m v (aatm_rotation _ _ _ H) E). lra.
Qed.

Lemma cos_half_ne : cos (/ 2) <> 1.
Proof.
  intros E. pose proof PI2_1. pose proof PI_RGT_0. unfold PI2 in *. assert (/ 2 = 0); [|lra]. apply cos_1_zero; [exact E|lra].
Qed.
Lemma dot_half : dot3 (V3 0 0 (/ 2)) (V3 0 0 (/ 2)) = / 4.
Proof. unfold dot3. cbm. field. Qed.
Lemma norm_half : norm3 (V3 0 0 (/ 2)) = / 2.
Proof. apply norm3_unique; [lra|]. rewrite dot_half. field. Qed.
Lemma se3_eps_mismatch : exists lt lr eps t, 0 < eps /\ norm3 lr < PI /\ se3_exp_map lt lr eps = Ok t /\ se3_log_map t eps <> Ok (lt, lr).
Proof.
  set (lr := V3 0 0 (/ 2)). set (lt := V3 1 0 0).
  destruct (se3_exp_total lt lr 1 ltac:(lra)) as (r & Hr & Ht).
  assert (Hn : norm3 lr < PI) by (unfold lr; rewrite norm_half; pose proof PI2_1; unfold PI2 in *; lra).
  eexists lt, lr, 1, _. split; [lra|]. split; [exact Hn|]. split; [exact Ht|]. intros H.
  set (p := mulv3 (se3_V lr (clamped_angle lr 1)) lt) in *.
  destruct (rigid_parts r p) as (B & Z0 & Z1 & Z2 & T & _). unfold se3_log_map in H. rewrite Z0, Z1, Z2, small_zero in H. cbn [andb] in H.
  rewrite B, tr3_tr in H. unfold so3_log_map in H. rewrite (aatm_mtaa lr false r Hn Hr) in H. cbn [rbind] in H.
  destruct (inv3 _) as [W|] eqn:HW; [|discriminate]. cbn [rbind] in H. rewrite T in H.
  destruct (inv3_ok _ _ HW) as (_ & L & _).
  assert (E : mulv3 W p = lt) by congruence. clear H.
  assert (E' : p = mulv3 (se3_V lr (clamped_angle lr (/ 10000))) lt) by (rewrite <- E, <- mulv3_mul, L, mulv3_id; reflexivity).
  unfold p in E'. apply (f_equal y3) in E'.
  assert (C1 : clamped_angle lr 1 = 1).
  { unfold clamped_angle, lr. rewrite dot_half, Rmax_right by lra. apply sqrt_1. }
  assert (C2 : clamped_angle lr (/ 10000) = / 2).
  { unfold clamped_angle, lr. rewrite dot_half, Rmax_left by lra. replace (/ 4) with (/ 2 * / 2) by field. apply sqrt_square. lra. }
  rewrite C1, C2, !se3_V_kmat, !kmat_eq in E'. unfold mulv3, vmul3, tr3, lr, lt in E'. cbn [m00 m01 m02 m10 m11 m12 m20 m21 m22 x3 y3 z3] in E'.
  assert (D : cos 1 = 2 * cos (/ 2) * cos (/ 2) - 1) by (replace 1 with (2 * / 2) at 1 by field; apply cos_2a_cos).
  rewrite D in E'. apply cos_half_ne. set (c := cos (/ 2)) in *.
  assert (X : (1 - c) * (1 - c) = 0) by (field_simplify in E'; lra). nra.
Qed.

Definition rotX_pi : mat3 := M3 1 0 0 0 (-1) 0 0 0 (-1).
Definition rotY_pi : mat3 := M3 (-1) 0 0 0 1 0 0 0 (-1).
Lemma rotXY_rotation : rotation rotX_pi /\ rotation rotY_pi.
Proof. split; split; unfold rotX_pi, rotY_pi, mul3, tr3, id3, det3; cbm; try (apply M3_eq); ring. Qed.
Lemma norm3_0 : norm3 (V3 0 0 0) = 0.
Proof. apply norm3_unique; [lra|]. unfold dot3. cbm. ring. Qed.
Lemma atan2_0_m2 : atan2 0 (-2) = PI.
Proof.
  unfold atan2. destruct (Rltb_spec 0 (-2)); [lra|]. destruct (Rltb_spec (-2) 0); [|lra].
  destruct (Rltb_spec 0 0); [lra|]. replace (0 / -2) with 0 by field. rewrite atan_0. ring.
Qed.
Lemma isclose_refl x : isclose x x = true.
Proof.
  unfold isclose. destruct (Rleb_spec (Rabs (x - x)) (/ 100000000 + / 100000 * Rabs x)) as [|H]; [reflexivity|].
  exfalso. apply H. rewrite Rminus_diag_eq, Rabs_R0 by reflexivity. pose proof (Rabs_pos x). lra.
Qed.
Lemma fa_XY : fast_angle rotX_pi = PI /\ fast_angle rotY_pi = PI.
Proof.
  split; unfold fast_angle, rotX_pi, rotY_pi, trace3; cbm.
  - replace (V3 (0 - 0) (0 - 0) (0 - 0)) with (V3 0 0 0) by (apply V3_eq; ring). rewrite norm3_0.
    replace (1 + -1 + -1 - 1) with (-2) by ring. apply atan2_0_m2.
  - replace (V3 (0 - 0) (0 - 0) (0 - 0)) with (V3 0 0 0) by (apply V3_eq; ring). rewrite norm3_0.
    replace (-1 + 1 + -1 - 1) with (-2) by ring. apply atan2_0_m2.
Qed.
Lemma near_XY : near_pi rotX_pi = true /\ near_pi rotY_pi = true.
Proof. unfold near_pi. destruct fa_XY as [-> ->]. split; apply isclose_refl. Qed.
Lemma fast_log_Y : matrix_to_axis_angle_fast [rotY_pi] = Fail ERuntime.
Proof.
  unfold matrix_to_axis_angle_fast. cbn [filter rmap]. destruct near_XY as [_ Hy]. rewrite Hy. cbn [fold_right].
  destruct (Reqb_spec (sqrt (dot3 (fast_row rotY_pi) (fast_row rotY_pi) + 0)) 0) as [|N]; [reflexivity|]. exfalso. apply N.
  replace (dot3 (fast_row rotY_pi) (fast_row rotY_pi) + 0) with 0; [apply sqrt_0|]. unfold dot3, fast_row, rotY_pi. cbm. field.
Qed.
Lemma fast_log_batch : exists vs, matrix_to_axis_angle_fast [rotX_pi; rotX_pi] = Ok vs /\
  Forall (fun v => axis_angle_to_matrix v false <> Ok rotX_pi) vs.
Proof.
  unfold matrix_to_axis_angle_fast. cbn [filter rmap]. destruct near_XY as [Hx _]. rewrite Hx. cbn [fold_right].
  assert (F : dot3 (fast_row rotX_pi) (fast_row rotX_pi) = 1) by (unfold dot3, fast_row, rotX_pi; cbm; field).
  rewrite F. replace (1 + (1 + 0)) with 2 by ring. pose proof (sqrt_lt_R0 2 ltac:(lra)) as S2.
  destruct (Reqb_spec (sqrt 2) 0); [lra|]. cbn [rbind]. eexists. split; [reflexivity|].
  assert (P : axis_angle_to_matrix (scal3 (fast_angle rotX_pi / sqrt 2) (fast_row rotX_pi)) false <> Ok rotX_pi).
  { intros H. apply exp_trace in H. rewrite norm3_scal in H. destruct fa_XY as [Fa _]. rewrite Fa in H.
    assert (N1 : norm3 (fast_row rotX_pi) = 1) by (apply norm3_unique; [lra|rewrite F; ring]). rewrite N1 in H.
    unfold trace3, rotX_pi in H. cbn [m00 m11 m22] in H. pose proof PI_RGT_0 as HP.
    assert (Q2 : 1 < sqrt 2) by (rewrite <- sqrt_1; apply sqrt_lt_1; lra).
    assert (0 < PI / sqrt 2) by (apply Rdiv_lt_0_compat; lra).
    assert (PI / sqrt 2 < PI).
    { unfold Rdiv. rewrite <- (Rmult_1_r PI) at 2. apply Rmult_lt_compat_l; [lra|]. rewrite <- Rinv_1. apply Rinv_lt_contravar; lra. }
    rewrite Rabs_right, Rmult_1_r in H by lra.
    assert (cos PI < cos (PI / sqrt 2)) by (apply cos_decreasing_1; lra). rewrite cos_PI in *. lra. }
  constructor; [exact P|]. constructor; [exact P|constructor].
Qed.

Lemma sample_unit o q : normalize_sample o = Ok q ->
  unit_quat q /\ 0 <= qw q /\ exists c, c <> 0 /\ o = Q (c * qw q) (c * qx q) (c * qy q) (c * qz q).
Proof.
  unfold normalize_sample. set (d := copysign _ _). destruct (Reqb_spec d 0) as [|N]; [discriminate|]. intros H; injection H as <-.
  assert (D : d * d = qnorm2 o).
  { pose proof (sqrt_sqrt _ (qnorm2_nonneg o)) as S. unfold d, copysign. destruct (eqb _ _); lra. }
  assert (W : 0 <= qw o / d).
  { pose proof (sqrt_pos (qnorm2 o)) as S0. unfold d, copysign in *.
    destruct (Rltb_spec (sqrt (qnorm2 o)) 0) as [A|A]; [lra|]. destruct (Rltb_spec (qw o) 0) as [B|B]; cbn [eqb] in *.
    - replace (qw o / - sqrt (qnorm2 o)) with ((- qw o) / sqrt (qnorm2 o)) by (field; lra).
      apply Rmult_le_pos; [lra|]. apply Rlt_le, Rinv_0_lt_compat. lra.
    - apply Rmult_le_pos; [lra|]. apply Rlt_le, Rinv_0_lt_compat. lra. }
  cbn [qw qx qy qz]. split; [|split; [exact W|]].
  - unfold unit_quat. cbn [qw qx qy qz]. replace (_ + _) with (qnorm2 o / (d * d)) by (unfold qnorm2; field; exact N). rewrite <- D. field. exact N.
  - exists d. split; [exact N|]. destruct o as [a b c e]. cbn [qw qx qy qz]. f_equal; field; exact N.
Qed.
Lemma qtaa_minus_one : quaternion_to_axis_angle (Q (-1) 0 0 0) = Fail ERuntime.
Proof.
  unfold quaternion_to_axis_angle. cbn [qw qx qy qz]. rewrite norm3_0.
  assert (A : atan2 0 (-1) = PI).
  { unfold atan2. destruct (Rltb_spec 0 (-1)); [lra|]. destruct (Rltb_spec (-1) 0); [|lra].
    destruct (Rltb_spec 0 0); [lra|]. replace (0 / -1) with 0 by field. rewrite atan_0. ring. }
  rewrite A. destruct (Reqb_spec (/ 2 * sinc_pi PI) 0) as [|N]; [reflexivity|]. exfalso. apply N.
  unfold sinc_pi. pose proof PI_RGT_0. destruct (Reqb_spec PI 0); [lra|]. rewrite sin_PI. field. lra.
Qed.

Lemma clampR_minmax x lo hi : lo <= hi -> clampR x lo hi = Rmax lo (Rmin x hi).
Proof.
  intros H. unfold clampR. destruct (Rleb_spec x lo).
  - rewrite Rmax_left; [reflexivity|]. pose proof (Rmin_l x hi). lra.
  - destruct (Rleb_spec hi x); [rewrite Rmin_right, Rmax_right by lra; reflexivity|rewrite Rmin_left, Rmax_right by lra; reflexivity].
Qed.
Lemma extrap_spec lo hi : -1 < lo -> lo <= hi -> hi < 1 -> exists f,
  (forall x, acos_linear_extrapolation x lo hi = Ok (f x)) /\ (forall x, lo <= x <= hi -> f x = acos x) /\
  continuity f /\ (forall x y, x < y -> f y < f x) /\
  (forall x, derivable_pt_lim f x (- / sqrt (1 - Rmax lo (Rmin x hi) * Rmax lo (Rmin x hi)))).
Proof.
  intros H1 H2 H3. exists (extrap lo hi). split; [intros; apply extrap_ok; assumption|]. split; [apply extrap_inside|].
  split; [apply derivable_continuous; intros x; eexists; apply extrap_deriv; assumption|].
  split; [intros; apply extrap_decreasing; assumption|]. intros x. pose proof (extrap_deriv lo hi x H1 H2 H3) as D.
  rewrite clampR_minmax in D by exact H2. unfold dacos_dx in D. revert D. generalize (sqrt (1 - Rmax lo (Rmin x hi) * Rmax lo (Rmin x hi))). intros q D.
  replace (- / q) with (-1 / q) by (unfold Rdiv; ring). exact D.
Qed.

Lemma sinc_even x : sinc_pi (- x) = sinc_pi x.
Proof. unfold sinc_pi. destruct (Reqb_spec (- x) 0), (Reqb_spec x 0); try lra. rewrite sin_neg. field. assumption. Qed.
Lemma quat_turn k t m u : dot3 k k = 1 ->
  quaternion_to_matrix (Q (cos (t / 2)) (sin (t / 2) * x3 k) (sin (t / 2) * y3 k) (sin (t / 2) * z3 k)) = Ok m ->
  act m u = turn k t u.
Proof.
  intros K H. apply (exp_scaled k t false m u K). unfold axis_angle_to_matrix. rewrite <- H. f_equal.
  assert (Nk : norm3 k = 1) by (apply norm3_unique; [lra|rewrite K; ring]).
  unfold axis_angle_to_quaternion. rewrite norm3_scal, Nk, Rmult_1_r.
  assert (S : sinc_pi (Rabs t * / 2) = sinc_pi (t / 2)).
  { unfold Rabs. destruct (Rcase_abs t); [|reflexivity]. replace (- t * / 2) with (- (t / 2)) by field. apply sinc_even. }
  assert (C : cos (Rabs t * / 2) = cos (t / 2)).
  { unfold Rabs. destruct (Rcase_abs t); [|reflexivity]. replace (- t * / 2) with (- (t / 2)) by field. apply cos_neg. }
  rewrite S, C, <- (sinc_mul (t / 2)). unfold scal3. cbm. f_equal; field.
Qed.

Lemma residual_perp a b : norm_eps <= norm3 a -> residual a b = perp a b.
Proof.
  intros H. assert (0 < norm_eps) by (unfold norm_eps; apply Rinv_0_lt_compat; lra).
  unfold residual, perp, normalize. rewrite Rmax_left by exact H. rewrite <- norm3_sq. set (n := norm3 a) in *. clearbody n.
  f_equal. destruct a, b. unfold scal3, dot3. cbm. apply V3_eq; field; lra.
Qed.
Lemma sixd_rotation' a b : norm_eps <= norm3 a -> norm_eps <= norm3 (perp a b) ->
  rotation (rotation_6d_to_matrix a b) /\
  exists p q r, 0 < p /\ 0 < r /\ a = scal3 p (mrow (rotation_6d_to_matrix a b) 0) /\
    b = add3 (scal3 q (mrow (rotation_6d_to_matrix a b) 0)) (scal3 r (mrow (rotation_6d_to_matrix a b) 1)).
Proof. intros H1 H2. rewrite <- residual_perp in H2 by exact H1. apply sixd_rotation; assumption. Qed.

Lemma se3_exp_rigid lt lr eps : 0 < eps -> exists t r p, se3_exp_map lt lr eps = Ok t /\ so3_exp_map lr = Ok r /\ is_rigid t r p.
Proof.
  intros He. destruct (se3_exp_total lt lr eps He) as (r & Hr & Ht).
  exists (rigid r (mulv3 (se3_V lr (clamped_angle lr eps)) lt)), r, (mulv3 (se3_V lr (clamped_angle lr eps)) lt).
  split; [exact Ht|]. split; [exact Hr|]. destruct (rigid_parts r (mulv3 (se3_V lr (clamped_angle lr eps)) lt)) as (B & Z0 & Z1 & Z2 & T & W).
  repeat split; try assumption; apply (aatm_rotation lr false r Hr).
Qed.
Lemma mulv3_act m v : mulv3 m v = act m v.
Proof. destruct m, v. unfold mulv3, vmul3, tr3, act. cbm. apply V3_eq; ring. Qed.
Lemma se3_exp_screw lt lr eps t r p : 0 < eps -> eps <= dot3 lr lr ->
  se3_exp_map lt lr eps = Ok t -> so3_exp_map lr = Ok r -> is_rigid t r p ->
  cross3 lr p = sub3 (act r lt) lt /\ dot3 lr p = dot3 lr lt.
Proof.
  intros He Hd Ht Hr (_ & _ & Hp & _). destruct (se3_exp_total lt lr eps He) as (r' & Hr' & Ht').
  assert (r' = r) by congruence. subst r'. rewrite Ht' in Ht. injection Ht as <-.
  destruct (rigid_parts r (mulv3 (se3_V lr (clamped_angle lr eps)) lt)) as (_ & _ & _ & _ & T & _). rewrite T in Hp. subst p.
  destruct (se3_V_char lr eps r He Hd Hr) as (V1 & V2). split.
  - rewrite mulv3_act, <- hat_cross, <- act_mul. rewrite <- V1. generalize (mul3 (hat lr) (se3_V lr (clamped_angle lr eps))).
    intros m. destruct m, lt. unfold act, madd3, id3, sub3. cbm. apply V3_eq; ring.
  - rewrite se3_V_kmat, kmat_eq. generalize ((1 - cos (clamped_angle lr eps)) / (clamped_angle lr eps * clamped_angle lr eps))
      ((clamped_angle lr eps - sin (clamped_angle lr eps)) / (clamped_angle lr eps * clamped_angle lr eps * clamped_angle lr eps)).
    intros a b. destruct lr, lt. unfold mulv3, vmul3, tr3, dot3. cbm. ring.
Qed.
Lemma se3_zero lt eps t : 0 < eps -> se3_exp_map lt (V3 0 0 0) eps = Ok t -> is_rigid t id3 lt.
Proof.
  intros He Ht. destruct (se3_exp_total lt (V3 0 0 0) eps He) as (r & Hr & Ht'). rewrite Ht' in Ht. injection Ht as <-.
  unfold so3_exp_map in Hr. rewrite aatm_zero in Hr. injection Hr as <-.
  set (p := mulv3 _ lt). destruct (rigid_parts id3 p) as (B & Z0 & Z1 & Z2 & T & W).
  repeat split; try assumption; try apply rotation_id. rewrite T. unfold p. rewrite se3_V_kmat, kmat_eq.
  generalize ((1 - cos (clamped_angle (V3 0 0 0) eps)) / (clamped_angle (V3 0 0 0) eps * clamped_angle (V3 0 0 0) eps))
   ((clamped_angle (V3 0 0 0) eps - sin (clamped_angle (V3 0 0 0) eps)) / (clamped_angle (V3 0 0 0) eps * clamped_angle (V3 0 0 0) eps * clamped_angle (V3 0 0 0) eps)).
  intros a b. destruct lt. unfold mulv3, vmul3, tr3. cbm. apply V3_eq; ring.
Qed.
Lemma clamp_agree lr eps : (eps = / 10000 \/ (eps <= len lr * len lr /\ / 10000 <= len lr * len lr)) ->
  clamped_angle lr eps = clamped_angle lr (/ 10000).
Proof.
  intros [->|[H1 H2]]; [reflexivity|]. rewrite len_norm3, norm3_sq in H1, H2. unfold clamped_angle.
  rewrite !Rmax_left by assumption. reflexivity.
Qed.
Lemma se3_log_bad t eps : (/ 100000000 < Rabs (n03 t) \/ / 100000000 < Rabs (n13 t) \/ / 100000000 < Rabs (n23 t)) -> se3_log_map t eps = Fail EValue.
Proof.
  intros H. unfold se3_log_map.
  destruct (Rleb_spec (Rabs (n03 t)) (/ 100000000)); [|reflexivity].
  destruct (Rleb_spec (Rabs (n13 t)) (/ 100000000)); [|reflexivity].
  destruct (Rleb_spec (Rabs (n23 t)) (/ 100000000)); [|reflexivity]. lra.
Qed.
