From Verif Require Import Base RBase Geom LinAlg Transform Rotation RotationSpec RotationProofs RotationProofs2 RotationProofs3 RotationProofs4 RotationProofs5.
From Coq Require Import Ranalysis5.
Local Open Scope R_scope.

Ltac cbm := cbn [m00 m01 m02 m10 m11 m12 m20 m21 m22 x3 y3 z3].

(* ---- SE(3) ---- *)
Definition kmat (v : vec3) (s c : R) : mat3 := madd3 (madd3 id3 (mscal3 s (hat v))) (mscal3 c (mul3 (hat v) (hat v))).

Lemma se3_V_kmat v a : se3_V v a = kmat v ((1 - cos a) / (a * a)) ((a - sin a) / (a * a * a)).
Proof. reflexivity. Qed.
Lemma kmat_eq v s c : kmat v s c =
  M3 (1 - c * (y3 v * y3 v + z3 v * z3 v)) (c * (x3 v * y3 v) - s * z3 v) (c * (x3 v * z3 v) + s * y3 v)
     (c * (x3 v * y3 v) + s * z3 v) (1 - c * (x3 v * x3 v + z3 v * z3 v)) (c * (y3 v * z3 v) - s * x3 v)
     (c * (x3 v * z3 v) - s * y3 v) (c * (y3 v * z3 v) + s * x3 v) (1 - c * (x3 v * x3 v + y3 v * y3 v)).
Proof. unfold kmat, hat. unfold mul3. cbm. unfold mscal3. cbm. unfold madd3, id3. cbm. apply M3_eq; ring. Qed.
Lemma kmat_det v s c : det3 (kmat v s c) = (1 - c * dot3 v v) * (1 - c * dot3 v v) + s * s * dot3 v v.
Proof. rewrite kmat_eq. unfold det3, dot3. cbm. ring. Qed.
Lemma kmat_mul v s c s' c' : mul3 (kmat v s c) (kmat v s' c') =
  kmat v (s + s' - dot3 v v * (s * c' + c * s')) (c + c' + s * s' - dot3 v v * (c * c')).
Proof. rewrite !kmat_eq. unfold mul3, dot3. cbm. apply M3_eq; ring. Qed.
Lemma hat_kmat v s c : mul3 (hat v) (kmat v s c) =
  madd3 (kmat v (1 - dot3 v v * c) s) (mscal3 (-1) id3).
Proof. rewrite !kmat_eq. unfold mul3, hat, madd3, mscal3, id3, dot3. cbm. apply M3_eq; ring. Qed.
Lemma kmat_tr v s c : tr3 (kmat v s c) = kmat v (- s) c.
Proof. rewrite !kmat_eq. unfold tr3. cbm. apply M3_eq; ring. Qed.
Lemma kmat_neg v s c : kmat (scal3 (-1) v) s c = kmat v (- s) c.
Proof. rewrite !kmat_eq. unfold scal3. cbm. apply M3_eq; ring. Qed.

Lemma exp_kmat v m : so3_exp_map v = Ok m -> norm3 v <> 0 ->
  m = kmat v (sin (norm3 v) / norm3 v) ((1 - cos (norm3 v)) / (norm3 v * norm3 v)).
Proof.
  unfold so3_exp_map. intros H Hn. rewrite aatm_fast_slow in H. cbn in H. injection H as <-.
  unfold axis_angle_to_matrix_fast, kmat. set (a := norm3 v) in *.
  destruct (Reqb_spec (a * a) 0); [nra|]. unfold sinc_pi. destruct (Reqb_spec a 0); [contradiction|]. reflexivity.
Qed.

Lemma clamped_cases v eps : 0 < eps ->
  (eps <= dot3 v v /\ clamped_angle v eps = norm3 v /\ 0 < norm3 v) \/
  (dot3 v v < eps /\ clamped_angle v eps = sqrt eps /\ norm3 v < sqrt eps).
Proof.
  intros He. unfold clamped_angle. destruct (Rle_or_lt eps (dot3 v v)) as [L|L].
  - left. split; [exact L|]. rewrite Rmax_left by exact L. split; [reflexivity|]. unfold norm3. apply sqrt_lt_R0. lra.
  - right. split; [exact L|]. rewrite Rmax_right by lra. split; [reflexivity|]. unfold norm3. apply sqrt_lt_1; try lra.
    unfold dot3. nra.
Qed.

Lemma sqrt_1e4 : sqrt (/ 10000) = / 100.
Proof. replace (/ 10000) with (/ 100 * / 100) by field. apply sqrt_square. lra. Qed.

Lemma se3_V_det v : norm3 v <= PI -> 0 < det3 (se3_V v (clamped_angle v (/ 10000))).
Proof.
  intros Hv. rewrite se3_V_kmat, kmat_det. pose proof (norm3_sq v) as N. pose proof (norm3_nonneg v) as N0.
  pose proof PI_RGT_0 as HP. rewrite <- N.
  destruct (clamped_cases v (/ 10000) ltac:(lra)) as [(H1 & -> & H3)|(H1 & -> & H3)].
  - set (a := norm3 v) in *. clearbody a.
    replace (_ + _) with (2 * (1 - cos a) / (a * a)).
    + apply Rdiv_lt_0_compat; [|nra]. assert (cos a < 1); [|lra]. rewrite <- cos_0. apply cos_decreasing_1; lra.
    + pose proof (sin2_cos2 a) as T. unfold Rsqr in T. set (s := sin a) in *. set (c := cos a) in *.
      assert (T' : s * s = 1 - c * c) by lra.
      replace ((1 - (a - s) / (a * a * a) * (a * a)) * (1 - (a - s) / (a * a * a) * (a * a)) + (1 - c) / (a * a) * ((1 - c) / (a * a)) * (a * a))
        with ((s * s + (1 - c) * (1 - c)) / (a * a)) by (field; lra).
      rewrite T'. field. lra.
  - rewrite sqrt_1e4 in *. set (a := norm3 v) in *. clearbody a.
    assert (Sp : 0 < sin (/ 100)) by (apply sin_gt_0; [lra|]; pose proof PI2_1; unfold PI2 in *; lra).
    set (s := sin (/ 100)) in *. set (A := (1 - cos (/ 100)) / (/ 100 * / 100)).
    assert (0 <= A * A * (a * a)) by (apply Rmult_le_pos; nra).
    assert (0 < 1 - (/ 100 - s) / (/ 100 * / 100 * / 100) * (a * a)).
    { assert (X : a * a <= / 100 * / 100) by nra.
      destruct (Rle_or_lt (/ 100) s) as [L|L].
      - assert ((/ 100 - s) / (/ 100 * / 100 * / 100) * (a * a) <= 0); [|lra].
        unfold Rdiv. assert (0 < / (/ 100 * / 100 * / 100)) by (apply Rinv_0_lt_compat; lra).
        assert ((/ 100 - s) * / (/ 100 * / 100 * / 100) <= 0) by nra. assert (0 <= a * a) by nra. nra.
      - assert ((/ 100 - s) / (/ 100 * / 100 * / 100) * (a * a) <= (/ 100 - s) / (/ 100 * / 100 * / 100) * (/ 100 * / 100)).
        { apply Rmult_le_compat_l; [|exact X]. unfold Rdiv. apply Rmult_le_pos; [lra|]. apply Rlt_le, Rinv_0_lt_compat. lra. }
        replace ((/ 100 - s) / (/ 100 * / 100 * / 100) * (/ 100 * / 100)) with (1 - 100 * s) in H0 by field. lra. }
    nra.
Qed.

Lemma exp_total v : exists m, so3_exp_map v = Ok m.
Proof. apply aatm_total. Qed.

Lemma clamp_pos v eps : 0 < eps -> 0 < clamped_angle v eps.
Proof. intros H. unfold clamped_angle. apply sqrt_lt_R0. pose proof (Rmax_r (dot3 v v) eps). lra. Qed.

Lemma se3_exp_total lt lr eps : 0 < eps -> exists r, so3_exp_map lr = Ok r /\
  se3_exp_map lt lr eps = Ok (rigid r (mulv3 (se3_V lr (clamped_angle lr eps)) lt)).
Proof.
  intros He. destruct (exp_total lr) as [r Hr]. exists r. split; [exact Hr|]. unfold se3_exp_map. rewrite Hr. cbn [rbind].
  destruct (Reqb_spec (clamped_angle lr eps) 0) as [E|E]; [|reflexivity]. pose proof (clamp_pos lr eps He). lra.
Qed.

Lemma rigid_parts r t : block3 (rigid r t) = tr3 r /\ n03 (rigid r t) = 0 /\ n13 (rigid r t) = 0 /\ n23 (rigid r t) = 0 /\
  V3 (n30 (rigid r t)) (n31 (rigid r t)) (n32 (rigid r t)) = t /\ n33 (rigid r t) = 1.
Proof. destruct r, t. repeat split. Qed.

Lemma small_zero : Rleb (Rabs 0) (/ 100000000) = true.
Proof. rewrite Rabs_R0. destruct (Rleb_spec 0 (/ 100000000)) as [|H]; [reflexivity|]. exfalso. apply H. lra. Qed.

Lemma mulv3_id v : mulv3 id3 v = v.
Proof. destruct v. unfold mulv3, vmul3, tr3, id3, dot3. cbm. apply V3_eq; ring. Qed.

Lemma se3_log_exp lt lr eps eps' t : norm3 lr < PI ->
  clamped_angle lr eps = clamped_angle lr (/ 10000) ->
  se3_exp_map lt lr eps = Ok t -> se3_log_map t eps' = Ok (lt, lr).
Proof.
  intros Hv Hc H. unfold se3_exp_map in H. destruct (so3_exp_map lr) as [r|] eqn:Hr; [|discriminate]. cbn [rbind] in H.
  rewrite Hc in H. destruct (Reqb _ 0); [discriminate|]. injection H as <-.
  set (p := mulv3 (se3_V lr (clamped_angle lr (/ 10000))) lt).
  destruct (rigid_parts r p) as (B & Z0 & Z1 & Z2 & T & _). unfold se3_log_map. rewrite Z0, Z1, Z2, small_zero. cbn [andb].
  rewrite B, tr3_tr. unfold so3_log_map. rewrite (aatm_mtaa lr false r Hv Hr). cbn [rbind].
  pose proof (se3_V_det lr ltac:(lra)) as D. set (V := se3_V _ _) in *.
  destruct (inv3_defined V ltac:(lra)) as [W HW]. rewrite HW. cbn [rbind]. rewrite T. unfold p.
  destruct (inv3_ok _ _ HW) as (_ & _ & L). rewrite <- mulv3_mul, L, mulv3_id. reflexivity.
Qed.

Lemma se3_exp_log t eps : rotation (block3 t) -> n03 t = 0 -> n13 t = 0 -> n23 t = 0 -> n33 t = 1 ->
  exists lt lr, se3_log_map t eps = Ok (lt, lr) /\ norm3 lr <= PI /\ se3_exp_map lt lr (/ 10000) = Ok t.
Proof.
  intros R Z0 Z1 Z2 Z3. unfold se3_log_map. rewrite Z0, Z1, Z2, small_zero. cbn [andb].
  pose proof (rotation_tr _ R) as R'. destruct (mtaa_total _ R') as [lr Hl]. unfold so3_log_map. rewrite Hl. cbn [rbind].
  pose proof (mtaa_range _ _ R' Hl) as Hn. pose proof (se3_V_det lr Hn) as D. set (V := se3_V _ _) in *.
  destruct (inv3_defined V ltac:(lra)) as [W HW]. rewrite HW. cbn [rbind].
  exists (mulv3 W (V3 (n30 t) (n31 t) (n32 t))), lr. split; [reflexivity|]. split; [exact Hn|].
  unfold se3_exp_map. unfold so3_exp_map. rewrite (mtaa_roundtrip _ _ false R' Hl). cbn [rbind].
  destruct (Reqb_spec (clamped_angle lr (/ 10000)) 0) as [E|E]; [pose proof (clamp_pos lr (/ 10000) ltac:(lra)); lra|].
  f_equal. fold V. destruct (inv3_ok _ _ HW) as (_ & L & _). rewrite <- mulv3_mul, L, mulv3_id.
  destruct t. unfold rigid, tr3, block3. cbn in *. subst. reflexivity.
Qed.

(* V integrates the rotation: hat(v) V = R - I, and V fixes v *)
Lemma se3_V_char v eps r : 0 < eps -> eps <= dot3 v v -> so3_exp_map v = Ok r ->
  madd3 (mul3 (hat v) (se3_V v (clamped_angle v eps))) id3 = r /\ mulv3 (se3_V v (clamped_angle v eps)) v = v.
Proof.
  intros He Hd Hr. destruct (clamped_cases v eps He) as [(_ & -> & Hn)|(H & _)]; [|lra].
  rewrite (exp_kmat v r Hr) by lra. rewrite se3_V_kmat, hat_kmat. pose proof (norm3_sq v) as N. rewrite <- N.
  set (a := norm3 v) in *. split.
  - replace (1 - a * a * ((a - sin a) / (a * a * a))) with (sin a / a) by (field; lra).
    generalize (kmat v (sin a / a) ((1 - cos a) / (a * a))). intros [? ? ? ? ? ? ? ? ?]. unfold madd3, mscal3, id3. cbm. apply M3_eq; ring.
  - clearbody a. rewrite kmat_eq. destruct v. unfold mulv3, vmul3, tr3. cbm. apply V3_eq; ring.
Qed.

Lemma rigid_mul r t r' t' : mul4 (rigid r t) (rigid r' t') = rigid (mul3 r' r) (add3 (mulv3 r' t) t').
Proof.
  destruct r, t, r', t'. unfold rigid, mul4, mul3, mulv3, vmul3, tr3, add3. cbm.
  cbn [n00 n01 n02 n03 n10 n11 n12 n13 n20 n21 n22 n23 n30 n31 n32 n33]. apply M4_eq; ring.
Qed.

Lemma se3_exp_neg lt lr eps a b : 0 < eps -> eps <= dot3 lr lr ->
  se3_exp_map lt lr eps = Ok a -> se3_exp_map (scal3 (-1) lt) (scal3 (-1) lr) eps = Ok b -> mul4 a b = id4.
Proof.
  intros He Hd Ha Hb.
  destruct (se3_exp_total lt lr eps He) as (r & Hr & Ha'). destruct (se3_exp_total (scal3 (-1) lt) (scal3 (-1) lr) eps He) as (r' & Hr' & Hb').
  rewrite Ha' in Ha. injection Ha as <-. rewrite Hb' in Hb. injection Hb as <-.
  rewrite rigid_mul. rewrite (exp_neg lr r r' Hr Hr').
  destruct (aatm_rotation lr false r Hr) as [Rr _]. pose proof (mul3_inv_comm _ _ Rr) as I. rewrite I.
  replace (add3 _ _) with (V3 0 0 0); [unfold rigid, id3, id4; cbm; reflexivity|].
  assert (Dn : dot3 (scal3 (-1) lr) (scal3 (-1) lr) = dot3 lr lr) by (unfold dot3, scal3; cbm; ring).
  unfold clamped_angle at 2. rewrite Dn. fold (clamped_angle lr eps).
  destruct (clamped_cases lr eps He) as [(_ & -> & Hn)|(H & _)]; [|lra].
  rewrite (exp_kmat lr r Hr) by lra. rewrite !se3_V_kmat, kmat_tr, kmat_neg, <- mulv3_mul, kmat_mul.
  pose proof (norm3_sq lr) as N. rewrite <- N. set (a := norm3 lr) in *. clearbody a.
  pose proof (sin2_cos2 a) as T. unfold Rsqr in T. set (s := sin a) in *. set (c := cos a) in *. clearbody s c.
  replace (- (s / a) + (1 - c) / (a * a) - a * a * (- (s / a) * ((a - s) / (a * a * a)) + (1 - c) / (a * a) * ((1 - c) / (a * a))))
    with (- ((1 - c) / (a * a))).
  2:{ assert (X : - (s / a) + (1 - c) / (a * a) - a * a * (- (s / a) * ((a - s) / (a * a * a)) + (1 - c) / (a * a) * ((1 - c) / (a * a)))
                  = ((1 - c) - s * s - (1 - c) * (1 - c)) / (a * a)) by (field; lra).
      rewrite X. replace (s * s) with (1 - c * c) by lra. field. lra. }
  replace ((1 - c) / (a * a) + (a - s) / (a * a * a) + - (s / a) * ((1 - c) / (a * a)) - a * a * ((1 - c) / (a * a) * ((a - s) / (a * a * a))))
    with ((a - s) / (a * a * a)) by (field; lra).
  generalize (kmat lr (- ((1 - c) / (a * a))) ((a - s) / (a * a * a))). intros k.
  destruct k, lt. unfold add3, mulv3, vmul3, tr3, scal3. cbm. apply V3_eq; ring.
Qed.

(* ---- the fast logarithm ---- *)
Lemma rows_exp v m : so3_exp_map v = Ok m ->
  V3 (m21 m - m12 m) (m02 m - m20 m) (m10 m - m01 m) = scal3 (2 * sinc_pi (norm3 v)) v.
Proof.
  unfold so3_exp_map. rewrite aatm_fast_slow. cbn [axis_angle_to_matrix]. intros H. injection H as <-.
  unfold axis_angle_to_matrix_fast. generalize (sinc_pi (norm3 v)) ((1 - cos (norm3 v)) / (if Reqb (norm3 v * norm3 v) 0 then 1 else norm3 v * norm3 v)).
  intros s c. destruct v. unfold madd3, mscal3, mul3, hat, id3, scal3. cbm. apply V3_eq; ring.
Qed.
Lemma fast_angle_exp v m : norm3 v <= PI -> so3_exp_map v = Ok m -> fast_angle m = norm3 v.
Proof.
  intros Hv H. unfold fast_angle. rewrite (rows_exp v m H), (exp_trace v false m H), norm3_scal.
  pose proof (norm3_nonneg v) as N0. set (a := norm3 v) in *.
  assert (S : Rabs (2 * sinc_pi a) * a = 2 * sin a).
  { destruct (Req_dec a PI) as [E|E].
    - rewrite E. unfold sinc_pi. pose proof PI_RGT_0. destruct (Reqb_spec PI 0); [lra|]. rewrite sin_PI.
      replace (2 * (0 / PI)) with 0 by (field; lra). rewrite Rabs_R0. ring.
    - rewrite Rabs_right; [|assert (0 < sinc_pi a) by (apply sinc_pos; lra); lra]. rewrite <- sinc_mul. ring. }
  rewrite S. replace (1 + 2 * cos a - 1) with (2 * cos a) by ring. apply atan2_eq; pose proof PI_RGT_0; lra.
Qed.
Lemma isclose_zero a : 0 <= a -> isclose a 0 = true -> a <= / 100000000.
Proof.
  intros Ha H. unfold isclose in H. apply Rleb_true in H. rewrite Rabs_R0, Rminus_0_r, Rabs_right in H by lra. lra.
Qed.

(* away from pi: every element of the batch gets its logarithm, or 0 when the angle is below 1e-8 *)
Lemma fast_log_ok ms : Forall rotation ms -> Forall (fun m => near_pi m = false) ms ->
  exists vs, matrix_to_axis_angle_fast ms = Ok vs /\
    Forall2 (fun m v => exists w, so3_log_map m = Ok w /\ (v = w \/ (v = V3 0 0 0 /\ norm3 w <= / 100000000))) ms vs.
Proof.
  intros FR FN. unfold matrix_to_axis_angle_fast.
  generalize (sqrt (fold_right (fun m s => dot3 (fast_row m) (fast_row m) + s) 0 (filter near_pi ms))). intros total.
  induction FR as [|m ms R FR IH]; [exists []; split; [reflexivity|constructor]|].
  apply Forall_cons_iff in FN. destruct FN as [Np FN]. destruct (IH FN) as (vs & E & F2). cbn [rmap]. rewrite Np.
  destruct (mtaa_total m R) as [w Hw]. pose proof (mtaa_roundtrip m w false R Hw) as He. pose proof (mtaa_range m w R Hw) as Hr.
  pose proof (fast_angle_exp w m Hr He) as Fa. pose proof (rows_exp w m He) as Ro. pose proof (norm3_nonneg w) as N0.
  unfold near_pi in Np. rewrite Fa in *.
  assert (Hlt : norm3 w <> PI).
  { intros X. rewrite X in Np. unfold isclose in Np. destruct (Rleb_spec (Rabs (PI - PI)) (/ 100000000 + / 100000 * Rabs PI)) as [|Y]; [discriminate|].
    apply Y. rewrite Rminus_diag_eq, Rabs_R0 by reflexivity. pose proof (Rabs_pos PI). lra. }
  assert (Sp : 0 < sinc_pi (norm3 w)) by (apply sinc_pos; lra).
  destruct (Reqb_spec (sinc_pi (norm3 w)) 0); [lra|].
  destruct (isclose (norm3 w) 0) eqn:C.
  - exists (scal3 (/ 2 / sinc_pi (norm3 w)) (V3 0 0 0) :: vs). cbn [rbind] in *. rewrite E. split; [reflexivity|].
    constructor; [|exact F2]. exists w. split; [exact Hw|]. right. split; [unfold scal3; cbm; apply V3_eq; ring|apply isclose_zero; assumption].
  - exists (w :: vs). rewrite Ro. cbn [rbind] in *. rewrite E. split.
    + cbn. f_equal. f_equal. revert Sp. generalize (sinc_pi (norm3 w)). intros s Sp. destruct w. unfold scal3. cbm. apply V3_eq; field; lra.
    + constructor; [|exact F2]. exists w. split; [exact Hw|left; reflexivity].
Qed.
