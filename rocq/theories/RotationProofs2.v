From Verif Require Import Base RBase Geom LinAlg Transform Rotation RotationSpec RotationProofs.
Local Open Scope R_scope.

(* q (x) q is determined by the matrix *)
Definition outer (m : mat3) (q : quat) : Prop :=
  4 * (qw q * qw q) = 1 + m00 m + m11 m + m22 m /\
  4 * (qx q * qx q) = 1 + m00 m - m11 m - m22 m /\
  4 * (qy q * qy q) = 1 - m00 m + m11 m - m22 m /\
  4 * (qz q * qz q) = 1 - m00 m - m11 m + m22 m /\
  4 * (qw q * qx q) = m21 m - m12 m /\
  4 * (qw q * qy q) = m02 m - m20 m /\
  4 * (qw q * qz q) = m10 m - m01 m /\
  4 * (qx q * qy q) = m10 m + m01 m /\
  4 * (qx q * qz q) = m02 m + m20 m /\
  4 * (qy q * qz q) = m12 m + m21 m.

Lemma outer_matrix m q : outer m q -> unit_quat q /\ quaternion_to_matrix q = Ok m.
Proof.
  intros H. unfold outer in H.
  assert (U : unit_quat q) by (unfold unit_quat; lra).
  split; [exact U|]. rewrite qtm_unit by exact U. f_equal.
  destruct m as [a b c d e f g h i], q as [w x y z]. unfold qmat.
  cbn [qw qx qy qz m00 m01 m02 m10 m11 m12 m20 m21 m22] in *. unfold unit_quat in U. cbn [qw qx qy qz] in U.
  apply M3_eq; lra.
Qed.

Lemma matrix_outer m q : unit_quat q -> quaternion_to_matrix q = Ok m -> outer m q.
Proof.
  intros U H. rewrite qtm_unit in H by exact U. injection H as <-.
  destruct q as [w x y z]. unfold outer, qmat, unit_quat in *.
  cbn [qw qx qy qz m00 m01 m02 m10 m11 m12 m20 m21 m22] in *. repeat split; lra.
Qed.

Lemma outer_neg m q : outer m q -> outer m (neg_quat q).
Proof. unfold outer, neg_quat. cbn [qw qx qy qz]. intros H. repeat split; lra. Qed.

Lemma outer_unique m q q' : outer m q -> outer m q' -> q = q' \/ q = neg_quat q'.
Proof.
  intros H H'. destruct q as [w x y z], q' as [a b c d]. unfold outer, neg_quat in *. cbn [qw qx qy qz] in *.
  assert (W : w * w = a * a) by lra. assert (X : x * x = b * b) by lra.
  assert (Y : y * y = c * c) by lra. assert (Z : z * z = d * d) by lra.
  assert (WX : w * x = a * b) by lra. assert (WY : w * y = a * c) by lra. assert (WZ : w * z = a * d) by lra.
  assert (XY : x * y = b * c) by lra. assert (XZ : x * z = b * d) by lra. assert (YZ : y * z = c * d) by lra.
  clear H H'.
  assert (S : forall u v, u * u = v * v -> u = v \/ u = - v).
  { intros u v E. assert ((u - v) * (u + v) = 0) by lra. apply Rmult_integral in H. destruct H; [left|right]; lra. }
  assert (Can : forall u v k, k <> 0 -> k * u = k * v -> u = v) by (intros u v k Hk E; apply (Rmult_eq_reg_l k); assumption).
  destruct (Req_dec w 0) as [Hw|Hw].
  - assert (Ha : a = 0) by nra. subst w a. destruct (Req_dec x 0) as [Hx|Hx].
    + assert (Hb : b = 0) by nra. subst x b. destruct (Req_dec y 0) as [Hy|Hy].
      * assert (Hc : c = 0) by nra. subst y c. destruct (S z d Z) as [-> | ->]; [left; reflexivity|right; f_equal; ring].
      * destruct (S y c Y) as [-> | ->]; [left|right]; f_equal; try ring; apply (Can _ _ _ Hy); lra.
    + destruct (S x b X) as [-> | ->]; [left|right]; f_equal; try ring; apply (Can _ _ _ Hx); lra.
  - destruct (S w a W) as [-> | ->]; [left|right]; f_equal; try ring; apply (Can _ _ _ Hw); lra.
Qed.

Lemma four_nonneg m : rot_rel m ->
  0 <= 1 + m00 m + m11 m + m22 m /\ 0 <= 1 + m00 m - m11 m - m22 m /\
  0 <= 1 - m00 m + m11 m - m22 m /\ 0 <= 1 - m00 m - m11 m + m22 m.
Proof.
  intros H. pose proof (rot_four m H) as F. cbv zeta in F.
  destruct F as ((A1 & A2 & A3) & (B1 & B2 & B3) & _).
  set (s0 := 1 + m00 m + m11 m + m22 m) in *. set (s1 := 1 + m00 m - m11 m - m22 m) in *.
  set (s2 := 1 - m00 m + m11 m - m22 m) in *. set (s3 := 1 - m00 m - m11 m + m22 m) in *.
  assert (S : s0 + s1 + s2 + s3 = 4) by (unfold s0, s1, s2, s3; ring).
  assert (P : forall a b c, a * b = c * c -> 0 <= a * b) by (intros a b c ->; nra).
  apply P in A1, A2, A3, B1, B2, B3. clearbody s0 s1 s2 s3. clear H.
  assert (N : forall a b, 0 <= a * b -> a < 0 -> b <= 0) by (intros a b Hab Ha; nra).
  repeat split.
  - destruct (Rle_or_lt 0 s0) as [|L]; [assumption|]. pose proof (N _ _ A1 L). pose proof (N _ _ A2 L). pose proof (N _ _ A3 L). lra.
  - destruct (Rle_or_lt 0 s1) as [|L]; [assumption|]. rewrite (Rmult_comm s0 s1) in A1. pose proof (N _ _ A1 L). pose proof (N _ _ B1 L). pose proof (N _ _ B2 L). lra.
  - destruct (Rle_or_lt 0 s2) as [|L]; [assumption|]. rewrite (Rmult_comm s0 s2) in A2. rewrite (Rmult_comm s1 s2) in B1. pose proof (N _ _ A2 L). pose proof (N _ _ B1 L). pose proof (N _ _ B3 L). lra.
  - destruct (Rle_or_lt 0 s3) as [|L]; [assumption|]. rewrite (Rmult_comm s0 s3) in A3. rewrite (Rmult_comm s1 s3) in B2. rewrite (Rmult_comm s2 s3) in B3. pose proof (N _ _ A3 L). pose proof (N _ _ B2 L). pose proof (N _ _ B3 L). lra.
Qed.

Lemma argmax4_spec a b c d :
  match argmax4 a b c d with
  | 0%nat => b <= a /\ c <= a /\ d <= a
  | 1%nat => a <= b /\ c <= b /\ d <= b
  | 2%nat => a <= c /\ b <= c /\ d <= c
  | _ => a <= d /\ b <= d /\ c <= d
  end.
Proof.
  unfold argmax4. destruct (Rltb_spec a b); destruct (Rltb_spec (if true then b else a) c);
  destruct (Rltb_spec a c); destruct (Rltb_spec b c); destruct (Rltb_spec a d); destruct (Rltb_spec b d); destruct (Rltb_spec c d); cbn; try lra.
Qed.

(* candidate i when its diagonal square s is the largest of the four *)
Lemma cand_ok s a : a = sqrt_positive_part s -> 1 <= s ->
  Rmax a (1 / 10) = a /\ a * a = s /\ 0 < a.
Proof.
  intros -> Hs. pose proof (sqrt_pp_sq s ltac:(lra)) as E. pose proof (sqrt_pp_nonneg s) as N.
  assert (1 <= sqrt_positive_part s) by nra. split; [apply Rmax_left; lra|]. split; [exact E|lra].
Qed.

Lemma mtq_outer m : rot_rel m -> outer m (matrix_to_quaternion m).
Proof.
  intros H. pose proof (four_nonneg m H) as (P0 & P1 & P2 & P3). pose proof (rot_four m H) as F. cbv zeta in F.
  unfold matrix_to_quaternion.
  set (s0 := 1 + m00 m + m11 m + m22 m) in *. set (s1 := 1 + m00 m - m11 m - m22 m) in *.
  set (s2 := 1 - m00 m + m11 m - m22 m) in *. set (s3 := 1 - m00 m - m11 m + m22 m) in *.
  set (u1 := m21 m - m12 m) in *. set (u2 := m02 m - m20 m) in *. set (u3 := m10 m - m01 m) in *.
  set (p12 := m10 m + m01 m) in *. set (p13 := m02 m + m20 m) in *. set (p23 := m12 m + m21 m) in *.
  replace (m20 m + m02 m) with p13 by (unfold p13; ring). replace (m21 m + m12 m) with p23 by (unfold p23; ring).
  assert (S : s0 + s1 + s2 + s3 = 4) by (unfold s0, s1, s2, s3; ring).
  assert (Oeq : forall q, (4 * (qw q * qw q) = s0 /\ 4 * (qx q * qx q) = s1 /\ 4 * (qy q * qy q) = s2 /\ 4 * (qz q * qz q) = s3 /\
    4 * (qw q * qx q) = u1 /\ 4 * (qw q * qy q) = u2 /\ 4 * (qw q * qz q) = u3 /\
    4 * (qx q * qy q) = p12 /\ 4 * (qx q * qz q) = p13 /\ 4 * (qy q * qz q) = p23) -> outer m (standardize q)).
  { intros q Hq. destruct (standardize_cases q) as [-> | ->]; [|apply outer_neg]; exact Hq. }
  clear H. cbv zeta.
  pose proof (argmax4_spec (sqrt_positive_part s0) (sqrt_positive_part s1) (sqrt_positive_part s2) (sqrt_positive_part s3)) as A.
  assert (MON : forall x y, 0 <= x -> 0 <= y -> sqrt_positive_part x <= sqrt_positive_part y -> x <= y).
  { intros x y Hx Hy L. rewrite <- (sqrt_pp_sq x Hx), <- (sqrt_pp_sq y Hy).
    pose proof (sqrt_pp_nonneg x). pose proof (sqrt_pp_nonneg y). nra. }
  destruct F as ((A1 & A2 & A3) & (B1 & B2 & B3) & (C1 & C2 & C3) & (D1 & D2 & D3) & (E1 & E2 & E3) & (G1 & G2 & G3)).
  assert (DIV : forall a x y z, 0 < a -> x * y = a * a * z -> 4 * (x / (2 * a) * (y / (2 * a))) = z).
  { intros a x y z Ha E. replace (4 * (x / (2 * a) * (y / (2 * a)))) with (x * y / (a * a)) by (field; lra).
    rewrite E. field. lra. }
  clearbody s0 s1 s2 s3 u1 u2 u3 p12 p13 p23.
  destruct (argmax4 _ _ _ _) as [|[|[|n]]]; destruct A as (L1 & L2 & L3); apply MON in L1, L2, L3; try assumption; apply Oeq.
  - destruct (cand_ok s0 _ eq_refl ltac:(lra)) as (M & Q0 & Pa). rewrite M.
    set (a := sqrt_positive_part s0) in *. cbn [qw qx qy qz]. clearbody a. subst s0.
    repeat split; apply DIV; try exact Pa; nra.
  - destruct (cand_ok s1 _ eq_refl ltac:(lra)) as (M & Q0 & Pa). rewrite M.
    set (a := sqrt_positive_part s1) in *. cbn [qw qx qy qz]. clearbody a. subst s1.
    repeat split; apply DIV; try exact Pa; lra.
  - destruct (cand_ok s2 _ eq_refl ltac:(lra)) as (M & Q0 & Pa). rewrite M.
    set (a := sqrt_positive_part s2) in *. cbn [qw qx qy qz]. clearbody a. subst s2.
    repeat split; apply DIV; try exact Pa; lra.
  - destruct (cand_ok s3 _ eq_refl ltac:(lra)) as (M & Q0 & Pa). rewrite M.
    set (a := sqrt_positive_part s3) in *. cbn [qw qx qy qz]. clearbody a. subst s3.
    repeat split; apply DIV; try exact Pa; lra.
Qed.

Lemma mtq_w m : 0 <= qw (matrix_to_quaternion m).
Proof. unfold matrix_to_quaternion. apply standardize_w. Qed.

Lemma mtq_roundtrip m : rotation m ->
  quaternion_to_matrix (matrix_to_quaternion m) = Ok m /\
  unit_quat (matrix_to_quaternion m) /\ 0 <= qw (matrix_to_quaternion m).
Proof.
  intros H. destruct (outer_matrix _ _ (mtq_outer m (rotation_rel m H))) as (U & E).
  split; [exact E|]. split; [exact U|apply mtq_w].
Qed.

Lemma qtm_mtq q m : unit_quat q -> quaternion_to_matrix q = Ok m ->
  matrix_to_quaternion m = q \/ matrix_to_quaternion m = neg_quat q.
Proof.
  intros U E. apply (outer_unique m); [apply mtq_outer, rotation_rel, (qtm_rotation _ _ E)|apply matrix_outer; assumption].
Qed.
Lemma qtm_mtq_pos q m : unit_quat q -> 0 < qw q -> quaternion_to_matrix q = Ok m -> matrix_to_quaternion m = q.
Proof.
  intros U W E. destruct (qtm_mtq q m U E) as [H|H]; [exact H|].
  pose proof (mtq_w m) as P. rewrite H in P. unfold neg_quat in P. cbn [qw] in P. lra.
Qed.
Lemma qtm_mtq_std q m : unit_quat q -> qw q <> 0 -> quaternion_to_matrix q = Ok m -> matrix_to_quaternion m = standardize q.
Proof.
  intros U W E. apply qtm_mtq_pos; [apply standardize_unit; exact U| |rewrite qtm_standardize; exact E].
  pose proof (standardize_w q). unfold standardize in *. destruct (Rltb_spec (qw q) 0); cbn [qw] in *; lra.
Qed.

(* ---- axis / angle ---- *)
Lemma aatq_unit v : unit_quat (axis_angle_to_quaternion v).
Proof.
  unfold unit_quat, axis_angle_to_quaternion. cbn [qw qx qy qz]. set (a := norm3 v).
  pose proof (norm3_sq v) as N. fold a in N. unfold dot3 in N.
  pose proof (sinc_mul (a * / 2)) as S. set (s := sinc_pi (a * / 2)) in *.
  pose proof (sin2_cos2 (a * / 2)) as T. unfold Rsqr in T. rewrite <- S in T.
  replace ((x3 v * (/ 2 * s)) ^ 2) with ((x3 v * x3 v) * (/ 4 * (s * s))) by field.
  replace ((y3 v * (/ 2 * s)) ^ 2) with ((y3 v * y3 v) * (/ 4 * (s * s))) by field.
  replace ((z3 v * (/ 2 * s)) ^ 2) with ((z3 v * z3 v) * (/ 4 * (s * s))) by field.
  replace (cos (a * / 2) ^ 2 + x3 v * x3 v * (/ 4 * (s * s)) + y3 v * y3 v * (/ 4 * (s * s)) + z3 v * z3 v * (/ 4 * (s * s)))
    with (cos (a * / 2) * cos (a * / 2) + (x3 v * x3 v + y3 v * y3 v + z3 v * z3 v) * (/ 4 * (s * s))) by field.
  rewrite <- N. rewrite <- T. field.
Qed.

Lemma aatm_fast_slow v : axis_angle_to_matrix v false = axis_angle_to_matrix v true.
Proof.
  unfold axis_angle_to_matrix. rewrite qtm_unit by apply aatq_unit. f_equal.
  unfold axis_angle_to_quaternion, axis_angle_to_matrix_fast. cbn [qw qx qy qz].
  set (a := norm3 v). pose proof (norm3_sq v) as N. fold a in N. unfold dot3 in N.
  pose proof (sinc_mul (a * / 2)) as S1. pose proof (sinc_mul a) as S2.
  assert (D1 : sin a = 2 * sin (a * / 2) * cos (a * / 2)) by (replace a with (2 * (a * / 2)) at 1 by field; apply sin_2a).
  assert (D2 : 1 - cos a = 2 * (sin (a * / 2) * sin (a * / 2))) by (replace a with (2 * (a * / 2)) at 1 by field; rewrite cos_2a_sin; ring).
  assert (Sa : sinc_pi a = sinc_pi (a * / 2) * cos (a * / 2)).
  { destruct (Req_dec a 0) as [E|E].
    - rewrite E, Rmult_0_l. unfold sinc_pi. destruct (Reqb_spec 0 0); [rewrite cos_0; ring|congruence].
    - apply (Rmult_eq_reg_l a); [|exact E]. rewrite S2, D1, <- S1. field. }
  assert (Ca : (1 - cos a) / (if Reqb (a * a) 0 then 1 else a * a) * (a * a) = / 2 * (sinc_pi (a * / 2) * sinc_pi (a * / 2)) * (a * a)
               /\ (a = 0 \/ (1 - cos a) / (if Reqb (a * a) 0 then 1 else a * a) = / 2 * (sinc_pi (a * / 2) * sinc_pi (a * / 2)))).
  { destruct (Reqb_spec (a * a) 0) as [E|E].
    - assert (a = 0) by nra. split; [rewrite H; ring|left; exact H].
    - assert (Ha : a <> 0) by (intros X; apply E; rewrite X; ring).
      assert (X : (1 - cos a) / (a * a) = / 2 * (sinc_pi (a * / 2) * sinc_pi (a * / 2))).
      { rewrite D2, <- S1. field. exact Ha. }
      split; [rewrite X; reflexivity|right; exact X]. }
  rewrite Sa. set (s := sinc_pi (a * / 2)) in *. set (c := cos (a * / 2)) in *.
  set (C := (1 - cos a) / (if Reqb (a * a) 0 then 1 else a * a)) in *.
  destruct Ca as [_ [Ha|Ca]].
  - assert (x3 v = 0 /\ y3 v = 0 /\ z3 v = 0) as (X & Y & Z) by (rewrite Ha in N; repeat split; nra).
    unfold qmat, madd3, mscal3, mul3, hat, id3. cbn [m00 m01 m02 m10 m11 m12 m20 m21 m22]. rewrite X, Y, Z.
    apply M3_eq; ring.
  - rewrite Ca. unfold qmat, madd3, mscal3, mul3, hat, id3. cbn [m00 m01 m02 m10 m11 m12 m20 m21 m22].
    apply M3_eq; field.
Qed.

Lemma aatm_rotation v f m : axis_angle_to_matrix v f = Ok m -> rotation m.
Proof.
  intros H. assert (axis_angle_to_matrix v false = Ok m) by (destruct f; [rewrite aatm_fast_slow|]; exact H).
  eapply qtm_rotation. exact H0.
Qed.
Lemma aatm_total v f : exists m, axis_angle_to_matrix v f = Ok m.
Proof. destruct f; [eexists; reflexivity|rewrite aatm_fast_slow; eexists; reflexivity]. Qed.

Lemma qtaa_ok q v : quaternion_to_axis_angle q = Ok v ->
  exists n, n = norm3 (V3 (qx q) (qy q) (qz q)) /\ / 2 * sinc_pi (atan2 n (qw q)) <> 0 /\
    v = scal3 (/ (/ 2 * sinc_pi (atan2 n (qw q)))) (V3 (qx q) (qy q) (qz q)).
Proof.
  unfold quaternion_to_axis_angle. set (n := norm3 _). destruct (Reqb_spec (/ 2 * sinc_pi (atan2 n (qw q))) 0); [discriminate|].
  intros H; injection H as <-. exists n. split; [reflexivity|]. split; [assumption|].
  unfold scal3. cbn [x3 y3 z3]. apply V3_eq; unfold Rdiv; ring.
Qed.

Lemma unit_polar q : unit_quat q -> let n := norm3 (V3 (qx q) (qy q) (qz q)) in
  cos (atan2 n (qw q)) = qw q /\ sin (atan2 n (qw q)) = n /\ 0 <= atan2 n (qw q) <= PI.
Proof.
  intros U n. pose proof (norm3_sq (V3 (qx q) (qy q) (qz q))) as N. fold n in N. unfold dot3 in N. cbn [x3 y3 z3] in N.
  unfold unit_quat in U. destruct (atan2_polar (qw q) n 1 ltac:(lra)) as (H1 & H2); [lra|].
  pose proof (atan2_range (qw q) n) as R. split; [lra|]. split; [lra|]. split; [|apply R].
  destruct (Rle_or_lt 0 (atan2 n (qw q))) as [|L]; [assumption|]. exfalso.
  assert (Hn : 0 <= n) by apply norm3_nonneg.
  assert (0 < sin (- atan2 n (qw q))) by (apply sin_gt_0; lra). rewrite sin_neg in H. lra.
Qed.

Lemma qtaa_aatq q v : unit_quat q -> quaternion_to_axis_angle q = Ok v -> axis_angle_to_quaternion v = q.
Proof.
  intros U H. apply qtaa_ok in H. destruct H as (n & En & Hs & ->). subst n.
  destruct (unit_polar q U) as (C & S & R). set (n := norm3 _) in *. set (h := atan2 n (qw q)) in *.
  assert (Sp : 0 < sinc_pi h).
  { destruct (Req_dec h PI) as [E|E]; [|apply sinc_pos; lra].
    exfalso. apply Hs. rewrite E. unfold sinc_pi. pose proof PI_RGT_0. destruct (Reqb_spec PI 0); [lra|]. rewrite sin_PI. field. lra. }
  assert (Nv : norm3 (scal3 (/ (/ 2 * sinc_pi h)) (V3 (qx q) (qy q) (qz q))) = 2 * h).
  { apply norm3_unique; [lra|]. pose proof (norm3_sq (V3 (qx q) (qy q) (qz q))) as N. fold n in N. unfold dot3 in N. cbn [x3 y3 z3] in N.
    unfold dot3, scal3. cbn [x3 y3 z3].
    assert (Hh : n = h * sinc_pi h) by (rewrite sinc_mul; lra).
    set (k := / (/ 2 * sinc_pi h)).
    replace (k * qx q * (k * qx q) + k * qy q * (k * qy q) + k * qz q * (k * qz q)) with (k * k * (n * n)) by (rewrite N; ring).
    rewrite Hh. unfold k. field. lra. }
  unfold axis_angle_to_quaternion. rewrite Nv. replace (2 * h * / 2) with h by field. rewrite C.
  unfold scal3. cbn [x3 y3 z3]. destruct q as [w x y z]. cbn [qw qx qy qz] in *. f_equal; field; lra.
Qed.

Lemma qtaa_total q : unit_quat q -> q <> Q (-1) 0 0 0 -> exists v, quaternion_to_axis_angle q = Ok v.
Proof.
  intros U Hq. unfold quaternion_to_axis_angle. destruct (unit_polar q U) as (C & S & R). set (n := norm3 _) in *.
  destruct (Reqb_spec (/ 2 * sinc_pi (atan2 n (qw q))) 0) as [E|E]; [|eexists; reflexivity].
  exfalso. apply Hq. assert (Hpi : atan2 n (qw q) = PI).
  { destruct (Req_dec (atan2 n (qw q)) PI) as [|X]; [assumption|]. assert (0 < sinc_pi (atan2 n (qw q))) by (apply sinc_pos; lra). lra. }
  rewrite Hpi, cos_PI in C. unfold unit_quat in U. destruct q as [w x y z]. cbn [qw qx qy qz] in *. subst w.
  assert (x = 0) by nra. assert (y = 0) by nra. assert (z = 0) by nra. subst. reflexivity.
Qed.

Lemma aatq_qtaa v : norm3 v < 2 * PI -> quaternion_to_axis_angle (axis_angle_to_quaternion v) = Ok v.
Proof.
  intros L. set (q := axis_angle_to_quaternion v). set (a := norm3 v) in *. pose proof (norm3_nonneg v) as A0. fold a in A0.
  assert (Sp : 0 < sinc_pi (a * / 2)) by (apply sinc_pos; lra).
  assert (Nn : norm3 (V3 (qx q) (qy q) (qz q)) = sin (a * / 2)).
  { apply norm3_unique.
    - rewrite <- sinc_mul. apply Rmult_le_pos; lra.
    - unfold q, axis_angle_to_quaternion, dot3. cbn [qx qy qz x3 y3 z3]. fold a. rewrite <- sinc_mul.
      pose proof (norm3_sq v) as N. fold a in N. unfold dot3 in N. set (s := sinc_pi (a * / 2)) in *.
      replace (a * / 2 * s * (a * / 2 * s)) with (a * a * (/ 4 * (s * s))) by field. rewrite N. field. }
  assert (At : atan2 (sin (a * / 2)) (cos (a * / 2)) = a * / 2).
  { pose proof (atan2_eq 1 (a * / 2) ltac:(lra)) as X. rewrite !Rmult_1_l in X. apply X. pose proof PI_RGT_0. lra. }
  assert (Wq : qw q = cos (a * / 2)) by reflexivity.
  unfold quaternion_to_axis_angle. rewrite Nn, Wq, At.
  destruct (Reqb_spec (/ 2 * sinc_pi (a * / 2)) 0); [lra|]. f_equal. unfold q, axis_angle_to_quaternion. cbn [qx qy qz]. fold a.
  clearbody a. destruct v as [vx vy vz]. cbn [x3 y3 z3]. apply V3_eq; field; lra.
Qed.

(* matrix to axis/angle (default implementation) *)
Lemma mtaa_total m : rotation m -> exists v, matrix_to_axis_angle_slow m = Ok v.
Proof.
  intros H. destruct (mtq_roundtrip m H) as (_ & U & W). apply qtaa_total; [exact U|]. intros E. rewrite E in W. cbn in W. lra.
Qed.
Lemma mtaa_roundtrip m v f : rotation m -> matrix_to_axis_angle_slow m = Ok v -> axis_angle_to_matrix v f = Ok m.
Proof.
  intros H E. destruct (mtq_roundtrip m H) as (Q0 & U & W).
  assert (X : axis_angle_to_matrix v false = Ok m) by (unfold axis_angle_to_matrix; rewrite (qtaa_aatq _ _ U E); exact Q0).
  destruct f; [rewrite <- aatm_fast_slow|]; exact X.
Qed.
Lemma mtaa_range m v : rotation m -> matrix_to_axis_angle_slow m = Ok v -> norm3 v <= PI.
Proof.
  intros H E. destruct (mtq_roundtrip m H) as (_ & U & W). unfold matrix_to_axis_angle_slow in E.
  set (q := matrix_to_quaternion m) in *. pose proof (qtaa_aatq q v U E) as A.
  apply qtaa_ok in E. destruct E as (n' & En & Hs & Ev). rewrite En in *. clear En n'.
  destruct (unit_polar q U) as (C & S & R). set (n := norm3 (V3 (qx q) (qy q) (qz q))) in *. set (h := atan2 n (qw q)) in *.
  assert (Hh : h <= PI / 2).
  { destruct (Rle_or_lt h (PI / 2)) as [|L]; [assumption|]. assert (cos h < 0) by (apply cos_lt_0; lra). lra. }
  pose proof PI_RGT_0 as HPI. assert (Sp : 0 < sinc_pi h) by (apply sinc_pos; lra).
  assert (norm3 v = 2 * h); [|lra]. rewrite Ev. apply norm3_unique; [lra|].
  pose proof (norm3_sq (V3 (qx q) (qy q) (qz q))) as N. fold n in N. unfold dot3 in N. cbn [x3 y3 z3] in N.
  unfold dot3, scal3. cbn [x3 y3 z3].
  assert (Hn : n = h * sinc_pi h) by (rewrite sinc_mul; lra).
  set (k := / (/ 2 * sinc_pi h)).
  replace (k * qx q * (k * qx q) + k * qy q * (k * qy q) + k * qz q * (k * qz q)) with (k * k * (n * n)) by (rewrite N; ring).
  rewrite Hn. unfold k. field. lra.
Qed.
Lemma aatm_mtaa v f m : norm3 v < PI -> axis_angle_to_matrix v f = Ok m -> matrix_to_axis_angle_slow m = Ok v.
Proof.
  intros L H. assert (X : axis_angle_to_matrix v false = Ok m) by (destruct f; [rewrite aatm_fast_slow|]; exact H).
  unfold axis_angle_to_matrix in X. unfold matrix_to_axis_angle_slow.
  rewrite (qtm_mtq_pos _ _ (aatq_unit v)); [| |exact X].
  - apply aatq_qtaa. pose proof PI_RGT_0. lra.
  - unfold axis_angle_to_quaternion. cbn [qw]. pose proof (norm3_nonneg v). apply cos_gt_0; lra.
Qed.
