From Verif Require Import Base RBase Geom LinAlg Transform Rotation RotationSpec RotationProofs RotationProofs2 RotationProofs3.
From Coq Require Import Nsatz.
Local Open Scope R_scope.

(* ---- axis/angle acts as a turn about the axis ---- *)
Lemma aatm_act v f m u : axis_angle_to_matrix v f = Ok m -> norm3 v <> 0 ->
  act m u = turn (scal3 (/ norm3 v) v) (norm3 v) u.
Proof.
  intros H Hn. assert (X : axis_angle_to_matrix v true = Ok m) by (destruct f; [|rewrite <- aatm_fast_slow]; exact H).
  cbn in X. injection X as <-. pose proof (norm3_sq v) as N. unfold axis_angle_to_matrix_fast.
  pose proof (sinc_mul (norm3 v)) as S. set (a := norm3 v) in *.
  assert (S' : sinc_pi a = sin a / a) by (rewrite <- S; field; exact Hn).
  rewrite S'. destruct (Reqb_spec (a * a) 0) as [Z|Z]; [nra|].
  unfold dot3 in N. destruct v as [x y z], u as [p q r]. cbn [x3 y3 z3] in *. clearbody a.
  unfold act, turn, madd3, mscal3, mul3, hat, id3, add3, scal3, cross3, dot3.
  cbn [m00 m01 m02 m10 m11 m12 m20 m21 m22 x3 y3 z3].
  set (c := cos a). set (s := sin a). clearbody c s.
  assert (Zx : z * z = a * a - x * x - y * y) by lra.
  apply V3_eq; apply (Rmult_eq_reg_l (a * a)); try exact Z;
  match goal with |- a * a * ?l = a * a * ?r => idtac end.
  - replace (a * a * ((1 + s / a * 0 + (1 - c) / (a * a) * (0 * 0 + - z * z + y * - y)) * p + (0 + s / a * - z + (1 - c) / (a * a) * (0 * - z + - z * 0 + y * x)) * q + (0 + s / a * y + (1 - c) / (a * a) * (0 * y + - z * - x + y * 0)) * r))
      with (a * a * p + a * s * (y * r - z * q) + (1 - c) * (- (z * z + y * y) * p + y * x * q + z * x * r)) by (field; exact Hn).
    replace (a * a * (c * p + s * (/ a * y * r - / a * z * q) + (/ a * x * p + / a * y * q + / a * z * r) * (1 - c) * (/ a * x)))
      with (a * a * c * p + a * s * (y * r - z * q) + (1 - c) * (x * (x * p + y * q + z * r))) by (field; exact Hn).
    rewrite Zx. ring.
  - replace (a * a * ((0 + s / a * z + (1 - c) / (a * a) * (z * 0 + 0 * z + - x * - y)) * p + (1 + s / a * 0 + (1 - c) / (a * a) * (z * - z + 0 * 0 + - x * x)) * q + (0 + s / a * - x + (1 - c) / (a * a) * (z * y + 0 * - x + - x * 0)) * r))
      with (a * a * q + a * s * (z * p - x * r) + (1 - c) * (x * y * p - (z * z + x * x) * q + z * y * r)) by (field; exact Hn).
    replace (a * a * (c * q + s * (/ a * z * p - / a * x * r) + (/ a * x * p + / a * y * q + / a * z * r) * (1 - c) * (/ a * y)))
      with (a * a * c * q + a * s * (z * p - x * r) + (1 - c) * (y * (x * p + y * q + z * r))) by (field; exact Hn).
    rewrite Zx. ring.
  - replace (a * a * ((0 + s / a * - y + (1 - c) / (a * a) * (- y * 0 + x * z + 0 * - y)) * p + (0 + s / a * x + (1 - c) / (a * a) * (- y * - z + x * 0 + 0 * x)) * q + (1 + s / a * 0 + (1 - c) / (a * a) * (- y * y + x * - x + 0 * 0)) * r))
      with (a * a * r + a * s * (x * q - y * p) + (1 - c) * (x * z * p + y * z * q - (x * x + y * y) * r)) by (field; exact Hn).
    replace (a * a * (c * r + s * (/ a * x * q - / a * y * p) + (/ a * x * p + / a * y * q + / a * z * r) * (1 - c) * (/ a * z)))
      with (a * a * c * r + a * s * (x * q - y * p) + (1 - c) * (z * (x * p + y * q) + z * z * r)) by (field; exact Hn).
    rewrite Zx. ring.
Qed.
Lemma aatm_zero f : axis_angle_to_matrix (V3 0 0 0) f = Ok id3.
Proof.
  assert (X : axis_angle_to_matrix (V3 0 0 0) true = Ok id3).
  { cbn [axis_angle_to_matrix]. f_equal. unfold axis_angle_to_matrix_fast, madd3, mscal3, mul3, hat, id3.
    cbn [m00 m01 m02 m10 m11 m12 m20 m21 m22 x3 y3 z3]. apply M3_eq; ring. }
  destruct f; [exact X|rewrite aatm_fast_slow; exact X].
Qed.
Lemma norm3_zero v : norm3 v = 0 -> v = V3 0 0 0.
Proof.
  intros H. pose proof (norm3_sq v) as N. rewrite H in N. destruct v as [x y z]. unfold dot3 in N. cbn [x3 y3 z3] in N.
  apply V3_eq; nra.
Qed.

Lemma act_ext m m' : (forall u, act m u = act m' u) -> m = m'.
Proof.
  intros H. pose proof (H (V3 1 0 0)) as H1. pose proof (H (V3 0 1 0)) as H2. pose proof (H (V3 0 0 1)) as H3.
  clear H. destruct m, m'. unfold act in *. cbn in *. injection H1 as ? ? ?. injection H2 as ? ? ?. injection H3 as ? ? ?.
  apply M3_eq; lra.
Qed.
Lemma act_mul a b u : act (mul3 a b) u = act a (act b u).
Proof. destruct a, b, u. unfold act, mul3. cbn. apply V3_eq; ring. Qed.

Lemma turn_dot k t u : dot3 k k = 1 -> dot3 k (turn k t u) = dot3 k u.
Proof.
  intros K. unfold turn. set (d := dot3 k u). set (c := cos t). set (s := sin t).
  transitivity (c * d + s * dot3 k (cross3 k u) + d * (1 - c) * dot3 k k).
  - unfold d. destruct k, u. unfold dot3, add3, scal3, cross3. cbn. ring.
  - rewrite K. replace (dot3 k (cross3 k u)) with 0 by (destruct k, u; unfold dot3, cross3; cbn; ring). ring.
Qed.
Lemma turn_cross k t u : dot3 k k = 1 ->
  cross3 k (turn k t u) = add3 (scal3 (cos t) (cross3 k u)) (scal3 (sin t) (sub3 (scal3 (dot3 k u) k) u)).
Proof.
  intros K. assert (CC : cross3 k (cross3 k u) = sub3 (scal3 (dot3 k u) k) u).
  { transitivity (sub3 (scal3 (dot3 k u) k) (scal3 (dot3 k k) u)).
    - destruct k, u. unfold dot3, sub3, scal3, cross3. cbn. apply V3_eq; ring.
    - rewrite K. destruct u. unfold sub3, scal3. cbn. apply V3_eq; ring. }
  rewrite <- CC. unfold turn. generalize (dot3 k u * (1 - cos t)). intros e. generalize (cos t) (sin t). intros c s.
  clear. destruct k, u. unfold add3, scal3, cross3. cbn. apply V3_eq; ring.
Qed.
Lemma turn_turn k s t u : dot3 k k = 1 -> turn k s (turn k t u) = turn k (s + t) u.
Proof.
  intros K. unfold turn at 1. rewrite turn_dot, turn_cross by exact K. unfold turn. rewrite cos_plus, sin_plus.
  generalize (dot3 k u) (cross3 k u). intros d c.
  generalize (cos s) (sin s) (cos t) (sin t). intros cs ss ct st.
  destruct k, u, c. unfold sub3, add3, scal3. cbn. apply V3_eq; ring.
Qed.
