From Coquelicot Require Import Coquelicot.
From Coq Require Import Lra Lia Psatz FunctionalExtensionality.
From Verif Require Import Base RBase Geom Rays Frustum FrustumSpec FrustumProofs.
Local Open Scope R_scope.

Section interval.
Variables (t0 t1 r : R).
Hypotheses (L : t0 < t1) (Hr : r <> 0).
Let m := lerp_half t1 t0.
Let h := (t1 - t0) / 2.
Let den := 3 * m ^ 2 + h ^ 2.
Let mean := m + 2 * m * h ^ 2 / den.
Let var := h ^ 2 / 3 - (4 / 15) * (h ^ 4 * (12 * m ^ 2 - h ^ 2) / den ^ 2).
Let off := r ^ 2 * (m ^ 2 / 4 + (5 / 12) * h ^ 2 - 4 / 15 * h ^ 4 / den).

Lemma hpos : 0 < h. Proof. unfold h. lra. Qed.
Lemma dpos : 0 < den. Proof. exact (den_pos t0 t1 L). Qed.
Lemma t0_is : t0 = m - h. Proof. unfold m, h, lerp_half. field. Qed.
Lemma t1_is : t1 = m + h. Proof. unfold m, h, lerp_half. field. Qed.

Lemma first_moment c a p q :
  cone_average r t0 t1 (fun t s th => c + t * a + (s * cos th * p + s * sin th * q)) = c + mean * a.
Proof.
  unfold cone_average. rewrite cone_first, cone_volume. unfold mean.
  pose proof hpos as H. pose proof dpos as D. pose proof PI_RGT_0 as P. unfold den in *.
  rewrite t0_is, t1_is. clearbody m h.
  replace ((m + h) ^ 3 - (m - h) ^ 3) with (2 * h * (3 * m ^ 2 + h ^ 2)) by ring.
  field. repeat split; lra.
Qed.
Lemma second_moment c a p q :
  cone_average r t0 t1 (fun t s th => (c + t * a + (s * cos th * p + s * sin th * q) - (c + mean * a)) ^ 2) =
  var * a ^ 2 + off * (p ^ 2 + q ^ 2).
Proof.
  unfold cone_average.
  replace (fun t s th => (c + t * a + (s * cos th * p + s * sin th * q) - (c + mean * a)) ^ 2)
    with (fun t s th => (- (mean * a) + t * a + (s * cos th * p + s * sin th * q)) ^ 2)
    by (extensionality t; extensionality s; extensionality th; f_equal; ring).
  rewrite cone_second, cone_volume. unfold mean, var, off.
  pose proof hpos as H. pose proof dpos as D. pose proof PI_RGT_0 as P. unfold den in *.
  rewrite t0_is, t1_is. clearbody m h.
  replace ((m + h) ^ 3 - (m - h) ^ 3) with (2 * h * (3 * m ^ 2 + h ^ 2)) by ring.
  field. repeat split; lra.
Qed.
Lemma mean_between : 0 <= t0 -> t0 < mean < t1 /\ m <= mean.
Proof.
  intros Z. pose proof hpos as H. pose proof dpos as D.
  assert (M : h <= m) by (pose proof t0_is; lra).
  assert (Q : 0 <= 2 * m * h ^ 2 / den).
  { apply Rmult_le_pos; [apply Rmult_le_pos; [lra|apply pow2_ge_0]|]. apply Rlt_le, Rinv_0_lt_compat, D. }
  assert (U : 2 * m * h ^ 2 / den < h).
  { apply (Rmult_lt_reg_r den); [exact D|]. unfold Rdiv. rewrite Rmult_assoc, Rinv_l, Rmult_1_r by lra.
    unfold den. assert (0 < h * (2 * m ^ 2 + (m - h) ^ 2)).
    { apply Rmult_lt_0_compat; [exact H|]. pose proof (pow2_ge_0 (m - h)). assert (0 < m ^ 2) by (apply pow_lt; lra). lra. }
    replace (2 * m * h ^ 2) with (h * (2 * m * h)) by ring. replace (h * (3 * m ^ 2 + h ^ 2)) with (h * (2 * m ^ 2 + (m - h) ^ 2) + h * (2 * m * h)) by ring.
    lra. }
  unfold mean. rewrite t0_is at 1. rewrite t1_is at 1. repeat split; lra.
Qed.
End interval.

Lemma var_nonneg m h : 3 * m ^ 2 + h ^ 2 <> 0 ->
  0 <= h ^ 2 / 3 - (4 / 15) * (h ^ 4 * (12 * m ^ 2 - h ^ 2) / (3 * m ^ 2 + h ^ 2) ^ 2).
Proof.
  intros D.
  replace (h ^ 2 / 3 - (4 / 15) * (h ^ 4 * (12 * m ^ 2 - h ^ 2) / (3 * m ^ 2 + h ^ 2) ^ 2))
    with (3 / 5 * h ^ 2 * (4 * m ^ 4 + (m ^ 2 - h ^ 2) ^ 2) * (/ (3 * m ^ 2 + h ^ 2)) ^ 2) by (field; exact D).
  apply Rmult_le_pos; [|apply pow2_ge_0].
  apply Rmult_le_pos; [pose proof (pow2_ge_0 h); lra|].
  pose proof (pow2_ge_0 (m ^ 2 - h ^ 2)). pose proof (pow2_ge_0 (m ^ 2)).
  replace (m ^ 4) with ((m ^ 2) ^ 2) by ring. lra.
Qed.
Lemma off_nonneg r m h : 3 * m ^ 2 + h ^ 2 <> 0 ->
  0 <= r ^ 2 * (m ^ 2 / 4 + (5 / 12) * h ^ 2 - 4 / 15 * h ^ 4 / (3 * m ^ 2 + h ^ 2)).
Proof.
  intros D. pose proof (pow2_ge_0 m). pose proof (pow2_ge_0 h).
  apply Rmult_le_pos; [apply pow2_ge_0|].
  assert (4 / 15 * h ^ 4 / (3 * m ^ 2 + h ^ 2) <= 4 / 15 * h ^ 2).
  { apply (Rmult_le_reg_r (3 * m ^ 2 + h ^ 2)); [lra|]. unfold Rdiv at 1. rewrite Rmult_assoc, Rinv_l, Rmult_1_r by lra.
    pose proof (Rmult_le_pos _ _ H H0). replace (h ^ 4) with (h ^ 2 * h ^ 2) by ring. lra. }
  lra.
Qed.

Lemma gaussian_some r t0 t1 : t0 < t1 ->
  frustum_gaussian r (t0, t1) = Some
   (let m := lerp_half t1 t0 in let h := (t1 - t0) / 2 in let den := 3 * m ^ 2 + h ^ 2 in
    (m + 2 * m * h ^ 2 / den, h ^ 2 / 3 - (4 / 15) * (h ^ 4 * (12 * m ^ 2 - h ^ 2) / den ^ 2),
     r ^ 2 * (m ^ 2 / 4 + (5 / 12) * h ^ 2 - 4 / 15 * h ^ 4 / den))).
Proof.
  intros L. unfold frustum_gaussian. cbn [fst snd]. cbv zeta.
  destruct (Reqb_spec (3 * lerp_half t1 t0 ^ 2 + ((t1 - t0) / 2) ^ 2) 0) as [E|E]; [|reflexivity].
  pose proof (den_pos t0 t1 L). lra.
Qed.

Lemma moments eps r o d u v t0 t1 mu cov : t0 < t1 -> r <> 0 -> frame d u v -> 0 < eps <= dot3 d d ->
  cone_gaussian eps r o d (t0, t1) = Some (mu, cov) ->
  let p := cone_point o d u v in
  (x3 mu = cone_average r t0 t1 (fun t s a => x3 (p t s a)) /\
   y3 mu = cone_average r t0 t1 (fun t s a => y3 (p t s a)) /\
   z3 mu = cone_average r t0 t1 (fun t s a => z3 (p t s a))) /\
  (x3 cov = cone_average r t0 t1 (fun t s a => (x3 (p t s a) - x3 mu) ^ 2) /\
   y3 cov = cone_average r t0 t1 (fun t s a => (y3 (p t s a) - y3 mu) ^ 2) /\
   z3 cov = cone_average r t0 t1 (fun t s a => (z3 (p t s a) - z3 mu) ^ 2)).
Proof.
  intros L Hr F [E1 E2] E. cbv zeta.
  assert (D : 0 < dot3 d d) by lra.
  destruct (frame_x d u v F D) as (FX & FY & FZ).
  unfold cone_gaussian in E. rewrite (gaussian_some r t0 t1 L) in E. cbv zeta in E. unfold ray_points in E. cbn [map] in E.
  set (mean := lerp_half t1 t0 + _) in E. set (var := _ / 3 - _) in E. set (off := r ^ 2 * _) in E.
  assert (EM : V3 (x3 o + mean * x3 d) (y3 o + mean * y3 d) (z3 o + mean * z3 d) = mu)
    by exact (f_equal (fun x => match x with Some (a, _) => a | None => mu end) E).
  assert (EC : diagonal_covariance eps d var off = cov)
    by exact (f_equal (fun x => match x with Some (_, a) => a | None => cov end) E).
  rewrite <- EM, <- EC. unfold diagonal_covariance. cbn [x3 y3 z3].
  replace (x3 d ^ 2 + y3 d ^ 2 + z3 d ^ 2) with (dot3 d d) by (unfold dot3; ring).
  rewrite (Rmax_left (dot3 d d) eps) by lra.
  rewrite <- FX, <- FY, <- FZ. unfold cone_point, add3, scal3. cbn [x3 y3 z3].
  split; repeat split; symmetry.
  - exact (first_moment t0 t1 r L Hr (x3 o) (x3 d) (x3 u) (x3 v)).
  - exact (first_moment t0 t1 r L Hr (y3 o) (y3 d) (y3 u) (y3 v)).
  - exact (first_moment t0 t1 r L Hr (z3 o) (z3 d) (z3 u) (z3 v)).
  - exact (second_moment t0 t1 r L Hr (x3 o) (x3 d) (x3 u) (x3 v)).
  - exact (second_moment t0 t1 r L Hr (y3 o) (y3 d) (y3 u) (y3 v)).
  - exact (second_moment t0 t1 r L Hr (z3 o) (z3 d) (z3 u) (z3 v)).
Qed.
Lemma cov_nonneg eps d a b : 0 < eps -> 0 <= a -> 0 <= b ->
  let c := diagonal_covariance eps d a b in 0 <= x3 c /\ 0 <= y3 c /\ 0 <= z3 c.
Proof.
  intros E A B. cbv zeta. unfold diagonal_covariance. cbn [x3 y3 z3].
  set (mag := Rmax _ _).
  pose proof (pow2_ge_0 (x3 d)) as X. pose proof (pow2_ge_0 (y3 d)) as Y. pose proof (pow2_ge_0 (z3 d)) as Z.
  assert (M : x3 d ^ 2 + y3 d ^ 2 + z3 d ^ 2 <= mag) by apply Rmax_l.
  assert (M' : 0 < mag) by (apply Rlt_le_trans with eps; [exact E|apply Rmax_r]).
  assert (Q : forall c, 0 <= c <= mag -> 0 <= 1 - c / mag).
  { intros c C. assert (c / mag <= 1); [|lra]. apply (Rmult_le_reg_r mag); [exact M'|].
    unfold Rdiv. rewrite Rmult_assoc, Rinv_l by lra. lra. }
  repeat split; (apply Rplus_le_le_0_compat; apply Rmult_le_pos; try assumption; apply Q; lra).
Qed.
Lemma pairs_length bins : length (bin_pairs bins) = (length bins - 1)%nat.
Proof.
  unfold bin_pairs. rewrite combine_length.
  destruct bins as [|b l]; [reflexivity|]. cbn [tl length].
  replace (length (removelast (b :: l))) with (length l); [lia|].
  rewrite removelast_firstn_len, firstn_length. cbn. lia.
Qed.
Lemma pairs_nth bins : forall k, (S k < length bins)%nat ->
  nth_error (bin_pairs bins) k = Some (nth k bins 0, nth (S k) bins 0).
Proof.
  unfold bin_pairs. induction bins as [|b l IH]; intros k K; [cbn in K; lia|].
  destruct l as [|c l]; [cbn in K; lia|]. cbn [removelast tl combine].
  destruct k as [|k]; [reflexivity|]. cbn [nth_error nth]. cbn [length] in K.
  cbn [tl] in IH. change (nth k (c :: l) 0) with (nth k (c :: l) 0).
  destruct l as [|e l]; [cbn in K; lia|].
  apply (IH k). cbn [length] in *. lia.
Qed.
