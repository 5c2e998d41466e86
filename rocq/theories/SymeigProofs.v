(* symeig3x3: the returned vectors are orthonormal, whatever the matrix. *)
From Verif Require Import Base RBase Geom LinAlg Symeig Spectral SymeigSpec.
From Coq Require Import Psatz.
Local Open Scope R_scope.

Lemma sq_ge0 x : 0 <= x * x.
Proof. apply Rle_0_sqr. Qed.
Lemma sign0_cases x : (0 < x /\ sign0 x = 1) \/ (x <= 0 /\ sign0 x = -1).
Proof. unfold sign0. destruct (Rltb_spec 0 x); [left|right]; split; lra. Qed.
Lemma pushed eps x : 0 < eps -> eps * eps <= (x + eps * sign0 x) * (x + eps * sign0 x).
Proof. intros E. destruct (sign0_cases x) as [(P & ->)|(P & ->)]; nra. Qed.

Section E.
Variables (eps : R) (argmax argmin : vec3 -> idx3).
Hypotheses (He : normalize_eps <= eps) (Hmax : is_argmax argmax) (Hmin : is_argmin argmin).
Lemma eps_pos : 0 < eps.
Proof. assert (0 < normalize_eps) by (unfold normalize_eps; apply Rinv_0_lt_compat; lra). lra. Qed.

Lemma ev0_unit c : dot3 (se_ev0 eps argmax c) (se_ev0 eps argmax c) = 1.
Proof.
  pose proof eps_pos as Ep. unfold se_ev0. cbv zeta.
  set (r01 := cross3 (row3 c I0) (row3 c I1)). set (s := se_signs eps r01).
  set (p01 := add3 r01 s). set (p12 := add3 (cross3 (row3 c I1) (row3 c I2)) s). set (p02 := add3 (cross3 (row3 c I0) (row3 c I2)) s).
  set (N := V3 (sum_sq3 p01) (sum_sq3 p12) (sum_sq3 p02)).
  assert (P : 0 < sum_sq3 p01).
  { pose proof (pushed eps (x3 r01) Ep). pose proof (Rmult_lt_0_compat _ _ Ep Ep).
    unfold sum_sq3, p01, s, se_signs, add3. cbn [x3 y3 z3].
    pose proof (sq_ge0 (y3 r01 + eps * sign0 (y3 r01))). pose proof (sq_ge0 (z3 r01 + eps * sign0 (z3 r01))). lra. }
  pose proof (Hmax N I0) as M. change (at3 N I0) with (sum_sq3 p01) in M.
  assert (Q : 0 < at3 N (argmax N)) by lra.
  assert (S : forall p k, sum_sq3 p = k -> 0 < k -> dot3 (scal3 (/ sqrt k) p) (scal3 (/ sqrt k) p) = 1).
  { intros p k <- K. pose proof (sqrt_lt_R0 _ K). pose proof (sqrt_sqrt (sum_sq3 p) ltac:(lra)) as T.
    transitivity (sum_sq3 p / (sqrt (sum_sq3 p) * sqrt (sum_sq3 p))); [|rewrite T; field; lra].
    generalize dependent (sqrt (sum_sq3 p)). intros k Hk _. unfold sum_sq3. m3r. field. lra. }
  destruct (argmax N) eqn:E; cbn [at3 N x3 y3 z3] in *; apply S; try reflexivity; exact Q.
Qed.

Lemma normalize3_unit v : normalize_eps <= sqrt (dot3 v v) -> dot3 (normalize3 v) (normalize3 v) = 1.
Proof.
  intros H. assert (P : 0 < normalize_eps) by (unfold normalize_eps; apply Rinv_0_lt_compat; lra).
  unfold normalize3. rewrite Rmax_left by exact H. apply unit_of_unit. intros ->. unfold vzero in H. revert H. m3r.
  replace (0 * 0 + 0 * 0 + 0 * 0) with 0 by ring. rewrite sqrt_0. lra.
Qed.
Lemma normalize3_dot v w : dot3 w (normalize3 v) = / Rmax (sqrt (dot3 v v)) normalize_eps * dot3 w v.
Proof. unfold normalize3. generalize (/ Rmax (sqrt (dot3 v v)) normalize_eps). intros. m3r. ring. Qed.
Lemma big_norm v : normalize_eps * normalize_eps <= dot3 v v -> normalize_eps <= sqrt (dot3 v v).
Proof.
  intros H. assert (P : 0 < normalize_eps) by (unfold normalize_eps; apply Rinv_0_lt_compat; lra).
  rewrite <- (sqrt_square normalize_eps) by lra. apply sqrt_le_1; [apply sq_ge0|apply dself|exact H].
Qed.
Lemma normalize_eps_small : normalize_eps * normalize_eps <= / 2.
Proof. unfold normalize_eps. lra. Qed.
Lemma abs_sq x y : Rabs x <= Rabs y -> x * x <= y * y.
Proof. intros H. apply Rsqr_le_abs_1 in H. exact H. Qed.

Lemma quarter_big w : dot3 w w = 1 ->
  / 2 <= dot3 (quarter (argmin (V3 (Rabs (x3 w)) (Rabs (y3 w)) (Rabs (z3 w)))) w)
              (quarter (argmin (V3 (Rabs (x3 w)) (Rabs (y3 w)) (Rabs (z3 w)))) w).
Proof.
  intros W. set (A := V3 (Rabs (x3 w)) (Rabs (y3 w)) (Rabs (z3 w))).
  pose proof (Hmin A I0) as H0. pose proof (Hmin A I1) as H1. pose proof (Hmin A I2) as H2.
  unfold dot3 in W. pose proof (sq_ge0 (x3 w)). pose proof (sq_ge0 (y3 w)). pose proof (sq_ge0 (z3 w)).
  destruct (argmin A); cbn [at3 A x3 y3 z3] in H0, H1, H2; apply abs_sq in H0, H1, H2; unfold quarter, dot3; cbn [x3 y3 z3]; lra.
Qed.
Lemma quarter_perp k w : dot3 w (quarter k w) = 0.
Proof. destruct k; unfold quarter; m3r; ring. Qed.
Lemma uv_frame w u v : dot3 w w = 1 -> se_uv argmin w = (u, v) -> orthonormal w u v.
Proof.
  intros W. unfold se_uv. cbv zeta. intros H. injection H as <- <-.
  apply complete2; [exact W| |].
  - apply normalize3_unit, big_norm. pose proof (quarter_big w W). pose proof normalize_eps_small. lra.
  - rewrite normalize3_dot, quarter_perp. ring.
Qed.

Lemma ev1_unit c w u v : orthonormal w u v -> dot3 (se_ev1 eps c u v) (se_ev1 eps c u v) = 1 /\ dot3 w (se_ev1 eps c u v) = 0.
Proof.
  intros (W & U & V & WU & WV & UV). pose proof eps_pos as Ep. unfold se_ev1. cbv zeta.
  set (a := dot3 u (mulv3 c u) + sign0 _ * _). set (b := dot3 u (mulv3 c v) + sign0 _ * _).
  set (a' := a + eps * sign0 a). set (b' := b + eps * sign0 a).
  assert (N : eps * eps <= b' * b' + - a' * - a').
  { pose proof (pushed eps a Ep). fold a' in H. pose proof (sq_ge0 b'). lra. }
  assert (Le : normalize_eps <= sqrt (b' * b' + - a' * - a')).
  { apply Rle_trans with eps; [exact He|]. rewrite <- (sqrt_square eps) at 1 by lra. apply sqrt_le_1; [apply sq_ge0| |exact N].
    pose proof (sq_ge0 eps). lra. }
  rewrite Rmax_left by exact Le.
  assert (P : 0 < b' * b' + - a' * - a') by (pose proof (Rmult_lt_0_compat _ _ Ep Ep); lra).
  pose proof (sqrt_lt_R0 _ P) as Q. pose proof (sqrt_sqrt (b' * b' + - a' * - a') ltac:(lra)) as T.
  set (n := sqrt (b' * b' + - a' * - a')) in *. clearbody n a' b'. split.
  - transitivity (b' / n * (b' / n) * dot3 u u + 2 * (b' / n) * (- a' / n) * dot3 u v + - a' / n * (- a' / n) * dot3 v v); [generalize (b' / n) (- a' / n); intros; m3r; ring|].
    rewrite U, V, UV. transitivity ((b' * b' + - a' * - a') / (n * n)); [field; lra|]. rewrite T. field. lra.
  - transitivity (b' / n * dot3 w u + - a' / n * dot3 w v); [generalize (b' / n) (- a' / n); intros; m3r; ring|]. rewrite WU, WV. ring.
Qed.

Lemma triple_frame a x y : let '(v0, v1, v2) := se_triple eps argmax argmin a x y in orthonormal v0 v1 v2 /\ v2 = cross3 v0 v1.
Proof.
  unfold se_triple. cbv zeta. pose proof (ev0_unit (minus_id a x)) as W. set (w := se_ev0 eps argmax (minus_id a x)) in *.
  destruct (se_uv argmin w) as [u v] eqn:E. pose proof (uv_frame w u v W E) as O.
  destruct (ev1_unit (minus_id a y) w u v O) as [A B]. split; [|reflexivity]. apply complete2; assumption.
Qed.
Lemma vectors_frame a e : let '(v0, v1, v2) := se_vectors eps argmax argmin a e in orthonormal v0 v1 v2.
Proof.
  unfold se_vectors. cbv zeta. pose proof (triple_frame a (x3 e) (y3 e)) as A. pose proof (triple_frame a (z3 e) (y3 e)) as B.
  destruct (se_triple eps argmax argmin a (z3 e) (y3 e)) as [[w0 w1] w2]. destruct (Rltb (z3 e - y3 e) (y3 e - x3 e)).
  - destruct (se_triple eps argmax argmin a (x3 e) (y3 e)) as [[u0 u1] u2]. apply A.
  - destruct B as [(X & Y & Z & XY & XZ & YZ) _]. repeat split; try assumption; rewrite dot_comm; assumption.
Qed.
End E.
