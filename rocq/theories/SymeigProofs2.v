(* symeig3x3: order, sum and accuracy of the returned eigenvalues. *)
From Verif Require Import Base RBase Geom LinAlg AlignmentSpec AlignmentProofs Symeig Spectral SymeigSpec SymeigProofs.
From Coq Require Import Psatz.
Local Open Scope R_scope.

(* ---- trigonometry ---- *)
Definition T3 (c : R) : R := 4 * (c * c * c) - 3 * c.
Lemma cos3 x : cos (3 * x) = T3 (cos x).
Proof.
  replace (3 * x) with (2 * x + x) by ring. rewrite cos_plus, cos_2a_cos, sin_2a. unfold T3.
  pose proof (sin2_cos2 x) as H. unfold Rsqr in H.
  replace (2 * sin x * cos x * sin x) with (2 * cos x * (sin x * sin x)) by ring.
  replace (sin x * sin x) with (1 - cos x * cos x) by lra. ring.
Qed.
Lemma two_thirds : 2 * PI / 3 = 2 * (PI / 3).
Proof. field. Qed.
Lemma cos_three x : cos x + cos (x + 2 * PI / 3) + cos (2 * PI / 3 - x) = 0.
Proof. rewrite two_thirds, cos_plus, cos_minus, cos_2PI3. lra. Qed.
Lemma T3_inj c c' e : / 2 <= c -> / 2 <= c' -> Rabs (T3 c - T3 c') <= e -> (c - c') * (c - c') <= e / 6.
Proof.
  assert (W : forall x y, / 2 <= y -> y <= x -> 6 * ((x - y) * (x - y)) <= T3 x - T3 y).
  { intros x y Y XY. unfold T3.
    replace (4 * (x * x * x) - 3 * x - (4 * (y * y * y) - 3 * y)) with ((x - y) * (4 * (x * x + x * y + y * y) - 3)) by ring.
    rewrite <- Rmult_assoc, (Rmult_comm 6), Rmult_assoc. apply Rmult_le_compat_l; [lra|].
    assert (0 <= (y - / 2) * (y + / 2)) by (apply Rmult_le_pos; lra).
    assert (0 <= (x - y) * (2 * y - 1)) by (apply Rmult_le_pos; lra). pose proof (sq_ge0 (x - y)). lra. }
  intros C C' H. destruct (Rle_or_lt c' c) as [L|L].
  - pose proof (W c c' C' L). pose proof (Rle_abs (T3 c - T3 c')). lra.
  - pose proof (W c' c C ltac:(lra)). pose proof (Rle_abs (- (T3 c - T3 c'))). rewrite Rabs_Ropp in *.
    replace ((c - c') * (c - c')) with ((c' - c) * (c' - c)) by ring. lra.
Qed.
Lemma root_bound d e : d * d <= e -> Rabs d <= sqrt e.
Proof. intros H. rewrite <- (sqrt_Rsqr_abs d). apply sqrt_le_1; [apply sq_ge0| |exact H]. pose proof (sq_ge0 d). lra. Qed.

(* ---- sorting ---- *)
Lemma sort3_facts v : x3 (sort3 v) <= y3 (sort3 v) <= z3 (sort3 v) /\
  x3 (sort3 v) + y3 (sort3 v) + z3 (sort3 v) = x3 v + y3 v + z3 v /\
  forall i, exists j, at3 (sort3 v) i = at3 v j.
Proof.
  destruct v as [a b c]. unfold sort3. cbn [x3 y3 z3]. split; [|split].
  1, 2: unfold Rmin, Rmax; repeat destruct Rle_dec; lra.
  intros i. assert (Z : forall r, r = a \/ r = b \/ r = c -> exists j, r = at3 (V3 a b c) j).
  { intros r [->|[->| ->]]; [exists I0|exists I1|exists I2]; reflexivity. }
  destruct i; cbn [at3 x3 y3 z3]; apply Z; unfold Rmin, Rmax; repeat destruct Rle_dec; auto.
Qed.

Lemma sq_shift a q : sum_sq (minus_id a q) = sum_sq3 (V3 (x3 (diagonal a) - q) (y3 (diagonal a) - q) (z3 (diagonal a) - q)) + (sum_sq a - sum_sq3 (diagonal a)).
Proof. unfold sum_sq, sum_sq3, minus_id, row3, diagonal. m3r. ring. Qed.
Lemma det_scaled k m : det3 (mscal3 k m) = k * k * k * det3 m.
Proof. m3r. ring. Qed.

Section E.
Variable eps : R.
Hypothesis He : 0 < eps <= 1.

Lemma p1_off a : se_p1 a = off_diagonal a.
Proof. unfold se_p1, off_diagonal, sum_sq, sum_sq3, row3, diagonal. m3r. field. Qed.
Lemma off_nonneg a : 0 <= off_diagonal a.
Proof. unfold off_diagonal. pose proof (pow2_ge_0 (m01 a)). pose proof (pow2_ge_0 (m02 a)). pose proof (pow2_ge_0 (m10 a)). pose proof (pow2_ge_0 (m12 a)). pose proof (pow2_ge_0 (m20 a)). pose proof (pow2_ge_0 (m21 a)). lra. Qed.
Lemma sum_sq3_nonneg v : 0 <= sum_sq3 v.
Proof. unfold sum_sq3. pose proof (sq_ge0 (x3 v)). pose proof (sq_ge0 (y3 v)). pose proof (sq_ge0 (z3 v)). lra. Qed.
Lemma p2_pos a : 0 < se_p2 eps a.
Proof. unfold se_p2. cbv zeta. pose proof (Rmax_r (se_p1 a) eps). pose proof (sum_sq3_nonneg (V3 (x3 (diagonal a) - se_q a) (y3 (diagonal a) - se_q a) (z3 (diagonal a) - se_q a))). lra. Qed.
Lemma p_pos a : 0 < se_p eps a.
Proof. unfold se_p. apply sqrt_lt_R0. pose proof (p2_pos a). lra. Qed.
Lemma p_spread a : eps <= off_diagonal a -> se_p eps a = spread a.
Proof.
  intros H. unfold se_p, spread, se_p2. cbv zeta. rewrite p1_off, Rmax_left by exact H. f_equal. unfold se_q, trace3, diagonal, sum_sq3. cbn [x3 y3 z3]. field.
Qed.
Lemma r_range a : -1 <= se_r eps a <= 1.
Proof.
  unfold se_r, clamp. generalize (det3 (se_b eps a) / 2). intros x. unfold Rmin, Rmax. repeat destruct Rle_dec; lra.
Qed.
Lemma phi_range a : 0 <= se_phi eps a <= PI / 3.
Proof. unfold se_phi. pose proof (acos_bound (se_r eps a)). lra. Qed.
Lemma phi_T3 a : T3 (cos (se_phi eps a)) = se_r eps a /\ T3 (- cos (se_phi eps a + 2 * PI / 3)) = - se_r eps a.
Proof.
  assert (C : cos (3 * se_phi eps a) = se_r eps a).
  { unfold se_phi. replace (3 * (acos (se_r eps a) / 3)) with (acos (se_r eps a)) by field. apply cos_acos, r_range. }
  split; [rewrite <- cos3; exact C|].
  replace (T3 (- cos (se_phi eps a + 2 * PI / 3))) with (- T3 (cos (se_phi eps a + 2 * PI / 3))) by (unfold T3; ring).
  rewrite <- cos3. replace (3 * (se_phi eps a + 2 * PI / 3)) with (3 * se_phi eps a + 2 * PI) by field. rewrite cos_plus, cos_2PI, sin_2PI. rewrite C. ring.
Qed.
Lemma phi_cos a : / 2 <= cos (se_phi eps a) /\ / 2 <= - cos (se_phi eps a + 2 * PI / 3).
Proof.
  pose proof (phi_range a) as P. pose proof PI_RGT_0 as Pi. split.
  - replace (/ 2) with (cos (PI / 3)) by (rewrite cos_PI3; lra). apply cos_decr_1; lra.
  - replace (/ 2) with (- cos (2 * (PI / 3))) by (rewrite cos_2PI3; lra). apply Ropp_le_contravar. apply cos_decr_1; lra.
Qed.
Lemma eig_order a : x3 (se_eig eps a) <= y3 (se_eig eps a) <= z3 (se_eig eps a).
Proof.
  unfold se_eig. cbn [x3 y3 z3]. pose proof (phi_range a) as P. pose proof PI_RGT_0 as Pi. pose proof (p_pos a) as Pp.
  pose proof (cos_three (se_phi eps a)) as C.
  assert (A : cos (2 * PI / 3 - se_phi eps a) <= cos (se_phi eps a)) by (apply cos_decr_1; lra).
  assert (B : cos (se_phi eps a + 2 * PI / 3) <= cos (2 * PI / 3 - se_phi eps a)) by (apply cos_decr_1; lra).
  set (c1 := cos (se_phi eps a)) in *. set (c2 := cos (se_phi eps a + 2 * PI / 3)) in *. replace (cos (2 * PI / 3 - se_phi eps a)) with (- c1 - c2) in * by lra.
  pose proof (Rmult_le_compat_l (2 * se_p eps a) _ _ ltac:(lra) A). pose proof (Rmult_le_compat_l (2 * se_p eps a) _ _ ltac:(lra) B). lra.
Qed.
Lemma eig_sum a : x3 (se_eig eps a) + y3 (se_eig eps a) + z3 (se_eig eps a) = trace3 a.
Proof. unfold se_eig, se_q. cbn [x3 y3 z3]. field. Qed.
Lemma soft_range a : 0 < se_soft eps a <= 1.
Proof.
  unfold se_soft. split; [apply exp_pos|]. rewrite <- exp_0. pose proof (sq_ge0 (se_p1 a / (6 * eps))).
  destruct (Req_dec (se_p1 a / (6 * eps) * (se_p1 a / (6 * eps))) 0) as [->|N]; [rewrite Ropp_0; lra|]. left. apply exp_increasing. lra.
Qed.
Lemma values_order a : x3 (se_values eps a) <= y3 (se_values eps a) <= z3 (se_values eps a).
Proof.
  destruct (sort3_facts (diagonal a)) as (S & _). pose proof (eig_order a) as E. pose proof (soft_range a) as C. unfold se_values. cbn [x3 y3 z3].
  split; apply Rplus_le_compat; apply Rmult_le_compat_l; lra.
Qed.
Lemma values_sum a : x3 (se_values eps a) + y3 (se_values eps a) + z3 (se_values eps a) = trace3 a.
Proof.
  destruct (sort3_facts (diagonal a)) as (_ & S & _). pose proof (eig_sum a) as E. unfold se_values. cbn [x3 y3 z3].
  generalize dependent (se_soft eps a). intros c. change (x3 (diagonal a) + y3 (diagonal a) + z3 (diagonal a)) with (trace3 a) in S.
  transitivity (c * (x3 (sort3 (diagonal a)) + y3 (sort3 (diagonal a)) + z3 (sort3 (diagonal a))) + (1 - c) * (x3 (se_eig eps a) + y3 (se_eig eps a) + z3 (se_eig eps a))); [ring|].
  rewrite S, E. ring.
Qed.
Lemma values_diagonal a : off_diagonal a = 0 -> se_values eps a = sort3 (diagonal a).
Proof.
  intros H. unfold se_values, se_soft. rewrite p1_off, H. replace (- (0 / (6 * eps) * (0 / (6 * eps)))) with 0 by (field; lra). rewrite exp_0.
  generalize (sort3 (diagonal a)). intros [dx dy dz]. cbn [x3 y3 z3]. f_equal; ring.
Qed.

(* ---- the exact eigenvalues ---- *)
Lemma eigens_form a e1 e2 e3 v1 v2 v3 : eigens a e1 e2 e3 v1 v2 v3 ->
  a = mul3 (mul3 (columns v1 v2 v3) (diag (V3 e1 e2 e3))) (tr3 (columns v1 v2 v3)) /\ mul3 (columns v1 v2 v3) (tr3 (columns v1 v2 v3)) = id3.
Proof. intros (O & A & B & C). split; [apply by_columns; assumption|apply columns_orthogonal; exact O]. Qed.
Lemma trace_mul a b : trace3 (mul3 a b) = trace3 (mul3 b a).
Proof. m3r. ring. Qed.
Lemma eigens_trace a e1 e2 e3 v1 v2 v3 : eigens a e1 e2 e3 v1 v2 v3 -> trace3 a = e1 + e2 + e3.
Proof.
  intros H. destruct (eigens_form _ _ _ _ _ _ _ H) as [-> O]. rewrite trace_mul, <- mul3_assoc, (mul3_inv_comm _ _ O), mul3_1_l. reflexivity.
Qed.
Lemma eigens_det a e1 e2 e3 v1 v2 v3 : eigens a e1 e2 e3 v1 v2 v3 -> det3 a = e1 * e2 * e3.
Proof.
  intros H. destruct (eigens_form _ _ _ _ _ _ _ H) as [-> O]. rewrite !det3_mul. apply (f_equal det3) in O. rewrite det3_mul, det3_id in O.
  transitivity (det3 (columns v1 v2 v3) * det3 (tr3 (columns v1 v2 v3)) * det3 (diag (V3 e1 e2 e3))); [ring|]. rewrite O. unfold diag. m3r. ring.
Qed.
Lemma eigens_sq a e1 e2 e3 v1 v2 v3 : eigens a e1 e2 e3 v1 v2 v3 -> sum_sq a = e1 * e1 + e2 * e2 + e3 * e3.
Proof.
  intros H. assert (Q : sum_sq a = trace3 (mul3 a (tr3 a))) by (unfold sum_sq, sum_sq3, row3; m3r; ring). rewrite Q. clear Q.
  destruct (eigens_form _ _ _ _ _ _ _ H) as [-> O]. set (q := columns v1 v2 v3) in *. set (d := diag (V3 e1 e2 e3)).
  rewrite !tr3_mul, tr3_tr. rewrite !mul3_assoc. rewrite <- (mul3_assoc (tr3 q) q), (mul3_inv_comm _ _ O), mul3_1_l.
  rewrite trace_mul, !mul3_assoc, (mul3_inv_comm _ _ O), mul3_1_r. unfold d, diag. m3r. ring.
Qed.
Lemma eigens_shift a e1 e2 e3 v1 v2 v3 c : eigens a e1 e2 e3 v1 v2 v3 -> eigens (minus_id a c) (e1 - c) (e2 - c) (e3 - c) v1 v2 v3.
Proof.
  intros (O & A & B & C). split; [exact O|]. unfold minus_id.
  assert (Z : forall v e, mulv3 a v = scal3 e v -> mulv3 (madd3 a (mscal3 (- c) id3)) v = scal3 (e - c) v).
  { intros v e H. transitivity (sub3 (mulv3 a v) (scal3 c v)); [m3r; apply V3_eq; ring|rewrite H; m3r; apply V3_eq; ring]. }
  split; [apply Z, A|]. split; [apply Z, B|apply Z, C].
Qed.

Variables (a : mat3) (e1 e2 e3 : R) (v1 v2 v3 : vec3).
Hypotheses (Ha : eigens a e1 e2 e3 v1 v2 v3) (Ho : e1 <= e2 <= e3) (Hp : eps <= off_diagonal a).
Let p := se_p eps a.
Let q := se_q a.
Let m1 := (e1 - q) / p.
Let m2 := (e2 - q) / p.
Let m3_ := (e3 - q) / p.

Lemma m_sum : m1 + m2 + m3_ = 0.
Proof.
  pose proof (p_pos a) as P. fold p in P. unfold m1, m2, m3_. assert (Q : 3 * q = e1 + e2 + e3) by (unfold q, se_q; rewrite (eigens_trace _ _ _ _ _ _ _ Ha); field).
  transitivity ((e1 + e2 + e3 - 3 * q) / p); [field; lra|]. rewrite Q. unfold Rdiv. ring.
Qed.
Lemma p_sq : 6 * (p * p) = (e1 - q) * (e1 - q) + (e2 - q) * (e2 - q) + (e3 - q) * (e3 - q).
Proof.
  unfold p, se_p. rewrite sqrt_sqrt by (pose proof (p2_pos a); lra).
  rewrite <- (eigens_sq _ _ _ _ _ _ _ (eigens_shift a e1 e2 e3 v1 v2 v3 q Ha)). unfold se_p2. cbv zeta. rewrite Rmax_left by (rewrite p1_off; exact Hp).
  unfold se_p1. fold q. rewrite sq_shift. field.
Qed.
Lemma m_sq : m1 * m1 + m2 * m2 + m3_ * m3_ = 6.
Proof.
  pose proof (p_pos a) as P. fold p in P. pose proof p_sq as S. unfold m1, m2, m3_.
  transitivity (((e1 - q) * (e1 - q) + (e2 - q) * (e2 - q) + (e3 - q) * (e3 - q)) / (p * p)); [field; lra|]. rewrite <- S. field. lra.
Qed.
Lemma m_det : det3 (se_b eps a) = m1 * m2 * m3_.
Proof.
  pose proof (p_pos a) as P. unfold se_b. fold p in P |- *. fold q.
  rewrite det_scaled, (eigens_det _ _ _ _ _ _ _ (eigens_shift a e1 e2 e3 v1 v2 v3 q Ha)). unfold m1, m2, m3_. field. lra.
Qed.
Lemma m_order : m1 <= m2 <= m3_.
Proof. pose proof (p_pos a) as P. fold p in P. assert (0 < / p) by (apply Rinv_0_lt_compat; lra). unfold m1, m2, m3_, Rdiv. split; apply Rmult_le_compat_r; lra. Qed.
Lemma cubic_facts x y z : x + y + z = 0 -> x * x + y * y + z * z = 6 -> x <= y <= z ->
  1 <= z <= 2 /\ 1 <= - x <= 2 /\ T3 (z / 2) = x * y * z / 2 /\ T3 (- x / 2) = - (x * y * z / 2).
Proof.
  intros S Q O. assert (Y : y = - x - z) by lra. subst y.
  assert (K : x * x + x * z + z * z = 3) by lra.
  assert (Z1 : 1 <= z * z).
  { assert (0 <= (z - x) * (z - (- x - z))) by (apply Rmult_le_pos; lra). lra. }
  assert (X1 : 1 <= x * x).
  { assert (0 <= (z - x) * ((- x - z) - x)) by (apply Rmult_le_pos; lra). lra. }
  assert (Z2 : z * z <= 4) by (pose proof (sq_ge0 (2 * x + z)); lra).
  assert (X2 : x * x <= 4) by (pose proof (sq_ge0 (2 * z + x)); lra).
  assert (Zp : 0 <= z) by lra. assert (Xn : x <= 0) by lra.
  split; [split; nra|]. split; [split; nra|]. unfold T3. split.
  - transitivity (z * (z * z - 3) / 2); [field|]. replace (z * z - 3) with (- x * x - x * z) by lra. field.
  - transitivity (- (x * (x * x - 3) / 2)); [field|]. replace (x * x - 3) with (- z * z - x * z) by lra. field.
Qed.
Lemma clamp_near x : -1 <= x <= 1 -> Rabs (x - clamp x (-1 + eps) (1 - eps)) <= eps.
Proof. intros H. unfold clamp, Rmin, Rmax. repeat destruct Rle_dec; apply Rabs_le; lra. Qed.

Definition tol : R := 4 * sqrt (eps / 6).
Lemma eig_near : Rabs (x3 (se_eig eps a) - e1) <= p * tol /\ Rabs (y3 (se_eig eps a) - e2) <= p * tol /\ Rabs (z3 (se_eig eps a) - e3) <= p * tol.
Proof.
  pose proof (p_pos a) as P. fold p in P.
  destruct (cubic_facts m1 m2 m3_ m_sum m_sq m_order) as (Z & X & TZ & TX). rewrite <- m_det in TZ, TX.
  destruct (phi_T3 a) as [Fz Fx]. destruct (phi_cos a) as [Cz Cx].
  assert (Dr : -1 <= det3 (se_b eps a) / 2 <= 1).
  { rewrite <- TZ. unfold T3. set (c := m3_ / 2). assert (1 / 2 <= c <= 1) by (unfold c; lra). clearbody c. split.
    - assert (0 <= (c + 1) * ((2 * c - 1) * (2 * c - 1))) by (apply Rmult_le_pos; [lra|apply sq_ge0]). lra.
    - assert (0 <= (1 - c) * ((2 * c + 1) * (2 * c + 1))) by (apply Rmult_le_pos; [lra|apply sq_ge0]). lra. }
  pose proof (clamp_near _ Dr) as N. change (clamp (det3 (se_b eps a) / 2) (-1 + eps) (1 - eps)) with (se_r eps a) in N.
  assert (Nz : (m3_ / 2 - cos (se_phi eps a)) * (m3_ / 2 - cos (se_phi eps a)) <= eps / 6).
  { apply T3_inj; [lra|exact Cz|]. rewrite TZ, Fz. exact N. }
  assert (Nx : (- m1 / 2 - - cos (se_phi eps a + 2 * PI / 3)) * (- m1 / 2 - - cos (se_phi eps a + 2 * PI / 3)) <= eps / 6).
  { apply T3_inj; [lra|exact Cx|]. rewrite TX, Fx. replace (- (det3 (se_b eps a) / 2) - - se_r eps a) with (- (det3 (se_b eps a) / 2 - se_r eps a)) by ring. rewrite Rabs_Ropp. exact N. }
  apply root_bound in Nz, Nx. set (s := sqrt (eps / 6)) in *.
  assert (E1 : e1 = q + p * m1) by (unfold m1; field; lra). assert (E3 : e3 = q + p * m3_) by (unfold m3_; field; lra).
  assert (E2 : e2 = 3 * q - e1 - e3) by (unfold q, se_q; rewrite (eigens_trace _ _ _ _ _ _ _ Ha); field).
  unfold se_eig. cbn [x3 y3 z3]. fold p q. set (c1 := cos (se_phi eps a)) in *. set (c2 := cos (se_phi eps a + 2 * PI / 3)) in *.
  assert (A1 : Rabs (q + 2 * p * c2 - e1) <= p * (2 * s)).
  { replace (q + 2 * p * c2 - e1) with (p * (2 * (- m1 / 2 - - c2))) by (rewrite E1; field). rewrite !Rabs_mult, (Rabs_right p), (Rabs_right 2) by lra. apply Rmult_le_compat_l; lra. }
  assert (A3 : Rabs (q + 2 * p * c1 - e3) <= p * (2 * s)).
  { replace (q + 2 * p * c1 - e3) with (- (p * (2 * (m3_ / 2 - c1)))) by (rewrite E3; field). rewrite Rabs_Ropp, !Rabs_mult, (Rabs_right p), (Rabs_right 2) by lra. apply Rmult_le_compat_l; lra. }
  assert (Sp : 0 <= s) by apply sqrt_pos. assert (Ps : 0 <= p * s) by (apply Rmult_le_pos; lra). unfold tol. fold s.
  split; [lra|]. split; [|lra].
  replace (3 * q - (q + 2 * p * c1) - (q + 2 * p * c2) - e2) with (- ((q + 2 * p * c1 - e3) + (q + 2 * p * c2 - e1))) by (rewrite E2; ring).
  rewrite Rabs_Ropp. eapply Rle_trans; [apply Rabs_triang|]. lra.
Qed.
Lemma eigen_q e : In e [e1; e2; e3] -> Rabs (e - q) <= p * 2.
Proof.
  pose proof (p_pos a) as P. fold p in P. destruct (cubic_facts m1 m2 m3_ m_sum m_sq m_order) as (Z & X & _). pose proof m_order as O.
  assert (G : forall m, m1 <= m <= m3_ -> Rabs (p * m) <= p * 2).
  { intros m M. rewrite Rabs_mult, (Rabs_right p) by lra. apply Rmult_le_compat_l; [lra|]. apply Rabs_le. lra. }
  intros [<-|[<-|[<-|[]]]].
  - replace (e1 - q) with (p * m1) by (unfold m1; field; lra). apply G. lra.
  - replace (e2 - q) with (p * m2) by (unfold m2; field; lra). apply G. lra.
  - replace (e3 - q) with (p * m3_) by (unfold m3_; field; lra). apply G. lra.
Qed.
Lemma diag_q i : Rabs (at3 (sort3 (diagonal a)) i - q) <= p * 3.
Proof.
  pose proof (p_pos a) as P. fold p in P. destruct (sort3_facts (diagonal a)) as (_ & _ & S). destruct (S i) as (j & ->).
  assert (B : (at3 (diagonal a) j - q) * (at3 (diagonal a) j - q) <= (p * 3) * (p * 3)).
  { assert (Q : (at3 (diagonal a) j - q) * (at3 (diagonal a) j - q) <= 6 * (p * p)).
    { unfold p, se_p. rewrite sqrt_sqrt by (pose proof (p2_pos a); lra). unfold se_p2. cbv zeta. fold q.
      pose proof (Rmax_r (se_p1 a) eps). unfold sum_sq3. cbn [x3 y3 z3].
      pose proof (sq_ge0 (x3 (diagonal a) - q)). pose proof (sq_ge0 (y3 (diagonal a) - q)). pose proof (sq_ge0 (z3 (diagonal a) - q)).
      destruct j; cbn [at3]; lra. }
    pose proof (sq_ge0 p). lra. }
  apply root_bound in B. rewrite sqrt_square in B by lra. exact B.
Qed.
Lemma values_near :
  let b := p * (5 * se_soft eps a + tol) in
  Rabs (x3 (se_values eps a) - e1) <= b /\ Rabs (y3 (se_values eps a) - e2) <= b /\ Rabs (z3 (se_values eps a) - e3) <= b.
Proof.
  pose proof (p_pos a) as P. fold p in P. destruct eig_near as (N1 & N2 & N3). pose proof (soft_range a) as C.
  assert (Tp : 0 <= p * tol) by (apply Rmult_le_pos; [lra|unfold tol; pose proof (sqrt_pos (eps / 6)); lra]).
  assert (G : forall d g e, Rabs (d - q) <= p * 3 -> Rabs (e - q) <= p * 2 -> Rabs (g - e) <= p * tol ->
    Rabs (se_soft eps a * d + (1 - se_soft eps a) * g - e) <= p * (5 * se_soft eps a + tol)).
  { intros d g e Hd Hq Hg. set (c := se_soft eps a) in *.
    replace (c * d + (1 - c) * g - e) with (c * ((d - q) - (e - q)) + (1 - c) * (g - e)) by ring.
    eapply Rle_trans; [apply Rabs_triang|]. rewrite !Rabs_mult, (Rabs_right c), (Rabs_right (1 - c)) by lra.
    assert (D : Rabs (d - q - (e - q)) <= p * 5).
    { unfold Rminus at 1. eapply Rle_trans; [apply Rabs_triang|]. rewrite Rabs_Ropp. lra. }
    pose proof (Rmult_le_compat_l c _ _ ltac:(lra) D). pose proof (Rmult_le_compat_l (1 - c) _ _ ltac:(lra) Hg).
    assert (0 <= c * (p * tol)) by (apply Rmult_le_pos; lra). lra. }
  unfold se_values. cbn [x3 y3 z3]. split; [|split]; apply G; try assumption.
  - exact (diag_q I0).
  - apply eigen_q. cbn; auto.
  - exact (diag_q I1).
  - apply eigen_q. cbn; auto.
  - exact (diag_q I2).
  - apply eigen_q. cbn; auto.
Qed.
End E.
