(* C70: symeig3x3 returns an orthonormal basis and ordered eigenvalues close to the true ones. *)
From Verif Require Import Base RBase Geom LinAlg Symeig Spectral SymeigSpec SymeigProofs SymeigProofs2.
From Coq Require Import Psatz.
Local Open Scope R_scope.

(* The three returned vectors are orthonormal, for every matrix and whichever extremal index
   argmax and argmin choose. *)
Theorem symeig_orthonormal eps argmax argmin a : normalize_eps <= eps -> is_argmax argmax -> is_argmin argmin ->
  let '(_, (v1, v2, v3)) := symeig3x3 eps argmax argmin a in orthonormal v1 v2 v3.
Proof. intros E A B. exact (vectors_frame eps argmax argmin E A B a (se_values eps a)). Qed.
Print Assumptions symeig_orthonormal.

(* The eigenvalues are ascending and sum to the trace. *)
Theorem symeig_ordered eps argmax argmin a : 0 < eps <= 1 ->
  let '(e, _) := symeig3x3 eps argmax argmin a in
  x3 e <= y3 e <= z3 e /\ x3 e + y3 e + z3 e = m00 a + m11 a + m22 a.
Proof. intros E. split; [exact (values_order eps E a)|exact (values_sum eps a)]. Qed.
Print Assumptions symeig_ordered.

(* On a diagonal matrix they are the sorted diagonal. *)
Theorem symeig_diagonal eps argmax argmin d1 d2 d3 : 0 < eps <= 1 -> d1 <= d2 <= d3 ->
  forall a, In a [M3 d1 0 0 0 d2 0 0 0 d3; M3 d1 0 0 0 d3 0 0 0 d2; M3 d2 0 0 0 d1 0 0 0 d3; M3 d2 0 0 0 d3 0 0 0 d1; M3 d3 0 0 0 d1 0 0 0 d2; M3 d3 0 0 0 d2 0 0 0 d1] ->
  fst (symeig3x3 eps argmax argmin a) = V3 d1 d2 d3.
Proof.
  intros E O a H. cbn [fst symeig3x3]. rewrite values_diagonal; [|exact E|].
  - cbn in H. repeat (destruct H as [<-|H]; [unfold sort3, diagonal; cbn [x3 y3 z3 m00 m11 m22]; apply V3_eq; unfold Rmin, Rmax; repeat destruct Rle_dec; lra|]). contradiction.
  - cbn in H. repeat (destruct H as [<-|H]; [unfold off_diagonal; cbn [m01 m02 m10 m12 m20 m21]; lra|]). contradiction.
Qed.
Print Assumptions symeig_diagonal.

(* Every symmetric matrix has ordered eigenvalues; those returned differ from them by at most a
   small multiple of the spread, provided the part outside of the diagonal is at least eps. *)
Theorem symeig_accurate eps argmax argmin a : 0 < eps <= 1 -> symmetric a -> eps <= off_diagonal a ->
  exists e1 e2 e3 v1 v2 v3, eigens a e1 e2 e3 v1 v2 v3 /\ e1 <= e2 <= e3 /\
  let '(e, _) := symeig3x3 eps argmax argmin a in
  let bound := spread a * (5 * exp (- (off_diagonal a / (6 * eps)) ^ 2) + 4 * sqrt (eps / 6)) in
  Rabs (x3 e - e1) <= bound /\ Rabs (y3 e - e2) <= bound /\ Rabs (z3 e - e3) <= bound.
Proof.
  intros E S O. destruct (spectral_sorted a S) as (e1 & e2 & e3 & v1 & v2 & v3 & H & L).
  exists e1, e2, e3, v1, v2, v3. split; [exact H|]. split; [exact L|]. unfold symeig3x3.
  pose proof (values_near eps E a e1 e2 e3 v1 v2 v3 H L O) as N. cbv zeta in N. rewrite (p_spread eps a O) in N.
  unfold tol, se_soft in N. rewrite p1_off in N.
  replace (- (off_diagonal a / (6 * eps)) ^ 2) with (- (off_diagonal a / (6 * eps) * (off_diagonal a / (6 * eps)))) by ring. exact N.
Qed.
Print Assumptions symeig_accurate.

(* The returned vectors are not exactly eigenvectors: the regularisation tilts them even for a
   diagonal matrix with distinct entries. *)
Theorem symeig_vectors_exact_refuted : ~ (forall eps argmax argmin a, normalize_eps <= eps <= / 1000 -> is_argmax argmax -> is_argmin argmin -> symmetric a ->
  let '(e, (v1, v2, v3)) := symeig3x3 eps argmax argmin a in mulv3 a v3 = scal3 (z3 e) v3).
Proof.
  intros H.
  set (amax := fun v : vec3 => if Rltb (x3 v) (y3 v) then if Rltb (y3 v) (z3 v) then I2 else I1 else if Rltb (x3 v) (z3 v) then I2 else I0).
  set (amin := fun v : vec3 => if Rltb (y3 v) (x3 v) then if Rltb (z3 v) (y3 v) then I2 else I1 else if Rltb (z3 v) (x3 v) then I2 else I0).
  assert (A : is_argmax amax).
  { intros [a b c] i. unfold amax. cbn [x3 y3 z3]. destruct (Rltb_spec a b); destruct (Rltb_spec b c); destruct (Rltb_spec a c); destruct i; cbn [at3 x3 y3 z3]; lra. }
  assert (B : is_argmin amin).
  { intros [a b c] i. unfold amin. cbn [x3 y3 z3]. destruct (Rltb_spec b a); destruct (Rltb_spec c b); destruct (Rltb_spec c a); destruct i; cbn [at3 x3 y3 z3]; lra. }
  set (eps := / 1000). assert (Ep : normalize_eps <= eps <= / 1000) by (unfold eps, normalize_eps; lra).
  specialize (H eps amax amin (M3 0 0 0 0 1 0 0 0 3) Ep A B eq_refl). unfold symeig3x3 in H.
  rewrite values_diagonal in H; [|unfold eps; lra|unfold off_diagonal; cbn; lra].
  assert (S : sort3 (diagonal (M3 0 0 0 0 1 0 0 0 3)) = V3 0 1 3).
  { unfold sort3, diagonal. cbn [x3 y3 z3 m00 m11 m22]. apply V3_eq; unfold Rmin, Rmax; repeat destruct Rle_dec; lra. }
  rewrite S in H. unfold se_vectors in H. cbn [x3 y3 z3] in H. unfold se_triple in H. cbv zeta in H.
  set (w := se_ev0 eps amax (minus_id (M3 0 0 0 0 1 0 0 0 3) 3)) in H. destruct (se_uv amin w) as [u v] eqn:Euv. cbn [fst snd] in H.
  destruct (Rltb_spec (3 - 1) (1 - 0)) as [L|_]; [lra|]. cbn [z3] in H.
  assert (X : x3 w = 0).
  { apply (f_equal x3) in H. revert H. unfold mulv3, vmul3, scal3, tr3. cbn [m00 m01 m02 m10 m11 m12 m20 m21 m22 x3 y3 z3]. lra. }
  revert X. unfold w, se_ev0. cbv zeta.
  assert (R0 : cross3 (row3 (minus_id (M3 0 0 0 0 1 0 0 0 3) 3) I0) (row3 (minus_id (M3 0 0 0 0 1 0 0 0 3) 3) I1) = V3 0 0 6).
  { unfold minus_id, row3. m3r. apply V3_eq; ring. }
  assert (R1 : cross3 (row3 (minus_id (M3 0 0 0 0 1 0 0 0 3) 3) I1) (row3 (minus_id (M3 0 0 0 0 1 0 0 0 3) 3) I2) = V3 0 0 0).
  { unfold minus_id, row3. m3r. apply V3_eq; ring. }
  assert (R2 : cross3 (row3 (minus_id (M3 0 0 0 0 1 0 0 0 3) 3) I0) (row3 (minus_id (M3 0 0 0 0 1 0 0 0 3) 3) I2) = V3 0 0 0).
  { unfold minus_id, row3. m3r. apply V3_eq; ring. }
  rewrite R0, R1, R2. unfold se_signs. cbn [x3 y3 z3].
  assert (S0 : sign0 0 = -1) by (unfold sign0; destruct (Rltb_spec 0 0); lra). assert (S6 : sign0 6 = 1) by (unfold sign0; destruct (Rltb_spec 0 6); lra).
  rewrite S0, S6. unfold add3. cbn [x3 y3 z3]. unfold sum_sq3. cbn [x3 y3 z3].
  set (N := V3 _ _ _). assert (P : 0 < at3 N (amax N)).
  { apply Rlt_le_trans with (at3 N I0); [|apply A]. cbn [at3 N x3]. unfold eps. lra. }
  pose proof (sqrt_lt_R0 _ P) as Q. assert (Q' : 0 < / sqrt (at3 N (amax N))) by (apply Rinv_0_lt_compat; exact Q).
  generalize dependent (/ sqrt (at3 N (amax N))). intros k Hk. destruct (amax N); unfold scal3; cbn [x3 y3 z3]; intros X;
  (apply Rmult_integral in X as [X|X]; [lra|unfold eps in X; lra]).
Qed.
Print Assumptions symeig_vectors_exact_refuted.

(* the hypotheses of the accuracy theorem are met *)
Example symeig_hypotheses : symmetric (M3 2 1 0 1 2 1 0 1 2) /\ / 8388608 <= off_diagonal (M3 2 1 0 1 2 1 0 1 2) /\ normalize_eps <= / 8388608.
Proof. split; [reflexivity|]. split; [unfold off_diagonal; cbn; lra|unfold normalize_eps; lra]. Qed.
