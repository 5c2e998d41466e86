(* The linear algebra of corresponding_points_alignment: sums over weighted pairs of points,
   the trace bound for orthogonal matrices, and the optimal similarity transform. *)
From Verif Require Import Base RBase Geom LinAlg Transform Rotation RotationSpec RotationProofs RotationProofs2.
From Verif Require Import Alignment AlignmentSpec.
Local Open Scope R_scope.

(* ---- sum3 ---- *)
Lemma sum3_ext f g w x y : (forall a p q, f a p q = g a p q) -> sum3 f w x y = sum3 g w x y.
Proof. intros H. revert x y. induction w as [|a w IH]; intros [|p x] [|q y]; cbn; try reflexivity. rewrite H, IH. reflexivity. Qed.
Lemma sum3_plus f g w x y : sum3 (fun a p q => f a p q + g a p q) w x y = sum3 f w x y + sum3 g w x y.
Proof. revert x y. induction w as [|a w IH]; intros [|p x] [|q y]; cbn; try lra. rewrite IH. lra. Qed.
Lemma sum3_scal c f w x y : sum3 (fun a p q => c * f a p q) w x y = c * sum3 f w x y.
Proof. revert x y. induction w as [|a w IH]; intros [|p x] [|q y]; cbn; try lra. rewrite IH. lra. Qed.
Lemma sum3_le f g w x y : (forall a p q, In a w -> f a p q <= g a p q) -> sum3 f w x y <= sum3 g w x y.
Proof.
  intros H. revert x y. induction w as [|a w IH]; intros [|p x] [|q y]; cbn; try lra.
  assert (f a p q <= g a p q) by (apply H; left; reflexivity).
  assert (sum3 f w x y <= sum3 g w x y) by (apply IH; intros; apply H; right; assumption). lra.
Qed.
Lemma sum3_weight w x y : length x = length w -> length y = length w -> sum3 (fun a _ _ => a) w x y = rsum w.
Proof.
  revert x y. induction w as [|a w IH]; intros [|p x] [|q y] H K; try discriminate; [reflexivity|].
  cbn [sum3]. rewrite rsum_cons, IH by (cbn in *; lia). reflexivity.
Qed.
(* the second list does not matter for a function of the first *)
Lemma sum3_fst f w x y z : length x = length w -> length y = length w -> length z = length w ->
  sum3 (fun a p _ => f a p) w x y = sum3 (fun a p _ => f a p) w x z.
Proof.
  revert x y z. induction w as [|a w IH]; intros [|p x] [|q y] [|r z] H K L; try discriminate; [reflexivity|].
  cbn [sum3]. rewrite (IH x y z) by (cbn in *; lia). reflexivity.
Qed.
Lemma sum3_snd f w x y : length x = length w -> length y = length w ->
  sum3 (fun a _ q => f a q) w x y = sum3 (fun a q _ => f a q) w y y.
Proof.
  revert x y. induction w as [|a w IH]; intros [|p x] [|q y] H K; try discriminate; [reflexivity|].
  cbn [sum3]. rewrite (IH x y) by (cbn in *; lia). reflexivity.
Qed.
(* a masked sum is the sum over the first k *)
Lemma sum3_mask f k w x y : (forall p q, f 0 p q = 0) ->
  (forall i, (k <= i)%nat -> nth i w 0 = 0) ->
  sum3 f w x y = sum3 f (firstn k w) (firstn k x) (firstn k y).
Proof.
  intros F. revert k x y. induction w as [|a w IH]; intros k x y H; [rewrite firstn_nil; reflexivity|].
  destruct k as [|k].
  - cbn [firstn sum3]. assert (Z : a = 0) by (apply (H 0%nat); lia). subst a.
    assert (G : forall x y, sum3 f w x y = 0).
    { intros x' y'. rewrite (IH 0%nat); [cbn; reflexivity|]. intros i _. apply (H (S i)). lia. }
    destruct x, y; try reflexivity. cbn. rewrite F, G. lra.
  - destruct x as [|p x], y as [|q y]; cbn [firstn sum3]; try reflexivity.
    rewrite (IH k); [reflexivity|]. intros i Hi. apply (H (S i)). lia.
Qed.
Lemma rsum_mask k w : (forall i, (k <= i)%nat -> nth i w 0 = 0) -> rsum w = rsum (firstn k w).
Proof.
  revert k. induction w as [|a w IH]; intros k H; [rewrite firstn_nil; reflexivity|].
  destruct k as [|k].
  - cbn [firstn]. rewrite rsum_cons, rsum_nil. rewrite (IH 0%nat) by (intros i _; apply (H (S i)); lia).
    cbn [firstn]. rewrite rsum_nil. assert (Z : a = 0) by (apply (H 0%nat); lia). lra.
  - cbn [firstn]. rewrite !rsum_cons, (IH k); [reflexivity|]. intros i Hi. apply (H (S i)). lia.
Qed.

(* ---- matrices ---- *)
Ltac m9 := unfold mul3, tr3, id3, diag, madd3, mscal3, det3, trace3 in *; cbn [m00 m01 m02 m10 m11 m12 m20 m21 m22 x3 y3 z3] in *.
Definition fro (a b : mat3) : R :=
  m00 a * m00 b + m01 a * m01 b + m02 a * m02 b + m10 a * m10 b + m11 a * m11 b + m12 a * m12 b
  + m20 a * m20 b + m21 a * m21 b + m22 a * m22 b.
Lemma fro_svd q u s v : fro q (mul3 (mul3 u (diag s)) (tr3 v)) =
  x3 s * m00 (mul3 (mul3 (tr3 u) q) v) + y3 s * m11 (mul3 (mul3 (tr3 u) q) v) + z3 s * m22 (mul3 (mul3 (tr3 u) q) v).
Proof. unfold fro. destruct q, u, s, v. m9. ring. Qed.
Lemma orthogonal_tr m : orthogonal m -> mul3 (tr3 m) m = id3.
Proof. apply mul3_inv_comm. Qed.
Lemma orthogonal_t m : orthogonal m -> orthogonal (tr3 m).
Proof. intros H. unfold orthogonal. rewrite tr3_tr. apply orthogonal_tr, H. Qed.
Lemma orthogonal_mul a b : orthogonal a -> orthogonal b -> orthogonal (mul3 a b).
Proof.
  intros A B. unfold orthogonal in *. rewrite tr3_mul, mul3_assoc, <- (mul3_assoc b), B, mul3_1_l. exact A.
Qed.
Lemma orthogonal_det m : orthogonal m -> det3 m = 1 \/ det3 m = -1.
Proof.
  intros H. assert (D : det3 m * det3 m = 1) by (rewrite <- (det3_tr m) at 2; rewrite <- det3_mul, H; apply det3_id).
  assert ((det3 m - 1) * (det3 m + 1) = 0) by lra. apply Rmult_integral in H0. lra.
Qed.
Lemma orthogonal_diag m : orthogonal m -> m00 m <= 1 /\ m11 m <= 1 /\ m22 m <= 1.
Proof.
  intros H. unfold orthogonal in H. destruct m as [a b c d e f g h i]. m9.
  injection H as H0 _ _ _ H4 _ _ _ H8. repeat split; nra.
Qed.
Lemma improper_trace m : orthogonal m -> det3 m = -1 -> m00 m + m11 m + m22 m <= 1.
Proof.
  intros H D. assert (P : rotation (mscal3 (-1) m)).
  { split.
    - replace (mul3 (mscal3 (-1) m) (tr3 (mscal3 (-1) m))) with (mul3 m (tr3 m)); [exact H|].
      destruct m. m9. apply M3_eq; ring.
    - replace (det3 (mscal3 (-1) m)) with (- det3 m) by (destruct m; m9; ring). rewrite D. ring. }
  pose proof (four_nonneg _ (rotation_rel _ P)) as (F & _). destruct m. m9. lra.
Qed.

Definition sign_fix (ar : bool) (u v : mat3) : R := if ar then 1 else det3 (mul3 u (tr3 v)).
Lemma sign_fix_cases ar u v : orthogonal u -> orthogonal v -> sign_fix ar u v = 1 \/ sign_fix ar u v = -1.
Proof.
  intros U V. destruct ar; [left; reflexivity|]. apply orthogonal_det, orthogonal_mul; [exact U|].
  apply orthogonal_t, V.
Qed.
Definition rot_of (ar : bool) (u v : mat3) : mat3 := mul3 (mul3 u (diag (V3 1 1 (sign_fix ar u v)))) (tr3 v).

Lemma diag_orthogonal d : d = 1 \/ d = -1 -> orthogonal (diag (V3 1 1 d)).
Proof. intros [-> | ->]; unfold orthogonal; m9; apply M3_eq; ring. Qed.
Lemma rot_of_ok (ar : bool) u v : orthogonal u -> orthogonal v ->
  if ar then orthogonal (rot_of ar u v) else proper (rot_of ar u v).
Proof.
  intros U V. assert (O : orthogonal (rot_of ar u v)).
  { apply orthogonal_mul; [apply orthogonal_mul; [exact U|]|apply orthogonal_t, V].
    apply diag_orthogonal, sign_fix_cases; assumption. }
  destruct ar; [exact O|]. split; [exact O|].
  unfold rot_of, sign_fix. rewrite !det3_mul, det3_tr.
  assert (D : forall d, det3 (diag (V3 1 1 d)) = d) by (intros; m9; ring). rewrite D.
  destruct (orthogonal_det _ U) as [E|E], (orthogonal_det _ V) as [G|G]; rewrite E, G; ring.
Qed.
Lemma fro_rot_of (ar : bool) u s v : orthogonal u -> orthogonal v ->
  fro (rot_of ar u v) (mul3 (mul3 u (diag s)) (tr3 v)) = x3 s + y3 s + sign_fix ar u v * z3 s.
Proof.
  intros U V. rewrite fro_svd. unfold rot_of.
  set (e := diag (V3 1 1 (sign_fix ar u v))).
  assert (E : mul3 (mul3 (tr3 u) (mul3 (mul3 u e) (tr3 v))) v = e).
  { rewrite !mul3_assoc, (orthogonal_tr v V), mul3_1_r, <- mul3_assoc, (orthogonal_tr u U). apply mul3_1_l. }
  rewrite E. unfold e. m9. ring.
Qed.
Lemma fro_bound (ar : bool) q u s v : orthogonal u -> orthogonal v -> 0 <= z3 s <= y3 s -> y3 s <= x3 s ->
  (if ar then orthogonal q else proper q) ->
  fro q (mul3 (mul3 u (diag s)) (tr3 v)) <= x3 s + y3 s + sign_fix ar u v * z3 s.
Proof.
  intros U V [S3 S2] S1 Q. rewrite fro_svd. set (p := mul3 (mul3 (tr3 u) q) v).
  assert (OQ : orthogonal q) by (destruct ar; [exact Q|exact (proj1 Q)]).
  assert (P : orthogonal p) by (apply orthogonal_mul; [apply orthogonal_mul; [apply orthogonal_t, U|exact OQ]|exact V]).
  pose proof (orthogonal_diag p P) as (D0 & D1 & D2).
  assert (One : x3 s * m00 p + y3 s * m11 p + z3 s * m22 p <= x3 s + y3 s + z3 s) by nra.
  destruct ar; unfold sign_fix; [lra|].
  destruct (sign_fix_cases false u v U V) as [E|E]; unfold sign_fix in E; rewrite E; [lra|].
  assert (DP : det3 p = -1).
  { unfold p. rewrite !det3_mul, det3_tr, (proj2 Q). rewrite det3_mul, det3_tr in E. lra. }
  pose proof (improper_trace p P DP) as T. clear - S1 S2 S3 D0 D1 D2 T.
  set (a := m00 p) in *. set (b := m11 p) in *. set (c := m22 p) in *. clearbody a b c.
  replace (x3 s * a + y3 s * b + z3 s * c) with ((x3 s - y3 s) * a + (y3 s - z3 s) * (a + b) + z3 s * (a + b + c)) by ring.
  assert ((x3 s - y3 s) * a <= (x3 s - y3 s) * 1) by (apply Rmult_le_compat_l; lra).
  assert ((y3 s - z3 s) * (a + b) <= (y3 s - z3 s) * 2) by (apply Rmult_le_compat_l; lra).
  assert (z3 s * (a + b + c) <= z3 s * 1) by (apply Rmult_le_compat_l; lra). lra.
Qed.

(* ---- the squared error about two centres ---- *)
Definition dev (w : list R) (x y : list vec3) (cx cy : vec3) (q : mat3) (c : R) : R :=
  sum3 (fun a p r => a * sqdist (scal3 c (vmul3 (sub3 p cx) q)) (sub3 r cy)) w x y.
Definition inertia (w : list R) (x : list vec3) (cx : vec3) : R := sum3 (fun a p _ => a * sqdist p cx) w x x.
Definition cross_moment (w : list R) (x y : list vec3) (cx cy : vec3) : mat3 :=
  let e (f g : vec3 -> R) := sum3 (fun a p q => a * f (sub3 p cx) * g (sub3 q cy)) w x y in
  M3 (e x3 x3) (e x3 y3) (e x3 z3) (e y3 x3) (e y3 y3) (e y3 z3) (e z3 x3) (e z3 y3) (e z3 z3).

Lemma vmul_norm q p : orthogonal q -> dot3 (vmul3 p q) (vmul3 p q) = dot3 p p.
Proof. intros H. rewrite dot3_vmul, <- vmul3_mul, H, vmul3_id. reflexivity. Qed.
Lemma sqdist_dot p q : sqdist p q = dot3 p p - 2 * dot3 p q + dot3 q q.
Proof. destruct p, q. unfold sqdist, dot3. cbn. ring. Qed.
Lemma sqdist_sub p q : sqdist p q = dot3 (sub3 p q) (sub3 p q).
Proof. destruct p, q. unfold sqdist, dot3, sub3. cbn. ring. Qed.

Lemma dev_expand w x y cx cy q c : length x = length w -> length y = length w -> orthogonal q ->
  dev w x y cx cy q c = c * c * inertia w x cx - 2 * c * fro q (cross_moment w x y cx cy) + inertia w y cy.
Proof.
  intros Hx Hy Q. unfold dev, inertia.
  rewrite (sum3_ext _ (fun a p r => c * c * (a * sqdist p cx) + (-2 * c * m00 q * (a * x3 (sub3 p cx) * x3 (sub3 r cy))
    + (-2 * c * m01 q * (a * x3 (sub3 p cx) * y3 (sub3 r cy)) + (-2 * c * m02 q * (a * x3 (sub3 p cx) * z3 (sub3 r cy))
    + (-2 * c * m10 q * (a * y3 (sub3 p cx) * x3 (sub3 r cy)) + (-2 * c * m11 q * (a * y3 (sub3 p cx) * y3 (sub3 r cy))
    + (-2 * c * m12 q * (a * y3 (sub3 p cx) * z3 (sub3 r cy)) + (-2 * c * m20 q * (a * z3 (sub3 p cx) * x3 (sub3 r cy))
    + (-2 * c * m21 q * (a * z3 (sub3 p cx) * y3 (sub3 r cy)) + (-2 * c * m22 q * (a * z3 (sub3 p cx) * z3 (sub3 r cy))
    + a * sqdist r cy))))))))))).
  - rewrite !sum3_plus, !sum3_scal.
    rewrite (sum3_fst (fun a p => a * sqdist p cx) w x y x) by (assumption || congruence).
    rewrite (sum3_snd (fun a r => a * sqdist r cy) w x y) by assumption.
    unfold fro, cross_moment. cbn [m00 m01 m02 m10 m11 m12 m20 m21 m22]. ring.
  - intros a p r. rewrite sqdist_dot.
    assert (N : dot3 (scal3 c (vmul3 (sub3 p cx) q)) (scal3 c (vmul3 (sub3 p cx) q)) = c * c * sqdist p cx).
    { rewrite sqdist_sub, <- (vmul_norm q (sub3 p cx) Q). unfold dot3, scal3. cbn [x3 y3 z3]. ring. }
    rewrite N, (sqdist_sub r cy). unfold dot3, scal3, vmul3. cbn [x3 y3 z3]. ring.
Qed.

(* the sums of the deviations from the centre of mass vanish *)
Lemma centred (f : vec3 -> R) w x : (f = x3 \/ f = y3 \/ f = z3) -> length x = length w -> rsum w <> 0 ->
  sum3 (fun a p _ => a * f (sub3 p (centre w x))) w x x = 0.
Proof.
  intros F Hx W.
  assert (E : forall (g : vec3 -> R) k, (forall p c, g (sub3 p c) = g p - g c) ->
    g (centre w x) = sum3 (fun a p _ => a * g p) w x x / rsum w -> g (centre w x) = k ->
    sum3 (fun a p _ => a * g (sub3 p (centre w x))) w x x = 0).
  { intros g k G C K. rewrite (sum3_ext _ (fun a p r => a * g p + (- k) * a)) by (intros; rewrite G, K; ring).
    rewrite sum3_plus, sum3_scal, (sum3_weight w x x Hx Hx), <- K, C. field. exact W. }
  destruct F as [-> | [-> | ->]]; eapply E; try reflexivity.
Qed.

Lemma misfit_split w x y t : length x = length w -> length y = length w -> rsum w <> 0 ->
  misfit w x y t = dev w x y (centre w x) (centre w y) (rot t) (scale t)
    + rsum w * sqdist (image t (centre w x)) (centre w y).
Proof.
  intros Hx Hy W. set (cx := centre w x). set (cy := centre w y).
  set (k := sub3 (image t cx) cy).
  assert (X : forall f, f = x3 \/ f = y3 \/ f = z3 -> sum3 (fun a p _ => a * f (sub3 p cx)) w x y = 0).
  { intros f F. rewrite (sum3_fst (fun a p => a * f (sub3 p cx)) w x y x) by (assumption || congruence).
    apply centred; assumption. }
  assert (Y : forall f, f = x3 \/ f = y3 \/ f = z3 -> sum3 (fun a _ q => a * f (sub3 q cy)) w x y = 0).
  { intros f F. rewrite (sum3_snd (fun a q => a * f (sub3 q cy)) w x y) by assumption. apply centred; assumption. }
  unfold misfit, dev. rewrite (sqdist_sub (image t cx) cy). fold k.
  set (q := rot t). set (c := scale t).
  rewrite (sum3_ext _ (fun a p r => a * sqdist (scal3 c (vmul3 (sub3 p cx) q)) (sub3 r cy)
    + (2 * c * (m00 q * x3 k + m01 q * y3 k + m02 q * z3 k) * (a * x3 (sub3 p cx))
    + (2 * c * (m10 q * x3 k + m11 q * y3 k + m12 q * z3 k) * (a * y3 (sub3 p cx))
    + (2 * c * (m20 q * x3 k + m21 q * y3 k + m22 q * z3 k) * (a * z3 (sub3 p cx))
    + (-2 * x3 k * (a * x3 (sub3 r cy)) + (-2 * y3 k * (a * y3 (sub3 r cy)) + (-2 * z3 k * (a * z3 (sub3 r cy))
    + dot3 k k * a)))))))).
  - rewrite !sum3_plus, !sum3_scal, (sum3_weight w x y Hx Hy), !X, !Y by tauto. ring.
  - intros a p r. rewrite !sqdist_sub. unfold k, image. fold q c. unfold dot3, scal3, vmul3, sub3, add3. cbn [x3 y3 z3]. ring.
Qed.

(* completing the square in the scale *)
Lemma scale_best (sx tau tau' w c : R) : 0 < sx -> 0 < w -> 0 <= tau -> tau' <= tau -> 0 <= c ->
  let c0 := tau / (sx / w) in
  c0 * c0 * sx - 2 * c0 * (w * tau) <= c * c * sx - 2 * c * (w * tau').
Proof.
  intros S W T L C c0. assert (E : c0 * sx = w * tau) by (unfold c0; field; lra).
  assert (c * (w * tau') <= c * (w * tau)) by (apply Rmult_le_compat_l; [exact C|]; apply Rmult_le_compat_l; lra).
  assert (0 <= sx * ((c - c0) * (c - c0))) by (apply Rmult_le_pos; [lra|exact (Rle_0_sqr (c - c0))]).
  replace (c0 * c0 * sx - 2 * c0 * (w * tau)) with (- (c0 * (c0 * sx)) - 2 * c0 * (w * tau) + 2 * (c0 * (c0 * sx))) by ring.
  assert (sx * ((c - c0) * (c - c0)) = c * c * sx - 2 * c * (c0 * sx) + c0 * (c0 * sx)) by ring.
  rewrite E in *. lra.
Qed.
