From Verif Require Import Base RBase Geom GeomSpec.
Local Open Scope R_scope.

Lemma kEps_pos : 0 < kEps. Proof. unfold kEps. apply Rinv_0_lt_compat. lra. Qed.

Lemma edge_area v0 v1 v2 : edge v2 v0 v1 = - signed_area2 v0 v1 v2.
Proof. unfold edge, signed_area2. ring. Qed.
Lemma edge_sum p v0 v1 v2 : edge p v1 v2 + edge p v2 v0 + edge p v0 v1 = edge v2 v0 v1.
Proof. unfold edge. ring. Qed.
Lemma edge_recon_x p v0 v1 v2 : edge p v1 v2 * x2 v0 + edge p v2 v0 * x2 v1 + edge p v0 v1 * x2 v2 = edge v2 v0 v1 * x2 p.
Proof. unfold edge. ring. Qed.
Lemma edge_recon_y p v0 v1 v2 : edge p v1 v2 * y2 v0 + edge p v2 v0 * y2 v1 + edge p v0 v1 * y2 v2 = edge v2 v0 v1 * y2 p.
Proof. unfold edge. ring. Qed.

Lemma bary_sum p v0 v1 v2 : edge v2 v0 v1 + kEps <> 0 ->
  let b := bary p v0 v1 v2 in let A := edge v2 v0 v1 in
  x3 b + y3 b + z3 b = A / (A + kEps) /\
  x3 b * x2 v0 + y3 b * x2 v1 + z3 b * x2 v2 = A / (A + kEps) * x2 p /\
  x3 b * y2 v0 + y3 b * y2 v1 + z3 b * y2 v2 = A / (A + kEps) * y2 p.
Proof.
  intros H. cbn. pose proof (edge_sum p v0 v1 v2) as E1. pose proof (edge_recon_x p v0 v1 v2) as E2.
  pose proof (edge_recon_y p v0 v1 v2) as E3. repeat split; unfold Rdiv.
  - rewrite <- E1. ring.
  - transitivity ((edge p v1 v2 * x2 v0 + edge p v2 v0 * x2 v1 + edge p v0 v1 * x2 v2) * / (edge v2 v0 v1 + kEps)); [ring|].
    rewrite E2. ring.
  - transitivity ((edge p v1 v2 * y2 v0 + edge p v2 v0 * y2 v1 + edge p v0 v1 * y2 v2) * / (edge v2 v0 v1 + kEps)); [ring|].
    rewrite E3. ring.
Qed.

Lemma edge_of_comb q v0 v1 v2 a b c : a + b + c = 1 ->
    x2 q = a * x2 v0 + b * x2 v1 + c * x2 v2 -> y2 q = a * y2 v0 + b * y2 v1 + c * y2 v2 ->
  edge q v1 v2 = a * edge v2 v0 v1 /\ edge q v2 v0 = b * edge v2 v0 v1 /\ edge q v0 v1 = c * edge v2 v0 v1.
Proof.
  intros H1 Hx Hy. unfold edge. rewrite Hx, Hy. assert (a = 1 - b - c) by lra. subst a. repeat split; ring.
Qed.

Lemma div_pos_same a b : (0 < b -> 0 < a) -> (b < 0 -> a < 0) -> b <> 0 -> 0 < a / b.
Proof.
  intros H1 H2 N. destruct (Rlt_or_le 0 b).
  - apply Rdiv_lt_0_compat; auto.
  - assert (b < 0) by lra. replace (a / b) with (- a / - b) by (field; assumption). apply Rdiv_lt_0_compat; [|lra]. specialize (H2 H0). lra.
Qed.

Lemma bary_inside p v0 v1 v2 : kEps < Rabs (edge v2 v0 v1) ->
  let b := bary p v0 v1 v2 in
  (0 < x3 b /\ 0 < y3 b /\ 0 < z3 b) <-> in_tri2_strict p v0 v1 v2.
Proof.
  intros HA. pose proof kEps_pos as K. cbn [bary x3 y3 z3].
  set (A := edge v2 v0 v1) in *.
  assert (HA' : kEps < A \/ A < - kEps). { unfold Rabs in HA. destruct (Rcase_abs A); lra. }
  assert (NA : A <> 0) by (destruct HA'; lra). assert (ND : A + kEps <> 0) by (destruct HA'; lra).
  assert (SD : (0 < A -> 0 < A + kEps) /\ (A < 0 -> A + kEps < 0)) by (split; destruct HA'; lra).
  split.
  - intros [H0 [H1 H2]].
    assert (G : forall e, 0 < e / (A + kEps) -> 0 < e / A).
    { intros e He. assert (E : e = e / (A + kEps) * (A + kEps)) by (field; assumption).
      apply div_pos_same; [| |assumption]; intros X; rewrite E; destruct SD as [S1 S2].
      - apply Rmult_lt_0_compat; auto.
      - specialize (S2 X). nra. }
    exists (edge p v1 v2 / A), (edge p v2 v0 / A), (edge p v0 v1 / A).
    repeat split; auto.
    + pose proof (edge_sum p v0 v1 v2) as E. fold A in E. unfold Rdiv. rewrite <- !Rmult_plus_distr_r, E. apply Rinv_r; assumption.
    + pose proof (edge_recon_x p v0 v1 v2) as E. fold A in E.
      transitivity ((edge p v1 v2 * x2 v0 + edge p v2 v0 * x2 v1 + edge p v0 v1 * x2 v2) / A); [rewrite E; field; assumption|field; assumption].
    + pose proof (edge_recon_y p v0 v1 v2) as E. fold A in E.
      transitivity ((edge p v1 v2 * y2 v0 + edge p v2 v0 * y2 v1 + edge p v0 v1 * y2 v2) / A); [rewrite E; field; assumption|field; assumption].
  - intros [a [b [c [Ha [Hb [Hc [Hs [Hx Hy]]]]]]]].
    destruct (edge_of_comb p v0 v1 v2 a b c Hs Hx Hy) as [E0 [E1 E2]]. fold A in E0, E1, E2. rewrite E0, E1, E2.
    destruct SD as [S1 S2].
    assert (G : forall e, 0 < e -> 0 < e * A / (A + kEps)).
    { intros e He. apply div_pos_same; [| |assumption]; intros X.
      - assert (0 < A) by (destruct HA'; lra). nra.
      - assert (A < 0) by (destruct HA'; lra). nra. }
    auto.
Qed.

(* perspective correction recovers the 3d barycentric coordinates *)
Lemma persp_recovers b0 b1 b2 z0 z1 z2 :
  0 < z0 -> 0 < z1 -> 0 < z2 -> b0 + b1 + b2 = 1 ->
  let z := b0 * z0 + b1 * z1 + b2 * z2 in
  0 < z -> kEps <= z0 * z1 * z2 / z ->
  persp (V3 (b0 * z0 / z) (b1 * z1 / z) (b2 * z2 / z)) z0 z1 z2 = V3 b0 b1 b2.
Proof.
  intros P0 P1 P2 HS z Hz HE. unfold persp. cbn [x3 y3 z3].
  assert (E : b0 * z0 / z * z1 * z2 + b1 * z1 / z * z0 * z2 + b2 * z2 / z * z0 * z1 = z0 * z1 * z2 / z).
  { transitivity ((b0 + b1 + b2) * (z0 * z1 * z2 / z)); [field; lra|]. rewrite HS. ring. }
  rewrite E, Rmax_left by lra.
  f_equal; field; repeat split; lra.
Qed.

Lemma clip_bounds b : let c := clip b in
  0 <= x3 c /\ 0 <= y3 c /\ 0 <= z3 c /\ x3 c + y3 c + z3 c <= 1 /\
  (clipSum <= Rmax (x3 b) 0 + Rmax (y3 b) 0 + Rmax (z3 b) 0 -> x3 c + y3 c + z3 c = 1).
Proof.
  cbn [clip x3 y3 z3]. set (wx := Rmax (x3 b) 0). set (wy := Rmax (y3 b) 0). set (wz := Rmax (z3 b) 0).
  assert (0 <= wx) by apply Rmax_r. assert (0 <= wy) by apply Rmax_r. assert (0 <= wz) by apply Rmax_r.
  assert (C : 0 < clipSum) by (apply Rinv_0_lt_compat; lra).
  set (s := Rmax (wx + wy + wz) clipSum).
  assert (clipSum <= s) by apply Rmax_r. assert (wx + wy + wz <= s) by apply Rmax_l.
  assert (0 < / s) by (apply Rinv_0_lt_compat; lra).
  repeat split; try (unfold Rdiv; apply Rmult_le_pos; lra).
  - replace (wx / s + wy / s + wz / s) with ((wx + wy + wz) / s) by (field; lra).
    apply Rmult_le_reg_r with s; [lra|]. unfold Rdiv. rewrite Rmult_assoc, Rinv_l by lra. lra.
  - intros HS. replace (wx / s + wy / s + wz / s) with ((wx + wy + wz) / s) by (field; lra).
    replace s with (wx + wy + wz) by (unfold s; rewrite Rmax_left; lra). field. lra.
Qed.
(* a point inside keeps its coordinates *)
Lemma clip_inside b : 0 <= x3 b -> 0 <= y3 b -> 0 <= z3 b -> x3 b + y3 b + z3 b = 1 -> clip b = b.
Proof.
  intros. unfold clip. cbv zeta. rewrite (Rmax_left (x3 b) 0), (Rmax_left (y3 b) 0), (Rmax_left (z3 b) 0) by assumption.
  rewrite H2, Rmax_left by (unfold clipSum; lra). destruct b; cbn. f_equal; field.
Qed.

(* ---- segments ---- *)
Lemma clamp01_range t : 0 <= clamp01 t <= 1.
Proof. unfold clamp01, Rmin, Rmax. destruct (Rle_dec t 0); destruct (Rle_dec _ 1); lra. Qed.
Lemma clamp01_nearest t s : 0 <= s <= 1 -> (clamp01 t - t) ^ 2 <= (s - t) ^ 2.
Proof.
  intros Hs. unfold clamp01, Rmin, Rmax. destruct (Rle_dec t 0) as [T|T]; destruct (Rle_dec _ 1) as [U|U];
    try apply Rnot_le_lt in T; try apply Rnot_le_lt in U; try nra.
  replace (t - t) with 0 by ring. assert (0 <= (s - t) ^ 2) by apply pow2_ge_0. lra.
Qed.

Lemma pline3_min p a b : kEps < sqd3 b a \/ a = b ->
  is_min (fun q => on_seg3 q a b) (sqd3 p) (pline3 p a b).
Proof.
  intros HL. unfold pline3. set (d := sub3 b a). set (l2 := dot3 d d).
  assert (El : l2 = sqd3 b a) by (unfold l2, d, dot3, sub3, sqd3; cbn; ring).
  destruct (Rleb_spec l2 kEps) as [L|L].
  - destruct HL as [HL|<-]; [lra|]. split.
    + exists a. split; [|unfold dot3, sub3, sqd3; cbn; ring]. exists 0. repeat split; try lra; ring.
    + intros q [t [Ht [Hx [Hy Hz]]]]. unfold sqd3, dot3, sub3. cbn. rewrite Hx, Hy, Hz. right; ring.
  - set (t0 := dot3 d (sub3 p a) / l2). set (c := clamp01 t0).
    assert (K := kEps_pos). assert (Hl : 0 < l2) by lra.
    assert (F : forall t, sqd3 p (add3 a (scal3 t d)) = (dot3 (sub3 p a) (sub3 p a) - l2 * t0 ^ 2) + l2 * (t - t0) ^ 2).
    { intros t. unfold t0.
      replace (sqd3 p (add3 a (scal3 t d))) with (dot3 (sub3 p a) (sub3 p a) - 2 * t * dot3 d (sub3 p a) + t ^ 2 * l2)
        by (unfold l2, sqd3, add3, scal3, dot3, sub3; cbn; ring).
      field. lra. }
    replace (dot3 (sub3 p (add3 a (scal3 c d))) (sub3 p (add3 a (scal3 c d)))) with (sqd3 p (add3 a (scal3 c d)))
      by (unfold sqd3, dot3, sub3; cbn; ring).
    split.
    + exists (add3 a (scal3 c d)). split; [|reflexivity]. exists c. split; [apply clamp01_range|].
      unfold add3, scal3, d, sub3; cbn. repeat split; ring.
    + intros q [t [Ht [Hx [Hy Hz]]]].
      replace (sqd3 p q) with (sqd3 p (add3 a (scal3 t d))).
      2:{ unfold sqd3, add3, scal3, d, sub3; cbn. rewrite Hx, Hy, Hz. ring. }
      rewrite !F. assert (X := clamp01_nearest t0 t Ht). fold c in X. nra.
Qed.

Definition lift (v : vec2) : vec3 := V3 (x2 v) (y2 v) 0.
Lemma pline2_lift p a b : pline2 p a b = pline3 (lift p) (lift a) (lift b).
Proof.
  unfold pline2, pline3, lift.
  assert (D : forall u v w s, dot2 (sub2 u v) (sub2 w s) = dot3 (sub3 (lift u) (lift v)) (sub3 (lift w) (lift s)))
    by (intros; unfold dot2, dot3, sub2, sub3, lift; cbn; ring).
  unfold lift in D. rewrite !D.
  destruct (Rleb _ _); [reflexivity|].
  unfold dot2, dot3, sub2, sub3, add2, add3, scal2, scal3; cbn. ring_simplify. ring.
Qed.
Lemma pline2_min p a b : kEps < sqd2 b a \/ a = b ->
  is_min (fun q => on_seg2 q a b) (sqd2 p) (pline2 p a b).
Proof.
  intros HL. rewrite pline2_lift. destruct (pline3_min (lift p) (lift a) (lift b)) as [[q [Hq Eq]] HM].
  { destruct HL as [HL| ->]; [left|right; reflexivity]. unfold sqd2, sqd3, lift in *. cbn. lra. }
  split.
  - destruct Hq as [t [Ht [Hx [Hy Hz]]]]. cbn in *. exists (V2 (x3 q) (y3 q)). split; [exists t; auto|].
    rewrite <- Eq. unfold sqd2, sqd3, lift. cbn. rewrite Hz. ring.
  - intros [qx qy] [t [Ht [Hx Hy]]]. cbn in *. specialize (HM (V3 qx qy 0)).
    replace (sqd2 p {| x2 := qx; y2 := qy |}) with (sqd3 (lift p) (V3 qx qy 0)) by (unfold sqd2, sqd3, lift; cbn; ring).
    apply HM. exists t. cbn. repeat split; try lra; auto.
Qed.
(* in every case the value is attained at some point of the segment *)
Lemma pline3_attained p a b : exists q, on_seg3 q a b /\ sqd3 p q = pline3 p a b.
Proof.
  destruct (Rlt_dec kEps (sqd3 b a)) as [L|L].
  - apply (pline3_min p a b (or_introl L)).
  - exists b. split; [exists 1; repeat split; try lra; ring|]. unfold pline3.
    destruct (Rleb_spec (dot3 (sub3 b a) (sub3 b a)) kEps) as [H|H].
    + unfold sqd3, dot3, sub3; cbn; ring.
    + exfalso. apply H. replace (dot3 (sub3 b a) (sub3 b a)) with (sqd3 b a) by (unfold sqd3, dot3, sub3; cbn; ring). lra.
Qed.

Lemma is_min_or {A} (P Q S : A -> Prop) f d e : is_min P f d -> is_min Q f e ->
  (forall q, S q <-> P q \/ Q q) -> is_min S f (Rmin d e).
Proof.
  intros [[p [Hp Ep]] Mp] [[q [Hq Eq]] Mq] HS. split.
  - unfold Rmin. destruct (Rle_dec d e); [exists p|exists q]; split; auto; apply HS; auto.
  - intros s Hs. apply HS in Hs. destruct Hs as [Hs|Hs]; [specialize (Mp s Hs)|specialize (Mq s Hs)];
      unfold Rmin; destruct (Rle_dec d e); lra.
Qed.
Lemma ptri2_min p v0 v1 v2 : kEps < sqd2 v1 v0 -> kEps < sqd2 v2 v0 -> kEps < sqd2 v2 v1 ->
  is_min (fun q => on_seg2 q v0 v1 \/ on_seg2 q v0 v2 \/ on_seg2 q v1 v2) (sqd2 p) (ptri2 p v0 v1 v2).
Proof.
  intros H1 H2 H3. unfold ptri2.
  eapply (is_min_or (fun q => on_seg2 q v0 v1 \/ on_seg2 q v0 v2) (fun q => on_seg2 q v1 v2)).
  - eapply (is_min_or (fun q => on_seg2 q v0 v1) (fun q => on_seg2 q v0 v2)); [apply pline2_min; auto|apply pline2_min; auto|].
    intros q; reflexivity.
  - apply pline2_min; auto.
  - intros q. tauto.
Qed.

(* ---- 3d triangles ---- *)
Lemma sq_nonneg a : 0 <= a * a.
Proof. exact (Rle_0_sqr a). Qed.
Lemma dot3_nonneg v : 0 <= dot3 v v.
Proof.
  unfold dot3. assert (A := sq_nonneg (x3 v)). assert (B := sq_nonneg (y3 v)). assert (C := sq_nonneg (z3 v)). lra.
Qed.
Lemma norm3_sq v : norm3 v * norm3 v = dot3 v v.
Proof. unfold norm3. apply sqrt_sqrt. apply dot3_nonneg. Qed.
Lemma norm3_nonneg v : 0 <= norm3 v. Proof. apply sqrt_pos. Qed.
Lemma area3_norm v0 v1 v2 : area3 v0 v1 v2 = norm3 (cross3 (sub3 v2 v0) (sub3 v1 v0)) / 2.
Proof.
  unfold area3, norm3. f_equal. f_equal.
  set (a := sub3 v1 v0). set (b := sub3 v2 v0).
  rewrite sqrt_sqrt by (apply Rplus_le_le_0_compat; apply sq_nonneg).
  unfold dot3, cross3, sub3; cbn. ring.
Qed.

Section Tri.
Variables (p v0 v1 v2 : vec3).
Let n := cross3 (sub3 v2 v0) (sub3 v1 v0).
Let N2 := dot3 n n.
Let h := dot3 (sub3 v0 p) n.          (* |n| * signed distance to the plane *)
Hypothesis HN : 0 < N2.

(* Gram determinant *)
Lemma gram : dot3 (sub3 v1 v0) (sub3 v1 v0) * dot3 (sub3 v2 v0) (sub3 v2 v0) - dot3 (sub3 v1 v0) (sub3 v2 v0) * dot3 (sub3 v1 v0) (sub3 v2 v0) = N2.
Proof. unfold N2, n, cross3, dot3, sub3; cbn. ring. Qed.

(* distance to a point of the plane = plane distance + in-plane distance to the foot *)
Let foot := add3 p (scal3 (h / N2) n).
Lemma foot_in_plane : dot3 (sub3 foot v0) n = 0.
Proof.
  replace (dot3 (sub3 foot v0) n) with (- h + h / N2 * N2) by (unfold foot, h, N2, dot3, sub3, add3, scal3; cbn; ring).
  field. lra.
Qed.
Definition tpt (b c : R) : vec3 := add3 v0 (add3 (scal3 b (sub3 v1 v0)) (scal3 c (sub3 v2 v0))).
Lemma tpt_plane b c : dot3 (sub3 (tpt b c) v0) n = 0.
Proof. unfold tpt, n, dot3, sub3, add3, scal3, cross3; cbn. ring. Qed.
Lemma pythagoras q : dot3 (sub3 q v0) n = 0 -> sqd3 p q = h ^ 2 / N2 + sqd3 foot q.
Proof.
  intros Hq.
  assert (E : sqd3 p q = sqd3 foot q - 2 * (h / N2) * (dot3 (sub3 foot v0) n - dot3 (sub3 q v0) n) + (h / N2) ^ 2 * N2).
  { unfold foot, sqd3, dot3, sub3, add3, scal3, N2, dot3; cbn. ring. }
  rewrite E, foot_in_plane, Hq. field. lra.
Qed.
(* coordinates of the foot in the triangle basis *)
Let w := bary3 0 foot v0 v1 v2.
Lemma foot_coords : foot = tpt (y3 w) (z3 w).
Proof.
  (* a vector in the plane is determined by its products with the two edges *)
  assert (G : dot3 (sub3 v1 v0) (sub3 v1 v0) * dot3 (sub3 v2 v0) (sub3 v2 v0) - dot3 (sub3 v1 v0) (sub3 v2 v0) * dot3 (sub3 v1 v0) (sub3 v2 v0) + 0 <> 0)
    by (rewrite gram; lra).
  assert (F := foot_in_plane). assert (GR := gram).
  unfold w, bary3. cbn [y3 z3].
  set (D := dot3 (sub3 v1 v0) (sub3 v1 v0) * dot3 (sub3 v2 v0) (sub3 v2 v0) - dot3 (sub3 v1 v0) (sub3 v2 v0) * dot3 (sub3 v1 v0) (sub3 v2 v0) + 0) in *.
  assert (ED : D = N2) by (unfold D; lra).
  clearbody foot. destruct foot as [fx fy fz].
  assert (Q : forall a, a = N2 * a / N2) by (intros; field; lra).
  unfold tpt, add3, scal3, sub3; cbn [x3 y3 z3].
  assert (EX : forall k, dot3 (sub3 (V3 fx fy fz) v0) n * k = 0) by (intros; rewrite F; ring).
  f_equal.
  - rewrite ED. apply Rmult_eq_reg_r with N2; [|lra]. field_simplify; [|lra].
    assert (X := EX (x3 n)). unfold N2, n, dot3, cross3, sub3 in *; cbn [x3 y3 z3] in *. nra.
  - rewrite ED. apply Rmult_eq_reg_r with N2; [|lra]. field_simplify; [|lra].
    assert (X := EX (y3 n)). unfold N2, n, dot3, cross3, sub3 in *; cbn [x3 y3 z3] in *. nra.
  - rewrite ED. apply Rmult_eq_reg_r with N2; [|lra]. field_simplify; [|lra].
    assert (X := EX (z3 n)). unfold N2, n, dot3, cross3, sub3 in *; cbn [x3 y3 z3] in *. nra.
Qed.
End Tri.

Lemma exit_coord a w : 0 <= a -> exists r, 0 <= r <= 1 /\ (w < 0 -> r < 1 /\ (1 - r) * a + r * w = 0) /\ (0 <= w -> r = 1) /\
  forall l, 0 <= l <= r -> 0 <= (1 - l) * a + l * w.
Proof.
  intros Ha. destruct (Rlt_or_le w 0) as [Hw|Hw].
  - set (r := a / (a - w)).
    assert (E : r * (a - w) = a) by (unfold r; field; lra).
    assert (0 <= r) by (unfold r; apply Rmult_le_pos; [lra|left; apply Rinv_0_lt_compat; lra]).
    assert (r < 1) by nra.
    exists r. split; [lra|]. split; [intros _; split; [lra|nra]|]. split; [intros; lra|].
    intros l Hl. replace ((1 - l) * a + l * w) with (r * (a - w) - l * (a - w)) by (rewrite E; ring). nra.
  - exists 1. split; [lra|]. split; [intros; lra|]. split; [reflexivity|]. intros l Hl. nra.
Qed.
Lemma exit_point a b c u v w : 0 <= a -> 0 <= b -> 0 <= c -> (u < 0 \/ v < 0 \/ w < 0) ->
  exists l, 0 <= l <= 1 /\ 0 <= (1 - l) * a + l * u /\ 0 <= (1 - l) * b + l * v /\ 0 <= (1 - l) * c + l * w /\
    ((1 - l) * a + l * u = 0 \/ (1 - l) * b + l * v = 0 \/ (1 - l) * c + l * w = 0).
Proof.
  intros Ha Hb Hc HN.
  destruct (exit_coord a u Ha) as [r0 [R0 [N0 [P0 L0]]]].
  destruct (exit_coord b v Hb) as [r1 [R1 [N1 [P1 L1]]]].
  destruct (exit_coord c w Hc) as [r2 [R2 [N2 [P2 L2]]]].
  assert (M : exists l, l <= r0 /\ l <= r1 /\ l <= r2 /\ (l = r0 \/ l = r1 \/ l = r2)).
  { exists (Rmin (Rmin r0 r1) r2). unfold Rmin. destruct (Rle_dec r0 r1); destruct (Rle_dec _ r2);
      repeat split; try lra; auto. }
  destruct M as [l [M0 [M1 [M2 ME]]]]. assert (0 <= l <= 1) by (destruct ME as [->|[->| ->]]; lra).
  exists l. split; [assumption|]. split; [apply L0; lra|]. split; [apply L1; lra|]. split; [apply L2; lra|].
  assert (LL : l < 1) by (destruct HN as [X|[X|X]]; [destruct (N0 X)|destruct (N1 X)|destruct (N2 X)]; lra).
  destruct ME as [->|[->| ->]].
  - left. apply N0. destruct (Rlt_or_le u 0); [assumption|]. rewrite P0 in LL by assumption. lra.
  - right; left. apply N1. destruct (Rlt_or_le v 0); [assumption|]. rewrite P1 in LL by assumption. lra.
  - right; right. apply N2. destruct (Rlt_or_le w 0); [assumption|]. rewrite P2 in LL by assumption. lra.
Qed.

Definition on_bd3 (q v0 v1 v2 : vec3) := on_seg3 q v0 v1 \/ on_seg3 q v0 v2 \/ on_seg3 q v1 v2.
Lemma bd_in_tri q v0 v1 v2 : on_bd3 q v0 v1 v2 -> in_tri3 q v0 v1 v2.
Proof.
  intros [H|[H|H]]; destruct H as [t [Ht [Hx [Hy Hz]]]].
  - exists (1 - t), t, 0. rewrite Hx, Hy, Hz. repeat split; try lra; ring.
  - exists (1 - t), 0, t. rewrite Hx, Hy, Hz. repeat split; try lra; ring.
  - exists 0, (1 - t), t. rewrite Hx, Hy, Hz. repeat split; try lra; ring.
Qed.
Lemma tri_bd q v0 v1 v2 a b c : 0 <= a -> 0 <= b -> 0 <= c -> a + b + c = 1 ->
    x3 q = a * x3 v0 + b * x3 v1 + c * x3 v2 -> y3 q = a * y3 v0 + b * y3 v1 + c * y3 v2 ->
    z3 q = a * z3 v0 + b * z3 v1 + c * z3 v2 -> a = 0 \/ b = 0 \/ c = 0 -> on_bd3 q v0 v1 v2.
Proof.
  intros Ha Hb Hc HS Hx Hy Hz [->|[->| ->]].
  - right; right. exists c. rewrite Hx, Hy, Hz. assert (b = 1 - c) by lra. subst b. repeat split; try lra; ring.
  - right; left. exists c. rewrite Hx, Hy, Hz. assert (a = 1 - c) by lra. subst a. repeat split; try lra; ring.
  - left. exists b. rewrite Hx, Hy, Hz. assert (a = 1 - b) by lra. subst a. repeat split; try lra; ring.
Qed.

Lemma ptri3_bd p v0 v1 v2 : kEps < sqd3 v1 v0 -> kEps < sqd3 v2 v0 -> kEps < sqd3 v2 v1 ->
  is_min (fun q => on_bd3 q v0 v1 v2) (sqd3 p)
    (let e01 := pline3 p v0 v1 in let e02 := pline3 p v0 v2 in let e12 := pline3 p v1 v2 in
     let d := if Rltb e02 e01 then e02 else e01 in if Rltb e12 d then e12 else d).
Proof.
  intros H1 H2 H3. cbv zeta.
  replace (if Rltb (pline3 p v1 v2) _ then _ else _) with (Rmin (Rmin (pline3 p v0 v1) (pline3 p v0 v2)) (pline3 p v1 v2)).
  2:{ unfold Rmin. destruct (Rltb_spec (pline3 p v0 v2) (pline3 p v0 v1)); destruct (Rle_dec (pline3 p v0 v1) (pline3 p v0 v2)); try lra;
      match goal with |- context[Rltb ?a ?b] => destruct (Rltb_spec a b); destruct (Rle_dec b a) end; lra. }
  eapply (is_min_or (fun q => on_seg3 q v0 v1 \/ on_seg3 q v0 v2) (fun q => on_seg3 q v1 v2)).
  - eapply (is_min_or (fun q => on_seg3 q v0 v1) (fun q => on_seg3 q v0 v2)); [apply pline3_min; auto|apply pline3_min; auto|].
    intros q; reflexivity.
  - apply pline3_min; auto.
  - intros q. unfold on_bd3. tauto.
Qed.

Lemma in01_true t : in01 t = true <-> 0 <= t <= 1.
Proof. unfold in01. rewrite Bool.andb_true_iff, !Rleb_true. tauto. Qed.

Section Tri3.
Variables (p v0 v1 v2 : vec3) (min_area : R).
Let n := cross3 (sub3 v2 v0) (sub3 v1 v0).
Let N2 := dot3 n n.
Let h := dot3 (sub3 v0 p) n.
Let foot := add3 p (scal3 (h / N2) n).
Let w := bary3 0 foot v0 v1 v2.
Hypothesis HN : 0 < N2.

Lemma norm_pos : 0 < norm3 n.
Proof. unfold norm3. apply sqrt_lt_R0. exact HN. Qed.
Lemma ptri3_foot : add3 p (scal3 (dot3 (sub3 v0 p) (tri_normal 0 v0 v1 v2)) (tri_normal 0 v0 v1 v2)) = foot.
Proof.
  assert (L := norm_pos). assert (S := norm3_sq n). fold N2 in S.
  unfold foot, tri_normal. fold n. rewrite <- S. unfold h. rewrite Rplus_0_r.
  unfold add3, scal3, div3, dot3; cbn [x3 y3 z3]. f_equal; field; lra.
Qed.
Lemma ptri3_t : dot3 (sub3 v0 p) (tri_normal 0 v0 v1 v2) = h / norm3 n.
Proof. assert (L := norm_pos). unfold tri_normal, h. fold n. rewrite Rplus_0_r. unfold dot3, div3; cbn. field. lra. Qed.

Lemma tri_of_bc q a b c : a + b + c = 1 ->
    x3 q = a * x3 v0 + b * x3 v1 + c * x3 v2 -> y3 q = a * y3 v0 + b * y3 v1 + c * y3 v2 ->
    z3 q = a * z3 v0 + b * z3 v1 + c * z3 v2 -> q = tpt v0 v1 v2 b c.
Proof.
  intros HS Hx Hy Hz. destruct q as [qx qy qz]. cbn in Hx, Hy, Hz. subst. assert (a = 1 - b - c) by lra. subst a.
  unfold tpt, add3, scal3, sub3; cbn. f_equal; ring.
Qed.
Lemma tri_plane q : in_tri3 q v0 v1 v2 -> dot3 (sub3 q v0) n = 0.
Proof.
  intros [a [b [c [Ha [Hb [Hc [HS [Hx [Hy Hz]]]]]]]]]. rewrite (tri_of_bc q a b c HS Hx Hy Hz). apply tpt_plane.
Qed.
Lemma sqd3_nonneg a b : 0 <= sqd3 a b.
Proof.
  unfold sqd3. assert (A := pow2_ge_0 (x3 a - x3 b)). assert (B := pow2_ge_0 (y3 a - y3 b)). assert (C := pow2_ge_0 (z3 a - z3 b)). lra.
Qed.

Lemma ptri3_min : kEps < sqd3 v1 v0 -> kEps < sqd3 v2 v0 -> kEps < sqd3 v2 v1 -> min_area <= area3 v0 v1 v2 ->
  is_min (fun q => in_tri3 q v0 v1 v2) (sqd3 p) (ptri3 0 0 p v0 v1 v2 min_area).
Proof.
  intros L1 L2 L3 HA. unfold ptri3. cbv zeta. rewrite ptri3_foot, ptri3_t. fold n.
  assert (HB := ptri3_bd p v0 v1 v2 L1 L2 L3). cbv zeta in HB.
  assert (LN := norm_pos). assert (SN := norm3_sq n). fold N2 in SN.
  assert (FC : foot = tpt v0 v1 v2 (y3 w) (z3 w)) by (apply foot_coords; exact HN).
  assert (WS : x3 w = 1 - y3 w - z3 w) by reflexivity.
  assert (FX : x3 foot = x3 w * x3 v0 + y3 w * x3 v1 + z3 w * x3 v2) by (rewrite FC, WS; unfold tpt, add3, scal3, sub3; cbn [x3 y3 z3]; ring).
  assert (FY : y3 foot = x3 w * y3 v0 + y3 w * y3 v1 + z3 w * y3 v2) by (rewrite FC, WS; unfold tpt, add3, scal3, sub3; cbn [x3 y3 z3]; ring).
  assert (FZ : z3 foot = x3 w * z3 v0 + y3 w * z3 v1 + z3 w * z3 v2) by (rewrite FC, WS; unfold tpt, add3, scal3, sub3; cbn [x3 y3 z3]; ring).
  assert (PY : forall q, in_tri3 q v0 v1 v2 -> sqd3 p q = h ^ 2 / N2 + sqd3 foot q)
    by (intros q Hq; apply pythagoras; [exact HN|apply tri_plane; exact Hq]).
  replace (Rltb 0 (norm3 n)) with true by (symmetry; apply Rltb_true; lra). rewrite Bool.andb_true_r.
  destruct (inside3 0 foot v0 v1 v2 min_area) eqn:EI; unfold inside3 in EI;
    replace (Rltb (area3 v0 v1 v2) min_area) with false in EI by (symmetry; apply Rltb_false; lra);
    fold w in EI; cbv zeta in EI.
  - rewrite !Bool.andb_true_iff, !in01_true in EI. destruct EI as [[W0 W1] W2].
    replace (h / norm3 n * (h / norm3 n)) with (h ^ 2 / N2) by (rewrite <- SN; field; lra).
    assert (IF : in_tri3 foot v0 v1 v2) by (exists (x3 w), (y3 w), (z3 w); repeat split; try assumption; lra).
    split.
    + exists foot. split; [exact IF|]. rewrite (PY foot IF). unfold sqd3. ring.
    + intros q Hq. rewrite (PY q Hq). assert (X := sqd3_nonneg foot q). lra.
  - assert (NEG : x3 w < 0 \/ y3 w < 0 \/ z3 w < 0).
    { destruct (Rlt_or_le (x3 w) 0); [auto|]. destruct (Rlt_or_le (y3 w) 0); [auto|]. destruct (Rlt_or_le (z3 w) 0); [auto|].
      exfalso. assert (in01 (x3 w) && in01 (y3 w) && in01 (z3 w) = true); [|congruence].
      rewrite !Bool.andb_true_iff, !in01_true. repeat split; lra. }
    destruct HB as [[q0 [Hq0 Eq0]] HM]. split; [exists q0; split; [apply bd_in_tri; exact Hq0|exact Eq0]|].
    intros q Hq. assert (Hq' := Hq). destruct Hq' as [a [b [c [Ha [Hb [Hc [HS [Hx [Hy Hz]]]]]]]]].
    destruct (exit_point a b c _ _ _ Ha Hb Hc NEG) as [l [Hl [G0 [G1 [G2 GZ]]]]].
    set (q' := V3 ((1 - l) * x3 q + l * x3 foot) ((1 - l) * y3 q + l * y3 foot) ((1 - l) * z3 q + l * z3 foot)).
    assert (B' : on_bd3 q' v0 v1 v2).
    { apply (tri_bd q' v0 v1 v2 ((1 - l) * a + l * x3 w) ((1 - l) * b + l * y3 w) ((1 - l) * c + l * z3 w)); auto; cbn [q' x3 y3 z3].
      - replace c with (1 - a - b) by lra. rewrite WS. ring.
      - rewrite Hx, FX. ring.
      - rewrite Hy, FY. ring.
      - rewrite Hz, FZ. ring. }
    apply Rle_trans with (sqd3 p q'); [apply HM; exact B'|].
    rewrite (PY q Hq), (PY q' (bd_in_tri _ _ _ _ B')).
    replace (sqd3 foot q') with ((1 - l) ^ 2 * sqd3 foot q) by (unfold sqd3, q'; cbn [x3 y3 z3]; ring).
    assert (X := sqd3_nonneg foot q). assert ((1 - l) ^ 2 <= 1) by nra. nra.
Qed.

(* with the epsilons of the code: exact outside branch, and a factor (|n|/(|n|+eps))^2 inside *)
Lemma ptri3_eps_inside ke ve : 0 <= ve ->
  inside3 ke (add3 p (scal3 (dot3 (sub3 v0 p) (tri_normal ve v0 v1 v2)) (tri_normal ve v0 v1 v2))) v0 v1 v2 min_area = true ->
  ke < norm3 n ->
  ptri3 ke ve p v0 v1 v2 min_area = (norm3 n / (norm3 n + ve)) ^ 2 * (h ^ 2 / N2) /\
  forall q, in_tri3 q v0 v1 v2 -> ptri3 ke ve p v0 v1 v2 min_area <= sqd3 p q.
Proof.
  intros Hv HI HK. assert (LN := norm_pos). assert (SN := norm3_sq n). fold N2 in SN.
  assert (E : ptri3 ke ve p v0 v1 v2 min_area = (norm3 n / (norm3 n + ve)) ^ 2 * (h ^ 2 / N2)).
  { unfold ptri3. cbv zeta. rewrite HI. fold n. replace (Rltb ke (norm3 n)) with true by (symmetry; apply Rltb_true; lra).
    cbn [andb]. unfold tri_normal. fold n.
    replace (dot3 (sub3 v0 p) (div3 n (norm3 n + ve))) with (h / (norm3 n + ve)) by (unfold h, dot3, div3; cbn; field; lra).
    rewrite <- SN. field. lra. }
  split; [exact E|]. intros q Hq. rewrite E, (pythagoras p v0 v1 v2 HN q (tri_plane q Hq)). fold n N2 h foot.
  assert (0 <= h ^ 2 / N2) by (apply Rmult_le_pos; [apply pow2_ge_0|left; apply Rinv_0_lt_compat; exact HN]).
  assert (X := sqd3_nonneg foot q).
  set (r := norm3 n / (norm3 n + ve)) in *.
  assert (R : 0 <= r <= 1).
  { unfold r. split; [apply Rmult_le_pos; [lra|left; apply Rinv_0_lt_compat; lra]|].
    apply Rmult_le_reg_r with (norm3 n + ve); [lra|]. unfold Rdiv. rewrite Rmult_assoc, Rinv_l by lra. lra. }
  assert (r ^ 2 <= 1) by nra. nra.
Qed.
End Tri3.
