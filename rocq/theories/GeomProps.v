(* Properties C25, C26, C29: geometry used by the rasterizers and by the point-mesh losses. *)
From Verif Require Import Base RBase Geom GeomSpec GeomProofs GeomGrad GeomRefute.
Local Open Scope R_scope.

(* ---- C25: barycentric coordinates ---- *)

(* The three numbers are the barycentric coordinates scaled by A/(A+1e-8), A twice the signed area. *)
Theorem barycentric_reconstructs_pixel : forall p v0 v1 v2 : vec2,
  let A := - signed_area2 v0 v1 v2 in
  let b := bary p v0 v1 v2 in
  A + / 100000000 <> 0 ->
  x3 b + y3 b + z3 b = A / (A + / 100000000) /\
  x3 b * x2 v0 + y3 b * x2 v1 + z3 b * x2 v2 = A / (A + / 100000000) * x2 p /\
  x3 b * y2 v0 + y3 b * y2 v1 + z3 b * y2 v2 = A / (A + / 100000000) * y2 p.
Proof.
  intros p v0 v1 v2 A b H. unfold A in *. rewrite <- edge_area in *. exact (bary_sum p v0 v1 v2 H).
Qed.
Print Assumptions barycentric_reconstructs_pixel.
(* so they do not sum to one exactly *)
Theorem barycentric_sum_is_one_refuted : ~ (forall p v0 v1 v2 : vec2, signed_area2 v0 v1 v2 <> 0 ->
  x3 (bary p v0 v1 v2) + y3 (bary p v0 v1 v2) + z3 (bary p v0 v1 v2) = 1).
Proof. exact bary_one_refuted. Qed.
Print Assumptions barycentric_sum_is_one_refuted.

(* all positive exactly for the points strictly inside *)
Theorem barycentric_positive_iff_inside : forall p v0 v1 v2 : vec2,
  / 100000000 < Rabs (signed_area2 v0 v1 v2) ->
  (0 < x3 (bary p v0 v1 v2) /\ 0 < y3 (bary p v0 v1 v2) /\ 0 < z3 (bary p v0 v1 v2)) <->
  in_tri2_strict p v0 v1 v2.
Proof.
  intros p v0 v1 v2 H. apply bary_inside. rewrite edge_area, Rabs_Ropp. exact H.
Qed.
Print Assumptions barycentric_positive_iff_inside.
Example inside_example : in_tri2_strict (V2 (1/4) (1/4)) (V2 0 0) (V2 1 0) (V2 0 1) /\
  / 100000000 < Rabs (signed_area2 (V2 0 0) (V2 1 0) (V2 0 1)).
Proof.
  split; [exists (1/2), (1/4), (1/4); cbn; repeat split; lra|].
  unfold signed_area2; cbn. rewrite Rabs_right; lra.
Qed.

(* perspective correction: from the screen-space coordinates of the point with 3d
   barycentric coordinates b0,b1,b2 (whose depth is z) it recovers b0,b1,b2 *)
Theorem perspective_correction_recovers_3d : forall b0 b1 b2 z0 z1 z2 : R,
  0 < z0 -> 0 < z1 -> 0 < z2 -> b0 + b1 + b2 = 1 ->
  let z := b0 * z0 + b1 * z1 + b2 * z2 in
  0 < z -> / 100000000 <= z0 * z1 * z2 / z ->
  persp (V3 (b0 * z0 / z) (b1 * z1 / z) (b2 * z2 / z)) z0 z1 z2 = V3 b0 b1 b2.
Proof. exact persp_recovers. Qed.
Print Assumptions perspective_correction_recovers_3d.
Example perspective_hyps : let z := (1/2) * 1 + (1/4) * 2 + (1/4) * 4 in 0 < z /\ / 100000000 <= 1 * 2 * 4 / z.
Proof. cbn. lra. Qed.

Theorem clipping_gives_convex_weights : forall b : vec3, let c := clip b in
  0 <= x3 c /\ 0 <= y3 c /\ 0 <= z3 c /\ x3 c + y3 c + z3 c <= 1 /\
  (/ 100000 <= Rmax (x3 b) 0 + Rmax (y3 b) 0 + Rmax (z3 b) 0 -> x3 c + y3 c + z3 c = 1).
Proof. exact clip_bounds. Qed.
Print Assumptions clipping_gives_convex_weights.
Theorem clipping_keeps_inside_points : forall b : vec3,
  0 <= x3 b -> 0 <= y3 b -> 0 <= z3 b -> x3 b + y3 b + z3 b = 1 -> clip b = b.
Proof. exact clip_inside. Qed.
Print Assumptions clipping_keeps_inside_points.

(* the backward routines are the derivatives of <g, forward> *)
Theorem edge_function_backward : forall (p v0 v1 : vec2) (g : R),
  let '(gp, g0, g1) := edge_bwd p v0 v1 g in
  is_grad2 (fun q => g * edge q v0 v1) p gp /\ is_grad2 (fun q => g * edge p q v1) v0 g0 /\
  is_grad2 (fun q => g * edge p v0 q) v1 g1.
Proof. exact edge_bwd_ok. Qed.
Print Assumptions edge_function_backward.
Theorem barycentric_backward : forall (p v0 v1 v2 : vec2) (g : vec3),
  - signed_area2 v0 v1 v2 + / 100000000 <> 0 ->
  let '(gp, g0, g1, g2) := bary_bwd p v0 v1 v2 g in
  is_grad2 (fun q => dot3 g (bary q v0 v1 v2)) p gp /\ is_grad2 (fun q => dot3 g (bary p q v1 v2)) v0 g0 /\
  is_grad2 (fun q => dot3 g (bary p v0 q v2)) v1 g1 /\ is_grad2 (fun q => dot3 g (bary p v0 v1 q)) v2 g2.
Proof. intros p v0 v1 v2 g H. rewrite <- edge_area in H. exact (bary_bwd_ok p v0 v1 v2 g H). Qed.
Print Assumptions barycentric_backward.
Theorem perspective_backward : forall (b : vec3) (z0 z1 z2 : R) (g : vec3),
  / 100000000 < x3 b * z1 * z2 + y3 b * z0 * z2 + z3 b * z0 * z1 ->
  let '(gb, g0, g1, g2) := persp_bwd b z0 z1 z2 g in
  is_grad3 (fun c => dot3 g (persp c z0 z1 z2)) b gb /\
  derivable_pt_lim (fun z => dot3 g (persp b z z1 z2)) z0 g0 /\
  derivable_pt_lim (fun z => dot3 g (persp b z0 z z2)) z1 g1 /\
  derivable_pt_lim (fun z => dot3 g (persp b z0 z1 z)) z2 g2.
Proof. exact persp_bwd_ok. Qed.
Print Assumptions perspective_backward.
Example perspective_backward_hyp : / 100000000 < x3 (V3 (1/3) (1/3) (1/3)) * 1 * 1 + y3 (V3 (1/3) (1/3) (1/3)) * 1 * 1 + z3 (V3 (1/3) (1/3) (1/3)) * 1 * 1.
Proof. cbn. lra. Qed.
(* below the clamp of the denominator the routine is not the derivative *)
Theorem perspective_backward_below_clamp_refuted : ~ (forall b z0 z1 z2 g,
  x3 b * z1 * z2 + y3 b * z0 * z2 + z3 b * z0 * z1 <> kEps ->
  is_grad3 (fun c => dot3 g (persp c z0 z1 z2)) b (fst (fst (fst (persp_bwd b z0 z1 z2 g))))).
Proof. exact persp_bwd_clamped_refuted. Qed.
Print Assumptions perspective_backward_below_clamp_refuted.
Theorem clipping_backward : forall b g : vec3, x3 b <> 0 -> y3 b <> 0 -> z3 b <> 0 ->
  Rmax (x3 b) 0 + Rmax (y3 b) 0 + Rmax (z3 b) 0 <> / 100000 ->
  is_grad3 (fun c => dot3 g (clip c)) b (clip_bwd b g).
Proof. exact clip_bwd_ok. Qed.
Print Assumptions clipping_backward.
Example clipping_backward_hyp : Rmax (-1) 0 + Rmax (1/2) 0 + Rmax 1 0 <> / 100000.
Proof. rewrite Rmax_right, !Rmax_left; lra. Qed.

(* ---- C26: pixel centres ---- *)
Theorem pixel_centres_increasing : forall i j S1 S2 : Z, (0 < S1)%Z -> (0 < S2)%Z -> (i < j)%Z ->
  pix_to_ndc i S1 S2 < pix_to_ndc j S1 S2.
Proof. exact pix_increasing. Qed.
Print Assumptions pixel_centres_increasing.
Theorem pixel_centres_symmetric : forall i S1 S2 : Z, (0 < S1)%Z -> (0 < S2)%Z ->
  pix_to_ndc (S1 - 1 - i) S1 S2 = - pix_to_ndc i S1 S2.
Proof. exact pix_symmetric. Qed.
Print Assumptions pixel_centres_symmetric.
(* the NDC range of an axis is [-S1/min, S1/min]: [-1,1] on the short side *)
Theorem pixel_centres_inside_range : forall i S1 S2 : Z, (0 < S1)%Z -> (0 < S2)%Z -> (0 <= i < S1)%Z ->
  - (IZR S1 / IZR (Z.min S1 S2)) < pix_to_ndc i S1 S2 < IZR S1 / IZR (Z.min S1 S2).
Proof. exact pix_inside. Qed.
Print Assumptions pixel_centres_inside_range.
Theorem pixel_spacing_same_on_both_axes : forall i j H W : Z, (0 < H)%Z -> (0 < W)%Z ->
  pix_to_ndc (i + 1) H W - pix_to_ndc i H W = 2 / IZR (Z.min H W) /\
  pix_to_ndc (j + 1) W H - pix_to_ndc j W H = 2 / IZR (Z.min H W).
Proof. exact pix_spacing. Qed.
Print Assumptions pixel_spacing_same_on_both_axes.
Example pixel_2x4 : pix_to_ndc 0 4 2 = - (3 / 2) /\ pix_to_ndc 1 2 4 = 1 / 2.
Proof. rewrite !pix_form by lia. replace (Z.min 4 2) with 2%Z by reflexivity. replace (Z.min 2 4) with 2%Z by reflexivity. lra. Qed.

(* ---- C29: distances are true minima ---- *)
Theorem segment_distance_2d : forall p a b : vec2, / 100000000 < sqd2 b a \/ a = b ->
  is_min (fun q => on_seg2 q a b) (sqd2 p) (pline2 p a b).
Proof. exact pline2_min. Qed.
Print Assumptions segment_distance_2d.
Theorem segment_distance_3d : forall p a b : vec3, / 100000000 < sqd3 b a \/ a = b ->
  is_min (fun q => on_seg3 q a b) (sqd3 p) (pline3 p a b).
Proof. exact pline3_min. Qed.
Print Assumptions segment_distance_3d.
(* for short segments the value is that of some point of the segment, not the minimum *)
Theorem segment_distance_attained : forall p a b : vec3, exists q, on_seg3 q a b /\ sqd3 p q = pline3 p a b.
Proof. exact pline3_attained. Qed.
Print Assumptions segment_distance_attained.
Theorem segment_distance_short_refuted :
  ~ (forall p a b, is_min (fun q => on_seg2 q a b) (sqd2 p) (pline2 p a b)).
Proof. exact pline2_short_refuted. Qed.
Print Assumptions segment_distance_short_refuted.
Theorem triangle_boundary_distance_2d : forall p v0 v1 v2 : vec2,
  / 100000000 < sqd2 v1 v0 -> / 100000000 < sqd2 v2 v0 -> / 100000000 < sqd2 v2 v1 ->
  is_min (fun q => on_seg2 q v0 v1 \/ on_seg2 q v0 v2 \/ on_seg2 q v1 v2) (sqd2 p) (ptri2 p v0 v1 v2).
Proof. exact ptri2_min. Qed.
Print Assumptions triangle_boundary_distance_2d.
(* with the two regularising epsilons set to zero the 3d triangle distance is the minimum *)
Theorem triangle_distance_3d_partial : forall (p v0 v1 v2 : vec3) (min_area : R),
  let n := cross3 (sub3 v2 v0) (sub3 v1 v0) in 0 < dot3 n n ->
  / 100000000 < sqd3 v1 v0 -> / 100000000 < sqd3 v2 v0 -> / 100000000 < sqd3 v2 v1 ->
  min_area <= area3 v0 v1 v2 ->
  is_min (fun q => in_tri3 q v0 v1 v2) (sqd3 p) (ptri3 0 0 p v0 v1 v2 min_area).
Proof. exact ptri3_min. Qed.
Print Assumptions triangle_distance_3d_partial.
(* with the code's epsilons the inside branch returns the squared plane distance times
   (|n|/(|n|+eps))^2, which never exceeds the true squared distance *)
Theorem triangle_distance_3d_inside_lower_bound : forall (p v0 v1 v2 : vec3) (min_area : R),
  let n := cross3 (sub3 v2 v0) (sub3 v1 v0) in 0 < dot3 n n ->
  forall ke ve : R, 0 <= ve ->
  inside3 ke (add3 p (scal3 (dot3 (sub3 v0 p) (tri_normal ve v0 v1 v2)) (tri_normal ve v0 v1 v2))) v0 v1 v2 min_area = true ->
  ke < norm3 n ->
  ptri3 ke ve p v0 v1 v2 min_area = (norm3 n / (norm3 n + ve)) ^ 2 * (dot3 (sub3 v0 p) n ^ 2 / dot3 n n) /\
  forall q, in_tri3 q v0 v1 v2 -> ptri3 ke ve p v0 v1 v2 min_area <= sqd3 p q.
Proof. exact ptri3_eps_inside. Qed.
Print Assumptions triangle_distance_3d_inside_lower_bound.
Theorem triangle_distance_3d_exact_refuted :
  ~ (forall p v0 v1 v2, kEps < sqd3 v1 v0 -> kEps < sqd3 v2 v0 -> kEps < sqd3 v2 v1 ->
     5 / 1000 <= area3 v0 v1 v2 ->
     is_min (fun q => in_tri3 q v0 v1 v2) (sqd3 p) (ptri3 kEps vEps p v0 v1 v2 (5 / 1000))).
Proof. exact ptri3_eps_refuted. Qed.
Print Assumptions triangle_distance_3d_exact_refuted.

(* the backward routines of the distances *)
Theorem segment_distance_2d_backward : forall (p v0 v1 : vec2) (g : R), / 100000000 < sqd2 v1 v0 ->
  let '(gp, g0, g1) := pline2_bwd p v0 v1 g in
  is_grad2 (fun q => g * pline2 q v0 v1) p gp /\ is_grad2 (fun q => g * pline2 p q v1) v0 g0 /\
  is_grad2 (fun q => g * pline2 p v0 q) v1 g1.
Proof. exact pline2_bwd_ok. Qed.
Print Assumptions segment_distance_2d_backward.
Theorem segment_distance_3d_backward : forall (p v0 v1 : vec3) (g : R), / 100000000 < sqd3 v1 v0 ->
  let '(gp, g0, g1) := pline3_bwd p v0 v1 g in
  is_grad3 (fun q => g * pline3 q v0 v1) p gp /\ is_grad3 (fun q => g * pline3 p q v1) v0 g0 /\
  is_grad3 (fun q => g * pline3 p v0 q) v1 g1.
Proof. exact pline3_bwd_ok. Qed.
Print Assumptions segment_distance_3d_backward.
Example segment_hyp : / 100000000 < sqd3 (V3 1 2 3) (V3 0 0 0).
Proof. unfold sqd3; cbn. lra. Qed.
Theorem segment_distance_3d_backward_short_refuted : ~ (forall p v0 v1 g, sqd3 v1 v0 <> kEps ->
  is_grad3 (fun q => g * pline3 p v0 q) v1 (snd (pline3_bwd p v0 v1 g))).
Proof. exact pline3_bwd_short_refuted. Qed.
Print Assumptions segment_distance_3d_backward_short_refuted.
Theorem triangle_boundary_distance_backward : forall (p v0 v1 v2 : vec2) (g : R),
  / 100000000 < sqd2 v1 v0 -> / 100000000 < sqd2 v2 v0 -> / 100000000 < sqd2 v2 v1 ->
  pline2 p v0 v1 <> pline2 p v0 v2 -> pline2 p v0 v1 <> pline2 p v1 v2 -> pline2 p v0 v2 <> pline2 p v1 v2 ->
  let '(gp, g0, g1, g2) := ptri2_bwd p v0 v1 v2 g in
  is_grad2 (fun q => g * ptri2 q v0 v1 v2) p gp /\ is_grad2 (fun q => g * ptri2 p q v1 v2) v0 g0 /\
  is_grad2 (fun q => g * ptri2 p v0 q v2) v1 g1 /\ is_grad2 (fun q => g * ptri2 p v0 v1 q) v2 g2.
Proof. exact ptri2_bwd_ok. Qed.
Print Assumptions triangle_boundary_distance_backward.
