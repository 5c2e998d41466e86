From Coq Require Import Sorted.
From Verif Require Import Base RBase TopK MinKSpec MinKProofs Geom GeomSpec GeomProofs GeomRefute Knn KnnProofs Raster RasterSpec RasterProofs RasterCuda RasterCoarse.
Local Open Scope R_scope.

(* ------------ which faces hit a pixel ------------ *)
Lemma face_area_edge f : face_area f = edge (xy (fv2 f)) (xy (fv0 f)) (xy (fv1 f)).
Proof. unfold face_area, edge. ring. Qed.
Lemma area_nonzero a : Rleb a kEps && Rleb (-1 * kEps) a = false <-> kEps < Rabs a.
Proof.
  rewrite Bool.andb_false_iff, !Rleb_false. unfold Rabs. assert (H := kEps_pos). destruct (Rcase_abs a); split; intros; try destruct H0; lra.
Qed.
Lemma fmin_le g f : fmin g f <= g (fv0 f) /\ fmin g f <= g (fv1 f) /\ fmin g f <= g (fv2 f).
Proof.
  unfold fmin, min3. assert (A := Rmin_l (g (fv0 f)) (Rmin (g (fv1 f)) (g (fv2 f)))). assert (B := Rmin_r (g (fv0 f)) (Rmin (g (fv1 f)) (g (fv2 f)))).
  assert (C := Rmin_l (g (fv1 f)) (g (fv2 f))). assert (D := Rmin_r (g (fv1 f)) (g (fv2 f))). lra.
Qed.
Lemma fmax_ge g f : g (fv0 f) <= fmax g f /\ g (fv1 f) <= fmax g f /\ g (fv2 f) <= fmax g f.
Proof.
  unfold fmax, max3. assert (A := Rmax_l (g (fv0 f)) (Rmax (g (fv1 f)) (g (fv2 f)))). assert (B := Rmax_r (g (fv0 f)) (Rmax (g (fv1 f)) (g (fv2 f)))).
  assert (C := Rmax_l (g (fv1 f)) (g (fv2 f))). assert (D := Rmax_r (g (fv1 f)) (g (fv2 f))). lra.
Qed.
Lemma div_pos_iff a d : 0 < d -> (0 < a / d <-> 0 < a).
Proof.
  intros Hd. assert (Hi := Rinv_0_lt_compat _ Hd). unfold Rdiv. split; intros H; [|apply Rmult_lt_0_compat; assumption].
  apply Rnot_le_lt. intros C. nra.
Qed.
Lemma mul3_pos_iff a y z : 0 < y -> 0 < z -> (0 < a * y * z <-> 0 < a).
Proof.
  intros Hy Hz. split; intros H; [|apply Rmult_lt_0_compat; [apply Rmult_lt_0_compat|]; assumption].
  apply Rnot_le_lt. intros C. assert (0 < y * z) by (apply Rmult_lt_0_compat; assumption).
  assert (a * y * z <= 0) by (rewrite Rmult_assoc; nra). lra.
Qed.
Lemma persp_pos b z0 z1 z2 : 0 < z0 -> 0 < z1 -> 0 < z2 ->
  (0 < x3 (persp b z0 z1 z2) /\ 0 < y3 (persp b z0 z1 z2) /\ 0 < z3 (persp b z0 z1 z2)) <-> (0 < x3 b /\ 0 < y3 b /\ 0 < z3 b).
Proof.
  intros H0 H1 H2. unfold persp. cbn [x3 y3 z3]. set (d := Rmax _ kEps).
  assert (Hd : 0 < d) by (apply Rlt_le_trans with kEps; [apply kEps_pos|apply Rmax_r]).
  rewrite !div_pos_iff, !mul3_pos_iff by assumption. reflexivity.
Qed.
Lemma face_inside_iff o f p : kEps < Rabs (face_area f) -> kEps <= fmin z3 f ->
  face_inside o f p = true <-> in_tri2_strict p (xy (fv0 f)) (xy (fv1 f)) (xy (fv2 f)).
Proof.
  intros HA Hz. assert (K := kEps_pos). destruct (fmin_le z3 f) as [Z0 [Z1 Z2]].
  rewrite face_area_edge in HA. rewrite <- bary_inside by assumption. fold (face_bary0 f p).
  unfold face_inside. rewrite !Bool.andb_true_iff, !Rltb_true. unfold face_bary.
  destruct (o_persp o).
  - assert (P := persp_pos (face_bary0 f p) (z3 (fv0 f)) (z3 (fv1 f)) (z3 (fv2 f)) ltac:(lra) ltac:(lra) ltac:(lra)). tauto.
  - tauto.
Qed.
Lemma bary_clip_nonneg o f p : (0 < x3 (face_bary o f p) /\ 0 < y3 (face_bary o f p) /\ 0 < z3 (face_bary o f p)) ->
  0 <= x3 (face_bary_clip o f p) /\ 0 <= y3 (face_bary_clip o f p) /\ 0 <= z3 (face_bary_clip o f p).
Proof.
  intros [A [B C]]. unfold face_bary_clip. destruct (o_clip o); [|lra].
  destruct (clip_bounds (face_bary o f p)) as (H1 & H2 & H3 & _). auto.
Qed.

(* geometric description of a hit *)
Lemma face_hit_iff o f p z d b :
  face_hit o f p = Some (z, (d, b)) <->
  (o_cull o = true -> 0 <= face_area f) /\ kEps < Rabs (face_area f) /\ kEps <= fmin z3 f /\
  (fmin x3 f - sqrt (o_blur o) <= x2 p <= fmax x3 f + sqrt (o_blur o)) /\
  (fmin y3 f - sqrt (o_blur o) <= y2 p <= fmax y3 f + sqrt (o_blur o)) /\
  b = face_bary_clip o f p /\ z = face_depth o f p /\ 0 <= z /\
  ((in_tri2_strict p (xy (fv0 f)) (xy (fv1 f)) (xy (fv2 f)) /\ d = - face_dist f p) \/
   (~ in_tri2_strict p (xy (fv0 f)) (xy (fv1 f)) (xy (fv2 f)) /\ d = face_dist f p /\ d < o_blur o)).
Proof.
  unfold face_hit.
  destruct (o_cull o && Rltb (face_area f) 0) eqn:Ec.
  { apply Bool.andb_true_iff in Ec as [E1 E2]. apply Rltb_true in E2. split; [discriminate|]. intros [H _]. specialize (H E1). lra. }
  assert (Hc : o_cull o = true -> 0 <= face_area f).
  { intros E. rewrite E in Ec. cbn in Ec. apply Rltb_false in Ec. lra. }
  destruct (Rleb (face_area f) kEps && Rleb (-1 * kEps) (face_area f)) eqn:Ea.
  { split; [discriminate|]. intros (_ & H & _). apply area_nonzero in H. congruence. }
  apply area_nonzero in Ea.
  destruct (outside_bbox f (sqrt (o_blur o)) p) eqn:Eb.
  { split; [discriminate|]. intros (_ & _ & H1 & H2 & H3 & _).
    unfold outside_bbox in Eb. rewrite !Bool.orb_true_iff, !Rltb_true in Eb. lra. }
  unfold outside_bbox in Eb. rewrite !Bool.orb_false_iff in Eb. destruct Eb as [[[[E1 E2] E3] E4] E5].
  apply Rltb_false in E1, E2, E3, E4, E5.
  assert (HI := face_inside_iff o f p Ea ltac:(lra)).
  destruct (Rltb (face_depth o f p) 0) eqn:Ez.
  { apply Rltb_true in Ez. split; [discriminate|]. intros (_ & _ & _ & _ & _ & _ & -> & H & _). lra. }
  apply Rltb_false in Ez.
  destruct (face_inside o f p) eqn:Ei; cbn [negb andb].
  - destruct HI as [HI _]. specialize (HI eq_refl). split.
    + intros [= <- <- <-]. repeat split; auto; try lra.
    + intros (_ & _ & _ & _ & _ & -> & -> & _ & [[_ ->]|[H _]]); [reflexivity|contradiction].
  - assert (HN : ~ in_tri2_strict p (xy (fv0 f)) (xy (fv1 f)) (xy (fv2 f))) by (intros H; apply HI in H; discriminate).
    destruct (Rleb (o_blur o) (face_dist f p)) eqn:El.
    + apply Rleb_true in El. split; [discriminate|]. intros (_ & _ & _ & _ & _ & _ & _ & _ & [[H _]|[_ [-> H]]]); [contradiction|lra].
    + apply Rleb_false in El. split.
      * intros [= <- <- <-]. repeat split; auto; try lra.
      * intros (_ & _ & _ & _ & _ & -> & -> & _ & [[H _]|[_ [-> _]]]); [contradiction|reflexivity].
Qed.
(* no holes: a visible face always hits the pixels whose centre it strictly contains *)
Lemma face_covers_inside o f p :
  (o_cull o = true -> 0 <= face_area f) -> kEps < Rabs (face_area f) -> kEps <= fmin z3 f ->
  in_tri2_strict p (xy (fv0 f)) (xy (fv1 f)) (xy (fv2 f)) ->
  exists z d b, face_hit o f p = Some (z, (d, b)) /\ d <= 0.
Proof.
  intros Hc Ha Hz Hin. exists (face_depth o f p), (- face_dist f p), (face_bary_clip o f p).
  assert (K := kEps_pos). destruct (fmin_le z3 f) as [Z0 [Z1 Z2]].
  assert (Hi := proj2 (face_inside_iff o f p Ha Hz) Hin).
  unfold face_inside in Hi. rewrite !Bool.andb_true_iff, !Rltb_true in Hi.
  destruct (bary_clip_nonneg o f p ltac:(tauto)) as [B0 [B1 B2]].
  split.
  - apply face_hit_iff. split; [assumption|]. split; [assumption|]. split; [assumption|].
    destruct Hin as (a & b & c & Pa & Pb & Pc & Hs & Hx & Hy). cbn [xy x2 y2] in Hx, Hy.
    assert (S := sqrt_pos (o_blur o)).
    destruct (fmin_le x3 f) as [X0 [X1 X2]]. destruct (fmax_ge x3 f) as [X3 [X4 X5]].
    destruct (fmin_le y3 f) as [Y0 [Y1 Y2]]. destruct (fmax_ge y3 f) as [Y3 [Y4 Y5]].
    assert (CV : forall m u v w, m <= u -> m <= v -> m <= w -> m <= a * u + b * v + c * w).
    { intros m u v w H1 H2 H3. replace m with (a * m + b * m + c * m) by (rewrite <- !Rmult_plus_distr_r, Hs; ring).
      assert (a * m <= a * u) by (apply Rmult_le_compat_l; lra). assert (b * m <= b * v) by (apply Rmult_le_compat_l; lra).
      assert (c * m <= c * w) by (apply Rmult_le_compat_l; lra). lra. }
    assert (CX : forall m u v w, u <= m -> v <= m -> w <= m -> a * u + b * v + c * w <= m).
    { intros m u v w H1 H2 H3. replace m with (a * m + b * m + c * m) by (rewrite <- !Rmult_plus_distr_r, Hs; ring).
      assert (a * u <= a * m) by (apply Rmult_le_compat_l; lra). assert (b * v <= b * m) by (apply Rmult_le_compat_l; lra).
      assert (c * w <= c * m) by (apply Rmult_le_compat_l; lra). lra. }
    assert (Q1 := CV _ _ _ _ X0 X1 X2). assert (Q2 := CX _ _ _ _ X3 X4 X5).
    assert (Q3 := CV _ _ _ _ Y0 Y1 Y2). assert (Q4 := CX _ _ _ _ Y3 Y4 Y5).
    rewrite Hx, Hy. split; [lra|]. split; [lra|]. split; [reflexivity|]. split; [reflexivity|]. split.
    + unfold face_depth. assert (0 <= x3 (face_bary_clip o f p) * z3 (fv0 f)) by (apply Rmult_le_pos; lra).
      assert (0 <= y3 (face_bary_clip o f p) * z3 (fv1 f)) by (apply Rmult_le_pos; lra).
      assert (0 <= z3 (face_bary_clip o f p) * z3 (fv2 f)) by (apply Rmult_le_pos; lra). lra.
    + left. split; [|reflexivity]. exists a, b, c. cbn [xy x2 y2]. auto 8.
  - assert (0 <= face_dist f p); [|lra]. unfold face_dist, ptri2.
    assert (N : forall q a b, 0 <= pline2 q a b).
    { intros q a b. rewrite pline2_lift. destruct (pline3_attained (lift q) (lift a) (lift b)) as [r [_ <-]]. apply sqd3_nonneg. }
    repeat apply Rmin_glb; apply N.
Qed.

(* ------------ points: whole image, gradient ------------ *)
Lemma rasterize_points_ok H W K pts clouds :
  (forall n s c, nth_error clouds n = Some (s, c) -> (s + c <= length pts)%nat) ->
  exists out, rasterize_points H W K pts clouds = Ok out /\ length out = length clouds /\
  forall n s c, nth_error clouds n = Some (s, c) -> exists img, nth_error out n = Some img /\ length img = H /\
  forall yi, (yi < H)%nat -> exists row, nth_error img yi = Some row /\ length row = W /\
  forall xi, (xi < W)%nat -> exists idx zs ds, nth_error row xi = Some (idx, zs, ds) /\ length ds = K /\
    pixel_topk (-1) (points_hit_at pts (pix_center H W yi xi)) (seq s c) K idx zs (fun k => nth k ds (-1)).
Proof.
  intros HB. unfold rasterize_points.
  edestruct (rmap_exists (fun c : nat * nat => rmap (fun yi => rmap (fun xi =>
     q <- points_queue K pts (fst c) (snd c) (pix_center H W yi xi) ;; Ok (points_row K q)) (seq 0 W)) (seq 0 H))
   (fun c img => length img = H /\ forall yi, (yi < H)%nat -> exists row, nth_error img yi = Some row /\ length row = W /\
      forall xi, (xi < W)%nat -> exists idx zs ds, nth_error row xi = Some (idx, zs, ds) /\ length ds = K /\
    pixel_topk (-1) (points_hit_at pts (pix_center H W yi xi)) (seq (fst c) (snd c)) K idx zs (fun k => nth k ds (-1)))) as [out [Ho Fo]].
  - intros [s c] Hc. cbn [fst snd]. apply In_nth_error in Hc as [n Hn]. apply HB in Hn.
    edestruct (rmap_exists (fun yi => rmap (fun xi =>
       q <- points_queue K pts s c (pix_center H W yi xi) ;; Ok (points_row K q)) (seq 0 W))
     (fun yi row => length row = W /\ forall xi, (xi < W)%nat -> exists idx zs ds, nth_error row xi = Some (idx, zs, ds) /\ length ds = K /\
    pixel_topk (-1) (points_hit_at pts (pix_center H W yi xi)) (seq s c) K idx zs (fun k => nth k ds (-1)))) as [img [Hi Fi]].
    + intros yi _.
      edestruct (rmap_exists (fun xi => q <- points_queue K pts s c (pix_center H W yi xi) ;; Ok (points_row K q))
       (fun xi r => exists idx zs ds, r = (idx, zs, ds) /\ length ds = K /\
    pixel_topk (-1) (points_hit_at pts (pix_center H W yi xi)) (seq s c) K idx zs (fun k => nth k ds (-1)))) as [row [Hr Fr]].
      * intros xi _. destruct (points_pixel K pts s c (pix_center H W yi xi) Hn) as [q [Hq Hs]].
        rewrite Hq. cbn [rbind]. eexists. split; [reflexivity|].
        destruct (points_row K q) as [[idx zs] ds]. exists idx, zs, ds. split; [reflexivity|exact Hs].
      * exists row. split; [exact Hr|].
        destruct (Forall2_seq _ W row ([], [], []) Fr) as [HL Hnth]. split; [exact HL|].
        intros xi Hx. destruct (Hnth xi Hx) as (idx & zs & ds & He & Hs). exists idx, zs, ds.
        split; [|exact Hs]. rewrite <- He. apply nth_error_nth'. lia.
    + exists img. split; [exact Hi|]. destruct (Forall2_seq _ H img [] Fi) as [HL Hnth]. split; [exact HL|].
      intros yi Hy. exists (nth yi img []). split; [apply nth_error_nth'; lia|]. apply Hnth. assumption.
  - exists out. split; [exact Ho|]. assert (HL := Forall2_length _ _ _ Fo). split; [auto|].
    intros n s c Hn. destruct (nth_error out n) as [img|] eqn:Ei.
    + exists img. split; [reflexivity|]. exact (Forall2_get _ _ _ Fo n (s, c) img Hn Ei).
    + apply nth_error_None in Ei. assert (n < length clouds)%nat by (apply nth_error_Some; congruence). lia.
Qed.

Lemma deriv_quad f a b c s x l : (forall t, f t = a + b * t + c * (t - s) ^ 2) -> l = b + 2 * c * (x - s) -> derivable_pt_lim f x l.
Proof.
  intros H ->. apply (deriv_ext _ (fun t => (a + c * s ^ 2) + (b - 2 * c * s) * t + c * (t * t))); [intros; rewrite H; ring|].
  eapply deriv_val; [|apply deriv_plus; [apply (deriv_affine _ (a + c * s ^ 2) (b - 2 * c * s)); reflexivity|
    apply deriv_scal, deriv_mult; apply deriv_id]]. cbv beta. ring.
Qed.
Lemma points_bwd_ok p (pts : nat -> vec3) row i :
  is_grad3 (fun v => points_loss p (fun j => if (j =? i)%nat then v else pts j) row) (pts i) (points_bwd_row p pts row i).
Proof.
  unfold is_grad3. induction row as [|[[idx gz] gd] row [IH1 [IH2 IH3]]].
  - cbn. repeat split; apply derivable_pt_lim_const.
  - cbn [points_loss points_bwd_row]. destruct (idx <? 0)%Z; [cbn; repeat split; apply derivable_pt_lim_const|].
    destruct (Z.to_nat idx =? i)%nat eqn:E.
    + apply Nat.eqb_eq in E. subst i. cbn [add3 x3 y3 z3] in *. set (v := pts (Z.to_nat idx)) in *.
      split; [|split]; (apply deriv_plus; [|assumption]); unfold sq_xy; cbn [x3 y3 z3].
      * apply (deriv_quad _ (gz * z3 v + gd * (y3 v - y2 p) ^ 2) 0 gd (x2 p)); [intros; ring|ring].
      * apply (deriv_quad _ (gz * z3 v + gd * (x3 v - x2 p) ^ 2) 0 gd (y2 p)); [intros; ring|ring].
      * apply (deriv_quad _ (gd * ((x3 v - x2 p) ^ 2 + (y3 v - y2 p) ^ 2)) gz 0 0); [intros; ring|ring].
    + cbn [add3 x3 y3 z3] in *.
      split; [|split]; (apply deriv_plus; [apply derivable_pt_lim_const|assumption]).
Qed.
