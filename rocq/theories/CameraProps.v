(* C34-C36: cameras. *)
From Verif Require Import Base RBase Geom LinAlg Transform TransformSpec RotationSpec Camera CameraSpec.
From Verif Require CameraProofs2 CameraProofs3 CameraProofs4 CameraProofs5 CameraProofs6 CameraProofs7 CameraProofs8.
Local Open Scope R_scope.

(* ---- C34: projection and unprojection ---- *)

(* transform_points computes the textbook projection of X R + T, point by point *)
Theorem transform_points_is_pinhole : forall cs p oq i j o,
  cs_K cs = None -> snd (project None no_kw cs p) = Ok oq -> entry oq i j = Some o ->
  exists c r t x, camera_at cs i c r t /\ entry p i j = Some x /\ o = pinhole c (view_of r t x).
Proof. exact CameraProofs4.project_formula. Qed.
Print Assumptions transform_points_is_pinhole.

Theorem world_to_view_formula : forall cs p w ov i j o,
  snd (view_transform no_kw cs) = Ok w -> transform_points None w p = Ok ov -> entry ov i j = Some o ->
  exists r t x, batch_nth (cs_R cs) i = Some r /\ batch_nth (cs_T cs) i = Some t /\ entry p i j = Some x /\
    o = Some (view_of r t x).
Proof. exact CameraProofs4.view_formula. Qed.
Print Assumptions world_to_view_formula.

(* project, then unproject with the true depth: the original point *)
Theorem unproject_after_project : forall kw cs p w ov v oq q x xyd out i j o,
  sound_call kw cs -> kw_ok kw cs -> depth_shape_ok cs xyd ->
  entry p i j = Some x ->
  snd (view_transform kw cs) = Ok w -> transform_points None w p = Ok ov -> entry ov i j = Some (Some v) ->
  snd (project None kw cs p) = Ok oq -> entry oq i j = Some (Some q) ->
  entry xyd i j = Some (V3 (x3 q) (y3 q) (z3 v)) ->
  snd (unproject true false false kw cs xyd) = Ok out -> entry out i j = Some o ->
  o = Some x.
Proof. exact CameraProofs2.project_unproject_world. Qed.
Print Assumptions unproject_after_project.

(* the same in view coordinates *)
Theorem unproject_after_project_view : forall kw cs pt pv oq q v xyd out i j o,
  sound_call kw cs -> kw_ok kw cs -> depth_shape_ok cs xyd ->
  entry pv i j = Some v ->
  projection_transform kw cs = Ok pt -> transform_points None pt pv = Ok oq -> entry oq i j = Some (Some q) ->
  entry xyd i j = Some (V3 (x3 q) (y3 q) (z3 v)) ->
  snd (unproject false false false kw cs xyd) = Ok out -> entry out i j = Some o ->
  o = Some v.
Proof. exact CameraProofs2.project_unproject_view. Qed.
Print Assumptions unproject_after_project_view.

(* scaled_depth_input=True: the projected point itself is given back *)
Theorem unproject_scaled_depth : forall world kw cs p oq q x xyd out i j o t,
  kw_ok kw cs -> cs_cls cs = CFoVPersp \/ cs_cls cs = CFoVOrtho ->
  snd (full_or_view world kw cs) = Ok t ->
  transform_points None t p = Ok oq -> entry p i j = Some x -> entry oq i j = Some (Some q) ->
  entry xyd i j = Some q ->
  snd (unproject world true false kw cs xyd) = Ok out -> entry out i j = Some o ->
  o = Some x.
Proof. exact CameraProofs3.unproject_scaled. Qed.
Print Assumptions unproject_scaled_depth.

(* transform_points_ndc, then unproject_points(from_ndc=True) *)
Theorem unproject_from_ndc : forall cs p w ov v oq q x xyd out i j o,
  cs_cls cs = CPersp \/ cs_cls cs = COrtho -> sound_call no_kw cs ->
  entry p i j = Some x ->
  snd (view_transform no_kw cs) = Ok w -> transform_points None w p = Ok ov -> entry ov i j = Some (Some v) ->
  snd (project_ndc None no_kw cs p) = Ok oq -> entry oq i j = Some (Some q) ->
  entry xyd i j = Some (V3 (x3 q) (y3 q) (z3 v)) ->
  snd (unproject true false true no_kw cs xyd) = Ok out -> entry out i j = Some o ->
  o = Some x.
Proof. exact CameraProofs3.project_unproject_ndc. Qed.
Print Assumptions unproject_from_ndc.

(* unproject, then project: the same image position, at the given depth *)
Theorem project_after_unproject : forall kw cs xyd out p X i j w pts ov v oq o,
  sound_call kw cs -> kw_ok kw cs -> depth_shape_ok cs xyd ->
  entry xyd i j = Some p ->
  snd (unproject true false false kw cs xyd) = Ok out -> entry out i j = Some (Some X) ->
  entry pts i j = Some X ->
  snd (view_transform kw cs) = Ok w -> transform_points None w pts = Ok ov -> entry ov i j = Some (Some v) ->
  snd (project None kw cs pts) = Ok oq -> entry oq i j = Some o ->
  z3 v = z3 p /\ exists q, o = Some q /\ x3 q = x3 p /\ y3 q = y3 p.
Proof. exact CameraProofs5.unproject_project_world. Qed.
Print Assumptions project_after_unproject.

(* unprojection succeeds, with finite points, for proper cameras and non-zero depths *)
Theorem unproject_succeeds : forall cs xyd,
  cams_wf cs -> cs_K cs = None -> (0 < cs_n cs)%nat -> (forall c, In c (cs_int cs) -> regular c) ->
  (forall r, In r (cs_R cs) -> det3 r <> 0) -> call_shape_ok cs xyd ->
  exists out, snd (unproject true false false no_kw cs xyd) = Ok out /\
    forall i j p, entry xyd i j = Some p -> (i < cs_n cs)%nat \/ cs_n cs = 1%nat ->
      (match cs_cls cs with CFoVPersp | CPersp => z3 p <> 0 | _ => True end) ->
      exists X, entry out i j = Some (Some X).
Proof. exact CameraProofs5.unproject_defined. Qed.
Print Assumptions unproject_succeeds.

(* the hypotheses above are met: two different cameras, one point each *)
Example unproject_succeeds_ex :
  let cs := Cams CPersp [Persp 2 3 0 1; Persp 1 1 0 0] None [id3; M3 0 1 0 (-1) 0 0 0 0 1]
                 [V3 0 0 1; V3 1 2 3] true None in
  let xyd := P3 [[V3 1 1 2]; [V3 0 1 4]] in
  cams_wf cs /\ sound_call no_kw cs /\ kw_ok no_kw cs /\ depth_shape_ok cs xyd /\ call_shape_ok cs xyd /\
  exists out X, snd (unproject true false false no_kw cs xyd) = Ok out /\ entry out 1 0 = Some (Some X).
Proof.
  intros cs xyd.
  assert (W : cams_wf cs).
  { unfold cams_wf, cs, cs_n. cbn. repeat split; intros l E; try discriminate. destruct E as [<-|[<-|[]]]; reflexivity. }
  assert (S : call_shape_ok cs xyd) by (split; [discriminate|left; reflexivity]).
  split; [exact W|]. split; [split; [exact (proj2 (proj2 (proj2 (proj2 W))))|intros l k [E|E]; discriminate]|].
  split; [discriminate|]. split; [exact I|]. split; [exact S|].
  destruct (unproject_succeeds cs xyd W eq_refl) as (out & Ho & He).
  - unfold cs, cs_n. cbn. lia.
  - intros c [<-|[<-|[]]]; cbn; lra.
  - intros r [<-|[<-|[]]]; unfold det3, id3; cbn; lra.
  - exact S.
  - destruct (He 1%nat 0%nat (V3 0 1 4)) as (X & HX); [reflexivity|left; unfold cs, cs_n; cbn; lia|cbn; lra|].
    exists out, X. auto.
Qed.

(* FoV depth lies in [0,1] exactly between the planes and preserves order *)
Theorem fov_depth_range_and_order : forall n f fov asp deg x y z q, 0 < n < f ->
  pinhole (FoVPersp n f fov asp deg) (V3 x y z) = Some q -> 0 < z ->
  (0 <= z3 q <-> n <= z) /\ (z3 q <= 1 <-> z <= f) /\
  forall x' y' z' q', pinhole (FoVPersp n f fov asp deg) (V3 x' y' z') = Some q' -> 0 < z' -> (z < z' <-> z3 q < z3 q').
Proof. exact CameraProofs8.fov_depth. Qed.
Print Assumptions fov_depth_range_and_order.

(* screen-space cameras: the NDC and pixel coordinates are those of the equivalent NDC camera *)
Theorem transform_points_ndc_formula : forall cs p oq i j o,
  cs_K cs = None -> (forall c, In c (cs_int cs) -> cls_of c = cs_cls cs) ->
  snd (project_ndc None no_kw cs p) = Ok oq -> entry oq i j = Some o ->
  exists c r t x, camera_at cs i c r t /\ entry p i j = Some x /\
    ((in_ndc cs = true /\ o = pinhole c (view_of r t x)) \/
     (in_ndc cs = false /\ exists l s, cs_size cs = Some l /\ batch_nth l i = Some s /\ scale_of s <> 0 /\
        o = pinhole (ndc_equivalent s c) (view_of r t x))).
Proof. exact CameraProofs4.project_ndc_formula. Qed.
Print Assumptions transform_points_ndc_formula.

Theorem transform_points_screen_formula : forall cs p os i j o,
  cs_K cs = None -> (forall c, In c (cs_int cs) -> cls_of c = cs_cls cs) ->
  snd (project_screen None true no_kw cs p) = Ok os -> entry os i j = Some o ->
  exists c r t x l s, camera_at cs i c r t /\ entry p i j = Some x /\ cs_size cs = Some l /\ batch_nth l i = Some s /\
    o = option_map (to_pixel s) (pinhole (if in_ndc cs then c else ndc_equivalent s c) (view_of r t x)).
Proof. exact CameraProofs4.project_screen_formula. Qed.
Print Assumptions transform_points_screen_formula.

(* the NDC <-> screen transforms are inverse to each other and follow the pixel convention *)
Theorem ndc_to_screen_formula : forall n size t p oq i j o,
  ndc_to_screen n true size = Ok t -> transform_points None t p = Ok oq -> entry oq i j = Some o ->
  exists l s q, size = Some l /\ batch_nth l i = Some s /\ entry p i j = Some q /\ o = Some (to_pixel s q).
Proof.
  intros n size t p oq i j o Ht Hp Ho.
  destruct (CameraProofs3.ndc_screen_values _ _ _ _ _ _ _ _ _ Ht Hp Ho) as (l & s & q & H1 & H2 & H3 & ->).
  exists l, s, q. rewrite CameraProofs3.screen_lin_flip. auto.
Qed.
Print Assumptions ndc_to_screen_formula.
Theorem screen_to_ndc_formula : forall n size u p oq i j o,
  screen_to_ndc n true size = Ok u -> transform_points None u p = Ok oq -> entry oq i j = Some o ->
  exists l s q y, size = Some l /\ batch_nth l i = Some s /\ entry p i j = Some y /\ o = Some q /\ y = to_pixel s q.
Proof.
  intros n size u p oq i j o Hu Hp Ho.
  destruct (CameraProofs4.screen_ndc_roundtrip _ _ _ _ _ _ _ _ _ Hu Hp Ho) as (l & s & q & y & H1 & H2 & H3 & H4 & H5).
  exists l, s, q, y. rewrite CameraProofs3.screen_lin_flip in H5. auto 6.
Qed.
Print Assumptions screen_to_ndc_formula.

(* the camera centre is the point that the view transform sends to the origin *)
Theorem camera_center_is_origin_of_view : forall cs l i C,
  snd (camera_center no_kw cs) = Ok l -> batch_nth l i = Some C ->
  exists r t, batch_nth (cs_R cs) i = Some r /\ batch_nth (cs_T cs) i = Some t /\ view_of r t C = V3 0 0 0.
Proof. exact CameraProofs6.center_origin. Qed.
Print Assumptions camera_center_is_origin_of_view.

(* calls without R and T leave the object as it was *)
Theorem calls_keep_cameras : forall cs eps fl p w sc nd,
  fst (view_transform no_kw cs) = cs /\ fst (full_projection no_kw cs) = cs /\ fst (project eps no_kw cs p) = cs /\
  fst (project_ndc eps no_kw cs p) = cs /\ fst (project_screen eps fl no_kw cs p) = cs /\
  fst (unproject w sc nd no_kw cs p) = cs.
Proof.
  intros cs eps fl p w sc nd. destruct (CameraProofs6.call_state no_kw cs) as (H1 & H2 & H3 & H4 & H5).
  rewrite CameraProofs2.stored_no_kw in *. rewrite H3, H4, H5, CameraProofs6.unproject_state. auto 10.
Qed.
Print Assumptions calls_keep_cameras.

(* findings *)
Theorem override_is_local_refuted :
  ~ (forall kw cs p, snd (project None no_kw (fst (project None kw cs p)) p) = snd (project None no_kw cs p)).
Proof. exact CameraProofs8.override_stays. Qed.
Print Assumptions override_is_local_refuted.
Theorem screen_space_transform_points_refuted :
  ~ (forall cs p o o' i j q q', in_ndc cs = false -> snd (project None no_kw cs p) = Ok o ->
       snd (project_screen None true no_kw cs p) = Ok o' ->
       entry o i j = Some (Some q) -> entry o' i j = Some (Some q') -> x3 q = x3 q').
Proof. exact CameraProofs8.screen_values_differ. Qed.
Print Assumptions screen_space_transform_points_refuted.
Theorem fov_unproject_uses_kwargs_refuted :
  ~ (forall kw cs p oq q x xyd out o, cs_cls cs = CFoVPersp -> sound_call kw cs -> entry p 0 0 = Some x ->
      snd (project None kw cs p) = Ok oq -> entry oq 0 0 = Some (Some q) -> entry xyd 0 0 = Some q ->
      snd (unproject true true false kw cs xyd) = Ok out -> entry out 0 0 = Some o -> o = Some x).
Proof. exact CameraProofs8.fov_kwargs_dropped. Qed.
Print Assumptions fov_unproject_uses_kwargs_refuted.
Theorem unproject_flat_points_refuted :
  ~ (forall cs p w ov v oq q x xyd out i j o,
      sound_call no_kw cs -> entry p i j = Some x ->
      snd (view_transform no_kw cs) = Ok w -> transform_points None w p = Ok ov -> entry ov i j = Some (Some v) ->
      snd (project None no_kw cs p) = Ok oq -> entry oq i j = Some (Some q) ->
      entry xyd i j = Some (V3 (x3 q) (y3 q) (z3 v)) ->
      snd (unproject true false false no_kw cs xyd) = Ok out -> entry out i j = Some o -> o = Some x).
Proof. exact CameraProofs8.flat_depths_mixed. Qed.
Print Assumptions unproject_flat_points_refuted.
Theorem fov_ortho_unproject_flat_fails : forall world nd kw cs l,
  cs_cls cs = CFoVOrtho -> exists e, snd (unproject world false nd kw cs (P2 l)) = Fail e.
Proof. exact CameraProofs8.ortho_flat_fails. Qed.
Print Assumptions fov_ortho_unproject_flat_fails.

(* indexing and joining *)
Theorem cameras_getitem_selects : forall cs ix out, cams_wf cs -> cams_getitem cs ix = Ok out ->
  let idx := positions (cs_n cs) ix in
  cs_cls out = cs_cls cs /\ in_ndc out = in_ndc cs /\ cs_n out = length idx /\ cams_wf out /\
  Forall (fun j => (j < cs_n cs)%nat) idx /\
  forall k j, nth_error idx k = Some j ->
    nth_error (cs_int out) k = nth_error (cs_int cs) j /\ nth_error (cs_R out) k = nth_error (cs_R cs) j /\
    nth_error (cs_T out) k = nth_error (cs_T cs) j /\
    option_map (fun l => nth_error l k) (cs_K out) = option_map (fun l => nth_error l j) (cs_K cs) /\
    option_map (fun l => nth_error l k) (cs_size out) = option_map (fun l => nth_error l j) (cs_size cs).
Proof. exact CameraProofs6.getitem_correct. Qed.
Print Assumptions cameras_getitem_selects.
Theorem cameras_getitem_in_bounds : forall cs ix, cams_wf cs -> in_bounds (cs_n cs) ix ->
  exists out, cams_getitem cs ix = Ok out.
Proof. exact CameraProofs6.getitem_defined. Qed.
Print Assumptions cameras_getitem_in_bounds.
Theorem join_cameras_concatenates : forall l1 c l2 out,
  (forall x, In x (l1 ++ c :: l2) -> cams_wf x) -> join_cameras (l1 ++ c :: l2) = Ok out ->
  cs_n out = list_sum (map cs_n (l1 ++ c :: l2)) /\ cams_wf out /\ cs_cls out = cs_cls c /\ in_ndc out = in_ndc c /\
  forall k, (k < cs_n c)%nat -> let m := (list_sum (map cs_n l1) + k)%nat in
    nth_error (cs_int out) m = nth_error (cs_int c) k /\ nth_error (cs_R out) m = nth_error (cs_R c) k /\
    nth_error (cs_T out) m = nth_error (cs_T c) k /\
    option_map (fun l => nth_error l m) (cs_K out) = option_map (fun l => nth_error l k) (cs_K c) /\
    option_map (fun l => nth_error l m) (cs_size out) = option_map (fun l => nth_error l k) (cs_size c).
Proof. exact CameraProofs6.join_correct. Qed.
Print Assumptions join_cameras_concatenates.
Example join_then_index_ex :
  let c := fun f => Cams CPersp [Persp f f 0 0] None [id3] [V3 f 0 0] true None in
  exists out d, join_cameras [c 1; c 2; c 3] = Ok out /\ cams_wf out /\
    cams_getitem out (CxList [-1; 0]%Z) = Ok d /\ cs_int d = [Persp 3 3 0 0; Persp 1 1 0 0].
Proof.
  intros c. eexists. eexists. split; [reflexivity|]. split.
  - unfold cams_wf, cs_n. cbn. repeat split; intros l E; try discriminate. destruct E as [<-|[<-|[<-|[]]]]; reflexivity.
  - split; reflexivity.
Qed.

(* ---- C35: OpenCV conversion ---- *)
Theorem opencv_cameras_project_the_same : forall r tv k h w l, 1 <= h -> 1 <= w ->
  exists cs os, opencv_camera r tv k (h, w) = Ok cs /\
    snd (project_screen None true no_kw cs (P2 l)) = Ok (P2 os) /\
    Forall2 (fun x o => let v := opencv_cam r tv x in
      if Reqb (z3 v) 0 then o = None
      else o = Some (V3 (fst (opencv_pixel k v)) (snd (opencv_pixel k v)) (/ z3 v))) l os.
Proof. exact CameraProofs7.opencv_screen. Qed.
Print Assumptions opencv_cameras_project_the_same.
Theorem opencv_to_cameras_and_back : forall r tv fx fy cx cy h w, 0 < h -> 0 < w ->
  exists i r' t', cameras_from_opencv r tv (M3 fx 0 cx 0 fy cy 0 0 1) (h, w) = Ok (i, r', t') /\
    opencv_from_cameras i r' t' (h, w) = Ok (r, tv, M3 fx 0 cx 0 fy cy 0 0 1).
Proof. exact CameraProofs7.opencv_roundtrip. Qed.
Print Assumptions opencv_to_cameras_and_back.
Theorem cameras_to_opencv_and_back : forall fx fy px py r t h w k r' t', 0 < h -> 0 < w ->
  opencv_from_cameras (Persp fx fy px py) r t (h, w) = Ok (r', t', k) ->
  cameras_from_opencv r' t' k (h, w) = Ok (Persp fx fy px py, r, t).
Proof. exact CameraProofs7.opencv_roundtrip'. Qed.
Print Assumptions cameras_to_opencv_and_back.
(* exporting a screen-space camera is wrong: its intrinsics are read as if in NDC *)
Theorem opencv_from_screen_space_camera_refuted : exists fx fy px py r t h w r' t' k x q,
  opencv_from_cameras (Persp fx fy px py) r t (h, w) = Ok (r', t', k) /\
  option_map (to_pixel (h, w)) (pinhole (ndc_equivalent (h, w) (Persp fx fy px py)) (view_of r t x)) = Some q /\
  x3 q <> fst (opencv_pixel k (opencv_cam r' t' x)).
Proof. exact CameraProofs8.opencv_screen_space. Qed.
Print Assumptions opencv_from_screen_space_camera_refuted.

(* ---- C36: placing a camera ---- *)
Theorem look_at_places_camera : forall pl at_ up r t,
  let C := placed pl at_ in let d := sub3 at_ C in
  look_at_view_transform pl at_ up = (r, t) ->
  / 100000 <= norm3 d -> / 100000 <= norm3 (cross3 up (scal3 (/ norm3 d) d)) ->
  rotation r /\ view_of r t C = V3 0 0 0 /\ view_of r t at_ = V3 0 0 (norm3 d) /\
  x3 (vmul3 up r) = 0 /\ 0 < y3 (vmul3 up r).
Proof. exact CameraProofs7.look_at_correct. Qed.
Print Assumptions look_at_places_camera.
Theorem spherical_position_distance : forall dist elev azim deg,
  norm3 (spherical_position dist elev azim deg) = Rabs dist.
Proof. exact CameraProofs7.spherical_distance. Qed.
Print Assumptions spherical_position_distance.
Example look_at_ex : let d := sub3 (V3 0 0 1) (placed (Eye (V3 0 0 0)) (V3 0 0 1)) in
  / 100000 <= norm3 d /\ / 100000 <= norm3 (cross3 (V3 0 1 0) (scal3 (/ norm3 d) d)).
Proof.
  assert (E : norm3 (sub3 (V3 0 0 1) (V3 0 0 0)) = 1).
  { unfold norm3, dot3, sub3. cbn. replace (_ + _) with 1 by ring. apply sqrt_1. }
  cbn [placed]. cbv zeta. rewrite E. split; [lra|].
  assert (F : norm3 (cross3 (V3 0 1 0) (scal3 (/ 1) (sub3 (V3 0 0 1) (V3 0 0 0)))) = 1).
  { unfold norm3, dot3, cross3, scal3, sub3. cbn [x3 y3 z3]. replace (_ + _) with 1 by field. apply sqrt_1. }
  rewrite F. lra.
Qed.
Theorem look_at_is_rotation_refuted :
  ~ (forall pos at_ up, pos <> at_ -> cross3 up (sub3 at_ pos) <> V3 0 0 0 -> rotation (look_at_rotation pos at_ up)).
Proof. exact CameraProofs8.look_at_short_up. Qed.
Print Assumptions look_at_is_rotation_refuted.
Theorem look_at_parallel_up_degenerate : look_at_rotation (V3 0 0 0) (V3 0 0 1) (V3 0 0 1) = M3 0 0 0 0 0 0 0 0 1.
Proof. exact CameraProofs8.look_at_parallel_up. Qed.
Print Assumptions look_at_parallel_up_degenerate.
(* camera_to_eye_at_up inverts look_at_view_transform *)
Theorem eye_at_up_of_camera : forall r t, det3 r <> 0 -> exists e a u, camera_to_eye_at_up r t = Ok (e, a, u) /\
  view_of r t e = V3 0 0 0 /\ view_of r t a = V3 0 0 1 /\ view_of r t (add3 e u) = V3 0 1 0.
Proof. exact CameraProofs7.eye_at_up_spec. Qed.
Print Assumptions eye_at_up_of_camera.
Theorem look_at_of_eye_at_up : forall r t e a u, rotation r -> camera_to_eye_at_up r t = Ok (e, a, u) ->
  look_at_view_transform (Eye e) a u = (r, t).
Proof. exact CameraProofs7.eye_at_up_roundtrip. Qed.
Print Assumptions look_at_of_eye_at_up.
(* rotate_on_spot turns the camera about its centre *)
Theorem rotate_on_spot_turns_view : forall r t rot nr nt x, rotation r -> rotate_on_spot r t rot = (nr, nt) ->
  view_of nr nt x = vmul3 (view_of r t x) (tr3 rot).
Proof. exact CameraProofs7.rotate_on_spot_view. Qed.
Print Assumptions rotate_on_spot_turns_view.
Theorem rotate_on_spot_keeps_center : forall r t rot nr nt C, rotation r -> rotate_on_spot r t rot = (nr, nt) ->
  view_of r t C = V3 0 0 0 -> view_of nr nt C = V3 0 0 0.
Proof.
  intros r t rot nr nt C Hr H HC. rewrite (rotate_on_spot_turns_view _ _ _ _ _ _ Hr H), HC.
  unfold vmul3. cbn [x3 y3 z3]. apply V3_eq; ring.
Qed.
Print Assumptions rotate_on_spot_keeps_center.
