From Verif Require Import Base RBase Geom LinAlg Transform TransformSpec TransformProofs TransformProofs2 RotationSpec RotationProofs RotationProofs4 RotationProofs5 Camera CameraSpec CameraProofs CameraProofs2 CameraProofs3 CameraProofs4 CameraProofs5 CameraProofs6.
Local Open Scope R_scope.

(* ---- look_at ---- *)
Lemma norm5_long v : / 100000 <= norm3 v -> norm5 v = scal3 (/ norm3 v) v.
Proof. intros H. unfold norm5. rewrite Rmax_left by exact H. reflexivity. Qed.
Lemma norm5_dot v : / 100000 <= norm3 v -> dot3 (norm5 v) (norm5 v) = 1.
Proof.
  intros H. rewrite norm5_long by exact H. pose proof (norm3_sq v) as N. assert (norm3 v <> 0) by lra.
  set (n := norm3 v) in *. clearbody n. destruct v as [x y z]. unfold dot3, scal3 in *. cbm. cbm_in N.
  apply (Rmult_eq_reg_l (n * n)); [|intros E; apply H0; apply Rmult_integral in E; tauto].
  rewrite Rmult_1_r. etransitivity; [|symmetry; exact N]. field. exact H0.
Qed.
Lemma unit_norm5 v : dot3 v v = 1 -> norm5 v = v.
Proof.
  intros H. assert (N : norm3 v = 1) by (apply norm3_unique; lra). rewrite norm5_long by (rewrite N; lra). rewrite N.
  destruct v as [x y z]. unfold scal3. cbm. apply V3_eq; field.
Qed.
Lemma frame_rotation x z : dot3 x x = 1 -> dot3 z z = 1 -> dot3 x z = 0 ->
  let y := cross3 z x in dot3 y y = 1 /\ rotation (M3 (x3 x) (x3 y) (x3 z) (y3 x) (y3 y) (y3 z) (z3 x) (z3 y) (z3 z)).
Proof.
  intros Hx Hz Hxz y. destruct x as [a b c], z as [d e f]. unfold dot3 in *. cbm_in Hx. cbm_in Hz. cbm_in Hxz. unfold y, cross3. cbm.
  assert (Y : (e * c - f * b) * (e * c - f * b) + (f * a - d * c) * (f * a - d * c) + (d * b - e * a) * (d * b - e * a) = 1).
  { replace 1 with ((a * a + b * b + c * c) * (d * d + e * e + f * f) - (a * d + b * e + c * f) * (a * d + b * e + c * f)) by (rewrite Hx, Hz, Hxz; ring). ring. }
  split; [exact Y|]. split.
  - apply mul3_inv_comm. unfold mul3, tr3, id3. cbm. apply M3_eq; first [exact Hx|exact Hz|exact Y|ring|lra].
  - unfold det3. cbm. replace 1 with ((a * a + b * b + c * c) * (d * d + e * e + f * f) - (a * d + b * e + c * f) * (a * d + b * e + c * f)) by (rewrite Hx, Hz, Hxz; ring). ring.
Qed.
Lemma unit_not_near0 x : dot3 x x = 1 -> near0 (x3 x) && near0 (y3 x) && near0 (z3 x) = false.
Proof.
  intros H. destruct (near0 (x3 x)) eqn:E1; [|reflexivity]. destruct (near0 (y3 x)) eqn:E2; [|reflexivity].
  destruct (near0 (z3 x)) eqn:E3; [|reflexivity]. exfalso. unfold near0 in *. apply Rleb_true in E1, E2, E3.
  destruct x as [a b c]. unfold dot3 in H. cbm_in H. cbm_in E1. cbm_in E2. cbm_in E3.
  assert (S : forall u, Rabs u <= 5 / 1000 -> u * u <= 1 / 4).
  { intros u Hu. pose proof (Rabs_pos u). assert (E : u * u = Rabs u * Rabs u) by (rewrite <- Rabs_mult; symmetry; apply Rabs_pos_eq; nra). rewrite E. nra. }
  pose proof (S a E1). pose proof (S b E2). pose proof (S c E3). lra.
Qed.

Lemma look_at_frame pos at_ up :
  let d := sub3 at_ pos in let z := scal3 (/ norm3 d) d in
  / 100000 <= norm3 d -> / 100000 <= norm3 (cross3 up z) ->
  let x := scal3 (/ norm3 (cross3 up z)) (cross3 up z) in let y := cross3 z x in
  look_at_rotation pos at_ up = M3 (x3 x) (x3 y) (x3 z) (y3 x) (y3 y) (y3 z) (z3 x) (z3 y) (z3 z) /\
  dot3 x x = 1 /\ dot3 z z = 1 /\ dot3 x z = 0.
Proof.
  intros d z Hd Hu x y. assert (Ez : norm5 (sub3 at_ pos) = z) by (apply norm5_long; exact Hd).
  assert (Zz : dot3 z z = 1) by (rewrite <- Ez; apply norm5_dot; exact Hd).
  assert (Ex : norm5 (cross3 up z) = x) by (apply norm5_long; exact Hu).
  assert (Xx : dot3 x x = 1) by (rewrite <- Ex; apply norm5_dot; exact Hu).
  assert (Xz : dot3 x z = 0).
  { unfold x. clearbody z. destruct up as [a b c], z as [e f g]. unfold dot3, scal3, cross3. cbm. ring. }
  destruct (frame_rotation x z Xx Zz Xz) as (Yy & _).
  split; [|auto]. unfold look_at_rotation. rewrite Ez, Ex, (unit_not_near0 x Xx), (unit_norm5 _ Yy). reflexivity.
Qed.
Lemma view_lin r t x y : view_of r t y = add3 (view_of r t x) (vmul3 (sub3 y x) r).
Proof. destruct r, t, x, y. unfold view_of, add3, vmul3, sub3. cbm. apply V3_eq; ring. Qed.
Lemma look_at_correct pl at_ up r t :
  let C := placed pl at_ in let d := sub3 at_ C in
  look_at_view_transform pl at_ up = (r, t) ->
  / 100000 <= norm3 d -> / 100000 <= norm3 (cross3 up (scal3 (/ norm3 d) d)) ->
  rotation r /\ view_of r t C = V3 0 0 0 /\ view_of r t at_ = V3 0 0 (norm3 d) /\
  x3 (vmul3 up r) = 0 /\ 0 < y3 (vmul3 up r).
Proof.
  intros C d H Hd Hu. unfold look_at_view_transform in H. cbv zeta in H. fold C in H. injection H as Hr Ht.
  destruct (look_at_frame C at_ up Hd Hu) as (Er & Xx & Zz & Xz). fold d in Er, Xx, Zz, Xz. rewrite Hr in Er, Ht.
  set (z := scal3 (/ norm3 d) d) in *. set (x := scal3 (/ norm3 (cross3 up z)) (cross3 up z)) in *.
  destruct (frame_rotation x z Xx Zz Xz) as (Yy & Rt).
  assert (V0 : view_of r t C = V3 0 0 0).
  { rewrite <- Ht. destruct r, C. unfold view_of, scal3, mulv3, vmul3, tr3. cbm. apply V3_eq; ring. }
  split; [rewrite Er; exact Rt|]. split; [exact V0|].
  assert (Dd : d = scal3 (norm3 d) z).
  { unfold z. assert (norm3 d <> 0) by lra. generalize (norm3 d) H. intros n Hn. destruct d as [a b c]. unfold scal3. cbm. apply V3_eq; field; exact Hn. }
  split.
  - rewrite (view_lin r t C at_), V0. fold d. rewrite Dd at 1. rewrite Er.
    revert Zz Xz. clear. generalize (norm3 d). intros n. clearbody x z. destruct x as [a b c], z as [e f g]. unfold dot3. cbm. intros Zz Xz.
    unfold add3, vmul3, scal3, cross3. cbm. apply V3_eq.
    + replace (0 + (n * e * a + n * f * b + n * g * c)) with (n * (a * e + b * f + c * g)) by ring. rewrite Xz. ring.
    + ring.
    + replace (0 + (n * e * e + n * f * f + n * g * g)) with (n * (e * e + f * f + g * g)) by ring. rewrite Zz. ring.
  - set (m := norm3 (cross3 up z)) in *. assert (Hm : 0 < m) by lra.
    assert (Hmm : m * m = dot3 (cross3 up z) (cross3 up z)) by apply norm3_sq.
    split.
    + rewrite Er. unfold x. clearbody z m. destruct up as [a b c], z as [e f g]. unfold vmul3, scal3, cross3. cbm. ring.
    + (* up . (z x x) = x . (up x z) = |up x z| *)
      assert (E : y3 (vmul3 up r) = m).
      { rewrite Er. unfold x. clearbody z m. destruct up as [a b c], z as [e f g]. unfold vmul3, scal3, cross3, dot3 in *. cbm. cbm_in Hmm.
        apply (Rmult_eq_reg_l m); [|lra]. rewrite Hmm. field. lra. }
      lra.
Qed.
Lemma spherical_distance dist elev azim deg : norm3 (spherical_position dist elev azim deg) = Rabs dist.
Proof.
  apply norm3_unique; [apply Rabs_pos|]. rewrite <- Rabs_mult. rewrite Rabs_pos_eq by nra. unfold spherical_position. cbv zeta.
  set (e := if deg then PI / 180 * elev else elev). set (a := if deg then PI / 180 * azim else azim). unfold dot3. cbm.
  pose proof (sin2_cos2 e) as E. pose proof (sin2_cos2 a) as A. unfold Rsqr in *.
  replace (dist * cos e * sin a * (dist * cos e * sin a) + dist * sin e * (dist * sin e) + dist * cos e * cos a * (dist * cos e * cos a))
    with (dist * dist * (sin e * sin e + cos e * cos e * (sin a * sin a + cos a * cos a))) by ring.
  rewrite A, Rmult_1_r, E. ring.
Qed.

(* ---- eye, at, up ---- *)
Lemma single_view_inverse r t : det3 r <> 0 -> exists w u b, world_to_view [r] [t] = Ok w /\ inverse false w = Ok u /\ get_matrix u = Ok [b] /\
  mul4 (mul4 (rotate_mat r) (translate_mat t)) b = id4.
Proof.
  intros Hd. assert (Ew := world_to_view_defined [r] [t] eq_refl). set (w := TR _ _ _) in Ew.
  assert (Hm : get_matrix w = Ok [mul4 (rotate_mat r) (translate_mat t)]) by reflexivity.
  destruct (inverse_parts_defined w (wf_view _ _ _ Ew) _ Hm) as (u & Hu); [discriminate| |].
  { constructor; [|constructor]. rewrite det_view. exact Hd. }
  destruct (inverse_matrix false _ _ _ (wf_view _ _ _ Ew) Hm Hu) as (ims & H1 & Hinv).
  assert (L : length ims = 1%nat) by (destruct Hinv as (L & _); cbn in L; lia).
  destruct ims as [|b [|b' ims]]; cbn in L; try lia.
  exists w, u, b. split; [exact Ew|]. split; [exact Hu|]. split; [exact H1|].
  apply inv_batch_mutual in Hinv. inversion Hinv as [|? ? ? ? Hab _]. apply Hab.
Qed.
Lemma eye_at_up_spec r t : det3 r <> 0 -> exists e a u, camera_to_eye_at_up r t = Ok (e, a, u) /\
  view_of r t e = V3 0 0 0 /\ view_of r t a = V3 0 0 1 /\ view_of r t (add3 e u) = V3 0 1 0.
Proof.
  intros Hd. destruct (single_view_inverse r t Hd) as (w & u & b & Ew & Eu & Em & Hab).
  unfold camera_to_eye_at_up. rewrite Ew. cbn [rbind]. rewrite Eu. cbn [rbind]. rewrite Em. cbn [rbind rget nth_error].
  destruct (inv3_defined r Hd) as (ri & Hri). apply inv3_ok in Hri. destruct Hri as (_ & Ra & Rb).
  assert (EX : forall v, exists X, view_of r t X = v /\ from_h None (vmul4 (to_h v) b) = Some X).
  { intros v. exists (vmul3 (sub3 v t) ri). assert (HX : view_of r t (vmul3 (sub3 v t) ri) = v).
    { assert (Ev : forall y, view_of r t y = add3 (vmul3 y r) t) by (intros y; destruct y, r, t; reflexivity).
      rewrite Ev, <- vmul3_mul, Rb, vmul3_id. destruct v, t. unfold add3, sub3. cbm. apply V3_eq; ring. }
    split; [exact HX|]. eapply undo_point; [exact Hab|]. rewrite vmul4_view, HX. apply from_to_h. }
  destruct (EX (V3 0 0 0)) as (e & He & He'). destruct (EX (V3 0 0 1)) as (a & Ha & Ha'). destruct (EX (V3 0 1 0)) as (o & Ho & Ho').
  rewrite He', Ha', Ho'. exists e, a, (sub3 o e). split; [reflexivity|]. split; [exact He|]. split; [exact Ha|].
  replace (add3 e (sub3 o e)) with o; [exact Ho|]. destruct e, o. unfold add3, sub3. cbm. apply V3_eq; ring.
Qed.
Lemma view_diff r t x y : sub3 (view_of r t y) (view_of r t x) = vmul3 (sub3 y x) r.
Proof. destruct r, t, x, y. unfold view_of, vmul3, sub3. cbm. apply V3_eq; ring. Qed.
Lemma eye_at_up_roundtrip r t e a u : rotation r -> camera_to_eye_at_up r t = Ok (e, a, u) ->
  look_at_view_transform (Eye e) a u = (r, t).
Proof.
  intros Hr H. assert (Hd : det3 r <> 0) by (rewrite (proj2 Hr); lra).
  destruct (eye_at_up_spec r t Hd) as (e' & a' & u' & H' & Ve & Va & Vu). rewrite H in H'. injection H' as <- <- <-.
  pose proof (rotation_rel r Hr) as RR. destruct Hr as (Ho & Hdet). pose proof (mul3_inv_comm _ _ Ho) as Ho'.
  assert (Dz : sub3 a e = V3 (m02 r) (m12 r) (m22 r)).
  { pose proof (view_diff r t e a) as E. rewrite Va, Ve in E. apply (f_equal (fun v => vmul3 v (tr3 r))) in E.
    rewrite <- vmul3_mul, Ho, vmul3_id in E. rewrite <- E. destruct r. unfold vmul3, sub3, tr3. cbm. apply V3_eq; ring. }
  assert (Du : u = V3 (m01 r) (m11 r) (m21 r)).
  { pose proof (view_diff r t e (add3 e u)) as E. rewrite Vu, Ve in E. apply (f_equal (fun v => vmul3 v (tr3 r))) in E.
    rewrite <- vmul3_mul, Ho, vmul3_id in E.
    replace u with (sub3 (add3 e u) e); [rewrite <- E; destruct r; unfold vmul3, sub3, tr3; cbm; apply V3_eq; ring|].
    destruct e, u. unfold add3, sub3. cbm. apply V3_eq; ring. }
  destruct RR. 
  assert (Hz : dot3 (sub3 a e) (sub3 a e) = 1) by (rewrite Dz; unfold dot3; cbm; assumption).
  assert (Nz : norm3 (sub3 a e) = 1) by (apply norm3_unique; lra).
  assert (Hx : cross3 u (sub3 a e) = V3 (m00 r) (m10 r) (m20 r)).
  { (* columns of a rotation: c1 x c2 = c0 *)
    assert (A : adj3 r = tr3 r).
    { pose proof (inv3_eq _ _ Ho) as E. unfold inv3 in E. rewrite Hdet in E.
      destruct (Reqb_spec 1 0); [lra|]. assert (E' : mscal3 (/ 1) (adj3 r) = tr3 r) by congruence.
      rewrite <- E' at 1. unfold mscal3. destruct (adj3 r). cbm. apply M3_eq; field. }
    rewrite Dz, Du. destruct r. unfold adj3, tr3 in A. cbm_in A. injection A as A0 A1 A2 A3 A4 A5 A6 A7 A8.
    unfold cross3. cbm. apply V3_eq; lra. }
  assert (Sc : forall v, scal3 (/ 1) v = v) by (intros [? ? ?]; unfold scal3; cbm; apply V3_eq; field).
  destruct (look_at_frame e a u) as (Er & _); [rewrite Nz; lra| |].
  { rewrite Nz, Sc, Hx. rewrite (norm3_unique _ 1); [lra|lra|]. unfold dot3. cbm. lra. }
  cbv zeta in Er. rewrite Nz, Sc, Hx in Er.
  rewrite (norm3_unique (V3 (m00 r) (m10 r) (m20 r)) 1), Sc in Er; [|lra|unfold dot3; cbm; lra].
  assert (Hy : cross3 (sub3 a e) (V3 (m00 r) (m10 r) (m20 r)) = V3 (m01 r) (m11 r) (m21 r)).
  { assert (A : adj3 r = tr3 r).
    { pose proof (inv3_eq _ _ Ho) as E. unfold inv3 in E. rewrite Hdet in E.
      destruct (Reqb_spec 1 0); [lra|]. assert (E' : mscal3 (/ 1) (adj3 r) = tr3 r) by congruence.
      rewrite <- E' at 1. unfold mscal3. destruct (adj3 r). cbm. apply M3_eq; field. }
    rewrite Dz. destruct r. unfold adj3, tr3 in A. cbm_in A. injection A as A0 A1 A2 A3 A4 A5 A6 A7 A8.
    unfold cross3. cbm. apply V3_eq; lra. }
  rewrite Hy, Dz in Er. cbm_in Er.
  unfold look_at_view_transform. cbn [placed]. rewrite Er.
  assert (Er' : M3 (m00 r) (m01 r) (m02 r) (m10 r) (m11 r) (m12 r) (m20 r) (m21 r) (m22 r) = r) by (destruct r; reflexivity).
  rewrite Er'. f_equal.
  unfold view_of in Ve. injection Ve as V1 V2 V3'. destruct t as [t0 t1 t2]. unfold scal3, mulv3, vmul3, tr3. cbm. cbm_in V1. cbm_in V2. cbm_in V3'. apply V3_eq; lra.
Qed.
Lemma rotate_on_spot_view r t rot nr nt x : rotation r -> rotate_on_spot r t rot = (nr, nt) ->
  view_of nr nt x = vmul3 (view_of r t x) (tr3 rot).
Proof.
  intros (Ho & _) H. pose proof (mul3_inv_comm _ _ Ho) as Ho'. unfold rotate_on_spot in H. cbv zeta in H. injection H as <- <-.
  unfold mulv3. rewrite tr3_tr. rewrite vmul3_mul, <- (vmul3_mul t (tr3 r) r), Ho', vmul3_id.
  assert (Ev : forall a b y, view_of a b y = add3 (vmul3 y a) b) by (intros a b y; destruct y, a, b; reflexivity).
  rewrite !Ev, vmul3_mul. destruct (vmul3 x r) as [a b c], t, rot. unfold add3, vmul3, tr3. cbm. apply V3_eq; ring.
Qed.

(* ---- OpenCV ---- *)
Lemma eval_project cl c k r t b sz l : calibration c = Ok k ->
  project None no_kw (Cams cl [c] None [r] [t] b sz) (P2 l) =
  (Cams cl [c] None [r] [t] b sz, Ok (P2 (map (fun x => pinhole c (view_of r t x)) l))).
Proof.
  intros Hk. unfold project, full_projection, view_transform. cbn [stored no_kw k_R k_T orelse cs_cls cs_int cs_K cs_R cs_T cs_ndc cs_size].
  f_equal. rewrite world_to_view_defined by reflexivity. cbn [rbind]. rewrite projection_eq. 
  assert (Ek : forall cs', cs_K cs' = None -> cs_int cs' = [c] -> calib_list no_kw cs' = Ok [k]) by (intros cs' H1 H2; unfold calib_list; cbn; rewrite H1, H2; cbn; rewrite Hk; reflexivity).
  rewrite Ek by reflexivity. cbn [rbind]. unfold transform_points. rewrite get_matrix_compose1. cbn [get_matrix rbind map mk_transform].
  cbn [broadcast length Nat.eqb combine map fst snd rbind as_batch]. cbn [reshape]. f_equal. f_equal. apply map_ext. intros x.
  rewrite vmul4_mul, vmul4_view. apply calibration_pinhole. exact Hk.
Qed.
Lemma eval_screen cl c k r t s l : calibration c = Ok k -> in_ndc (Cams cl [c] None [r] [t] true (Some [s])) = true ->
  project_screen None true no_kw (Cams cl [c] None [r] [t] true (Some [s])) (P2 l) =
  (Cams cl [c] None [r] [t] true (Some [s]), Ok (P2 (map (fun x => option_map (to_pixel s) (pinhole c (view_of r t x))) l))).
Proof.
  intros Hk Hn. set (cs := Cams _ _ _ _ _ _ _) in *.
  assert (E : project_ndc None no_kw cs (P2 l) = project None no_kw cs (P2 l)).
  { unfold project_ndc, project. assert (Ef : fst (full_projection no_kw cs) = cs) by reflexivity.
    destruct (full_projection no_kw cs) as [cs' rt]. cbn [fst] in Ef. subst cs'. rewrite Hn. reflexivity. }
  unfold project_screen. rewrite E. unfold cs at 1. rewrite (eval_project _ _ _ _ _ _ _ _ Hk). fold cs. f_equal. cbn [rbind].
  cbn [ndc_to_screen size_of k_size no_kw cs_size cs map length cs_n cs_int spread Nat.eqb rbind].
  unfold transform_opt. rewrite get_matrix_compose1. cbn [get_matrix rbind map mk_transform repeat].
  cbn [broadcast length Nat.eqb combine map fst snd rbind as_batch]. cbn [reshape]. f_equal. f_equal. rewrite map_map. apply map_ext. intros x.
  destruct (pinhole c (view_of r t x)) as [q|]; [|reflexivity].
  pose proof (screen_acts true s q) as A. cbn iota in A. rewrite A, from_to_h. cbn [option_map]. rewrite screen_lin_flip. reflexivity.
Qed.
Lemma opencv_screen r tv k h w l : 1 <= h -> 1 <= w ->
  exists cs os, opencv_camera r tv k (h, w) = Ok cs /\ snd (project_screen None true no_kw cs (P2 l)) = Ok (P2 os) /\
    Forall2 (fun x o => let v := opencv_cam r tv x in
      if Reqb (z3 v) 0 then o = None
      else o = Some (V3 (fst (opencv_pixel k v)) (snd (opencv_pixel k v)) (/ z3 v))) l os.
Proof.
  intros Hh Hw. unfold opencv_camera, cameras_from_opencv.
  assert (Hm : 0 < Rmin w h) by (apply Rmin_glb_lt; lra).
  destruct (Reqb_spec (Rmin w h / 2) 0) as [E|E]; [lra|]. cbn [rbind fst snd].
  destruct (Rltb_spec h 1) as [E1|E1]; [lra|]. destruct (Rltb_spec w 1) as [E2|E2]; [lra|]. cbn [orb].
  eexists. eexists. split; [reflexivity|]. split; [erewrite eval_screen; [reflexivity|reflexivity|reflexivity]|].
  assert (MM : Rmin h w = Rmin w h) by apply Rmin_comm.
  induction l as [|x l IH]; [constructor|]. cbn [map]. constructor; [|exact IH]. cbv zeta.
  assert (Ev : view_of (neg_xy_cols (tr3 r)) (V3 (- x3 tv) (- y3 tv) (z3 tv)) x =
    V3 (- x3 (opencv_cam r tv x)) (- y3 (opencv_cam r tv x)) (z3 (opencv_cam r tv x))).
  { destruct r, tv, x. unfold view_of, neg_xy_cols, tr3, opencv_cam. cbm. apply V3_eq; ring. }
  rewrite Ev. destruct (opencv_cam r tv x) as [a b c]. cbm. cbn [pinhole].
  destruct (Reqb_spec c 0) as [Ec|Ec]; [reflexivity|]. cbn [option_map to_pixel]. f_equal. unfold opencv_pixel. cbm. cbn [fst snd]. rewrite MM.
  apply V3_eq; field; repeat split; auto; lra.
Qed.
Lemma opencv_roundtrip r tv fx fy cx cy h w : 0 < h -> 0 < w ->
  exists i r' t', cameras_from_opencv r tv (M3 fx 0 cx 0 fy cy 0 0 1) (h, w) = Ok (i, r', t') /\
    opencv_from_cameras i r' t' (h, w) = Ok (r, tv, M3 fx 0 cx 0 fy cy 0 0 1).
Proof.
  intros Hh Hw. unfold cameras_from_opencv. assert (Hm : 0 < Rmin w h) by (apply Rmin_glb_lt; lra).
  destruct (Reqb_spec (Rmin w h / 2) 0) as [E|E]; [lra|]. do 3 eexists. split; [reflexivity|].
  unfold opencv_from_cameras. cbm. f_equal. f_equal; [f_equal|].
  - destruct r. unfold tr3, neg_xy_cols. cbm. apply M3_eq; ring.
  - destruct tv. cbm. apply V3_eq; ring.
  - apply M3_eq; try reflexivity; field; lra.
Qed.
Lemma opencv_roundtrip' fx fy px py r t h w k r' t' : 0 < h -> 0 < w ->
  opencv_from_cameras (Persp fx fy px py) r t (h, w) = Ok (r', t', k) ->
  cameras_from_opencv r' t' k (h, w) = Ok (Persp fx fy px py, r, t).
Proof.
  intros Hh Hw H. unfold opencv_from_cameras in H. injection H as <- <- <-. unfold cameras_from_opencv. assert (Hm : 0 < Rmin w h) by (apply Rmin_glb_lt; lra).
  destruct (Reqb_spec (Rmin w h / 2) 0) as [E|E]; [lra|]. cbm. f_equal. f_equal; [f_equal|].
  - f_equal; field; lra.
  - destruct r. unfold tr3, neg_xy_cols. cbm. apply M3_eq; ring.
  - destruct t. cbm. apply V3_eq; ring.
Qed.
