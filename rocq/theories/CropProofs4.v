(* One metadata crop; what a resize does to rows and columns; witnesses. *)
From Verif Require Import Base RBase Geom LinAlg Transform Camera CameraSpec Crop CropSpec CropProofs CropProofs2 CropProofs3.
From Coq Require Import R_Ifp.
Local Open Scope R_scope.

Lemma crop_marks fr c b fr' : crop_by_bbox fr c b = Ok fr' -> f_uncropped fr' = false.
Proof.
  unfold crop_by_bbox. destruct (f_size fr) as [sz|]; [|discriminate]. destruct (get_clamp_bbox b c) as [bb|]; cbn [rbind]; [|discriminate].
  destruct (clamp_box bb sz) as [[[x0 y0] x1] y1]. cbn [xyxy_to_xywh].
  do 5 (match goal with |- rbind ?r _ = _ -> _ => destruct r; cbn [rbind]; [|discriminate] end). intros H. injection H as <-. reflexivity.
Qed.
Lemma edit_marks interp black fr e fr' : apply_edit interp black fr e = Ok fr' -> f_uncropped fr' = false.
Proof.
  destruct e as [c|c b|h w]; cbn [apply_edit].
  - unfold crop_by_metadata. destruct (f_bbox fr) as [b|]; [|discriminate]. destruct (f_uncropped fr); [|discriminate]. apply crop_marks.
  - apply crop_marks.
  - unfold resize_frame. destruct (f_size fr) as [sz|]; [|discriminate].
    do 5 (match goal with |- rbind ?r _ = _ -> _ => destruct r; cbn [rbind]; [|discriminate] end). intros H. injection H as <-. reflexivity.
Qed.
Lemma edits_mark interp black es : forall fr fr', es <> [] -> apply_edits interp black es fr = Ok fr' -> f_uncropped fr' = false.
Proof.
  induction es as [|e es IH]; intros fr fr' N H; [congruence|]. rewrite edits_cons in H.
  destruct (apply_edit interp black fr e) as [fr1|] eqn:E; cbn [rbind] in H; [|discriminate]. destruct es as [|e2 es].
  - injection H as <-. eapply edit_marks; exact E.
  - eapply IH; [discriminate|exact H].
Qed.
Lemma meta_once interp black es c fr fr' : es <> [] -> apply_edits interp black es fr = Ok fr' -> crop_by_metadata fr' c = Fail EValue.
Proof. intros N H. apply edits_mark in H; [|exact N]. unfold crop_by_metadata. rewrite H. destruct (f_bbox fr'); reflexivity. Qed.

(* rows and columns of the resized picture against the camera's scale *)
Lemma scale_error H h1 s y : (0 < H)%nat -> INR h1 <= INR H * s < INR h1 + 1 -> 0 <= y <= INR H -> 0 <= s * y - INR h1 / INR H * y < 1.
Proof.
  intros PH (A & B) (Y1 & Y2). assert (P : 0 < INR H) by (apply lt_0_INR; lia).
  assert (E : s * y - INR h1 / INR H * y = (INR H * s - INR h1) * (y / INR H)) by (field; lra). rewrite E.
  assert (Q : 0 <= y / INR H <= 1). { split; [apply Rmult_le_pos; [lra|left; apply Rinv_0_lt_compat; exact P]|]. apply Rmult_le_reg_r with (INR H); [exact P|]. unfold Rdiv. rewrite Rmult_assoc, Rinv_l by lra. lra. }
  split; [apply Rmult_le_pos; lra|]. apply Rle_lt_trans with ((INR H * s - INR h1) * 1); [apply Rmult_le_compat_l; lra|lra].
Qed.
Lemma scale_mismatch : let s := Rmin (INR 5 / INR 3) (INR 5 / INR 10) in out_size 3 s = 1%nat /\ out_size 10 s = 5%nat /\ s * 3 = 3 / 2.
Proof.
  cbv zeta. assert (E : Rmin (INR 5 / INR 3) (INR 5 / INR 10) = / 2).
  { rewrite !INR_IZR_INZ. cbn [Z.of_nat Pos.of_succ_nat Pos.succ]. unfold Rmin. destruct (Rle_dec (5 / 3) (5 / 10)); lra. }
  rewrite E. unfold out_size. rewrite !INR_IZR_INZ. cbn [Z.of_nat Pos.of_succ_nat Pos.succ].
  rewrite (floor_is (3 * / 2) 1) by lra. rewrite (floor_is (10 * / 2) 5) by lra. split; [reflexivity|]. split; [reflexivity|]. lra.
Qed.

(* a 4 x 4 picture with depth at half the resolution *)
Definition picture : image := map (fun i => map (fun j => [INR (4 * i + j)]) (seq 0 4)) (seq 0 4).
Definition half_depth : image := [[[1]; [2]]; [[3]; [4]]].
Definition half_frame : frame := Frame (Some (4, 4)%Z) (Some (4, 4)%Z) None None None (Some picture) (Some half_depth) None None None true.
Lemma half_frame_ok : frame_ok half_frame 4 4.
Proof.
  split; [lia|]. split; [lia|]. split; [reflexivity|]. split; [|discriminate]. exists picture. split; [reflexivity|]. split; [reflexivity|]. repeat constructor.
Qed.
Lemma quarter_box : get_clamp_bbox (0, 0, 2, 2) 0 = Ok (IZR 0, IZR 0, IZR 2, IZR 2).
Proof.
  destruct (proj2 (get_clamp_defined 0 0 2 2 0)) as (out & E).
  { rewrite Rmax_left by lra. lra. }
  rewrite E. apply get_clamp_wanted in E. subst out. unfold wanted. rewrite (Rmax_left 0 0) by lra. do 2 f_equal; [f_equal; [f_equal|]|]; try (unfold Rdiv; ring);
  replace ((1 + 0) * 2) with 2 by ring; rewrite Rmax_left by lra; lra.
Qed.
Lemma half_depth_kept : exists fr' p', crop_by_bbox half_frame 0 (0, 0, 2, 2) = Ok fr' /\
  f_rgb fr' = Some p' /\ cut_from picture p' 0 0 2 2 /\ f_depth fr' = Some half_depth.
Proof.
  unfold crop_by_bbox. cbn [f_size half_frame]. rewrite quarter_box. cbn [rbind]. rewrite (clamp_box_again 0 0 2 2 4 4) by lia. cbn [xyxy_to_xywh f_fg f_rgb f_depth f_dmask f_cam on rbind half_frame].
  assert (Ec : crop_around picture (0, 0, 2, 2)%Z = Ok (map (slice 0 2) (slice 0 2 picture))).
  { unfold crop_around. change (size_of picture) with (4, 4)%Z. rewrite clamp_box_again by lia. reflexivity. }
  assert (Er : rescale_box (0, 0, 2, 2)%Z (size_of half_depth) (4, 4)%Z = (0, 0, 4, 4)%Z).
  { unfold rescale_box. change (size_of half_depth) with (2, 2)%Z. cbn [fst snd]. replace ((4 / 2 + 4 / 2) / 2) with 2 by lra.
    rewrite Rmult_0_l. replace (2 * 2) with (IZR 4) by lra. rewrite !to_long_int by lia. reflexivity. }
  assert (Ed : crop_around half_depth (0, 0, 4, 4)%Z = Ok half_depth).
  { unfold crop_around. change (size_of half_depth) with (2, 2)%Z. unfold clamp_box. rewrite (clamp_int 0 2) by lia.
    assert (clampR 4 0 2 = IZR 2) as -> by (unfold clampR; rewrite Rmax_left, Rmin_right by lra; reflexivity). rewrite !round_int. reflexivity. }
  rewrite Ec, Er. cbn [rbind]. rewrite Ed. cbn [rbind]. do 2 eexists. split; [reflexivity|]. split; [reflexivity|]. split; [|reflexivity].
  pose proof half_frame_ok as (_ & _ & _ & (im & Eim & I) & _). cbn in Eim. injection Eim as <-.
  apply (crop_cut picture 4 4 0 0 2 2 _ I ltac:(lia) ltac:(lia) ltac:(lia) ltac:(lia) ltac:(lia) Ec).
Qed.
(* a camera *)
Definition seeing : cameras := Cams CPersp [Persp 2 2 (/ 4) 0] None [id3] [V3 0 0 3] true None.
Definition seeing_frame : frame := Frame (Some (4, 4)%Z) (Some (4, 4)%Z) (Some (0, 0, 2, 2)) None None (Some picture) None None None (Some seeing) true.
Lemma seeing_ok : frame_ok seeing_frame 4 4 /\ has_camera seeing_frame (Persp 2 2 (/ 4) 0) /\
  exists fr', crop_by_bbox seeing_frame 0 (0, 0, 2, 2) = Ok fr'.
Proof.
  split; [|split].
  - split; [lia|]. split; [lia|]. split; [reflexivity|]. split; [|discriminate]. exists picture. split; [reflexivity|]. split; [reflexivity|]. repeat constructor.
  - exists seeing. repeat split.
  - unfold crop_by_bbox. cbn [f_size seeing_frame]. rewrite quarter_box. cbn [rbind]. rewrite (clamp_box_again 0 0 2 2 4 4) by lia. cbn [xyxy_to_xywh f_fg f_rgb f_depth f_dmask f_cam on rbind seeing_frame].
    assert (Ec : crop_around picture (0, 0, 2, 2)%Z = Ok (map (slice 0 2) (slice 0 2 picture))).
    { unfold crop_around. change (size_of picture) with (4, 4)%Z. rewrite clamp_box_again by lia. reflexivity. }
    rewrite Ec. cbn [rbind]. unfold adjust_to_crop. cbn [cs_int seeing ndc_to_pixels pixels_to_ndc fst snd rbind]. eexists. reflexivity.
Qed.
