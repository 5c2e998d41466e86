(* C75: cropping and resizing frames. *)
From Verif Require Import Base RBase Geom LinAlg Transform Camera CameraSpec Crop CropSpec.
From Verif Require CropProofs CropProofs2 CropProofs3 CropProofs4.
Local Open Scope R_scope.

(* one crop: inside the picture, around the box asked for, the same pixels, and the camera follows *)
Theorem crop_keeps_pixels_and_camera : forall fr fr' context b H W, frame_ok fr H W -> crop_by_bbox fr context b = Ok fr' ->
  exists y0 x0 h w,
  (0 < h)%nat /\ (0 < w)%nat /\ (y0 + h <= H)%nat /\ (x0 + w <= W)%nat /\
  f_crop fr' = Some (Z.of_nat x0, Z.of_nat y0, Z.of_nat w, Z.of_nat h) /\ frame_ok fr' h w /\
  (forall i j, (i < H)%nat -> (j < W)%nat ->
     (square_in i j (wanted b context) -> (y0 <= i < y0 + h)%nat /\ (x0 <= j < x0 + w)%nat) /\
     ((y0 <= i < y0 + h)%nat /\ (x0 <= j < x0 + w)%nat -> centre_in i j (wanted b context))) /\
  (forall im, f_rgb fr = Some im -> exists im', f_rgb fr' = Some im' /\ cut_from im im' y0 x0 h w) /\
  (forall im, f_fg fr = Some im -> exists im', f_fg fr' = Some im' /\ cut_from im im' y0 x0 h w) /\
  (forall im, f_depth fr = Some im -> is_image im H W -> exists im', f_depth fr' = Some im' /\ cut_from im im' y0 x0 h w) /\
  (forall im, f_dmask fr = Some im -> is_image im H W -> exists im', f_dmask fr' = Some im' /\ cut_from im im' y0 x0 h w) /\
  (forall c, has_camera fr c -> exists c', has_camera fr' c' /\
     forall v, shown_at c' (Z.of_nat h, Z.of_nat w) v =
               option_map (fun p => (fst p - INR x0, snd p - INR y0)) (shown_at c (Z.of_nat H, Z.of_nat W) v)).
Proof. exact CropProofs2.crop_frame. Qed.
Print Assumptions crop_keeps_pixels_and_camera.
Example crop_ex : frame_ok CropProofs4.seeing_frame 4 4 /\ has_camera CropProofs4.seeing_frame (Persp 2 2 (/ 4) 0) /\
  exists fr', crop_by_bbox CropProofs4.seeing_frame 0 (0, 0, 2, 2) = Ok fr'.
Proof. exact CropProofs4.seeing_ok. Qed.

(* any history of crops: the picture is one window of the original, and the camera shows everything shifted by it *)
Theorem crops_compose : forall interpolate, (forall mode im h w, (0 < h)%nat -> (0 < w)%nat -> is_image (interpolate mode im h w) h w) ->
  forall black es fr fr' H W rgb, frame_ok fr H W -> only_crops es -> f_rgb fr = Some rgb ->
  apply_edits interpolate black es fr = Ok fr' ->
  exists h w y0 x0 rgb', frame_ok fr' h w /\ (y0 + h <= H)%nat /\ (x0 + w <= W)%nat /\ f_rgb fr' = Some rgb' /\ cut_from rgb rgb' y0 x0 h w /\
  forall c, has_camera fr c -> exists c', has_camera fr' c' /\
    forall v, shown_at c' (Z.of_nat h, Z.of_nat w) v =
              option_map (fun p => (fst p - INR x0, snd p - INR y0)) (shown_at c (Z.of_nat H, Z.of_nat W) v).
Proof. exact CropProofs2.crops_history. Qed.
Print Assumptions crops_compose.
(* any history of crops and resizes: the camera's picture is the original one, scaled and shifted *)
Theorem edits_keep_the_view : forall interpolate, (forall mode im h w, (0 < h)%nat -> (0 < w)%nat -> is_image (interpolate mode im h w) h w) ->
  forall black es fr fr' H W, frame_ok fr H W -> apply_edits interpolate black es fr = Ok fr' ->
  exists h w s ox oy, 0 < s /\ frame_ok fr' h w /\
  forall c, has_camera fr c -> exists c', has_camera fr' c' /\
    forall v, shown_at c' (Z.of_nat h, Z.of_nat w) v =
              option_map (fun p => (s * fst p - ox, s * snd p - oy)) (shown_at c (Z.of_nat H, Z.of_nat W) v).
Proof. exact CropProofs2.history. Qed.
Print Assumptions edits_keep_the_view.
Example interpolate_ex : forall (mode : bool) (im : image) h w, (0 < h)%nat -> (0 < w)%nat ->
  is_image ((fun (_ : bool) (_ : image) h w => repeat (repeat [0] w) h) mode im h w) h w.
Proof.
  intros mode im h w _ _. split; [apply repeat_length|]. apply Forall_forall. intros row Hr. apply repeat_spec in Hr. subst row. apply repeat_length.
Qed.

(* one resize: as large as fits, the rest black and masked out; the camera scales by the same factor *)
Theorem resize_fits_and_pads : forall interpolate, (forall mode im h w, (0 < h)%nat -> (0 < w)%nat -> is_image (interpolate mode im h w) h w) ->
  forall black fr fr' H W h w, frame_ok fr H W -> resize_frame interpolate black fr h w = Ok fr' ->
  let s := Rmin (INR h / INR H) (INR w / INR W) in
  exists h1 w1, (0 < h1 <= h)%nat /\ (0 < w1 <= w)%nat /\ (h1 = h \/ w1 = w) /\
    INR h1 <= INR H * s < INR h1 + 1 /\ INR w1 <= INR W * s < INR w1 + 1 /\
    frame_ok fr' h w /\ 0 < s /\
    (forall im, f_rgb fr = Some im -> exists im' m, f_rgb fr' = Some im' /\ f_mask fr' = Some m /\
       forall i j, (i < h)%nat -> (j < w)%nat ->
         pixel_at im' i j = (if ((i <? h1) && (j <? w1))%nat then pixel_at (interpolate false im h1 w1) i j else Some black) /\
         mask_at m i j = (if ((i <? h1) && (j <? w1))%nat then 1 else 0)) /\
    (forall im, f_fg fr = Some im -> exists im', f_fg fr' = Some im' /\
       forall i j, (i < h)%nat -> (j < w)%nat ->
         pixel_at im' i j = (if ((i <? h1) && (j <? w1))%nat then pixel_at (interpolate true im h1 w1) i j else Some black)) /\
    (forall c, has_camera fr c -> exists c', has_camera fr' c' /\
       forall v, shown_at c' (Z.of_nat h, Z.of_nat w) v =
                 option_map (fun p => (s * fst p, s * snd p)) (shown_at c (Z.of_nat H, Z.of_nat W) v)).
Proof. exact CropProofs2.resize_ok. Qed.
Print Assumptions resize_fits_and_pads.
(* the picture itself is scaled by h1/H, not by s: off by less than a pixel, but off *)
Theorem resize_within_a_pixel : forall H h1 s y, (0 < H)%nat -> INR h1 <= INR H * s < INR h1 + 1 -> 0 <= y <= INR H ->
  0 <= s * y - INR h1 / INR H * y < 1.
Proof. exact CropProofs4.scale_error. Qed.
Print Assumptions resize_within_a_pixel.
Theorem resize_exact_refuted : let s := Rmin (INR 5 / INR 3) (INR 5 / INR 10) in
  out_size 3 s = 1%nat /\ out_size 10 s = 5%nat /\ s * 3 = 3 / 2.
Proof. exact CropProofs4.scale_mismatch. Qed.
Print Assumptions resize_exact_refuted.

(* the metadata box is only ever applied to the untouched picture *)
Theorem metadata_crop_only_first : forall interpolate black es c fr fr', es <> [] ->
  apply_edits interpolate black es fr = Ok fr' -> crop_by_metadata fr' c = Fail EValue.
Proof. exact CropProofs4.meta_once. Qed.
Print Assumptions metadata_crop_only_first.
(* boxes of at most one pixel are refused, and no others *)
Theorem crop_box_accepted : forall x y w h c,
  (exists out, get_clamp_bbox (x, y, w, h) c = Ok out) <-> 1 < (1 + Rmax 0 c) * w /\ 1 < (1 + Rmax 0 c) * h.
Proof. exact CropProofs.get_clamp_defined. Qed.
Print Assumptions crop_box_accepted.
(* finding: depth at another resolution is cropped by the inverse of the right factor *)
Theorem crop_depth_other_resolution_refuted : frame_ok CropProofs4.half_frame 4 4 /\ is_image CropProofs4.half_depth 2 2 /\
  f_depth CropProofs4.half_frame = Some CropProofs4.half_depth /\
  exists fr' p', crop_by_bbox CropProofs4.half_frame 0 (0, 0, 2, 2) = Ok fr' /\
    f_rgb fr' = Some p' /\ cut_from CropProofs4.picture p' 0 0 2 2 /\ f_depth fr' = Some CropProofs4.half_depth.
Proof.
  split; [exact CropProofs4.half_frame_ok|]. split; [split; [reflexivity|repeat constructor]|]. split; [reflexivity|]. exact CropProofs4.half_depth_kept.
Qed.
Print Assumptions crop_depth_other_resolution_refuted.

(* get_bbox_from_mask: the tight box around the pixels above the first threshold thr - k * quant that at least two
   pixels exceed *)
Theorem mask_box_is_tight : forall mask h w thr q, is_mask mask h w -> (2 <= h * w)%nat -> 0 < q -> all_nonneg mask = true ->
  exists n, forall fuel, (n <= fuel)%nat -> exists k x0 y0 bw bh, get_bbox_from_mask fuel mask thr q = Ok (x0, y0, bw, bh) /\
    two_above (thr - INR k * q) mask /\ (forall k', (k' < k)%nat -> ~ two_above (thr - INR k' * q) mask) /\
    (x0 + bw <= w)%nat /\ (y0 + bh <= h)%nat /\ tight x0 y0 bw bh (marked (thr - INR k * q) mask h w).
Proof. exact CropProofs3.mask_box. Qed.
Print Assumptions mask_box_is_tight.
Example mask_box_ex : is_mask [[0; 1; 0]; [0; 1 / 2; 0]] 2 3 /\ all_nonneg [[0; 1; 0]; [0; 1 / 2; 0]] = true.
Proof.
  split; [split; [reflexivity|repeat constructor]|]. unfold all_nonneg. cbn [forallb].
  destruct (Rleb_spec 0 0), (Rleb_spec 0 1), (Rleb_spec 0 (1 / 2)); try lra; reflexivity.
Qed.
(* finding: the loop never ends for a mask of one pixel *)
Theorem mask_box_terminates_refuted : forall fuel x thr q, get_bbox_from_mask fuel [[x]] thr q = Fail EFuel.
Proof. exact CropProofs3.mask_box_single. Qed.
Print Assumptions mask_box_terminates_refuted.
