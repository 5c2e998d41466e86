(* Frames: one crop, one resize, histories. *)
From Verif Require Import Base RBase Geom LinAlg Transform Camera CameraSpec Crop CropSpec CropProofs.
From Coq Require Import R_Ifp.
Local Open Scope R_scope.

Lemma to_long_int z : (0 <= z)%Z -> to_long (IZR z) = z.
Proof.
  intros H. apply IZR_le in H. unfold to_long. destruct (Rltb_spec (IZR z) 0); [lra|]. apply floor_is. lra.
Qed.
Lemma rescale_same a b c d h w : (0 < h)%Z -> (0 < w)%Z -> (0 <= a)%Z -> (0 <= b)%Z -> (0 <= c)%Z -> (0 <= d)%Z ->
  rescale_box (a, b, c, d) (h, w) (h, w) = (a, b, c, d).
Proof.
  intros Hh Hw A B C D. unfold rescale_box. cbn [fst snd]. apply IZR_lt in Hh, Hw.
  replace ((IZR h / IZR h + IZR w / IZR w) / 2) with 1 by (field; lra). rewrite !Rmult_1_r, !to_long_int by assumption. reflexivity.
Qed.

Definition crop_result (fr fr' : frame) (b : box) (context : R) (H W y0 x0 h w : nat) : Prop :=
  (0 < h)%nat /\ (0 < w)%nat /\ (y0 + h <= H)%nat /\ (x0 + w <= W)%nat /\
  f_crop fr' = Some (Z.of_nat x0, Z.of_nat y0, Z.of_nat w, Z.of_nat h) /\ frame_ok fr' h w /\
  (forall i j, (i < H)%nat -> (j < W)%nat ->
     (square_in i j (wanted b context) -> (y0 <= i < y0 + h)%nat /\ (x0 <= j < x0 + w)%nat) /\
     ((y0 <= i < y0 + h)%nat /\ (x0 <= j < x0 + w)%nat -> centre_in i j (wanted b context))) /\
  (forall im, f_rgb fr = Some im -> exists im', f_rgb fr' = Some im' /\ cut_from im im' y0 x0 h w) /\
  (forall im, f_fg fr = Some im -> exists im', f_fg fr' = Some im' /\ cut_from im im' y0 x0 h w) /\
  (forall im, f_depth fr = Some im -> is_image im H W -> exists im', f_depth fr' = Some im' /\ cut_from im im' y0 x0 h w) /\
  (forall im, f_dmask fr = Some im -> is_image im H W -> exists im', f_dmask fr' = Some im' /\ cut_from im im' y0 x0 h w) /\
  (forall c, has_camera fr c -> exists c', has_camera fr' c' /\
     forall v, shown_at c' (Z.of_nat h, Z.of_nat w) v =
               option_map (fun p => (fst p - INR x0, snd p - INR y0)) (shown_at c (Z.of_nat H, Z.of_nat W) v)).

Lemma crop_frame fr fr' context b H W : frame_ok fr H W -> crop_by_bbox fr context b = Ok fr' ->
  exists y0 x0 h w, crop_result fr fr' b context H W y0 x0 h w.
Proof.
  intros (PH & PW & Hsize & (rgb & Ergb & Irgb) & Ifg) H0. unfold crop_by_bbox in H0. rewrite Hsize in H0.
  destruct (get_clamp_bbox b context) as [bb|] eqn:Eb; cbn [rbind] in H0; [|discriminate]. apply get_clamp_wanted in Eb. subst bb.
  pose proof (wanted_order b context) as WO. destruct (wanted b context) as [[[rx0 ry0] rx1] ry1] eqn:Ew. destruct WO as (WX & WY).
  pose proof (clamp_box_facts rx0 ry0 rx1 ry1 (Z.of_nat H) (Z.of_nat W) ltac:(lra) ltac:(lra) ltac:(lia) ltac:(lia)) as Facts.
  pose proof (fun i j => clamp_box_pixels rx0 ry0 rx1 ry1 H W i j) as Pix.
  destruct (clamp_box (rx0, ry0, rx1, ry1) (Z.of_nat H, Z.of_nat W)) as [[[a c] d] e] eqn:Ec. destruct Facts as (F1 & F2 & F3 & F4).
  cbv zeta in H0. cbn [xyxy_to_xywh] in H0.
  destruct (on (f_fg fr) _) as [fg'|] eqn:Efg; cbn [rbind] in H0; [|discriminate].
  destruct (on (f_rgb fr) _) as [rgb'|] eqn:Er; cbn [rbind] in H0; [|discriminate].
  destruct (on (f_depth fr) _) as [depth'|] eqn:Ed; cbn [rbind] in H0; [|discriminate].
  destruct (on (f_dmask fr) _) as [dmask'|] eqn:Em; cbn [rbind] in H0; [|discriminate].
  destruct (on (f_cam fr) _) as [cam'|] eqn:Ecam; cbn [rbind] in H0; [|discriminate]. injection H0 as <-.
  assert (Cut : forall im im', is_image im H W -> crop_around im (a, c, d, e) = Ok im' ->
     (a < d)%Z /\ (c < e)%Z /\ cut_from im im' (Z.to_nat c) (Z.to_nat a) (Z.to_nat (e - c)) (Z.to_nat (d - a))).
  { intros im im' I E. eapply crop_cut; eauto. }
  rewrite Ergb in Er. cbn [on] in Er. destruct (crop_around rgb (a, c, d, e)) as [rgb1|] eqn:Er1; cbn [rbind] in Er; [|discriminate]. injection Er as <-.
  destruct (Cut rgb rgb1 Irgb Er1) as (La & Lc & Crgb).
  exists (Z.to_nat c), (Z.to_nat a), (Z.to_nat (e - c)), (Z.to_nat (d - a)).
  assert (Fg : forall im, f_fg fr = Some im -> exists im', fg' = Some im' /\ cut_from im im' (Z.to_nat c) (Z.to_nat a) (Z.to_nat (e - c)) (Z.to_nat (d - a))).
  { intros im Eim. rewrite Eim in Efg. cbn [on] in Efg. destruct (crop_around im (a, c, d, e)) as [im1|] eqn:E1; cbn [rbind] in Efg; [|discriminate]. injection Efg as <-.
    exists im1. split; [reflexivity|]. apply (Cut im im1 (Ifg im Eim) E1). }
  assert (Dp : forall o o', on o (fun im => crop_around im (rescale_box (a, c, d, e) (size_of im) (Z.of_nat H, Z.of_nat W))) = Ok o' ->
     forall im, o = Some im -> is_image im H W -> exists im', o' = Some im' /\ cut_from im im' (Z.to_nat c) (Z.to_nat a) (Z.to_nat (e - c)) (Z.to_nat (d - a))).
  { intros o o' Eo im -> I. cbn [on] in Eo. unfold size_of in Eo. rewrite (image_width _ _ _ I PH) in Eo. destruct I as (I1 & I2). rewrite I1 in Eo.
    rewrite rescale_same in Eo by lia. destruct (crop_around im (a, c, d, e)) as [im1|] eqn:E1; cbn [rbind] in Eo; [|discriminate]. injection Eo as <-.
    exists im1. split; [reflexivity|]. apply (Cut im im1 (conj I1 I2) E1). }
  unfold crop_result. cbn [f_crop f_rgb f_fg f_depth f_dmask f_cam].
  split; [lia|]. split; [lia|]. split; [lia|]. split; [lia|]. split; [rewrite !Z2Nat.id by lia; reflexivity|]. split.
  { split; [lia|]. split; [lia|]. split; [cbn [f_size]; rewrite !Z2Nat.id by lia; reflexivity|]. split.
    - exists rgb1. split; [reflexivity|]. apply Crgb.
    - cbn [f_fg]. intros im Eim. subst fg'. destruct (f_fg fr) as [im0|] eqn:E0.
      + destruct (Fg im0 eq_refl) as (im1 & Q1 & Q2). injection Q1 as ->. apply Q2.
      + cbn in Efg. discriminate. }
  split.
  { intros i j Hi Hj. rewrite Ew. destruct (Pix i j Hi Hj) as (P1 & P2). split; [intros Q; apply P1 in Q; lia|]. intros Q. apply P2. lia. }
  split; [intros im Eim; rewrite Ergb in Eim; injection Eim as <-; exists rgb1; auto|]. split; [exact Fg|].
  split; [exact (Dp _ _ Ed)|]. split; [exact (Dp _ _ Em)|].
  intros cc (cs & E1 & E2 & E3). rewrite E1 in Ecam. cbn [on] in Ecam.
  destruct (adjust_to_crop cs (flip (Z.of_nat H, Z.of_nat W)) (a, c, (d - a)%Z, (e - c)%Z)) as [cs'|] eqn:Ea; cbn [rbind] in Ecam; [|discriminate]. injection Ecam as <-.
  destruct (crop_camera cs cs' cc (Z.of_nat H) (Z.of_nat W) a c (d - a) (e - c) Ea E2 E3 ltac:(lia) ltac:(lia) ltac:(lia) ltac:(lia)) as (c' & G1 & G2 & _ & _ & G5).
  exists c'. split; [exists cs'; auto|]. intros v. rewrite !Z2Nat.id by lia. rewrite !INR_IZR_INZ, !Z2Nat.id by lia. apply G5.
Qed.

(* ---- resizing ---- *)
Lemma out_size_spec n s : 0 <= INR n * s -> INR (out_size n s) <= INR n * s < INR (out_size n s) + 1.
Proof.
  intros H. unfold out_size. destruct (floor_le (INR n * s)) as (B1 & B2).
  assert (0 <= Int_part (INR n * s))%Z. { apply Z.lt_succ_r. apply lt_IZR. rewrite succ_IZR. lra. }
  rewrite INR_IZR_INZ, Z2Nat.id by assumption. lra.
Qed.
Lemma out_size_exact n m : (0 < n)%nat -> out_size n (INR m / INR n) = m.
Proof.
  intros H. unfold out_size. apply lt_INR in H. cbn in H. replace (INR n * (INR m / INR n)) with (INR m) by (field; lra).
  rewrite INR_IZR_INZ, (floor_is _ (Z.of_nat m)) by lra. apply Nat2Z.id.
Qed.
Lemma sizes_fit H W h w : (0 < H)%nat -> (0 < W)%nat ->
  let s := Rmin (INR h / INR H) (INR w / INR W) in
  (out_size H s <= h)%nat /\ (out_size W s <= w)%nat /\ (out_size H s = h \/ out_size W s = w).
Proof.
  intros PH PW s. assert (PH' := lt_INR _ _ PH). assert (PW' := lt_INR _ _ PW). cbn in PH', PW'. pose proof (pos_INR h). pose proof (pos_INR w).
  assert (S0 : 0 <= s). { unfold s. apply Rmin_glb; apply Rmult_le_pos; try assumption; left; apply Rinv_0_lt_compat; assumption. }
  destruct (out_size_spec H s ltac:(apply Rmult_le_pos; lra)) as (A1 & A2). destruct (out_size_spec W s ltac:(apply Rmult_le_pos; lra)) as (B1 & B2).
  assert (s <= INR h / INR H) by apply Rmin_l. assert (s <= INR w / INR W) by apply Rmin_r.
  assert (INR H * s <= INR h). { replace (INR h) with (INR H * (INR h / INR H)) by (field; lra). apply Rmult_le_compat_l; lra. }
  assert (INR W * s <= INR w). { replace (INR w) with (INR W * (INR w / INR W)) by (field; lra). apply Rmult_le_compat_l; lra. }
  split; [apply INR_le; lra|]. split; [apply INR_le; lra|].
  unfold s, Rmin. destruct (Rle_dec (INR h / INR H) (INR w / INR W)); [left|right]; apply out_size_exact; assumption.
Qed.
Lemma pad_image_is black h w im : is_image (pad_image black h w im) h w.
Proof.
  split; [unfold pad_image; rewrite map_length, seq_length; reflexivity|]. apply Forall_forall. intros row Hr. apply in_map_iff in Hr as (i & <- & _).
  rewrite map_length, seq_length. reflexivity.
Qed.
Lemma pad_image_at black h w im h1 w1 i j : is_image im h1 w1 -> (i < h)%nat -> (j < w)%nat ->
  pixel_at (pad_image black h w im) i j = if ((i <? h1) && (j <? w1))%nat then pixel_at im i j else Some black.
Proof.
  intros (L & F) Hi Hj. unfold pixel_at, pad_image. rewrite nth_error_map, nth_error_seq_lt by exact Hi. cbn [option_map]. rewrite nth_error_map, nth_error_seq_lt by exact Hj. cbn [option_map Nat.add].
  destruct (Nat.ltb_spec i h1) as [A|A]; cbn [andb].
  - destruct (nth_error im i) as [row|] eqn:E; [|apply nth_error_None in E; lia].
    assert (length row = w1) as Lr by (rewrite Forall_forall in F; apply F; eapply nth_error_In; exact E).
    destruct (Nat.ltb_spec j w1); [destruct (nth_error row j) eqn:E2; [reflexivity|apply nth_error_None in E2; lia]|].
    destruct (nth_error row j) eqn:E2; [|reflexivity]. assert (j < length row)%nat by (apply nth_error_Some; congruence). lia.
  - destruct (nth_error im i) eqn:E; [|reflexivity]. assert (i < length im)%nat by (apply nth_error_Some; congruence). lia.
Qed.
Lemma pad_mask_at h w h1 w1 i j : (i < h)%nat -> (j < w)%nat -> mask_at (pad_mask h w h1 w1) i j = if ((i <? h1) && (j <? w1))%nat then 1 else 0.
Proof.
  intros Hi Hj. unfold mask_at, pad_mask. rewrite (nth_map_lt _ _ _ 0%nat) by (rewrite seq_length; exact Hi). rewrite seq_nth by exact Hi.
  rewrite (nth_map_lt _ _ _ 0%nat) by (rewrite seq_length; exact Hj). rewrite seq_nth by exact Hj. reflexivity.
Qed.

Definition resize_result (interpolate : bool -> image -> nat -> nat -> image) (black : pixel) (fr fr' : frame) (H W h w : nat) : Prop :=
  let s := Rmin (INR h / INR H) (INR w / INR W) in
  exists h1 w1, (0 < h1 <= h)%nat /\ (0 < w1 <= w)%nat /\ (h1 = h \/ w1 = w) /\
    INR h1 <= INR H * s < INR h1 + 1 /\ INR w1 <= INR W * s < INR w1 + 1 /\
    frame_ok fr' h w /\ 0 < s /\
    (forall im, f_rgb fr = Some im -> exists im' m, f_rgb fr' = Some im' /\ f_mask fr' = Some m /\
       forall i j, (i < h)%nat -> (j < w)%nat ->
         pixel_at im' i j = (if ((i <? h1) && (j <? w1))%nat then pixel_at (interpolate false im h1 w1) i j else Some black) /\
         mask_at m i j = (if ((i <? h1) && (j <? w1))%nat then 1 else 0)) /\
    (forall im, f_fg fr = Some im -> exists im', f_fg fr' = Some im' /\
       forall i j, (i < h)%nat -> (j < w)%nat ->
         pixel_at im' i j = (if ((i <? h1) && (j <? w1))%nat then pixel_at (interpolate true im h1 w1) i j else Some black)) /\
    (forall c, has_camera fr c -> exists c', has_camera fr' c' /\
       forall v, shown_at c' (Z.of_nat h, Z.of_nat w) v =
                 option_map (fun p => (s * fst p, s * snd p)) (shown_at c (Z.of_nat H, Z.of_nat W) v)).

Section Resize.
Variable interpolate : bool -> image -> nat -> nat -> image.
Hypothesis Hinter : forall mode im h w, (0 < h)%nat -> (0 < w)%nat -> is_image (interpolate mode im h w) h w.

Lemma resize_image_ok nearest black im H W h w out : is_image im H W -> (0 < H)%nat -> (0 < W)%nat ->
  resize_image interpolate nearest black im h w = Ok out ->
  let s := Rmin (INR h / INR H) (INR w / INR W) in
  let h1 := out_size H s in let w1 := out_size W s in
  (0 < h1)%nat /\ (0 < w1)%nat /\ out = (pad_image black h w (interpolate nearest im h1 w1), pad_mask h w h1 w1).
Proof.
  intros I PH PW E s h1 w1. unfold resize_image in E. rewrite (image_width _ _ _ I PH) in E. unfold min_scale in E. rewrite (image_width _ _ _ I PH) in E.
  destruct I as (I1 & I2). rewrite I1 in E. fold s in E.
  destruct (Nat.eqb_spec (H * W) 0) as [Z0|_]; [destruct H, W; cbn in *; lia|]. cbv zeta in E. fold h1 w1 in E.
  destruct ((h1 =? 0)%nat || (w1 =? 0)%nat)%bool eqn:E1; [discriminate|]. destruct ((h <? h1)%nat || (w <? w1)%nat)%bool; [discriminate|].
  injection E as <-. apply orb_false_iff in E1 as (E1 & E2). apply Nat.eqb_neq in E1, E2. split; [lia|]. split; [lia|]. reflexivity.
Qed.
Lemma resize_ok black fr fr' H W h w : frame_ok fr H W -> resize_frame interpolate black fr h w = Ok fr' ->
  resize_result interpolate black fr fr' H W h w.
Proof.
  intros (PH & PW & Hsize & (rgb & Ergb & Irgb) & Ifg) E. unfold resize_frame in E. rewrite Hsize in E.
  destruct (on (f_fg fr) _) as [fg'|] eqn:Efg; cbn [rbind] in E; [|discriminate].
  destruct (on (f_rgb fr) _) as [rgb'|] eqn:Er; cbn [rbind] in E; [|discriminate].
  destruct (on (f_depth fr) _) as [depth'|] eqn:Ed; cbn [rbind] in E; [|discriminate].
  destruct (on (f_dmask fr) _) as [dmask'|] eqn:Em; cbn [rbind] in E; [|discriminate].
  cbv zeta in E.
  destruct (on (f_cam fr) _) as [cam'|] eqn:Ecam; cbn [rbind] in E; [|discriminate]. injection E as <-.
  rewrite Ergb in Er. cbn [on] in Er. destruct (resize_image interpolate false black rgb h w) as [out|] eqn:Eo; cbn [rbind] in Er; [|discriminate]. injection Er as <-.
  destruct (resize_image_ok _ _ _ _ _ _ _ _ Irgb PH PW Eo) as (P1 & P2 & Eout).
  set (s := Rmin (INR h / INR H) (INR w / INR W)) in *. set (h1 := out_size H s) in *. set (w1 := out_size W s) in *.
  destruct (sizes_fit H W h w PH PW) as (S1 & S2 & S3). fold s in S1, S2, S3. fold h1 w1 in S1, S2, S3.
  assert (PH' := lt_INR _ _ PH). assert (PW' := lt_INR _ _ PW). cbn in PH', PW'.
  assert (Ph : 0 < INR h) by (apply lt_0_INR; lia). assert (Pw : 0 < INR w) by (apply lt_0_INR; lia).
  assert (Ps : 0 < s) by (apply Rmin_glb_lt; apply Rdiv_lt_0_compat; assumption).
  assert (Fg : forall im, f_fg fr = Some im -> fg' = Some (pad_image black h w (interpolate true im h1 w1))).
  { intros im Eim. rewrite Eim in Efg. cbn [on] in Efg. destruct (resize_image interpolate true black im h w) as [o|] eqn:Eo'; cbn [rbind] in Efg; [|discriminate]. injection Efg as <-.
    destruct (resize_image_ok _ _ _ _ _ _ _ _ (Ifg im Eim) PH PW Eo') as (_ & _ & ->). reflexivity. }
  unfold resize_result; cbv zeta; fold s; exists h1, w1. split; [lia|]. split; [lia|]. split; [exact S3|]. split; [apply out_size_spec; apply Rmult_le_pos; lra|].
  split; [apply out_size_spec; apply Rmult_le_pos; lra|]. split.
  { split; [lia|]. split; [lia|]. split; [reflexivity|]. cbn [f_rgb f_fg option_map]. split.
    - exists (fst out). split; [reflexivity|]. rewrite Eout. apply pad_image_is.
    - intros im Eim. subst fg'. destruct (f_fg fr) as [im0|]; [|discriminate]. specialize (Fg im0 eq_refl). injection Fg as ->. apply pad_image_is. }
  fold s. split; [exact Ps|]. cbn [f_rgb f_fg f_mask option_map]. split.
  { intros im Eim. rewrite Ergb in Eim. injection Eim as <-. exists (fst out), (snd out). split; [reflexivity|]. split; [reflexivity|]. rewrite Eout. cbn [fst snd].
    intros i j Hi Hj. split; [apply pad_image_at; [apply Hinter; lia|exact Hi|exact Hj]|apply pad_mask_at; assumption]. }
  split.
  { intros im Eim. eexists. split; [apply Fg; exact Eim|]. intros i j Hi Hj. apply pad_image_at; [apply Hinter; lia|exact Hi|exact Hj]. }
  intros c (cs & E1 & E2 & E3). rewrite E1 in Ecam. cbn [on] in Ecam.
  destruct (f_orig fr); cbn [rbind] in Ecam; [|discriminate].
  destruct (adjust_to_scale cs (flip (Z.of_nat H, Z.of_nat W)) (flip (Z.of_nat h, Z.of_nat w))) as [cs'|] eqn:Ea; cbn [rbind] in Ecam; [|discriminate]. injection Ecam as <-.
  destruct (scale_camera cs cs' c (Z.of_nat H) (Z.of_nat W) (Z.of_nat h) (Z.of_nat w) Ea E2 E3 ltac:(lia) ltac:(lia) ltac:(lia) ltac:(lia)) as (_ & c' & G1 & G2 & _ & _ & G5).
  rewrite <- !INR_IZR_INZ in G5. fold s in G5. exists c'. split; [exists cs'; auto|exact G5].
Qed.

(* ---- histories ---- *)
Lemma edits_cons black e es fr : apply_edits interpolate black (e :: es) fr = rbind (apply_edit interpolate black fr e) (apply_edits interpolate black es).
Proof. reflexivity. Qed.
Lemma history black es : forall fr fr' H W, frame_ok fr H W -> apply_edits interpolate black es fr = Ok fr' ->
  exists h w s ox oy, 0 < s /\ frame_ok fr' h w /\
  forall c, has_camera fr c -> exists c', has_camera fr' c' /\
    forall v, shown_at c' (Z.of_nat h, Z.of_nat w) v =
              option_map (fun p => (s * fst p - ox, s * snd p - oy)) (shown_at c (Z.of_nat H, Z.of_nat W) v).
Proof.
  induction es as [|e es IH]; intros fr fr' H W OK E.
  - injection E as <-. exists H, W, 1, 0, 0. split; [lra|]. split; [exact OK|]. intros c Hc. exists c. split; [exact Hc|]. intros v.
    destruct (shown_at c _ v) as [[x y]|]; [|reflexivity]. cbn. do 2 f_equal; ring.
  - rewrite edits_cons in E. destruct (apply_edit interpolate black fr e) as [fr1|] eqn:E1; cbn [rbind] in E; [|discriminate].
    assert (Step : exists h1 w1 s ox oy, 0 < s /\ frame_ok fr1 h1 w1 /\ forall c, has_camera fr c -> exists c', has_camera fr1 c' /\
      forall v, shown_at c' (Z.of_nat h1, Z.of_nat w1) v = option_map (fun p => (s * fst p - ox, s * snd p - oy)) (shown_at c (Z.of_nat H, Z.of_nat W) v)).
    { assert (Crop : forall ct b, crop_by_bbox fr ct b = Ok fr1 -> exists h1 w1 s ox oy, 0 < s /\ frame_ok fr1 h1 w1 /\ forall c, has_camera fr c -> exists c', has_camera fr1 c' /\
        forall v, shown_at c' (Z.of_nat h1, Z.of_nat w1) v = option_map (fun p => (s * fst p - ox, s * snd p - oy)) (shown_at c (Z.of_nat H, Z.of_nat W) v)).
      { intros ct b Eb. destruct (crop_frame _ _ _ _ _ _ OK Eb) as (y0 & x0 & h & w & _ & _ & _ & _ & _ & OK1 & _ & _ & _ & _ & _ & Cam).
        exists h, w, 1, (INR x0), (INR y0). split; [lra|]. split; [exact OK1|]. intros c Hc. destruct (Cam c Hc) as (c' & Hc' & Hv). exists c'. split; [exact Hc'|].
        intros v. rewrite Hv. destruct (shown_at c _ v) as [[x y]|]; [|reflexivity]. cbn. rewrite !Rmult_1_l. reflexivity. }
      destruct e as [ct|ct b|h w]; cbn [apply_edit] in E1.
      - unfold crop_by_metadata in E1. destruct (f_bbox fr) as [b|]; [|discriminate]. destruct (f_uncropped fr); [|discriminate]. exact (Crop ct b E1).
      - exact (Crop ct b E1).
      - destruct (resize_ok black fr fr1 H W h w OK E1) as (h1 & w1 & _ & _ & _ & _ & _ & OK1 & Ps & _ & _ & Cam).
        exists h, w, (Rmin (INR h / INR H) (INR w / INR W)), 0, 0. split; [exact Ps|]. split; [exact OK1|]. intros c Hc. destruct (Cam c Hc) as (c' & Hc' & Hv).
        exists c'. split; [exact Hc'|]. intros v. rewrite Hv. destruct (shown_at c _ v) as [[x y]|]; [|reflexivity]. cbn [option_map fst snd]. rewrite !Rminus_0_r. reflexivity. }
    destruct Step as (h1 & w1 & s1 & ox1 & oy1 & P1 & OK1 & C1).
    destruct (IH fr1 fr' h1 w1 OK1 E) as (h2 & w2 & s2 & ox2 & oy2 & P2 & OK2 & C2).
    exists h2, w2, (s2 * s1), (s2 * ox1 + ox2), (s2 * oy1 + oy2). split; [apply Rmult_lt_0_compat; assumption|]. split; [exact OK2|].
    intros c Hc. destruct (C1 c Hc) as (c1 & Hc1 & V1). destruct (C2 c1 Hc1) as (c2 & Hc2 & V2). exists c2. split; [exact Hc2|].
    intros v. rewrite V2, V1. destruct (shown_at c _ v) as [[x y]|]; [|reflexivity]. cbn. do 2 f_equal; ring.
Qed.
Lemma crops_history black es : forall fr fr' H W rgb, frame_ok fr H W -> only_crops es -> f_rgb fr = Some rgb ->
  apply_edits interpolate black es fr = Ok fr' ->
  exists h w y0 x0 rgb', frame_ok fr' h w /\ (y0 + h <= H)%nat /\ (x0 + w <= W)%nat /\ f_rgb fr' = Some rgb' /\ cut_from rgb rgb' y0 x0 h w /\
  forall c, has_camera fr c -> exists c', has_camera fr' c' /\
    forall v, shown_at c' (Z.of_nat h, Z.of_nat w) v =
              option_map (fun p => (fst p - INR x0, snd p - INR y0)) (shown_at c (Z.of_nat H, Z.of_nat W) v).
Proof.
  induction es as [|e es IH]; intros fr fr' H W rgb OK Only Ergb E.
  - injection E as <-. exists H, W, 0%nat, 0%nat, rgb. split; [exact OK|]. split; [lia|]. split; [lia|]. split; [exact Ergb|]. split.
    { destruct OK as (_ & _ & _ & (im & Eim & I) & _). rewrite Ergb in Eim. injection Eim as <-. split; [exact I|]. intros i j _ _. reflexivity. }
    intros c Hc. exists c. split; [exact Hc|]. intros v.
    destruct (shown_at c _ v) as [[x y]|]; [|reflexivity]. cbn. rewrite !Rminus_0_r. reflexivity.
  - rewrite edits_cons in E. destruct (apply_edit interpolate black fr e) as [fr1|] eqn:E1; cbn [rbind] in E; [|discriminate].
    assert (Crop : exists ct b, crop_by_bbox fr ct b = Ok fr1).
    { destruct e as [ct|ct b|h w]; cbn [apply_edit] in E1.
      - unfold crop_by_metadata in E1. destruct (f_bbox fr) as [b|]; [|discriminate]. destruct (f_uncropped fr); [|discriminate]. eauto.
      - eauto.
      - exfalso. apply (Only h w). left; reflexivity. }
    destruct Crop as (ct & b & Eb). destruct (crop_frame _ _ _ _ _ _ OK Eb) as (y1 & x1 & h1 & w1 & _ & _ & L1 & L2 & _ & OK1 & _ & Rgb & _ & _ & _ & Cam).
    destruct (Rgb rgb Ergb) as (rgb1 & Ergb1 & Cut1).
    destruct (IH fr1 fr' h1 w1 rgb1 OK1 ltac:(intros h w Hin; apply (Only h w); right; exact Hin) Ergb1 E) as (h & w & y0 & x0 & rgb' & OK2 & M1 & M2 & Er' & Cut2 & C2).
    exists h, w, (y1 + y0)%nat, (x1 + x0)%nat, rgb'. split; [exact OK2|]. split; [lia|]. split; [lia|]. split; [exact Er'|]. split.
    { destruct Cut1 as (_ & Q1). destruct Cut2 as (I2 & Q2). split; [exact I2|]. intros i j Hi Hj. rewrite Q2, Q1 by lia. f_equal; lia. }
    intros c Hc. destruct (Cam c Hc) as (c1 & Hc1 & V1). destruct (C2 c1 Hc1) as (c2 & Hc2 & V2). exists c2. split; [exact Hc2|].
    intros v. rewrite V2, V1. destruct (shown_at c _ v) as [[x y]|]; [|reflexivity]. cbn. rewrite !plus_INR. do 2 f_equal; ring.
Qed.
End Resize.
