(* Model of the cropping and resizing of frames: implicitron/dataset/utils.py and
   implicitron/dataset/frame_data.py (FrameData.crop_by_metadata_bbox_, crop_by_given_bbox_, resize_frame_).
   Exact reals; an image is a list of rows of pixels (the channels of a pixel are one value, so every image has
   at least one channel). A float box and a LongTensor box are not told apart: all operations on a LongTensor box
   keep it integer and rounding leaves integers alone. A frame that raised half way is not modelled. *)
From Verif Require Import Base RBase Geom LinAlg Transform Camera.
From Coq Require Import R_Ifp.
Local Open Scope R_scope.

Definition box := (R * R * R * R)%type.
Definition zbox := (Z * Z * Z * Z)%type.
Definition pixel := list R.
Definition image := list (list pixel).

(* torch.round: to nearest, halves to even *)
Definition round_even (x : R) : Z :=
  let f := Int_part x in
  let d := x - IZR f in
  if Rltb d (/ 2) then f else if Rltb (/ 2) d then (f + 1)%Z else if Z.even f then f else (f + 1)%Z.
(* .long() *)
Definition to_long (x : R) : Z := if Rltb x 0 then (- Int_part (- x))%Z else Int_part x.
Definition clampR (x lo hi : R) : R := Rmin (Rmax x lo) hi.

(* ---- get_bbox_from_mask, utils.py:86-111; get_1d_bounds, 200-202 ---- *)
Definition positive_entries (l : list R) : list nat := map fst (filter (fun p => Rltb 0 (snd p) || Rltb (snd p) 0)%bool (combine (seq 0 (length l)) l)).
Definition bounds_1d (l : list R) : result (nat * nat) :=
  match positive_entries l with
  | [] => Fail EIndex
  | i :: is_ => Ok (i, S (last is_ i))
  end.
Definition above (thr : R) (mask : list (list R)) : list (list R) := map (map (fun x => if Rltb thr x then 1 else 0)) mask.
Definition width {A} (m : list (list A)) : nat := match m with [] => 0%nat | row :: _ => length row end.
Definition column_sums (m : list (list R)) : list R := map (fun j => rsum (map (fun row => nth j row 0) m)) (seq 0 (width m)).
Definition row_sums (m : list (list R)) : list R := map rsum m.
(* the while loop of 98-100 *)
Fixpoint box_loop (fuel : nat) (mask : list (list R)) (thr quant : R) : result (list (list R)) :=
  match fuel with
  | O => Fail EFuel
  | S fuel =>
      let m := above thr mask in
      if Rleb (rsum (row_sums m)) 1 then box_loop fuel mask (thr - quant) quant else Ok m
  end.
Definition all_nonneg (mask : list (list R)) : bool := forallb (forallb (fun x => Rleb 0 x)) mask.
Definition get_bbox_from_mask (fuel : nat) (mask : list (list R)) (thr quant : R) : result (nat * nat * nat * nat) :=
  if (length mask * width mask =? 0)%nat then Ok (0, 0, 1, 1)%nat
  else
    let mask := if all_nonneg mask then mask else map (map (Rmax 0)) mask in
    m <- box_loop fuel mask thr quant ;;
    x <- bounds_1d (column_sums m) ;;
    y <- bounds_1d (row_sums m) ;;
    let '(x0, x1) := x in let '(y0, y1) := y in
    Ok (x0, y0, (x1 - x0)%nat, (y1 - y0)%nat).

(* ---- boxes ---- *)
(* bbox_xywh_to_xyxy, 149-154 *)
Definition xywh_to_xyxy (b : box) (clamp_size : option R) : box :=
  let '(x, y, w, h) := b in
  let cl v := match clamp_size with Some c => Rmax v c | None => v end in
  (x, y, x + cl w, y + cl h).
(* bbox_xyxy_to_xywh, 143-146 *)
Definition xyxy_to_xywh (b : zbox) : zbox := let '(x0, y0, x1, y1) := b in (x0, y0, (x1 - x0)%Z, (y1 - y0)%Z).
(* get_clamp_bbox, 157-184 *)
Definition get_clamp_bbox (b : box) (context : R) : result box :=
  let '(x, y, w, h) := b in
  let '(x, y, w, h) :=
    if Rltb 0 context
    then (x - w * context / 2, y - h * context / 2, w + w * context, h + h * context)
    else (x, y, w, h) in
  if (Rleb w 1 || Rleb h 1)%bool then Fail EValue
  else Ok (xywh_to_xyxy (x, y, Rmax w 2, Rmax h 2) (Some 2)).
(* clamp_box_to_image_bounds_and_round, 128-137 *)
Definition clamp_box (b : box) (size : Z * Z) : zbox :=
  let '(x0, y0, x1, y1) := b in
  let '(h, w) := size in
  (round_even (clampR x0 0 (IZR w)), round_even (clampR y0 0 (IZR h)),
   round_even (clampR x1 0 (IZR w)), round_even (clampR y1 0 (IZR h))).
(* rescale_bbox, 187-197, followed by .long() *)
Definition rescale_box (b : zbox) (orig new : Z * Z) : zbox :=
  let '(x0, y0, x1, y1) := b in
  let rel := (IZR (fst new) / IZR (fst orig) + IZR (snd new) / IZR (snd orig)) / 2 in
  (to_long (IZR x0 * rel), to_long (IZR y0 * rel), to_long (IZR x1 * rel), to_long (IZR y1 * rel)).

(* ---- images ---- *)
Definition size_of (im : image) : Z * Z := (Z.of_nat (length im), Z.of_nat (width im)).
(* tensor[a:b] for 0 <= a, b *)
Definition slice {A} (a b : Z) (l : list A) : list A := firstn (Z.to_nat b - Z.to_nat a) (skipn (Z.to_nat a) l).
(* crop_around_box, 114-125 *)
Definition crop_around (im : image) (b : zbox) : result image :=
  let '(x0, y0, x1, y1) := b in
  let '(x0, y0, x1, y1) := clamp_box (IZR x0, IZR y0, IZR x1, IZR y1) (size_of im) in
  let out := map (slice x0 x1) (slice y0 y1 im) in
  if (length out * width out =? 0)%nat then Fail ERuntime else Ok out.

(* ---- cameras ---- *)
(* _convert_ndc_to_pixels, 324-333 and _convert_pixels_to_ndc, 336-345: focal length, principal point, (w, h) *)
Definition ndc_to_pixels (f p wh : R * R) : (R * R) * (R * R) :=
  let half := (fst wh / 2, snd wh / 2) in
  let s := Rmin (fst half) (snd half) in
  ((fst f * s, snd f * s), (fst half - fst p * s, snd half - snd p * s)).
Definition pixels_to_ndc (f p wh : R * R) : (R * R) * (R * R) :=
  let half := (fst wh / 2, snd wh / 2) in
  let s := Rmin (fst half) (snd half) in
  ((fst f / s, snd f / s), ((fst half - fst p) / s, (snd half - snd p) / s)).
Definition set_intr (cs : cameras) (f p : R * R) : cameras :=
  Cams (cs_cls cs) [Persp (fst f) (snd f) (fst p) (snd p)] (cs_K cs) (cs_R cs) (cs_T cs) (cs_ndc cs) (cs_size cs).
(* adjust_camera_to_bbox_crop_, 348-372. Boxes of size zero give inf or nan and are not modelled. *)
Definition adjust_to_crop (cs : cameras) (wh : R * R) (b : zbox) : result cameras :=
  let '(x, y, w, h) := b in
  match cs_int cs with
  | [Persp fx fy px py] =>
      let '(f, p) := ndc_to_pixels (fx, fy) (px, py) wh in
      let '(f, p) := pixels_to_ndc f (fst p - IZR x, snd p - IZR y) (IZR w, IZR h) in
      Ok (set_intr cs f p)
  | [_] => Fail EAttr
  | _ => Fail EValue
  end.
(* adjust_camera_to_image_scale_, 375-402 *)
Definition adjust_to_scale (cs : cameras) (wh new_wh : R * R) : result cameras :=
  match cs_int cs with
  | Persp fx fy px py :: _ =>
      let '(f, p) := ndc_to_pixels (fx, fy) (px, py) wh in
      let s := Rmin (fst new_wh / fst wh) (snd new_wh / snd wh) in
      let '(f, p) := pixels_to_ndc (fst f * s, snd f * s) (fst p * s, snd p * s) new_wh in
      Ok (set_intr cs f p)
  | _ :: _ => Fail EAttr
  | [] => Fail EIndex
  end.

(* ---- FrameData ---- *)
Record frame := Frame {
  f_size : option (Z * Z);                 (* effective_image_size_hw *)
  f_orig : option (Z * Z);                 (* image_size_hw *)
  f_bbox : option box;                     (* bbox_xywh *)
  f_crop : option zbox;                    (* crop_bbox_xywh *)
  f_fg : option image; f_rgb : option image; f_depth : option image; f_dmask : option image;
  f_mask : option (list (list R));         (* mask_crop *)
  f_cam : option cameras; f_uncropped : bool }.
Definition on {A B} (o : option A) (f : A -> result B) : result (option B) :=
  match o with None => Ok None | Some x => y <- f x ;; Ok (Some y) end.
Definition flip (s : Z * Z) : R * R := (IZR (snd s), IZR (fst s)).
(* _crop_by_bbox_, frame_data.py:250-337 *)
Definition crop_by_bbox (fr : frame) (context : R) (b : box) : result frame :=
  match f_size fr with
  | None => Fail EValue
  | Some size =>
      b <- get_clamp_bbox b context ;;
      let zb := clamp_box b size in
      let xywh := xyxy_to_xywh zb in
      fg <- on (f_fg fr) (fun im => crop_around im zb) ;;
      rgb <- on (f_rgb fr) (fun im => crop_around im zb) ;;
      depth <- on (f_depth fr) (fun im => crop_around im (rescale_box zb (size_of im) size)) ;;
      dmask <- on (f_dmask fr) (fun im => crop_around im (rescale_box zb (size_of im) size)) ;;
      cam <- on (f_cam fr) (fun cs => adjust_to_crop cs (flip size) xywh) ;;
      let '(_, _, w, h) := xywh in
      Ok (Frame (Some (h, w)) (f_orig fr) (f_bbox fr) (Some xywh) fg rgb depth dmask (f_mask fr) cam false)
  end.
(* crop_by_metadata_bbox_, 189-225 *)
Definition crop_by_metadata (fr : frame) (context : R) : result frame :=
  match f_bbox fr with
  | None => Fail EValue
  | Some b => if f_uncropped fr then crop_by_bbox fr context b else Fail EValue
  end.

(* resize_image, utils.py:205-242. interpolate is torch.nn.functional.interpolate: mode nearest or bilinear,
   the image and the output size floor(size * scale) (recompute_scale_factor). *)
Section Resize.
Variable interpolate : bool -> image -> nat -> nat -> image.
Definition min_scale (im : image) (h w : nat) : R := Rmin (INR h / INR (length im)) (INR w / INR (width im)).
Definition out_size (n : nat) (s : R) : nat := Z.to_nat (Int_part (INR n * s)).
Definition pad_image (black : pixel) (h w : nat) (im : image) : image :=
  map (fun i => map (fun j => match nth_error im i with
                              | Some row => match nth_error row j with Some p => p | None => black end
                              | None => black end) (seq 0 w)) (seq 0 h).
Definition pad_mask (h w h1 w1 : nat) : list (list R) :=
  map (fun i => map (fun j => if ((i <? h1) && (j <? w1))%nat then 1 else 0) (seq 0 w)) (seq 0 h).
Definition resize_image (nearest : bool) (black : pixel) (im : image) (h w : nat) : result (image * list (list R)) :=
  if (length im * width im =? 0)%nat then Ok (im, map (map (fun _ => 1)) im)
  else
    let s := min_scale im h w in
    let h1 := out_size (length im) s in
    let w1 := out_size (width im) s in
    if ((h1 =? 0) || (w1 =? 0))%nat then Fail ERuntime                 (* output size of zero *)
    else if ((h <? h1) || (w <? w1))%nat then Fail ERuntime            (* the slice is too small, 238 *)
    else Ok (pad_image black h w (interpolate nearest im h1 w1), pad_mask h w h1 w1).
(* resize_frame_, frame_data.py:339-397 *)
Definition resize_frame (black : pixel) (fr : frame) (h w : nat) : result frame :=
  match f_size fr with
  | None => Fail EValue
  | Some size =>
      fg <- on (f_fg fr) (fun im => x <- resize_image true black im h w ;; Ok (fst x)) ;;
      rgbm <- on (f_rgb fr) (fun im => resize_image false black im h w) ;;
      depth <- on (f_depth fr) (fun im => x <- resize_image true black im h w ;; Ok (fst x)) ;;
      dmask <- on (f_dmask fr) (fun im => x <- resize_image true black im h w ;; Ok (fst x)) ;;
      let new := (Z.of_nat h, Z.of_nat w) in
      cam <- on (f_cam fr) (fun cs => match f_orig fr with
                                      | None => Fail EValue
                                      | Some _ => adjust_to_scale cs (flip size) (flip new) end) ;;
      Ok (Frame (Some new) (f_orig fr) (f_bbox fr) (f_crop fr) fg (option_map fst rgbm) depth dmask
            (match rgbm with Some x => Some (snd x) | None => f_mask fr end) cam false)
  end.
(* a history of edits of one frame *)
Inductive edit := CropMeta (context : R) | CropGiven (context : R) (b : box) | Resize (h w : nat).
Definition apply_edit (black : pixel) (fr : frame) (e : edit) : result frame :=
  match e with
  | CropMeta c => crop_by_metadata fr c
  | CropGiven c b => crop_by_bbox fr c b
  | Resize h w => resize_frame black fr h w
  end.
Definition apply_edits (black : pixel) (es : list edit) (fr : frame) : result frame :=
  rfold (fun fr e => apply_edit black fr e) es fr.
End Resize.
