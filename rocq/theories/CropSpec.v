(* Vocabulary for the cropping properties. *)
From Verif Require Import Base RBase Geom LinAlg Transform Camera CameraSpec Crop.
Local Open Scope R_scope.

(* a rectangular image of h rows and w columns *)
Definition is_image (im : image) (h w : nat) : Prop := length im = h /\ Forall (fun row => length row = w) im.
Definition pixel_at (im : image) (i j : nat) : option pixel :=
  match nth_error im i with Some row => nth_error row j | None => None end.
(* where the image of size (h, w) of camera c shows the view point v, in pixels: x to the right, y down *)
Definition shown_at (c : intr) (size : Z * Z) (v : vec3) : option (R * R) :=
  match pinhole c v with
  | Some q => let p := to_pixel (IZR (fst size), IZR (snd size)) q in Some (x3 p, y3 p)
  | None => None
  end.
(* a loaded frame: an image and a mask of the effective size, depth of any size, one perspective camera *)
Definition frame_ok (fr : frame) (h w : nat) : Prop :=
  (0 < h)%nat /\ (0 < w)%nat /\ f_size fr = Some (Z.of_nat h, Z.of_nat w) /\
  (exists im, f_rgb fr = Some im /\ is_image im h w) /\
  (forall im, f_fg fr = Some im -> is_image im h w).
Definition has_camera (fr : frame) (c : intr) : Prop := exists cs, f_cam fr = Some cs /\ cs_int cs = [c] /\ cls_of c = CPersp.
(* the box asked for: corners; grown by the context, and at least two pixels wide and high *)
Definition wanted (b : box) (context : R) : box :=
  let '(x, y, w, h) := b in
  let k := Rmax 0 context in
  let x0 := x - k * w / 2 in
  let y0 := y - k * h / 2 in
  (x0, y0, x0 + Rmax 2 ((1 + k) * w), y0 + Rmax 2 ((1 + k) * h)).
(* the square of pixel (i, j) lies in the box; its centre does *)
Definition square_in (i j : nat) (b : box) : Prop :=
  let '(x0, y0, x1, y1) := b in x0 <= INR j /\ INR j + 1 <= x1 /\ y0 <= INR i /\ INR i + 1 <= y1.
Definition centre_in (i j : nat) (b : box) : Prop :=
  let '(x0, y0, x1, y1) := b in x0 <= INR j + / 2 <= x1 /\ y0 <= INR i + / 2 <= y1.
(* im' is im from row y0 and column x0 on *)
Definition cut_from (im im' : image) (y0 x0 h w : nat) : Prop :=
  is_image im' h w /\ forall i j, (i < h)%nat -> (j < w)%nat -> pixel_at im' i j = pixel_at im (y0 + i) (x0 + j).
Definition only_crops (es : list edit) : Prop := forall h w, ~ In (Resize h w) es.

(* masks *)
Definition mask_at (m : list (list R)) (i j : nat) : R := nth j (nth i m []) 0.
Definition marked (t : R) (m : list (list R)) (h w : nat) (i j : nat) : Prop := (i < h)%nat /\ (j < w)%nat /\ t < mask_at m i j.
(* the smallest box around all marked pixels *)
Definition tight (x0 y0 bw bh : nat) (P : nat -> nat -> Prop) : Prop :=
  (forall i j, P i j -> (y0 <= i < y0 + bh)%nat /\ (x0 <= j < x0 + bw)%nat) /\
  (exists i, P i x0) /\ (exists i, P i (x0 + bw - 1)%nat) /\ (exists j, P y0 j) /\ (exists j, P (y0 + bh - 1)%nat j).
(* at least two pixels lie above t *)
Definition two_above (t : R) (m : list (list R)) : Prop := (2 <= length (filter (Rltb t) (concat m)))%nat.
Definition is_mask (m : list (list R)) (h w : nat) : Prop := length m = h /\ Forall (fun row => length row = w) m.
