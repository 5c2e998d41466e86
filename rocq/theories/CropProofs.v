(* Rounding, boxes, cropping of images and of cameras. *)
From Verif Require Import Base RBase Geom LinAlg Transform Camera CameraSpec Crop CropSpec.
From Coq Require Import R_Ifp.
Local Open Scope R_scope.

Lemma floor_is x k : IZR k <= x < IZR k + 1 -> Int_part x = k.
Proof.
  intros (H1 & H2). destruct (base_Int_part x) as (B1 & B2).
  assert (Int_part x < k + 1)%Z by (apply lt_IZR; rewrite plus_IZR; lra). assert (k < Int_part x + 1)%Z by (apply lt_IZR; rewrite plus_IZR; lra). lia.
Qed.
Lemma floor_le x : IZR (Int_part x) <= x < IZR (Int_part x) + 1.
Proof. destruct (base_Int_part x). lra. Qed.
Lemma round_near x : IZR (round_even x) - / 2 <= x <= IZR (round_even x) + / 2.
Proof.
  unfold round_even. destruct (floor_le x) as (B1 & B2). set (f := Int_part x) in *.
  destruct (Rltb_spec (x - IZR f) (/ 2)); [lra|]. destruct (Rltb_spec (/ 2) (x - IZR f)); [rewrite plus_IZR; lra|].
  destruct (Z.even f); rewrite ?plus_IZR; lra.
Qed.
Lemma round_int z : round_even (IZR z) = z.
Proof.
  unfold round_even. rewrite (floor_is (IZR z) z) by lra. destruct (Rltb_spec (IZR z - IZR z) (/ 2)) as [|N]; [reflexivity|]. exfalso. apply N. lra.
Qed.
(* round x <= z when x <= z, and z <= round x when z <= x *)
Lemma round_le_int x z : x <= IZR z -> (round_even x <= z)%Z.
Proof.
  intros H. unfold round_even. destruct (floor_le x) as (B1 & B2). set (f := Int_part x) in *.
  assert (F : (f <= z)%Z) by (apply le_IZR; lra).
  assert (E : f = z -> x - IZR f <= 0) by (intros ->; lra).
  destruct (Rltb_spec (x - IZR f) (/ 2)) as [|N]; [exact F|].
  assert (f <> z) by (intros E0; specialize (E E0); lra).
  destruct (Rltb_spec (/ 2) (x - IZR f)); [lia|]. destruct (Z.even f); lia.
Qed.
Lemma round_ge_int x z : IZR z <= x -> (z <= round_even x)%Z.
Proof.
  intros H. unfold round_even. destruct (floor_le x) as (B1 & B2). set (f := Int_part x) in *.
  assert (F : (z <= f)%Z). { apply Z.lt_succ_r. apply lt_IZR. rewrite succ_IZR. lra. }
  destruct (Rltb_spec (x - IZR f) (/ 2)); [exact F|]. destruct (Rltb_spec (/ 2) (x - IZR f)); [lia|]. destruct (Z.even f); lia.
Qed.
Lemma round_mono x y : x <= y -> (round_even x <= round_even y)%Z.
Proof.
  intros H. unfold round_even. destruct (floor_le x) as (A1 & A2), (floor_le y) as (B1 & B2). set (f := Int_part x) in *. set (g := Int_part y) in *.
  assert (F : (f <= g)%Z). { apply Z.lt_succ_r. apply lt_IZR. rewrite succ_IZR. lra. }
  destruct (Z.eq_dec f g) as [E|E].
  - rewrite <- E in *. destruct (Rltb_spec (x - IZR f) (/ 2)), (Rltb_spec (y - IZR f) (/ 2)); try lia.
    + destruct (Rltb_spec (/ 2) (y - IZR f)); [lia|]. destruct (Z.even f); lia.
    + exfalso; lra.
    + destruct (Rltb_spec (/ 2) (x - IZR f)), (Rltb_spec (/ 2) (y - IZR f)); try lia; try (exfalso; lra). destruct (Z.even f); lia.
  - assert ((f + 1 <= g)%Z) by lia.
    destruct (Rltb_spec (x - IZR f) (/ 2)), (Rltb_spec (y - IZR g) (/ 2)); destruct (Rltb_spec (/ 2) (x - IZR f)), (Rltb_spec (/ 2) (y - IZR g)); destruct (Z.even f), (Z.even g); lia.
Qed.
Lemma clamp_bounds x hi : 0 <= hi -> 0 <= clampR x 0 hi <= hi.
Proof. intros H. unfold clampR, Rmin, Rmax. destruct (Rle_dec x 0); [destruct (Rle_dec 0 hi); lra|destruct (Rle_dec x hi); lra]. Qed.
Lemma clamp_mono x y hi : x <= y -> clampR x 0 hi <= clampR y 0 hi.
Proof. intros H. unfold clampR. apply Rle_min_compat_r. apply Rle_max_compat_r. exact H. Qed.
Lemma clamp_int z hi : (0 <= z <= hi)%Z -> clampR (IZR z) 0 (IZR hi) = IZR z.
Proof.
  intros (H1 & H2). apply IZR_le in H1. apply IZR_le in H2. unfold clampR, Rmin, Rmax.
  destruct (Rle_dec (IZR z) 0); [replace (IZR z) with 0 by lra; destruct (Rle_dec 0 (IZR hi)); [reflexivity|lra]|].
  destruct (Rle_dec (IZR z) (IZR hi)); [reflexivity|lra].
Qed.
Lemma clamp_le x z hi : 0 <= z <= hi -> x <= z -> clampR x 0 hi <= z.
Proof. intros H1 H2. unfold clampR, Rmin, Rmax. destruct (Rle_dec x 0); [destruct (Rle_dec 0 hi); lra|destruct (Rle_dec x hi); lra]. Qed.
Lemma clamp_ge x z hi : 0 <= z <= hi -> z <= x -> z <= clampR x 0 hi.
Proof. intros H1 H2. unfold clampR, Rmin, Rmax. destruct (Rle_dec x 0); [destruct (Rle_dec 0 hi); lra|destruct (Rle_dec x hi); lra]. Qed.
(* what lies strictly inside the image is not moved outwards by clamping *)
Lemma clamp_low_in x z hi : z < hi -> clampR x 0 hi <= z -> x <= z.
Proof. intros H1 H2. unfold clampR, Rmin, Rmax in H2. destruct (Rle_dec x 0); [destruct (Rle_dec 0 hi); lra|destruct (Rle_dec x hi); lra]. Qed.
Lemma clamp_high_in x z hi : 0 < z -> z <= clampR x 0 hi -> z <= x.
Proof. intros H1 H2. unfold clampR, Rmin, Rmax in H2. destruct (Rle_dec x 0); [destruct (Rle_dec 0 hi); lra|destruct (Rle_dec x hi); lra]. Qed.

Lemma max_two a : Rmax (Rmax a 2) 2 = Rmax 2 a.
Proof. unfold Rmax. repeat destruct (Rle_dec _ _); lra. Qed.
Lemma get_clamp_wanted b c out : get_clamp_bbox b c = Ok out -> out = wanted b c.
Proof.
  unfold get_clamp_bbox, wanted, xywh_to_xyxy. destruct b as [[[x y] w] h].
  destruct (Rltb_spec 0 c) as [P|P]; intros H.
  - replace (Rmax 0 c) with c by (unfold Rmax; destruct (Rle_dec 0 c); lra).
    destruct (Rleb (w + w * c) 1 || Rleb (h + h * c) 1)%bool; [discriminate|]. injection H as <-. rewrite !max_two.
    replace (w * c) with (c * w) by ring. replace (h * c) with (c * h) by ring.
    replace ((1 + c) * w) with (w + c * w) by ring. replace ((1 + c) * h) with (h + c * h) by ring. reflexivity.
  - replace (Rmax 0 c) with 0 by (unfold Rmax; destruct (Rle_dec 0 c); lra).
    destruct (Rleb w 1 || Rleb h 1)%bool; [discriminate|]. injection H as <-. rewrite !max_two.
    replace ((1 + 0) * w) with w by ring. replace ((1 + 0) * h) with h by ring.
    replace (x - 0 * w / 2) with x by (unfold Rdiv; ring). replace (y - 0 * h / 2) with y by (unfold Rdiv; ring). reflexivity.
Qed.
Lemma wanted_order b c : let '(x0, y0, x1, y1) := wanted b c in x0 + 2 <= x1 /\ y0 + 2 <= y1.
Proof. destruct b as [[[x y] w] h]. cbn. split; apply Rplus_le_compat_l, Rmax_l. Qed.
(* the box is refused when it is at most one pixel wide or high *)
Lemma get_clamp_defined x y w h c : (exists out, get_clamp_bbox (x, y, w, h) c = Ok out) <-> 1 < (1 + Rmax 0 c) * w /\ 1 < (1 + Rmax 0 c) * h.
Proof.
  unfold get_clamp_bbox. destruct (Rltb_spec 0 c) as [P|P].
  - replace (Rmax 0 c) with c by (unfold Rmax; destruct (Rle_dec 0 c); lra).
    replace ((1 + c) * w) with (w + w * c) by ring. replace ((1 + c) * h) with (h + h * c) by ring.
    destruct (Rleb_spec (w + w * c) 1), (Rleb_spec (h + h * c) 1); cbn [orb]; split; try (intros (o & H); discriminate); try (intros (H1 & H2); lra).
    intros _. eexists. reflexivity.
  - replace (Rmax 0 c) with 0 by (unfold Rmax; destruct (Rle_dec 0 c); lra).
    replace ((1 + 0) * w) with w by ring. replace ((1 + 0) * h) with h by ring.
    destruct (Rleb_spec w 1), (Rleb_spec h 1); cbn [orb]; split; try (intros (o & H); discriminate); try (intros (H1 & H2); lra).
    intros _. eexists. reflexivity.
Qed.

(* the rounded box *)
Lemma clamp_box_facts x0 y0 x1 y1 h w : x0 <= x1 -> y0 <= y1 -> (0 <= h)%Z -> (0 <= w)%Z ->
  let '(a, b, c, d) := clamp_box (x0, y0, x1, y1) (h, w) in (0 <= a <= c)%Z /\ (c <= w)%Z /\ (0 <= b <= d)%Z /\ (d <= h)%Z.
Proof.
  intros Hx Hy Hh Hw. cbn. apply IZR_le in Hh. apply IZR_le in Hw.
  destruct (clamp_bounds x0 (IZR w) Hw), (clamp_bounds x1 (IZR w) Hw), (clamp_bounds y0 (IZR h) Hh), (clamp_bounds y1 (IZR h) Hh).
  repeat split; try (apply round_ge_int; lra); try (apply round_le_int; lra); apply round_mono, clamp_mono; assumption.
Qed.
Lemma clamp_box_again a b c d h w : (0 <= a <= w)%Z -> (0 <= b <= h)%Z -> (0 <= c <= w)%Z -> (0 <= d <= h)%Z ->
  clamp_box (IZR a, IZR b, IZR c, IZR d) (h, w) = (a, b, c, d).
Proof. intros. cbn. rewrite !clamp_int, !round_int by assumption. reflexivity. Qed.

(* the pixels of the rounded box *)
Lemma clamp_box_pixels x0 y0 x1 y1 h w i j : (i < h)%nat -> (j < w)%nat ->
  let '(a, b, c, d) := clamp_box (x0, y0, x1, y1) (Z.of_nat h, Z.of_nat w) in
  (square_in i j (x0, y0, x1, y1) -> (a <= Z.of_nat j < c)%Z /\ (b <= Z.of_nat i < d)%Z) /\
  ((a <= Z.of_nat j < c)%Z /\ (b <= Z.of_nat i < d)%Z -> centre_in i j (x0, y0, x1, y1)).
Proof.
  intros Hi Hj. cbn -[INR]. rewrite <- !INR_IZR_INZ.
  assert (Hi' : INR i + 1 <= INR h) by (rewrite <- S_INR; apply le_INR; lia). assert (Hj' : INR j + 1 <= INR w) by (rewrite <- S_INR; apply le_INR; lia).
  pose proof (pos_INR i). pose proof (pos_INR j). split.
  - intros (H1 & H2 & H3 & H4). repeat split.
    + apply round_le_int. rewrite <- INR_IZR_INZ. apply clamp_le; lra.
    + apply Z.lt_le_trans with (Z.of_nat j + 1)%Z; [lia|]. apply round_ge_int. rewrite plus_IZR, <- INR_IZR_INZ. apply clamp_ge; lra.
    + apply round_le_int. rewrite <- INR_IZR_INZ. apply clamp_le; lra.
    + apply Z.lt_le_trans with (Z.of_nat i + 1)%Z; [lia|]. apply round_ge_int. rewrite plus_IZR, <- INR_IZR_INZ. apply clamp_ge; lra.
  - intros ((H1 & H2) & (H3 & H4)). apply IZR_le in H1, H3. assert (H2' := Zlt_le_succ _ _ H2). assert (H4' := Zlt_le_succ _ _ H4). apply IZR_le in H2', H4'.
    rewrite succ_IZR in H2', H4'. rewrite <- INR_IZR_INZ in *.
    pose proof (round_near (clampR x0 0 (INR w))). pose proof (round_near (clampR y0 0 (INR h))).
    pose proof (round_near (clampR x1 0 (INR w))). pose proof (round_near (clampR y1 0 (INR h))).
    repeat split; [apply clamp_low_in with (INR w)|apply clamp_high_in with (INR w)|apply clamp_low_in with (INR h)|apply clamp_high_in with (INR h)]; lra.
Qed.

(* ---- images ---- *)
Lemma slice_length {A} a b (l : list A) : (0 <= a <= b)%Z -> (b <= Z.of_nat (length l))%Z -> length (slice a b l) = Z.to_nat (b - a).
Proof. intros H1 H2. unfold slice. rewrite firstn_length, skipn_length. lia. Qed.
Lemma slice_nth {A} a b (l : list A) i : (0 <= a <= b)%Z -> (i < Z.to_nat (b - a))%nat -> nth_error (slice a b l) i = nth_error l (Z.to_nat a + i).
Proof.
  intros H1 H2. unfold slice. rewrite nth_error_firstn. destruct (Nat.ltb_spec i (Z.to_nat b - Z.to_nat a)); [|lia]. apply nth_error_skipn.
Qed.
Lemma slice_in {A} a b (l : list A) x : In x (slice a b l) -> In x l.
Proof.
  unfold slice. intros H. rewrite <- (firstn_skipn (Z.to_nat a) l). apply in_or_app. right.
  rewrite <- (firstn_skipn (Z.to_nat b - Z.to_nat a) (skipn (Z.to_nat a) l)). apply in_or_app. left. exact H.
Qed.
Lemma image_width im h w : is_image im h w -> (0 < h)%nat -> width im = w.
Proof. intros (H1 & H2) H. destruct im as [|row im]; cbn in *; [lia|]. inversion H2; auto. Qed.
Lemma crop_cut im h w a b c d im' : is_image im h w -> (0 < h)%nat ->
  (0 <= a <= c)%Z -> (c <= Z.of_nat w)%Z -> (0 <= b <= d)%Z -> (d <= Z.of_nat h)%Z ->
  crop_around im (a, b, c, d) = Ok im' ->
  (a < c)%Z /\ (b < d)%Z /\ cut_from im im' (Z.to_nat b) (Z.to_nat a) (Z.to_nat (d - b)) (Z.to_nat (c - a)).
Proof.
  intros Him Hh A1 A2 B1 B2 H. unfold crop_around in H. pose proof (image_width im h w Him Hh) as Hw. destruct Him as (L & F).
  unfold size_of in H. rewrite L, Hw, clamp_box_again in H by lia.
  destruct (length (map (slice a c) (slice b d im)) * width (map (slice a c) (slice b d im)) =? 0)%nat eqn:E; [discriminate|]. injection H as <-.
  apply Nat.eqb_neq in E. rewrite map_length, slice_length in E by lia.
  assert (Rows : Forall (fun row => length row = Z.to_nat (c - a)) (map (slice a c) (slice b d im))).
  { apply Forall_forall. intros row Hr. apply in_map_iff in Hr as (r & <- & Hr). apply slice_in in Hr. rewrite Forall_forall in F. apply slice_length; [lia|]. rewrite (F r Hr). lia. }
  assert (Im : is_image (map (slice a c) (slice b d im)) (Z.to_nat (d - b)) (Z.to_nat (c - a))).
  { split; [rewrite map_length; apply slice_length; lia|exact Rows]. }
  assert (D : (b < d)%Z) by (destruct (Z.eq_dec b d); [subst; rewrite Z.sub_diag in E; cbn in E; lia|lia]).
  rewrite (image_width _ _ _ Im) in E by lia. split; [destruct (Z.eq_dec a c); [subst; rewrite Z.sub_diag in E; cbn in E; lia|lia]|]. split; [exact D|].
  split; [exact Im|]. intros i j Hi Hj. unfold pixel_at. rewrite nth_error_map, slice_nth by lia.
  destruct (nth_error im (Z.to_nat b + i)) as [row|]; [|reflexivity]. cbn [option_map]. apply slice_nth; lia.
Qed.

(* ---- cameras ---- *)
Lemma min_half a b : Rmin (a / 2) (b / 2) = Rmin a b / 2.
Proof. unfold Rmin. destruct (Rle_dec (a / 2) (b / 2)), (Rle_dec a b); lra. Qed.
Lemma crop_camera cs cs' c H W x y w h : adjust_to_crop cs (IZR W, IZR H) (x, y, w, h) = Ok cs' -> cs_int cs = [c] -> cls_of c = CPersp ->
  (0 < H)%Z -> (0 < W)%Z -> (0 < w)%Z -> (0 < h)%Z ->
  exists c', cs_int cs' = [c'] /\ cls_of c' = CPersp /\ cs_R cs' = cs_R cs /\ cs_T cs' = cs_T cs /\
    forall v, shown_at c' (h, w) v = option_map (fun p => (fst p - IZR x, snd p - IZR y)) (shown_at c (H, W) v).
Proof.
  intros E Hc Hcls P1 P2 P3 P4. apply IZR_lt in P1, P2, P3, P4. unfold adjust_to_crop in E. rewrite Hc in E. destruct c as [| |fx fy px py|]; try discriminate.
  cbn [ndc_to_pixels pixels_to_ndc fst snd] in E. injection E as <-. eexists. split; [reflexivity|]. split; [reflexivity|]. split; [reflexivity|]. split; [reflexivity|].
  intros [vx vy vz]. unfold shown_at. cbn [pinhole fst snd]. destruct (Reqb_spec vz 0) as [|Nz]; [reflexivity|]. cbn [to_pixel x3 y3 option_map fst snd].
  rewrite !min_half. rewrite !(Rmin_comm (IZR w)), !(Rmin_comm (IZR W)).
  assert (M1 : 0 < Rmin (IZR h) (IZR w)) by (apply Rmin_glb_lt; assumption). assert (M2 : 0 < Rmin (IZR H) (IZR W)) by (apply Rmin_glb_lt; assumption).
  do 2 f_equal; field; lra.
Qed.
Lemma scale_camera cs cs' c H W h w : adjust_to_scale cs (IZR W, IZR H) (IZR w, IZR h) = Ok cs' -> cs_int cs = [c] -> cls_of c = CPersp ->
  (0 < H)%Z -> (0 < W)%Z -> (0 < w)%Z -> (0 < h)%Z ->
  let s := Rmin (IZR h / IZR H) (IZR w / IZR W) in
  0 < s /\ exists c', cs_int cs' = [c'] /\ cls_of c' = CPersp /\ cs_R cs' = cs_R cs /\ cs_T cs' = cs_T cs /\
    forall v, shown_at c' (h, w) v = option_map (fun p => (s * fst p, s * snd p)) (shown_at c (H, W) v).
Proof.
  intros E Hc Hcls P1 P2 P3 P4 s. apply IZR_lt in P1, P2, P3, P4.
  assert (Ps : 0 < s) by (apply Rmin_glb_lt; apply Rdiv_lt_0_compat; assumption). split; [exact Ps|].
  unfold adjust_to_scale in E. rewrite Hc in E. destruct c as [| |fx fy px py|]; try discriminate.
  cbn [ndc_to_pixels pixels_to_ndc fst snd] in E. rewrite (Rmin_comm (IZR w / IZR W)) in E. fold s in E.
  injection E as <-. eexists. split; [reflexivity|]. split; [reflexivity|]. split; [reflexivity|]. split; [reflexivity|].
  intros [vx vy vz]. unfold shown_at. cbn [pinhole fst snd]. destruct (Reqb_spec vz 0) as [|Nz]; [reflexivity|]. cbn [to_pixel x3 y3 option_map fst snd].
  rewrite !min_half. rewrite !(Rmin_comm (IZR w)), !(Rmin_comm (IZR W)).
  assert (M1 : 0 < Rmin (IZR h) (IZR w)) by (apply Rmin_glb_lt; assumption). assert (M2 : 0 < Rmin (IZR H) (IZR W)) by (apply Rmin_glb_lt; assumption).
  do 2 f_equal; field; lra.
Qed.
