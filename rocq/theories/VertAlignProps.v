(* Property C80: features are sampled from the right image at the right place. *)
From Coq Require Import Lra.
From Verif Require Import Base RBase Geom Knn Raster Textures TexturesProofs VertAlign VertAlignSpec VertAlignProofs VertAlignProofs2.
Local Open Scope R_scope.

(* meshes, packed: one row per vertex, mesh after mesh, for meshes of any sizes; each row lists the channels of
   all feature maps of the vertex's own image at the vertex's own position *)
Theorem vert_align_packed : forall feats verts im mode align, verts <> [] -> fitting (length verts) feats ->
  vert_align feats (OfMeshes verts) true im mode align =
  Ok (Packed (flat_map (fun p => map (features_at align mode im feats (fst p)) (snd p)) (number_from 0 verts))).
Proof. intros. rewrite align_meshes by assumption. unfold rows_of. now rewrite <- flat_map_concat_map. Qed.
Print Assumptions vert_align_packed.

(* tensors, padded and packed, and padded results for meshes and clouds: filled up with vertices at the origin *)
Theorem vert_align_tensor : forall feats rows im mode align, fitting (length rows) feats ->
  vert_align feats (Tensor3 rows) false im mode align =
    Ok (Padded (map (fun p => map (features_at align mode im feats (fst p)) (snd p)) (number_from 0 rows))) /\
  vert_align feats (Tensor3 rows) true im mode align =
    Ok (Packed (flat_map (fun p => map (features_at align mode im feats (fst p)) (snd p)) (number_from 0 rows))).
Proof. intros. split; [now apply align_padded|]. rewrite align_tensor by assumption. unfold rows_of. now rewrite <- flat_map_concat_map. Qed.
Print Assumptions vert_align_tensor.
Theorem vert_align_padded : forall feats verts im mode align i vs j v, fitting (length verts) feats ->
  nth_error verts i = Some vs -> nth_error vs j = Some v ->
  exists x, vert_align feats (OfMeshes verts) false im mode align = Ok (Padded x) /\
    vert_align feats (OfClouds verts) false im mode align = Ok (Padded x) /\ length x = length verts /\
    exists row, nth_error x i = Some row /\ length row = longest verts /\ nth_error row j = Some (features_at align mode im feats i v).
Proof.
  intros feats verts im mode align i vs j v F NI NJ. assert (F' : fitting (length (padded verts)) feats) by (unfold padded; rewrite map_length; exact F).
  exists (rows_of align mode im feats (padded verts)). split; [now apply align_padded|]. split; [now apply align_padded|].
  split; [unfold rows_of, padded; now rewrite map_length, number_length, map_length|]. exists (map (features_at align mode im feats i) (pad_to (longest verts) vs)). split; [|split].
  - unfold rows_of. rewrite nth_error_map. rewrite (number_nth _ 0 i (pad_to (longest verts) vs)); [reflexivity|]. unfold padded. now rewrite nth_error_map, NI.
  - rewrite map_length. apply pad_length, longest_ge. eapply nth_error_In; exact NI.
  - rewrite nth_error_map. unfold pad_to. rewrite nth_error_app1 by (apply nth_error_Some; rewrite NJ; discriminate). now rewrite NJ.
Qed.
Print Assumptions vert_align_padded.

(* sampling at the centre of a pixel gives that pixel: all padding modes, both interpolations, both conventions *)
Theorem sample_at_pixel : forall align mode im m gx gy r c, on_image m r c ->
  position align (mw m) gx (IZR c) -> position align (mh m) gy (IZR r) -> grid_sample align mode im m gx gy = tex m r c.
Proof. exact sample_pixel. Qed.
Print Assumptions sample_at_pixel.

(* between the pixels bilinear sampling reproduces every image that is an affine function of the position *)
Theorem sample_between_pixels : forall align mode m gx gy x y a b d, (0 < mh m)%Z -> (0 < mw m)%Z ->
  (forall r c, on_image m r c -> tex m r c = a + b * IZR r + d * IZR c) ->
  position align (mw m) gx x -> position align (mh m) gy y -> among (mw m) x -> among (mh m) y ->
  grid_sample align mode Bilinear m gx gy = a + b * y + d * x.
Proof. exact sample_affine. Qed.
Print Assumptions sample_between_pixels.

(* samples stay within the range of the image: everywhere for border and reflection padding, among the pixels
   for zero padding *)
Theorem sample_in_range : forall align mode im m gx gy lo hi, (0 < mh m)%Z -> (0 < mw m)%Z ->
  (forall r c, on_image m r c -> lo <= tex m r c <= hi) ->
  (mode <> Zeros \/ exists x y, position align (mw m) gx x /\ position align (mh m) gy y /\ among (mw m) x /\ among (mh m) y) ->
  lo <= grid_sample align mode im m gx gy <= hi.
Proof. exact sample_bounds. Qed.
Print Assumptions sample_in_range.

(* ndc_grid_sample at the point of the NDC plane that the rasterizers take for the centre of a pixel gives that
   pixel, for images of any two side lengths *)
Theorem ndc_sample_at_pixel : forall mode im m h w r c, mh m = Z.of_nat h -> mw m = Z.of_nat w -> (r < h)%nat -> (c < w)%nat ->
  ndc_grid_sample false mode im m (x2 (pix_center h w r c), y2 (pix_center h w r c)) = Ok (tex m (Z.of_nat r) (Z.of_nat c)).
Proof.
  intros mode im m h w r c Eh Ew Hr Hc. unfold ndc_grid_sample, pix_center. cbn [x2 y2]. rewrite <- Eh, <- Ew.
  destruct (ndc_coords (mh m) (mw m) (Z.of_nat r) (Z.of_nat c)) as (gx & gy & E & PX & PY); [lia|lia|]. rewrite E. cbn [rbind fst snd]. f_equal.
  apply sample_pixel; [split; lia|exact PX|exact PY].
Qed.
Print Assumptions ndc_sample_at_pixel.

(* feature maps of another rank or batch size, and unknown vertices, are refused *)
Theorem vert_align_refuses : forall feats verts packed im mode align,
  (verts = TensorOther \/ verts = Unknown -> vert_align feats verts packed im mode align = Fail EValue) /\
  (forall grid f, grid_of verts = Ok grid -> In f feats -> match f with BadRank => True | Maps _ images => length images <> length grid end ->
     vert_align feats verts packed im mode align = Fail EValue).
Proof.
  intros feats verts packed im mode align. split.
  - intros [->| ->]; reflexivity.
  - intros grid f. apply align_refuses.
Qed.
Print Assumptions vert_align_refuses.

(* two meshes of one and two vertices, one image each: the hypotheses *)
Definition checker (k : Z) : tmap := TMap 2 3 (fun r c => IZR (k + r + c)).
Example vert_align_ex :
  fitting (length [[V3 0 0 1]; [V3 1 1 1; V3 (-1) (-1) 2]]) [Maps 1 [[checker 0]; [checker 1]]] /\
  on_image (checker 0) 1 2 /\ position true 3 1 (IZR 2) /\ position true 2 1 (IZR 1) /\ position false 3 (2 / 3) (IZR 2) /\ among 3 (3 / 2).
Proof.
  split; [|unfold on_image, position, among; cbn; repeat split; lra || lia].
  split; [discriminate|]. intros f [<-|[]]. exists 1%nat, [[checker 0]; [checker 1]]. split; [reflexivity|]. split; [reflexivity|]. split; [lia|].
  intros l [<-|[<-|[]]]; (split; [reflexivity|]); intros m [<-|[]]; cbn; lia.
Qed.

(* point clouds, packed: one row per point, as documented: false, rows of padding are included *)
Theorem vert_align_clouds_refuted : ~ (forall feats clouds im mode align x, fitting (length clouds) feats ->
  vert_align feats (OfClouds clouds) true im mode align = Ok (Packed x) -> length x = length (concat clouds)).
Proof.
  intros H. set (cl := [[V3 0 0 1]; [V3 1 1 1; V3 (-1) (-1) 2]]). set (fs := [Maps 1 [[checker 0]; [checker 1]]]).
  assert (F : fitting (length cl) fs) by apply vert_align_ex.
  pose proof (H fs cl Bilinear Zeros true _ F (align_clouds _ _ _ _ _ F)) as Q. cbn in Q. discriminate.
Qed.
Print Assumptions vert_align_clouds_refuted.
