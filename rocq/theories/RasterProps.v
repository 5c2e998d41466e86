(* Properties C22, C23, C24: what the rasterizers report for each pixel. *)
From Verif Require Import Base RBase TopK MinKSpec Geom GeomSpec GeomProofs GeomRefute Knn Raster RasterSpec RasterProofs RasterCuda RasterCoarse RasterMore RasterNbr.
Local Open Scope R_scope.

(* C22: every output pixel of every mesh holds the K first hits in (depth, face) order, then -1 *)
Theorem rasterize_meshes_topk : forall H W K o faces nbrs meshes,
  (forall n s c, nth_error meshes n = Some (s, c) -> (s + c <= length faces)%nat) ->
  length nbrs = length faces -> (forall b, In b nbrs -> b = (-1)%Z) ->
  exists out, rasterize_meshes H W K o faces nbrs meshes = Ok out /\ length out = length meshes /\
  forall n s c, nth_error meshes n = Some (s, c) -> exists img, nth_error out n = Some img /\ length img = H /\
  forall yi, (yi < H)%nat -> exists row, nth_error img yi = Some row /\ length row = W /\
  forall xi, (xi < W)%nat -> exists idx zs ds bs, nth_error row xi = Some (idx, zs, ds, bs) /\
    length ds = K /\ length bs = K /\
    pixel_topk (-1, V3 (-1) (-1) (-1))
      (fun i => match nth_error faces i with Some f => face_hit o f (pix_center H W yi xi) | None => None end)
      (seq s c) K idx zs (fun k => (nth k ds (-1), nth k bs (V3 (-1) (-1) (-1)))).
Proof. exact rasterize_meshes_ok. Qed.
Print Assumptions rasterize_meshes_topk.
Example rasterize_meshes_topk_ex : exists out,
  rasterize_meshes 2 3 2 (Ropts true false false 0)
    [Face (V3 0 0 1) (V3 1 0 1) (V3 0 1 1); Face (V3 0 0 2) (V3 1 0 2) (V3 0 1 2)] [(-1)%Z; (-1)%Z] [(0, 1); (1, 1)]%nat = Ok out
  /\ length out = 2%nat.
Proof.
  edestruct (rasterize_meshes_topk 2 3 2 (Ropts true false false 0)
    [Face (V3 0 0 1) (V3 1 0 1) (V3 0 1 1); Face (V3 0 0 2) (V3 1 0 2) (V3 0 1 2)] [(-1)%Z; (-1)%Z] [(0, 1); (1, 1)]%nat)
    as [out [E [L _]]]; [| | |exists out; auto].
  - intros [|[|n]] s c E; cbn in E; [injection E as <- <-; cbn; lia| injection E as <- <-; cbn; lia|destruct n; discriminate].
  - reflexivity.
  - intros b [<-|[<-|[]]]; reflexivity.
Qed.

(* C22: visiting the faces in another order gives the same result *)
Theorem rasterize_meshes_order_independent : forall K o faces nbrs p order order',
  Permutation order order' -> (forall i, In i order -> (i < length faces)%nat) ->
  length nbrs = length faces -> (forall b, In b nbrs -> b = (-1)%Z) ->
  mesh_queue K (face_hit_at o faces p) (rget nbrs) order' = mesh_queue K (face_hit_at o faces p) (rget nbrs) order.
Proof.
  intros K o faces nbrs p order order' P HB HN Hm.
  apply (mesh_order K _ (fun i => match nth_error faces i with Some f => face_hit o f p | None => None end) _ order order' P).
  intros i Hi. apply HB in Hi. unfold face_hit_at. split.
  - destruct (nth_error faces i) as [f|] eqn:Ef; [|apply nth_error_None in Ef; lia].
    rewrite (proj2 (rget_some _ _ _) Ef). reflexivity.
  - destruct (nth_error nbrs i) as [b|] eqn:Eb; [|apply nth_error_None in Eb; lia].
    rewrite (proj2 (rget_some _ _ _) Eb). f_equal. apply Hm. eapply nth_error_In; eassumption.
Qed.
Print Assumptions rasterize_meshes_order_independent.

(* C22: which faces a pixel centre p is hit by, and with which depth and signed distance *)
Theorem rasterize_meshes_hit_iff : forall o f p z d b,
  face_hit o f p = Some (z, (d, b)) <->
  (o_cull o = true -> 0 <= face_area f) /\ kEps < Rabs (face_area f) /\ kEps <= fmin z3 f /\
  (fmin x3 f - sqrt (o_blur o) <= x2 p <= fmax x3 f + sqrt (o_blur o)) /\
  (fmin y3 f - sqrt (o_blur o) <= y2 p <= fmax y3 f + sqrt (o_blur o)) /\
  b = face_bary_clip o f p /\ z = face_depth o f p /\ 0 <= z /\
  ((in_tri2_strict p (xy (fv0 f)) (xy (fv1 f)) (xy (fv2 f)) /\ d = - face_dist f p) \/
   (~ in_tri2_strict p (xy (fv0 f)) (xy (fv1 f)) (xy (fv2 f)) /\ d = face_dist f p /\ d < o_blur o)).
Proof. exact face_hit_iff. Qed.
Print Assumptions rasterize_meshes_hit_iff.

(* C22: no holes: a face in front of the camera hits every pixel whose centre it strictly contains *)
Theorem rasterize_meshes_no_holes : forall o f p,
  (o_cull o = true -> 0 <= face_area f) -> kEps < Rabs (face_area f) -> kEps <= fmin z3 f ->
  in_tri2_strict p (xy (fv0 f)) (xy (fv1 f)) (xy (fv2 f)) ->
  exists z d b, face_hit o f p = Some (z, (d, b)) /\ d <= 0.
Proof. exact face_covers_inside. Qed.
Print Assumptions rasterize_meshes_no_holes.
Example rasterize_meshes_no_holes_ex : exists z d b,
  face_hit (Ropts true true false 0) (Face (V3 0 0 1) (V3 1 0 2) (V3 0 1 3)) (V2 (1/4) (1/4)) = Some (z, (d, b)) /\ d <= 0.
Proof.
  assert (K := kEps_small). assert (K0 := kEps_pos). apply rasterize_meshes_no_holes.
  - discriminate.
  - unfold face_area, edge. cbn. unfold Rabs. destruct (Rcase_abs _); lra.
  - unfold fmin, min3. cbn. unfold Rmin. repeat destruct (Rle_dec _ _); lra.
  - exists (1/2), (1/4), (1/4). cbn. repeat split; lra.
Qed.

(* C22: with clipped faces a pixel never reports a face together with its clipped neighbour *)
Theorem rasterize_meshes_clipped_pairs : forall K hit nbr faces, NoDup faces ->
  (forall i j, In i faces -> In j faces -> nbr j = Z.of_nat i -> nbr i = Z.of_nat j) ->
  (forall i, In i faces -> nbr i <> Z.of_nat i) ->
  exists q, mesh_queue K (fun i => Ok (hit i)) (fun i => Ok (nbr i)) faces = Ok q /\
    (length q <= K)%nat /\
    (forall k l a b, (k < l)%nat -> nth_error q k = Some a -> nth_error q l = Some b -> fst a <= fst b) /\
    (forall e, In e q -> In (fe_idx e) faces /\ hit (fe_idx e) = Some (fst e, (fe_dist e, fe_bary e))) /\
    NoDup (map fe_idx q) /\
    (forall a b, In a q -> In b q -> nbr (fe_idx a) <> Z.of_nat (fe_idx b)).
Proof.
  intros K hit nbr faces ND Hs Hself. destruct (mesh_queue_inv K hit nbr faces ND Hs Hself) as [q [E [I1 I2 I3 I4 I5]]].
  exists q. split; [exact E|]. split; [exact I1|]. split; [|split; [|split; [exact I4|exact I5]]].
  - intros k l a b Hkl Ha Hb. assert (X := sorted_nth fentry_ltb q I2 k l a b Hkl Ha Hb).
    unfold le, fentry_ltb, lexb in X. apply Bool.orb_false_iff in X as [X _]. apply Rltb_false in X. lra.
  - intros e He. destruct (I3 e He) as [H1 [[z [d b]] [H2 H3]]]. split; [apply in_rev; assumption|].
    rewrite H2, H3. unfold fe_dist, fe_bary. destruct b. reflexivity.
Qed.
Print Assumptions rasterize_meshes_clipped_pairs.
Example rasterize_meshes_clipped_pairs_ex :
  (forall i j, In i [0; 2; 1]%nat -> In j [0; 2; 1]%nat -> nb_nbr j = Z.of_nat i -> nb_nbr i = Z.of_nat j) /\
  (forall i, In i [0; 2; 1]%nat -> nb_nbr i <> Z.of_nat i).
Proof.
  split.
  - intros i j Hi Hj; cbn in Hi, Hj; destruct Hi as [<-|[<-|[<-|[]]]]; destruct Hj as [<-|[<-|[<-|[]]]]; cbn; congruence.
  - intros i Hi; cbn in Hi; destruct Hi as [<-|[<-|[<-|[]]]]; cbn; discriminate.
Qed.

(* C22 does not extend to clipped faces: the order in which the faces are visited matters *)
Theorem rasterize_meshes_order_independent_clipped_refuted : ~ (forall K hit nbr faces faces',
  Permutation faces faces' -> NoDup faces ->
  (forall i j, In i faces -> In j faces -> nbr j = Z.of_nat i -> nbr i = Z.of_nat j) ->
  mesh_queue K (fun i => Ok (hit i)) (fun i => Ok (nbr i)) faces =
  mesh_queue K (fun i => Ok (hit i)) (fun i => Ok (nbr i)) faces').
Proof. exact mesh_order_nbr_refuted. Qed.
Print Assumptions rasterize_meshes_order_independent_clipped_refuted.

(* the CUDA kernels decide hits as the CPU code does *)
Theorem cuda_meshes_same_hits : forall o f p, face_hit_cuda o f p = face_hit o f p.
Proof. exact face_hit_cuda_eq. Qed.
Print Assumptions cuda_meshes_same_hits.

(* C22, CUDA: the depths reported are always the K smallest, in ascending order *)
Theorem cuda_meshes_smallest_depths : forall K hit nbr cand, (1 <= K)%nat ->
  (forall i z x, In i cand -> hit i = Some (z, x) -> 0 <= z) -> (forall i, In i cand -> nbr i = (-1)%Z) ->
  exists l, cuda_mesh_pixel K hit nbr cand = Ok l /\
    selects_smallest K (flat_map (fun i => match hit i with Some (z, y) => [(z, (i, y))] | None => [] end) cand)
      (map (fun e => (c_z e, (c_idx e, c_pay e))) l) /\
    ascending (map (fun e => (c_z e, (c_idx e, c_pay e))) l).
Proof. exact cuda_mesh_ok. Qed.
Print Assumptions cuda_meshes_smallest_depths.

(* C22, CUDA: with pairwise distinct depths the slots are the specified ones *)
Theorem cuda_meshes_topk : forall K hit nbr cand pad, (1 <= K)%nat -> NoDup cand ->
  (forall i z x, In i cand -> hit i = Some (z, x) -> 0 <= z) -> (forall i, In i cand -> nbr i = (-1)%Z) ->
  distinct_depths hit cand ->
  exists l, cuda_mesh_pixel K hit nbr cand = Ok l /\
    pixel_topk pad hit cand K (cuda_idx K l) (cuda_z K l) (fun k => nth k (cuda_pay K pad l) pad).
Proof.
  intros K hit nbr cand pad HK ND Hz Hn DD. destruct (cuda_mesh_ok K hit nbr cand HK Hz Hn) as (l & E & S & A).
  exists l. split; [exact E|]. apply cuda_rows, selects_selection; assumption.
Qed.
Print Assumptions cuda_meshes_topk.
Example cuda_meshes_topk_ex : distinct_depths nb_hit [0; 1; 2]%nat /\ forall i z x, nb_hit i = Some (z, x) -> 0 <= z.
Proof.
  split.
  - intros i j z x y Hi Hj; cbn in Hi, Hj; destruct Hi as [<-|[<-|[<-|[]]]]; destruct Hj as [<-|[<-|[<-|[]]]]; cbn; auto;
      intros H1 H2; injection H1; injection H2; intros; exfalso; lra.
  - intros [|[|[|i]]] z x H; cbn in H; try discriminate; injection H as <- <-; lra.
Qed.
(* with equal depths the CUDA kernel may drop the face of smaller index *)
Theorem cuda_meshes_topk_ties_refuted : ~ (forall K hit cand pad, (1 <= K)%nat -> NoDup cand ->
  (forall i z x, hit i = Some (z, x) -> 0 <= z) ->
  exists l, cuda_mesh_pixel K hit (fun _ => (-1)%Z) cand = Ok l /\
    pixel_topk pad hit cand K (cuda_idx K l) (cuda_z K l) (fun k => nth k (cuda_pay K pad l) pad)).
Proof. exact cuda_ties_refuted. Qed.
Print Assumptions cuda_meshes_topk_ties_refuted.
(* with clipped neighbours the CUDA kernel may report another face than the CPU code *)
Theorem cuda_meshes_clipped_agrees_refuted : ~ (forall K hit nbr faces, (1 <= K)%nat -> NoDup faces ->
  (forall i j, In i faces -> In j faces -> nbr j = Z.of_nat i -> nbr i = Z.of_nat j) ->
  (forall i z x, hit i = Some (z, x) -> 0 <= z) ->
  exists q l, mesh_queue K (fun i => Ok (hit i)) (fun i => Ok (nbr i)) faces = Ok q /\
    cuda_mesh_pixel K hit nbr faces = Ok l /\ map fe_idx q = map c_idx l).
Proof. exact cuda_cpu_nbr_refuted. Qed.
Print Assumptions cuda_meshes_clipped_agrees_refuted.

(* C23 *)
Theorem rasterize_points_topk : forall H W K pts clouds,
  (forall n s c, nth_error clouds n = Some (s, c) -> (s + c <= length pts)%nat) ->
  exists out, rasterize_points H W K pts clouds = Ok out /\ length out = length clouds /\
  forall n s c, nth_error clouds n = Some (s, c) -> exists img, nth_error out n = Some img /\ length img = H /\
  forall yi, (yi < H)%nat -> exists row, nth_error img yi = Some row /\ length row = W /\
  forall xi, (xi < W)%nat -> exists idx zs ds, nth_error row xi = Some (idx, zs, ds) /\ length ds = K /\
    pixel_topk (-1)
      (fun i => match nth_error pts i with Some q => point_hit (pix_center H W yi xi) q | None => None end)
      (seq s c) K idx zs (fun k => nth k ds (-1)).
Proof. exact rasterize_points_ok. Qed.
Print Assumptions rasterize_points_topk.
Example rasterize_points_topk_ex : exists out,
  rasterize_points 2 3 2 [Pt (V3 0 0 1) (1/2); Pt (V3 0 0 2) 1; Pt (V3 1 0 2) 1] [(0, 2); (2, 1)]%nat = Ok out /\ length out = 2%nat.
Proof.
  edestruct (rasterize_points_topk 2 3 2 [Pt (V3 0 0 1) (1/2); Pt (V3 0 0 2) 1; Pt (V3 1 0 2) 1] [(0, 2); (2, 1)]%nat)
    as [out [E [L _]]]; [|exists out; auto].
  intros [|[|n]] s c E; cbn in E; [injection E as <- <-; cbn; lia| injection E as <- <-; cbn; lia|destruct n; discriminate].
Qed.
(* a point hits the pixels whose centre is closer than its radius, with its own depth *)
Theorem rasterize_points_hit_iff : forall p q z d,
  point_hit p q = Some (z, d) <->
  z = z3 (pt_pos q) /\ 0 <= z /\ d = (x3 (pt_pos q) - x2 p) ^ 2 + (y3 (pt_pos q) - y2 p) ^ 2 /\ d < pt_radius q ^ 2.
Proof.
  intros p q z d. unfold point_hit.
  destruct (Rltb_spec (z3 (pt_pos q)) 0) as [H|H].
  - split; [discriminate|]. intros (-> & H1 & _). lra.
  - destruct (Rltb (_ + _) _) eqn:E.
    + apply Rltb_true in E. split.
      * intros [= <- <-]. repeat split; try lra; ring_simplify; lra.
      * intros (-> & _ & -> & _). f_equal. f_equal. ring.
    + apply Rltb_false in E. split; [discriminate|]. intros (_ & _ & -> & H1). lra.
Qed.
Print Assumptions rasterize_points_hit_iff.
Theorem cuda_points_topk : forall K hit cand pad, (1 <= K)%nat -> NoDup cand ->
  (forall i z x, In i cand -> hit i = Some (z, x) -> 0 <= z) -> distinct_depths hit cand ->
  exists l, cuda_point_pixel K hit cand = Ok l /\
    pixel_topk pad hit cand K (cuda_idx K l) (cuda_z K l) (fun k => nth k (cuda_pay K pad l) pad).
Proof.
  intros K hit cand pad HK ND Hz DD. destruct (cuda_point_ok K hit cand HK Hz) as (l & E & S & A).
  exists l. split; [exact E|]. apply cuda_rows, selects_selection; assumption.
Qed.
Print Assumptions cuda_points_topk.
(* the backward pass is the gradient with respect to every point *)
Theorem rasterize_points_backward : forall p (pts : nat -> vec3) row i,
  is_grad3 (fun v => points_loss p (fun j => if (j =? i)%nat then v else pts j) row) (pts i) (points_bwd_row p pts row i).
Proof. exact points_bwd_ok. Qed.
Print Assumptions rasterize_points_backward.

(* C24: a face that hits a pixel overlaps the bin of that pixel, for every image and bin size *)
Theorem coarse_bins_cover_faces : forall bs H W o f yo xo h, (0 < bs)%nat -> (yo < H)%nat -> (xo < W)%nat ->
  face_hit o f (pix_center H W yo xo) = Some h ->
  b_skip (tri_bbox (o_blur o) f) = false /\
  cuda_overlap (Z.of_nat bs) (Z.of_nat H) (Z.of_nat W) (tri_bbox (o_blur o) f)
    (Z.of_nat ((H - 1 - yo) / bs)) (Z.of_nat ((W - 1 - xo) / bs)) = true.
Proof.
  intros bs H W o f yo xo h Hb Hy Hx Hh. destruct (face_hit_bbox _ _ _ _ Hh) as [B1 [B2 B3]]. split; [exact B1|].
  rewrite !Nat2Z.inj_div, !Nat2Z.inj_sub by lia. eapply overlap_covers; [lia|lia|lia| | |exact B2|exact B3]; reflexivity.
Qed.
Print Assumptions coarse_bins_cover_faces.
Theorem coarse_bins_cover_points : forall bs H W q yo xo h, (0 < bs)%nat -> (yo < H)%nat -> (xo < W)%nat -> 0 <= pt_radius q ->
  point_hit (pix_center H W yo xo) q = Some h ->
  b_skip (point_bbox q) = false /\
  cuda_overlap (Z.of_nat bs) (Z.of_nat H) (Z.of_nat W) (point_bbox q)
    (Z.of_nat ((H - 1 - yo) / bs)) (Z.of_nat ((W - 1 - xo) / bs)) = true.
Proof.
  intros bs H W q yo xo h Hb Hy Hx Hr Hh. destruct (point_hit_bbox _ _ _ Hr Hh) as [B1 [B2 B3]]. split; [exact B1|].
  rewrite !Nat2Z.inj_div, !Nat2Z.inj_sub by lia. eapply overlap_covers; [lia|lia|lia| | |exact B2|exact B3]; reflexivity.
Qed.
Print Assumptions coarse_bins_cover_points.

(* C24: absent overflow the coarse-to-fine pipeline, chunks in launch order, equals the naive kernel *)
Theorem coarse_to_fine_meshes : forall bs H W M E cs K o (face : nat -> face) nbr start count yo xo,
  (0 < bs)%nat -> (0 < cs)%nat -> (yo < H)%nat -> (xo < W)%nat -> (start + count <= E)%nat ->
  (length (listed (Z.of_nat bs) (Z.of_nat H) (Z.of_nat W) (fun i => tri_bbox (o_blur o) (face i)) start (start + count)
     (Z.of_nat ((H - 1 - yo) / bs)) (Z.of_nat ((W - 1 - xo) / bs))) <= M)%nat ->
  exists c, fine_bin bs H W M E cs (fun i => tri_bbox (o_blur o) (face i)) start (start + count) (seq 0 (num_chunks E cs)) yo xo = Ok c /\
    cuda_mesh_pixel K (fun i => face_hit_cuda o (face i) (pix_center H W yo xo)) nbr c =
    cuda_mesh_pixel K (fun i => face_hit_cuda o (face i) (pix_center H W yo xo)) nbr (seq start count).
Proof.
  intros bs H W M E cs K o face nbr start count yo xo Hb Hc Hy Hx HE HM.
  apply (fine_mesh_naive bs H W M E cs K _ start count yo xo Hb Hc Hy Hx HE _ nbr); [|exact HM].
  intros i h _ Hh. rewrite face_hit_cuda_eq in Hh. exact (face_hit_bbox _ _ _ _ Hh).
Qed.
Print Assumptions coarse_to_fine_meshes.
(* ... and for every order in which the blocks reach the bin when the depths are distinct *)
Theorem coarse_to_fine_meshes_any_schedule : forall bs H W M E cs K o (face : nat -> face) nbr start count yo xo order,
  (0 < bs)%nat -> (0 < cs)%nat -> (yo < H)%nat -> (xo < W)%nat -> (start + count <= E)%nat -> (1 <= K)%nat ->
  (forall i, In i (seq start count) -> nbr i = (-1)%Z) ->
  distinct_depths (fun i => face_hit_cuda o (face i) (pix_center H W yo xo)) (seq start count) ->
  (length (listed (Z.of_nat bs) (Z.of_nat H) (Z.of_nat W) (fun i => tri_bbox (o_blur o) (face i)) start (start + count)
     (Z.of_nat ((H - 1 - yo) / bs)) (Z.of_nat ((W - 1 - xo) / bs))) <= M)%nat ->
  Permutation order (seq 0 (num_chunks E cs)) ->
  exists c, fine_bin bs H W M E cs (fun i => tri_bbox (o_blur o) (face i)) start (start + count) order yo xo = Ok c /\
    cuda_mesh_pixel K (fun i => face_hit_cuda o (face i) (pix_center H W yo xo)) nbr c =
    cuda_mesh_pixel K (fun i => face_hit_cuda o (face i) (pix_center H W yo xo)) nbr (seq start count).
Proof.
  intros bs H W M E cs K o face nbr start count yo xo order Hb Hc Hy Hx HE HK Hn DD HM HP.
  apply (fine_mesh_any bs H W M E cs K _ start count yo xo Hb Hc Hy Hx HE _ nbr order HK); auto.
  - intros i h _ Hh. rewrite face_hit_cuda_eq in Hh. exact (face_hit_bbox _ _ _ _ Hh).
  - intros i z x _ Hh. rewrite face_hit_cuda_eq in Hh. exact (face_hit_depth _ _ _ _ _ Hh).
Qed.
Print Assumptions coarse_to_fine_meshes_any_schedule.
Theorem coarse_to_fine_points : forall bs H W M E cs K (pt : nat -> point) start count yo xo,
  (0 < bs)%nat -> (0 < cs)%nat -> (yo < H)%nat -> (xo < W)%nat -> (start + count <= E)%nat ->
  (forall i, 0 <= pt_radius (pt i)) ->
  (length (listed (Z.of_nat bs) (Z.of_nat H) (Z.of_nat W) (fun i => point_bbox (pt i)) start (start + count)
     (Z.of_nat ((H - 1 - yo) / bs)) (Z.of_nat ((W - 1 - xo) / bs))) <= M)%nat ->
  exists c, fine_bin bs H W M E cs (fun i => point_bbox (pt i)) start (start + count) (seq 0 (num_chunks E cs)) yo xo = Ok c /\
    cuda_point_pixel K (fun i => point_hit (pix_center H W yo xo) (pt i)) c =
    cuda_point_pixel K (fun i => point_hit (pix_center H W yo xo) (pt i)) (seq start count).
Proof.
  intros bs H W M E cs K pt start count yo xo Hb Hc Hy Hx HE Hr HM.
  apply (fine_point_naive bs H W M E cs K _ start count yo xo Hb Hc Hy Hx HE); [|exact HM].
  intros i h _ Hh. exact (point_hit_bbox _ _ _ (Hr i) Hh).
Qed.
Print Assumptions coarse_to_fine_points.
Theorem coarse_to_fine_points_any_schedule : forall bs H W M E cs K (pt : nat -> point) start count yo xo order,
  (0 < bs)%nat -> (0 < cs)%nat -> (yo < H)%nat -> (xo < W)%nat -> (start + count <= E)%nat -> (1 <= K)%nat ->
  (forall i, 0 <= pt_radius (pt i)) ->
  distinct_depths (fun i => point_hit (pix_center H W yo xo) (pt i)) (seq start count) ->
  (length (listed (Z.of_nat bs) (Z.of_nat H) (Z.of_nat W) (fun i => point_bbox (pt i)) start (start + count)
     (Z.of_nat ((H - 1 - yo) / bs)) (Z.of_nat ((W - 1 - xo) / bs))) <= M)%nat ->
  Permutation order (seq 0 (num_chunks E cs)) ->
  exists c, fine_bin bs H W M E cs (fun i => point_bbox (pt i)) start (start + count) order yo xo = Ok c /\
    cuda_point_pixel K (fun i => point_hit (pix_center H W yo xo) (pt i)) c =
    cuda_point_pixel K (fun i => point_hit (pix_center H W yo xo) (pt i)) (seq start count).
Proof.
  intros bs H W M E cs K pt start count yo xo order Hb Hc Hy Hx HE HK Hr DD HM HP.
  apply (fine_point_any bs H W M E cs K _ start count yo xo Hb Hc Hy Hx HE _ order HK); auto.
  - intros i h _ Hh. exact (point_hit_bbox _ _ _ (Hr i) Hh).
  - intros i z x _ Hh. exact (point_hit_depth _ _ _ _ Hh).
Qed.
Print Assumptions coarse_to_fine_points_any_schedule.
(* the hypothesis "no overflow" is met: a bin never lists more than all the primitives *)
Example coarse_no_overflow_ex : forall bs H W bb start count by_ bx,
  (length (listed bs H W bb start (start + count) by_ bx) <= count)%nat.
Proof.
  intros. unfold listed. replace (start + count - start)%nat with count by lia.
  rewrite <- (seq_length count start) at 2. generalize (seq start count). intros l.
  induction l as [|a l IH]; cbn; [lia|]. destruct (_ && _); cbn; lia.
Qed.
(* whatever the schedule and even on overflow: the bin is written within its M cells and lists only
   primitives of this batch element that overlap the bin, none twice *)
Theorem coarse_bins_safe : forall bs H W M E cs bboxes start stop order yo xo, (0 < cs)%nat ->
  (start <= stop <= E)%nat -> Permutation order (seq 0 (num_chunks E cs)) ->
  exists c, fine_bin bs H W M E cs bboxes start stop order yo xo = Ok c /\
    (length c <= M)%nat /\ NoDup c /\
    forall i, In i c -> (start <= i < stop)%nat /\ b_skip (bboxes i) = false /\
      cuda_overlap (Z.of_nat bs) (Z.of_nat H) (Z.of_nat W) (bboxes i) (Z.of_nat ((H - 1 - yo) / bs)) (Z.of_nat ((W - 1 - xo) / bs)) = true.
Proof.
  intros bs H W M E cs bboxes start stop order yo xo Hc HE HP.
  destruct (fine_bin_ok bs H W M E cs bboxes start stop order yo xo Hc HE HP) as (c & E1 & HL & Hin & ND & _).
  exists c. split; [exact E1|]. split; [exact HL|]. split; [exact ND|]. intros i Hi. apply Hin in Hi.
  apply filter_In in Hi as [Hi Hf]. apply in_seq in Hi. apply Bool.andb_true_iff in Hf as [H1 H2].
  split; [lia|]. split; [|exact H2]. destruct (b_skip (bboxes i)); [discriminate|reflexivity].
Qed.
Print Assumptions coarse_bins_safe.
(* every pixel of every image is handled by exactly one thread of the fine kernel, in its own bin *)
Theorem fine_kernel_covers_pixels : forall N H W bs, (0 < bs)%nat ->
  forall n yi xi, (n < N)%nat -> (yi < H)%nat -> (xi < W)%nat ->
  exists! pid, (pid < N * num_bins H bs * num_bins W bs * bs * bs)%nat /\
    fine_decode (num_bins H bs) (num_bins W bs) bs pid = (n, ((yi / bs)%nat, (xi / bs)%nat), (yi, xi)).
Proof. exact fine_threads. Qed.
Print Assumptions fine_kernel_covers_pixels.

(* C24, CPU coarse stage: correct on square images, and fails exactly on overflow *)
Theorem cpu_coarse_square : forall bs S bb by_ bx, (0 < S)%Z ->
  cpu_overlap bs S S bb by_ bx = cuda_overlap bs S S bb (Z.of_nat by_) (Z.of_nat bx).
Proof. exact cpu_overlap_square. Qed.
Print Assumptions cpu_coarse_square.
Theorem cpu_coarse_lists_overlaps : forall bs H W M bboxes start count by_ bx,
  let L := filter (fun f => negb (b_skip (bboxes f)) && cpu_overlap bs H W (bboxes f) by_ bx) (seq start count) in
  cpu_bin bs H W M bboxes start count by_ bx = if (length L <=? M)%nat then Ok L else Fail ERuntime.
Proof. exact cpu_bin_ok. Qed.
Print Assumptions cpu_coarse_lists_overlaps.
Theorem cpu_coarse_nonsquare_refuted : ~ (forall bs H W p yo xo h, (0 < bs)%nat -> (yo < H)%nat -> (xo < W)%nat -> 0 <= pt_radius p ->
  point_hit (pix_center H W yo xo) p = Some h ->
  cpu_overlap (Z.of_nat bs) (Z.of_nat H) (Z.of_nat W) (point_bbox p) ((H - 1 - yo) / bs) ((W - 1 - xo) / bs) = true).
Proof. exact cpu_coarse_refuted. Qed.
Print Assumptions cpu_coarse_nonsquare_refuted.
