(* C74: ray bundles from cameras. *)
From Verif Require Import Base Packing.
From Verif Require Import RBase Geom LinAlg Transform TransformSpec Camera CameraSpec Implicit ImplicitSpec Rays RaysSpec.
From Verif Require RaysProofs3 RaysProofs4 RaysProofs5 RaysProofs6 RaysProofs7.
From Coq Require Import Sorted.
Local Open Scope R_scope.

(* Every ray of camera i through image location p starts at the camera's centre (perspective cameras), all its
   points are seen at p, and its unnormalised parameter is the depth. *)
Theorem rays_see_their_pixels : forall unit lo hi npts jitter cs xys, good_cameras cs -> length xys = cs_n cs ->
  exists B, xy_to_ray_bundle unit lo hi npts jitter cs xys = Ok B /\ map (map xy) B = xys /\
  forall i row, nth_error B i = Some row -> Forall (ray_of unit cs i) row /\
    forall j ry, nth_error row j = Some ry -> lengths ry = ray_depths lo hi npts (option_map (fun f => f i j) jitter).
Proof.
  intros unit lo hi npts jitter cs xys G L. destruct (RaysProofs7.good_bundle unit lo hi npts jitter cs xys G L) as (B & E).
  exists B. split; [exact E|]. exact (RaysProofs5.bundle_good unit lo hi npts jitter cs xys B G L E).
Qed.
Print Assumptions rays_see_their_pixels.
Example rays_ex : good_cameras RaysProofs7.two_cameras /\ length [[(0, 0); (1, / 2)]; [(/ 3, 1)]] = cs_n RaysProofs7.two_cameras.
Proof. split; [exact RaysProofs7.two_cameras_good|reflexivity]. Qed.

(* the same through the API: projecting any point of a ray gives the ray's image location *)
Theorem rays_project_to_their_pixels : forall lo hi npts jitter cs xys B i j row ry o d z pts m oq res,
  cams_wf cs -> cs_K cs = None -> (forall c, In c (cs_int cs) -> regular c) ->
  xy_to_ray_bundle false lo hi npts jitter cs xys = Ok B ->
  nth_error B i = Some row -> nth_error row j = Some ry -> origin ry = Some o -> direction ry = Some d -> z <> 0 ->
  entry pts i m = Some (along o d z) -> snd (project_ndc None no_kw cs pts) = Ok oq -> entry oq i m = Some res ->
  exists q, res = Some q /\ x3 q = fst (xy ry) /\ y3 q = snd (xy ry).
Proof. exact RaysProofs3.rays_project_back. Qed.
Print Assumptions rays_project_to_their_pixels.

(* unit_directions: the same line, parametrised by distance *)
Theorem unit_rays_measure_distance : forall cs i p o d, ray_through cs i p o d -> (forall r, In r (cs_R cs) -> orthogonal r) ->
  norm3 (normalize d) = 1 /\
  exists c r t s, ndc_camera cs i c r t /\ 0 < s <= 1 /\
    forall z, z3 (view_of r t (along o (normalize d) z)) = s * z /\
      ((perspective c -> z <> 0) -> seen_at c (view_of r t (along o (normalize d) z)) p) /\
      norm3 (vsub (along o (normalize d) z) o) = Rabs z.
Proof. exact RaysProofs4.unit_ray. Qed.
Print Assumptions unit_rays_measure_distance.
Example unit_ex : forall r, In r (cs_R RaysProofs7.two_cameras) -> orthogonal r.
Proof. exact RaysProofs7.two_cameras_orthogonal. Qed.

(* NDCMultinomialRaysampler: grid entry (i, j) is the centre of pixel (i, j) *)
Theorem ndc_grid_is_pixel_centres : forall h w lim i j z, ndc_limits h w = Ok lim -> (i < h)%nat -> (j < w)%nat ->
  let '(a, b, c, d) := lim in
  exists p, nth_error (xy_grid a b c d h w) (i * w + j) = Some p /\
    to_pixel (INR h, INR w) (V3 (fst p) (snd p) z) = V3 (INR j + / 2) (INR i + / 2) z.
Proof. exact RaysProofs4.ndc_grid_pixels. Qed.
Print Assumptions ndc_grid_is_pixel_centres.
Example grid_ex : exists lim, ndc_limits 2 3 = Ok lim.
Proof. eexists. reflexivity. Qed.

(* the sampler: full grid, n per image, or as many as the emptiest mask *)
Theorem sampler_full_grid : forall mult sm kw ids jitter cs, torch_multinomial mult -> good_cameras cs -> f_mask kw = None ->
  por (f_per_image kw) (s_per_image sm) = None -> por (f_total kw) (s_total sm) = None ->
  exists B, multinomial_forward mult sm kw ids jitter cs = Ok (Regular B) /\
    map (map xy) B = repeat (s_xy sm) (cs_n cs) /\
    forall i row, nth_error B i = Some row -> Forall (ray_of (s_unit sm) cs i) row.
Proof.
  intros mult sm kw ids jitter cs Hm G M P T. destruct (RaysProofs7.grid_defined mult sm kw ids jitter cs G M P T) as (B & E).
  exists B. split; [exact E|]. destruct (RaysProofs5.forward_regular mult Hm sm kw ids jitter cs B G E) as (_ & F1 & F2).
  rewrite M, P in F2. auto.
Qed.
Print Assumptions sampler_full_grid.
Theorem sampler_per_image : forall mult sm kw ids jitter cs n B, torch_multinomial mult -> good_cameras cs ->
  por (f_per_image kw) (s_per_image sm) = Some n -> multinomial_forward mult sm kw ids jitter cs = Ok (Regular B) ->
  length B = cs_n cs /\
  (forall i row, nth_error B i = Some row -> Forall (ray_of (s_unit sm) cs i) row) /\
  match f_mask kw with
  | None => Forall (fun row => drawn_from (s_xy sm) (repeat 1 (length (s_xy sm))) n (map xy row)) B
  | Some m => Forall2 (fun w row => drawn_from (s_xy sm) w n (map xy row)) m B
  end.
Proof.
  intros mult sm kw ids jitter cs n B Hm G P E. destruct (RaysProofs5.forward_regular mult Hm sm kw ids jitter cs B G E) as (F0 & F1 & F2).
  rewrite P in F2. split; [exact F0|]. split; [exact F1|]. destruct (f_mask kw); exact F2.
Qed.
Print Assumptions sampler_per_image.
(* with masks in [0, 1] and no count, no pixel is drawn twice and none outside the mask *)
Theorem sampler_mask_only : forall mult sm kw ids jitter cs m B, torch_multinomial mult -> good_cameras cs ->
  f_mask kw = Some m -> por (f_per_image kw) (s_per_image sm) = None ->
  Forall (Forall (fun x => 0 <= x <= 1)) m ->
  multinomial_forward mult sm kw ids jitter cs = Ok (Regular B) ->
  length B = cs_n cs /\
  (forall i row, nth_error B i = Some row -> Forall (ray_of (s_unit sm) cs i) row) /\
  exists n, smallest_mask m n /\
    Forall2 (fun w row => exists idx, length idx = n /\ NoDup idx /\ map (nth_error (s_xy sm)) idx = map Some (map xy row) /\
                            Forall (fun i => 0 < nth i w 0) idx) m B.
Proof.
  intros mult sm kw ids jitter cs m B Hm G M P U E. destruct (RaysProofs5.forward_regular mult Hm sm kw ids jitter cs B G E) as (F0 & F1 & F2).
  rewrite M, P in F2. destruct F2 as (n & Hn & F2). split; [exact F0|]. split; [exact F1|]. exists n.
  assert (S0 : smallest_mask m n). { apply RaysProofs5.mask_rays_spec; [exact Hn|]. intros w Hw. apply RaysProofs5.rsum_pos. rewrite Forall_forall in U. apply U, Hw. }
  split; [exact S0|]. destruct S0 as (S1 & _).
  assert (C : forall w, In w m -> (n <= positives w)%nat).
  { intros w Hw. apply INR_le. apply Rle_trans with (rsum w); [apply S1, Hw|]. apply RaysProofs5.rsum_positives. rewrite Forall_forall in U. apply U, Hw. }
  clear - F2 C. induction F2 as [|w row m B (idx & D1 & D2 & D3 & D4) F IH]; constructor.
  - exists idx. split; [exact D1|]. split; [apply D4, C; left; reflexivity|]. auto.
  - apply IH. intros w' Hw'. apply C. right; exact Hw'.
Qed.
Print Assumptions sampler_mask_only.
Example mask_ex : smallest_mask [[1; 0; / 2; / 2; / 4]; [1; 1; 1; 1; 0]] 2 /\ torch_multinomial RaysProofs7.some_multinomial.
Proof.
  split; [|exact RaysProofs7.multinomial_exists]. split.
  - intros w [<-|[<-|[]]]; cbn; lra.
  - exists [1; 0; / 2; / 2; / 4]. split; [left; reflexivity|]. cbn; lra.
Qed.

(* n_rays_total: exactly n rays, grouped by camera in increasing order, as many for a camera as it was drawn *)
Theorem sampler_total : forall mult sm kw ids jitter cs n rays cids counts, torch_multinomial mult -> good_cameras cs ->
  por (f_total kw) (s_total sm) = Some n -> length (ids n) = n -> Forall (fun z => (0 <= z)%Z) (ids n) ->
  multinomial_forward mult sm kw ids jitter cs = Ok (Packed rays cids counts) ->
  length rays = n /\ StronglySorted Z.lt cids /\ (forall z, In z cids <-> In z (ids n)) /\
  counts = map (count_occ Z.eq_dec (ids n)) cids /\
  exists rows, rays = concat rows /\ length rows = length cids /\
  forall k z row, nth_error cids k = Some z -> nth_error rows k = Some row ->
    nth_error counts k = Some (length row) /\ (Z.to_nat z < cs_n cs)%nat /\ Forall (ray_of (s_unit sm) cs (Z.to_nat z)) row /\
    Forall (fun ry => exists p, nth_error (s_xy sm) p = Some (xy ry) /\
              match f_mask kw with Some m => exists w, nth_error m (Z.to_nat z) = Some w /\ 0 < nth p w 0 | None => True end) row.
Proof. intros mult sm kw ids jitter cs n rays cids counts Hm. exact (RaysProofs6.forward_packed mult Hm sm kw ids jitter cs n rays cids counts). Qed.
Print Assumptions sampler_total.
Theorem sampler_counts_exclusive : forall mult sm kw ids jitter cs a b,
  por (f_per_image kw) (s_per_image sm) = Some a -> por (f_total kw) (s_total sm) = Some b ->
  multinomial_forward mult sm kw ids jitter cs = Fail EValue.
Proof. exact RaysProofs7.counts_refused. Qed.
Print Assumptions sampler_counts_exclusive.
(* finding: more rays than pixels is an error, although drawing with replacement would do (and is what
   happens when a mask has too few pixels) *)
Theorem sampler_replaces_when_short_refuted : forall mult sm kw ids jitter cs n, torch_multinomial mult ->
  por (f_per_image kw) (s_per_image sm) = Some n -> (length (s_xy sm) < n)%nat ->
  exists e, multinomial_forward mult sm kw ids jitter cs = Fail e.
Proof. exact RaysProofs7.too_many_rays. Qed.
Print Assumptions sampler_replaces_when_short_refuted.

(* MonteCarloRaysampler *)
Theorem monte_carlo_per_image : forall min_x max_x min_y max_y per_image total unit lo hi npts ids rnd jitter cs B, good_cameras cs ->
  min_x <= max_x -> min_y <= max_y -> (forall b j, 0 <= fst (rnd b j) <= 1 /\ 0 <= snd (rnd b j) <= 1) ->
  monte_carlo_forward min_x max_x min_y max_y per_image total unit lo hi npts ids rnd jitter cs = Ok (Regular B) ->
  exists n, per_image = Some n /\ length B = cs_n cs /\
    forall i row, nth_error B i = Some row -> length row = n /\
      Forall (fun ry => in_window min_x max_x min_y max_y (xy ry) /\ ray_of unit cs i ry) row.
Proof. exact RaysProofs6.monte_regular. Qed.
Print Assumptions monte_carlo_per_image.
Theorem monte_carlo_total : forall min_x max_x min_y max_y per_image total unit lo hi npts ids rnd jitter cs rays cids counts, good_cameras cs ->
  min_x <= max_x -> min_y <= max_y -> (forall b j, 0 <= fst (rnd b j) <= 1 /\ 0 <= snd (rnd b j) <= 1) ->
  (forall n, length (ids n) = n /\ Forall (fun z => (0 <= z)%Z) (ids n)) ->
  monte_carlo_forward min_x max_x min_y max_y per_image total unit lo hi npts ids rnd jitter cs = Ok (Packed rays cids counts) ->
  exists n, total = Some n /\ length rays = n /\ StronglySorted Z.lt cids /\ (forall z, In z cids <-> In z (ids n)) /\
  counts = map (count_occ Z.eq_dec (ids n)) cids /\
  exists rows, rays = concat rows /\ length rows = length cids /\
  forall k z row, nth_error cids k = Some z -> nth_error rows k = Some row ->
    nth_error counts k = Some (length row) /\ (Z.to_nat z < cs_n cs)%nat /\
    Forall (fun ry => in_window min_x max_x min_y max_y (xy ry) /\ ray_of unit cs (Z.to_nat z) ry) row.
Proof. exact RaysProofs6.monte_packed. Qed.
Print Assumptions monte_carlo_total.
Theorem monte_carlo_total_succeeds : forall min_x max_x min_y max_y t unit lo hi npts ids rnd jitter cs, good_cameras cs ->
  ids (S t) <> [] -> Forall (fun z => (0 <= z < Z.of_nat (cs_n cs))%Z) (ids (S t)) ->
  exists rays cids counts, monte_carlo_forward min_x max_x min_y max_y None (Some (S t)) unit lo hi npts ids rnd jitter cs = Ok (Packed rays cids counts).
Proof. exact RaysProofs7.monte_total_defined. Qed.
Print Assumptions monte_carlo_total_succeeds.
Theorem monte_carlo_counts_exclusive : forall min_x max_x min_y max_y per_image total unit lo hi npts ids rnd jitter cs,
  (per_image = None <-> total = None) ->
  monte_carlo_forward min_x max_x min_y max_y per_image total unit lo hi npts ids rnd jitter cs = Fail EValue.
Proof.
  intros min_x max_x min_y max_y [a|] [b|] unit lo hi npts ids rnd jitter cs (H1 & H2); try reflexivity.
  - specialize (H2 eq_refl). discriminate.
  - specialize (H1 eq_refl). discriminate.
Qed.
Print Assumptions monte_carlo_counts_exclusive.
Example total_ex : exists rays cids counts,
  monte_carlo_forward (-1) 1 (-1) 1 None (Some 3%nat) true 1 5 4 (fun n => repeat 1%Z n) (fun b j => (/ 2, / 3)) None RaysProofs7.two_cameras
    = Ok (Packed rays cids counts).
Proof.
  apply RaysProofs7.monte_total_defined; [exact RaysProofs7.two_cameras_good|discriminate|].
  repeat constructor; cbn; lia.
Qed.
