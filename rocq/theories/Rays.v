(* Model of the ray samplers: renderer/implicit/raysampling.py (MultinomialRaysampler,
   NDCMultinomialRaysampler, MonteCarloRaysampler and their helpers) and renderer/implicit/utils.py
   (ray_bundle_to_ray_points). Exact reals. Tensors over (batch, spatial...) are lists (one entry per
   camera) of lists (the spatial dimensions flattened row by row); a point that the unprojection sends to
   infinity is None. Random draws are arguments: every theorem holds for all of their values. *)
From Verif Require Import Base Packing RBase Geom LinAlg Transform Camera Implicit.
From Verif Require Meshes.
From Coq Require Import R_Ifp.
Local Open Scope R_scope.

(* RayBundle, implicit/utils.py:18-37, one ray *)
Record ray := Ray { origin : option vec3; direction : option vec3; lengths : list R; xy : R * R }.

(* F.normalize(v, dim=-1), default eps 1e-12 *)
Definition normalize (v : vec3) : vec3 :=
  let n := Rmax (norm3 v) (/ 10 ^ 12) in V3 (x3 v / n) (y3 v / n) (z3 v / n).
Definition vsub (a b : vec3) : vec3 := V3 (x3 a - x3 b) (y3 a - y3 b) (z3 a - z3 b).
Definition lift2 (f : vec3 -> vec3 -> vec3) (a b : option vec3) : option vec3 :=
  match a, b with Some a, Some b => Some (f a b) | _, _ => None end.

(* raysampling.py:674-692: the rays of camera b from its xy locations l and the unprojected row *)
Definition rays_of (unit : bool) (lo hi : R) (npts : nat) (jitter : option (nat -> nat -> list R))
    (b : nat) (l : list (R * R)) (row : list (option vec3)) : list ray :=
  let plane1 := firstn (length l) row in
  let plane2 := skipn (length l) row in
  map (fun e => let '(j, p, p1, p2) := e in
         let dir := lift2 vsub p2 p1 in
         let org := lift2 vsub p1 dir in
         Ray org (if unit then option_map normalize dir else dir)
             (ray_depths lo hi npts (option_map (fun f => f b j) jitter)) p)
    (combine (combine (combine (seq 0 (length l)) l) plane1) plane2).
(* _xy_to_ray_bundle, 607-692. A batch of unprojected points that does not have the batch size of the
   grid fails in the final view (684-687). *)
Definition xy_to_ray_bundle (unit : bool) (lo hi : R) (npts : nat) (jitter : option (nat -> nat -> list R))
    (cs : cameras) (xys : list (list (R * R))) : result (list (list ray)) :=
  let plane d := map (fun p : R * R => V3 (fst p) (snd p) d) in
  u <- snd (unproject true false true no_kw cs (P3 (map (fun l => plane 1 l ++ plane 2 l) xys))) ;;
  let rows := match u with P2 l => [l] | P3 l => l end in
  if negb (length rows =? length xys)%nat then Fail ERuntime
  else Ok (map (fun e => let '(b, l, row) := e in rays_of unit lo hi npts jitter b l row)
             (combine (combine (seq 0 (length xys)) xys) rows)).

(* ray_bundle_variables_to_ray_points, implicit/utils.py:132-136: the points of one ray *)
Definition ray_points (o d : vec3) (zs : list R) : list vec3 :=
  map (fun z => V3 (x3 o + z * x3 d) (y3 o + z * y3 d) (z3 o + z * z3 d)) zs.

(* ---- the pixel grid ---- *)
(* MultinomialRaysampler.__init__, 122-127: row by row, (x, y) *)
Definition xy_grid (min_x max_x min_y max_y : R) (h w : nat) : list (R * R) :=
  flat_map (fun y => map (fun x => (x, y)) (linspace min_x max_x w)) (linspace min_y max_y h).
(* NDCMultinomialRaysampler.__init__, 305-318: min_x, max_x, min_y, max_y; a size of zero divides by zero *)
Definition ndc_limits (h w : nat) : result (R * R * R * R) :=
  if ((h =? 0) || (w =? 0))%nat then Fail EValue
  else
    let range_x := if (h <=? w)%nat then INR w / INR h else 1 in
    let range_y := if (h <=? w)%nat then 1 else INR h / INR w in
    let hx := range_x / INR w in
    let hy := range_y / INR h in
    Ok (range_x - hx, - range_x + hx, range_y - hy, - range_y + hy).

(* ---- random choice of pixels ---- *)
Section Draws.
(* torch.multinomial: call number, replacement, number of categories, weights, number of samples *)
Variable multinomial : nat -> bool -> nat -> list (list R) -> nat -> result (list (list nat)).

Definition positives (row : list R) : nat := length (filter (fun x => Rltb 0 x) row).
Definition select {A} (m : list bool) (l : list A) : list A := map snd (filter fst (combine m l)).
(* res[mask] = rows *)
Fixpoint assign {A} (m : list bool) (res rows : list A) : result (list A) :=
  match m, res with
  | [], [] => match rows with [] => Ok [] | _ => Fail ERuntime end
  | true :: m, _ :: res => match rows with r :: rows => o <- assign m res rows ;; Ok (r :: o) | [] => Fail ERuntime end
  | false :: m, x :: res => o <- assign m res rows ;; Ok (x :: o)
  | _, _ => Fail ERuntime
  end.
(* _safe_multinomial, 564-604 *)
Definition safe_multinomial (cols : nat) (input : list (list R)) (n : nat) : result (list (list nat)) :=
  match multinomial 0 false cols input n with
  | Fail ERuntime =>                                              (* 589-595 *)
      res <- multinomial 1 true cols input n ;;
      let no_repl := map (fun row => (n <=? positives row)%nat) input in
      sub <- multinomial 2 false cols (select no_repl input) n ;;
      assign no_repl res sub
  | Fail e => Fail e
  | Ok res =>                                                     (* 597-604 *)
      let repl := map (fun row => (positives row <? n)%nat) input in
      if existsb (fun b => b) repl
      then sub <- multinomial 3 true cols (select repl input) n ;; assign repl res sub
      else Ok res
  end.

(* ---- choice of cameras ---- *)
(* _sample_cameras_and_masks, 752-766, for the drawn camera numbers ids *)
Definition sample_cameras (ids : list Z) (cs : cameras) (mask : option (list (list R)))
  : result (cameras * option (list (list R)) * list Z * list nat * nat) :=
  let u := Meshes.unique ids in
  let counts := map (fun i => length (filter (Z.eqb i) ids)) u in
  c <- cams_getitem cs (CxList u) ;;
  m <- take_opt mask (IxList u) ;;
  Ok (c, m, u, counts, max_nat counts).
(* _pack_ray_bundle, 770-810: the four tensors are packed with the same indices, so rays are packed whole *)
Definition no_ray : ray := Ray None None [] (0, 0).
Definition pack_rays (b : list (list ray)) (counts : list nat) : result (list ray) :=
  padded_to_packed_cpu no_ray b (removelast (0%nat :: cumsum counts)) (sum_nat counts).

Inductive bundle :=
  | Regular (rays : list (list ray))                                            (* RayBundle *)
  | Packed (rays : list ray) (camera_ids : list Z) (camera_counts : list nat).  (* HeterogeneousRayBundle *)
Definition finish (b : list (list ray)) (ids : list Z) (counts : list nat) (total : option nat) : result bundle :=
  match total with
  | Some (S _) => r <- pack_rays b counts ;; Ok (Packed r ids counts)
  | _ => Ok (Regular b)
  end.

(* ---- MultinomialRaysampler ---- *)
Record sampler := Sampler {
  s_xy : list (R * R); s_npts : nat; s_min : R; s_max : R;
  s_per_image : option nat; s_total : option nat; s_unit : bool }.
(* Python's `a or b` on optional numbers *)
Definition por (a b : option nat) : option nat := match a with Some (S n) => Some (S n) | _ => b end.
(* the keyword arguments of forward; the overrides of min_depth, max_depth, n_pts_per_ray (249-258) *)
Record fwd := Fwd { f_mask : option (list (list R)); f_min : option R; f_max : option R;
                    f_per_image : option nat; f_npts : option nat; f_total : option nat }.
Definition default {A} (o : option A) (d : A) : A := match o with Some x => x | None => d end.
(* mask.sum(dim=(1, 2)).min().int(): masks are non-negative, so truncation is the floor *)
Definition mask_rays (m : list (list R)) : result nat :=
  s <- rmin_list (map rsum m) ;; Ok (Z.to_nat (Int_part s)).
(* MultinomialRaysampler.forward, 188-279. ids are the camera numbers drawn by randint when n_rays_total
   is set, jitter the draws of the stratified sampling (None when it is off). *)
Definition multinomial_forward (sm : sampler) (kw : fwd) (ids : nat -> list Z)
    (jitter : option (nat -> nat -> list R)) (cs : cameras) : result bundle :=
  let total := por (f_total kw) (s_total sm) in
  let per_image := por (f_per_image kw) (s_per_image sm) in
  if match total, per_image with Some _, Some _ => true | _, _ => false end then Fail EValue
  else
    st <- match total with
          | Some (S n) =>
              x <- sample_cameras (ids (S n)) cs (f_mask kw) ;;
              let '(c, m, u, counts, k) := x in Ok (c, m, u, counts, Some k)
          | _ => Ok (cs, f_mask kw, map Z.of_nat (seq 0 (cs_n cs)), [], per_image)
          end ;;
    let '(cs, mask, cids, counts, per_image) := st in
    let batch := length (cs_R cs) in
    per_image <- match mask, per_image with
                 | Some m, None => n <- mask_rays m ;; Ok (Some n)
                 | _, _ => Ok per_image
                 end ;;
    grids <- match per_image with
             | None => Ok (repeat (s_xy sm) batch)
             | Some n =>
                 weights <- match mask with
                            | Some m => if ((length m =? batch) && forallb (fun r => length r =? length (s_xy sm)) m)%nat
                                        then Ok m else Fail ERuntime     (* AssertionError, 229 *)
                            | None => Ok (repeat (repeat 1 (length (s_xy sm))) batch)
                            end ;;
                 idx <- safe_multinomial (length (s_xy sm)) weights n ;;
                 rmap (rmap (fun i => match nth_error (s_xy sm) i with Some p => Ok p | None => Fail EIndex end)) idx
             end ;;
    b <- xy_to_ray_bundle (s_unit sm) (default (f_min kw) (s_min sm)) (default (f_max kw) (s_max sm))
           (default (f_npts kw) (s_npts sm)) jitter cs grids ;;
    finish b cids counts total.

(* ---- MonteCarloRaysampler.forward, 428-490 ---- *)
Definition monte_carlo_forward (min_x max_x min_y max_y : R) (per_image total : option nat) (unit : bool)
    (lo hi : R) (npts : nat) (ids : nat -> list Z) (rnd : nat -> nat -> R * R)
    (jitter : option (nat -> nat -> list R)) (cs : cameras) : result bundle :=
  match total, per_image with
  | Some _, Some _ | None, None => Fail EValue
  | _, _ =>
      st <- match total with
            | Some (S n) =>
                x <- sample_cameras (ids (S n)) cs None ;;
                let '(c, m, u, counts, k) := x in Ok (c, u, counts, Some k)
            | _ => Ok (cs, map Z.of_nat (seq 0 (cs_n cs)), [], per_image)
            end ;;
      let '(cs, cids, counts, per_image) := st in
      match per_image with
      | None => Fail EType                                        (* torch.rand with a size of None, 456 *)
      | Some n =>
          let grids := map (fun b => map (fun j => (fst (rnd b j) * (max_x - min_x) + min_x,
                                                    snd (rnd b j) * (max_y - min_y) + min_y)) (seq 0 n))
                         (seq 0 (length (cs_R cs))) in
          b <- xy_to_ray_bundle unit lo hi npts jitter cs grids ;;
          finish b cids counts total
      end
  end.
End Draws.
