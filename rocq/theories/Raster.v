(* Model of the rasterizers: csrc/rasterize_points/rasterize_points_cpu.cpp,
   csrc/rasterize_meshes/rasterize_meshes_cpu.cpp, csrc/rasterize_meshes/rasterize_meshes.cu,
   csrc/rasterize_points/rasterize_points.cu, csrc/rasterize_coarse/rasterize_coarse.cu.
   Scalars are exact reals. *)
From Verif Require Import Base RBase TopK Geom Knn.
Local Open Scope R_scope.

(* lexicographic operator< of std::tuple *)
Definition lexb {A B} (lta : A -> A -> bool) (ltb : B -> B -> bool) (x y : A * B) : bool :=
  lta (fst x) (fst y) || (negb (lta (fst y) (fst x)) && ltb (snd x) (snd y)).

(* pixel centre of output row yi / column xi; rows and columns are stored reversed
   (rasterize_meshes_cpu.cpp:155-168, rasterize_points_cpu.cpp:50-58) *)
Definition pix_center (H W : nat) (yi xi : nat) : vec2 :=
  V2 (pix_to_ndc (Z.of_nat W - 1 - Z.of_nat xi) (Z.of_nat W) (Z.of_nat H))
     (pix_to_ndc (Z.of_nat H - 1 - Z.of_nat yi) (Z.of_nat H) (Z.of_nat W)).

(* ---------------- points ---------------- *)
Record point := Pt { pt_pos : vec3; pt_radius : R }.
(* rasterize_points_cpu.cpp:62-75: depth and squared distance when the point hits pixel p *)
Definition point_hit (p : vec2) (q : point) : option (R * R) :=
  let radius2 := pt_radius q * pt_radius q in
  if Rltb (z3 (pt_pos q)) 0 then None
  else let dx := x3 (pt_pos q) - x2 p in
       let dy := y3 (pt_pos q) - y2 p in
       let dist2 := dx * dx + dy * dy in
       if Rltb dist2 radius2 then Some (z3 (pt_pos q), dist2) else None.

Definition pentry : Type := R * (nat * R).                  (* (z, idx, dist2) *)
Definition pentry_ltb : pentry -> pentry -> bool := lexb Rltb (lexb Nat.ltb Rltb).
(* 60-82: priority queue over the points of one cloud *)
Definition points_queue (K : nat) (pts : list point) (start count : nat) (p : vec2) : result (list pentry) :=
  rfold (fun q i => x <- rget pts i ;;
           Ok (match point_hit p x with
               | Some (z, d) => push_bounded pentry_ltb K q (z, (i, d))
               | None => q
               end)) (seq start count) [].
(* 83-92: the K output slots of a pixel: (idxs, zbuf, dists), pre-filled with -1 (27-30) *)
Definition points_row (K : nat) (q : list pentry) : list Z * list R * list R :=
  (fill_row K (-1)%Z (map (fun e => Z.of_nat (fst (snd e))) q), fill_row K (-1) (map fst q),
   fill_row K (-1) (map (fun e => snd (snd e)) q)).
(* 40-95 *)
Definition rasterize_points (H W K : nat) (pts : list point) (clouds : list (nat * nat))
  : result (list (list (list (list Z * list R * list R)))) :=
  rmap (fun c => rmap (fun yi => rmap (fun xi =>
     q <- points_queue K pts (fst c) (snd c) (pix_center H W yi xi) ;; Ok (points_row K q))
     (seq 0 W)) (seq 0 H)) clouds.

(* 198-248, contribution of one (pixel, k): stops at the first negative index *)
Fixpoint points_bwd_row (p : vec2) (pts : nat -> vec3) (row : list (Z * R * R)) (i : nat) : vec3 :=
  match row with
  | [] => V3 0 0 0
  | (idx, gz, gd) :: row' =>
      if (idx <? 0)%Z then V3 0 0 0
      else let pt := pts (Z.to_nat idx) in
           let dx := x3 pt - x2 p in
           let dy := y3 pt - y2 p in
           let here := if (Z.to_nat idx =? i)%nat then V3 (2 * gd * dx) (2 * gd * dy) gz else V3 0 0 0 in
           add3 here (points_bwd_row p pts row' i)
  end.

(* ---------------- meshes ---------------- *)
Record face := Face { fv0 : vec3; fv1 : vec3; fv2 : vec3 }.
Definition xy (v : vec3) : vec2 := V2 (x3 v) (y3 v).
Definition min3 (a b c : R) : R := Rmin a (Rmin b c).
Definition max3 (a b c : R) : R := Rmax a (Rmax b c).
Definition fmin (g : vec3 -> R) (f : face) : R := min3 (g (fv0 f)) (g (fv1 f)) (g (fv2 f)).
Definition fmax (g : vec3 -> R) (f : face) : R := max3 (g (fv0 f)) (g (fv1 f)) (g (fv2 f)).

Record ropts := Ropts { o_persp : bool; o_clip : bool; o_cull : bool; o_blur : R }.

(* rasterize_meshes_cpu.cpp:62-79 *)
Definition outside_bbox (f : face) (r : R) (p : vec2) : bool :=
  Rltb (fmax x3 f + r) (x2 p) || Rltb (x2 p) (fmin x3 f - r) ||
  Rltb (fmax y3 f + r) (y2 p) || Rltb (y2 p) (fmin y3 f - r) || Rltb (fmin z3 f) kEps.
(* 83-106 *)
Definition face_area (f : face) : R := edge (xy (fv0 f)) (xy (fv1 f)) (xy (fv2 f)).

Definition face_bary0 (f : face) (p : vec2) : vec3 := bary p (xy (fv0 f)) (xy (fv1 f)) (xy (fv2 f)).
Definition face_bary (o : ropts) (f : face) (p : vec2) : vec3 :=
  if o_persp o then persp (face_bary0 f p) (z3 (fv0 f)) (z3 (fv1 f)) (z3 (fv2 f)) else face_bary0 f p.
Definition face_bary_clip (o : ropts) (f : face) (p : vec2) : vec3 :=
  if o_clip o then clip (face_bary o f p) else face_bary o f p.
Definition face_depth (o : ropts) (f : face) (p : vec2) : R :=
  let b := face_bary_clip o f p in x3 b * z3 (fv0 f) + y3 b * z3 (fv1 f) + z3 b * z3 (fv2 f).
Definition face_dist (f : face) (p : vec2) : R := ptri2 p (xy (fv0 f)) (xy (fv1 f)) (xy (fv2 f)).
Definition face_inside (o : ropts) (f : face) (p : vec2) : bool :=
  let b := face_bary o f p in Rltb 0 (x3 b) && Rltb 0 (y3 b) && Rltb 0 (z3 b).

(* 186-243: (depth, signed distance, barycentric coordinates) when the face hits pixel p *)
Definition face_hit (o : ropts) (f : face) (p : vec2) : option (R * (R * vec3)) :=
  let a := face_area f in
  if o_cull o && Rltb a 0 then None
  else if Rleb a kEps && Rleb (-1 * kEps) a then None
  else if outside_bbox f (sqrt (o_blur o)) p then None
  else let pz := face_depth o f p in
       if Rltb pz 0 then None
       else let dist := face_dist f p in
            let inside := face_inside o f p in
            let signed := if inside then - dist else dist in
            if negb inside && Rleb (o_blur o) dist then None
            else Some (pz, (signed, face_bary_clip o f p)).
(* rasterize_meshes.cu:138-184: the same decision as taken by the CUDA kernels *)
Definition face_hit_cuda (o : ropts) (f : face) (p : vec2) : option (R * (R * vec3)) :=
  let a := face_area f in
  if Rltb (fmax z3 f) 0 || (o_cull o && Rltb a 0) || outside_bbox f (sqrt (o_blur o)) p ||
     (Rleb a kEps && Rleb (-1 * kEps) a) then None
  else let pz := face_depth o f p in
       if Rltb pz 0 then None
       else let dist := face_dist f p in
            let inside := face_inside o f p in
            let signed := if inside then - dist else dist in
            if negb inside && Rleb (o_blur o) dist then None
            else Some (pz, (signed, face_bary_clip o f p)).

(* std::tuple<float,int,float,float,float,float> *)
Definition fentry : Type := R * (nat * (R * (R * (R * R)))).
Definition fentry_ltb : fentry -> fentry -> bool :=
  lexb Rltb (lexb Nat.ltb (lexb Rltb (lexb Rltb (lexb Rltb Rltb)))).
Definition mk_fentry (i : nat) (h : R * (R * vec3)) : fentry :=
  let '(z, (d, b)) := h in (z, (i, (d, (x3 b, (y3 b, z3 b))))).
Definition fe_idx (e : fentry) : nat := fst (snd e).
Definition fe_dist (e : fentry) : R := fst (snd (snd e)).
Definition fe_bary (e : fentry) : vec3 := let '(b0, (b1, b2)) := snd (snd (snd e)) in V3 b0 b1 b2.

Fixpoint find_idx {A} (P : A -> bool) (l : list A) : option nat :=
  match l with
  | [] => None
  | x :: l' => if P x then Some O else option_map S (find_idx P l')
  end.
Fixpoint replace_nth {A} (i : nat) (v : A) (l : list A) : list A :=
  match l, i with
  | [], _ => []
  | _ :: l', O => v :: l'
  | x :: l', S i' => x :: replace_nth i' v l'
  end.

(* 245-294: one face that hits the pixel; the deque is kept sorted by std::sort *)
Definition mesh_step (K : nat) (nbr : Z) (q : list fentry) (e : fentry) : list fentry :=
  let top := if (nbr =? -1)%Z then None else find_idx (fun x => (Z.of_nat (fe_idx x) =? nbr)%Z) q in
  let q1 := match top with
            | Some i => match nth_error q i with
                        | Some nb => if Rltb (Rabs (fe_dist e)) (Rabs (fe_dist nb)) then replace_nth i e q else q
                        | None => q
                        end
            | None => q ++ [e]
            end in
  let q2 := isort fentry_ltb q1 in
  if (K <? length q2)%nat then removelast q2 else q2.
(* 175-295, over the faces [start, start+count) of one mesh; [hit] is what 186-243 computes *)
Definition mesh_queue (K : nat) (hit : nat -> result (option (R * (R * vec3)))) (nbr : nat -> result Z)
    (faces : list nat) : result (list fentry) :=
  rfold (fun q i => h <- hit i ;;
           match h with
           | Some x => nb <- nbr i ;; Ok (mesh_step K nb q (mk_fentry i x))
           | None => Ok q
           end) faces [].
Definition face_hit_at (o : ropts) (faces : list face) (p : vec2) (i : nat) : result (option (R * (R * vec3))) :=
  f <- rget faces i ;; Ok (face_hit o f p).
(* 296-307, pre-filled with -1 (334-339): (pix_to_face, zbuf, dists, barycentrics) *)
Definition mesh_row (K : nat) (q : list fentry) : list Z * list R * list R * list vec3 :=
  (fill_row K (-1)%Z (map (fun e => Z.of_nat (fe_idx e)) q), fill_row K (-1) (map fst q),
   fill_row K (-1) (map fe_dist q), fill_row K (V3 (-1) (-1) (-1)) (map fe_bary q)).
(* 146-309; the row partition over threads is modelled in Threads.v *)
Definition rasterize_meshes (H W K : nat) (o : ropts) (faces : list face) (nbrs : list Z)
    (meshes : list (nat * nat)) : result (list (list (list (list Z * list R * list R * list vec3)))) :=
  rmap (fun c => rmap (fun yi => rmap (fun xi =>
     q <- mesh_queue K (face_hit_at o faces (pix_center H W yi xi)) (rget nbrs) (seq (fst c) (snd c)) ;;
     Ok (mesh_row K q)) (seq 0 W)) (seq 0 H)) meshes.

(* ---------------- CUDA per-pixel structure ---------------- *)
(* rasterize_meshes.cu:22-32 Pixel (z, idx, payload); rasterize_points.cu:20-28 Pix *)
Record cpix (X : Type) := CPix { c_z : R; c_idx : nat; c_pay : X }.
Arguments CPix {X}. Arguments c_z {X}. Arguments c_idx {X}. Arguments c_pay {X}.
(* q[0..q_size), q_max_z, q_max_idx (None is the initial -1) *)
Record cq (X : Type) := CQ { q_arr : list (cpix X); q_max_z : R; q_max_idx : option nat }.
Arguments CQ {X}. Arguments q_arr {X}. Arguments q_max_z {X}. Arguments q_max_idx {X}.
Definition cq_init {X} : cq X := CQ [] (-1000) None.

(* rasterize_meshes.cu:213-233, rasterize_points.cu:61-77 *)
Definition cq_push {X} (K : nat) (s : cq X) (e : cpix X) : result (cq X) :=
  if (length (q_arr s) <? K)%nat then
    let m := Rltb (q_max_z s) (c_z e) in
    Ok (CQ (q_arr s ++ [e]) (if m then c_z e else q_max_z s)
           (if m then Some (length (q_arr s)) else q_max_idx s))
  else if Rltb (c_z e) (q_max_z s) then
    match q_max_idx s with
    | None => Fail EOutOfBounds
    | Some mi =>
        arr <- upd (q_arr s) mi e ;;
        mm <- rfold (fun '(mz, mi) i => x <- rget arr i ;;
                       Ok (if Rltb mz (c_z x) then (c_z x, Some i) else (mz, mi)))
                    (seq 0 K) (c_z e, Some mi) ;;
        Ok (CQ arr (fst mm) (snd mm))
    end
  else Ok s.
(* rasterize_meshes.cu:186-235: with the clipped-neighbour test; payload (dist, bary) *)
Definition cq_mesh_step (K : nat) (nbr : Z) (s : cq (R * vec3)) (e : cpix (R * vec3)) : result (cq (R * vec3)) :=
  let top := if (nbr =? -1)%Z then None else find_idx (fun x => (Z.of_nat (c_idx x) =? nbr)%Z) (q_arr s) in
  match top with
  | Some i =>
      nb <- rget (q_arr s) i ;;
      if Rltb (Rabs (fst (c_pay e))) (Rabs (fst (c_pay nb))) then
        arr <- upd (q_arr s) i e ;;
        let m := Rltb (q_max_z s) (c_z e) in
        Ok (CQ arr (if m then c_z e else q_max_z s) (if m then Some i else q_max_idx s))
      else Ok s
  | None => cq_push K s e
  end.
(* rasterization_utils.cuh:52-66 BubbleSort: one inner loop of m comparisons, in place *)
Fixpoint bubble_pass {A} (ltb : A -> A -> bool) (m : nat) (l : list A) : list A :=
  match m, l with
  | S m', a :: b :: r => if ltb b a then b :: bubble_pass ltb m' (a :: r) else a :: bubble_pass ltb m' (b :: r)
  | _, _ => l
  end.
Definition bubble_sort {A} (ltb : A -> A -> bool) (l : list A) : list A :=
  let n := length l in fold_left (fun l i => bubble_pass ltb (n - i - 1) l) (seq 0 (n - 1)) l.
(* operator< of Pixel (rasterize_meshes.cu:30-32) and of Pix (rasterize_points.cu:26-28) *)
Definition cmesh_ltb {X} (a b : cpix X) : bool :=
  Rltb (c_z a) (c_z b) || (Reqb (c_z a) (c_z b) && (c_idx a <? c_idx b)%nat).
Definition cpoint_ltb {X} (a b : cpix X) : bool := Rltb (c_z a) (c_z b).

(* kernel body for one pixel over a list of candidate indices; naive: all faces of the mesh
   (rasterize_meshes.cu:295-320), fine: the non-negative entries of the bin (683-706) *)
Definition cuda_mesh_pixel (K : nat) (hit : nat -> option (R * (R * vec3))) (nbr : nat -> Z) (cand : list nat)
  : result (list (cpix (R * vec3))) :=
  s <- rfold (fun s i => match hit i with
                         | Some (z, pay) => cq_mesh_step K (nbr i) s (CPix z i pay)
                         | None => Ok s
                         end) cand cq_init ;;
  Ok (bubble_sort cmesh_ltb (q_arr s)).
Definition cuda_point_pixel (K : nat) (hit : nat -> option (R * R)) (cand : list nat)
  : result (list (cpix R)) :=
  s <- rfold (fun s i => match hit i with Some (z, d) => cq_push K s (CPix z i d) | None => Ok s end)
             cand cq_init ;;
  Ok (bubble_sort cpoint_ltb (q_arr s)).

(* ---------------- coarse stage ---------------- *)
Record bbox := BBox { b_xmin : R; b_xmax : R; b_ymin : R; b_ymax : R; b_skip : bool }.
(* rasterize_coarse.cu:21-52, 54-77 *)
Definition tri_bbox (blur : R) (f : face) : bbox :=
  let r := sqrt blur in
  BBox (fmin x3 f - r) (fmax x3 f + r) (fmin y3 f - r) (fmax y3 f + r) (Rltb (fmin z3 f) kEps).
Definition point_bbox (q : point) : bbox :=
  let r := pt_radius q in let v := pt_pos q in
  BBox (x3 v - r) (x3 v + r) (y3 v - r) (y3 v + r) (Rltb (z3 v) 0).
(* rasterize_coarse.cu:99-107, 143-160: extent of bin b on an axis of S1 pixels *)
Definition cuda_bin_min (bs S1 S2 b : Z) : R := pix_to_ndc (b * bs) S1 S2 - ndc_range S1 S2 / 2 / IZR S1.
Definition cuda_bin_max (bs S1 S2 b : Z) : R := pix_to_ndc ((b + 1) * bs - 1) S1 S2 + ndc_range S1 S2 / 2 / IZR S1.
Definition cuda_overlap (bs H W : Z) (bb : bbox) (by_ bx : Z) : bool :=
  (Rleb (b_ymin bb) (cuda_bin_max bs H W by_) && Rltb (cuda_bin_min bs H W by_) (b_ymax bb)) &&
  (Rleb (b_xmin bb) (cuda_bin_max bs W H bx) && Rltb (cuda_bin_min bs W H bx) (b_xmax bb)).
(* 124-163: elements of a chunk recorded for bin (by,bx) of the batch element [start,stop);
   get() over the BitMask returns them in ascending order (201-211) *)
Definition chunk_elems (bs H W : Z) (bboxes : nat -> bbox) (start stop chunk_size chunk : nat) (by_ bx : Z)
  : list nat :=
  filter (fun e => ((start <=? e) && (e <? stop))%nat && negb (b_skip (bboxes e)) &&
                   cuda_overlap bs H W (bboxes e) by_ bx)
         (seq (chunk * chunk_size) chunk_size).
(* 168-212: chunks reach the bin in the order of their atomicAdd; a chunk that does not fit
   is dropped, the counter still advances. Cells are written at [start_pos..). *)
Fixpoint bin_fill (M : nat) (chunks : list (list nat)) (counter : nat) (cells : list Z) : result (list Z) :=
  match chunks with
  | [] => Ok cells
  | c :: rest =>
      let count := length c in
      if (M <? counter + count)%nat then bin_fill M rest (counter + count) cells
      else cells' <- rfold (fun cl ie => upd cl (counter + fst ie)%nat (Z.of_nat (snd ie)))
                           (combine (seq 0 count) c) cells ;;
           bin_fill M rest (counter + count) cells'
  end.
Definition coarse_bin (bs H W : Z) (M E chunk_size : nat) (bboxes : nat -> bbox) (start stop : nat)
    (order : list nat) (by_ bx : Z) : result (list Z) :=
  bin_fill M (map (fun c => chunk_elems bs H W bboxes start stop chunk_size c by_ bx) order) 0
    (repeat (-1)%Z M).
(* rasterize_meshes.cu:683-688: entries below zero are skipped *)
Definition bin_candidates (cells : list Z) : list nat :=
  map Z.to_nat (filter (fun f => negb (f <? 0)%Z) cells).

(* rasterize_meshes_cpu.cpp:556-637 / rasterize_points_cpu.cpp:126-186: the CPU coarse
   stage lays its bins out from -1 *)
Fixpoint cpu_bin_min (width : R) (b : nat) : R :=
  match b with O => -1 | S b' => cpu_bin_min width b' + width end.
Definition cpu_bin_width (bs S1 S2 : Z) : R := ndc_range S1 S2 / IZR S1 * IZR bs.
Definition cpu_overlap (bs H W : Z) (bb : bbox) (by_ bx : nat) : bool :=
  let wy := cpu_bin_width bs H W in
  let wx := cpu_bin_width bs W H in
  (Rleb (b_xmin bb) (cpu_bin_min wx (S bx)) && Rltb (cpu_bin_min wx bx) (b_xmax bb)) &&
  (Rleb (b_ymin bb) (cpu_bin_min wy (S by_)) && Rltb (cpu_bin_min wy by_) (b_ymax bb)).
Definition cpu_bin (bs H W : Z) (M : nat) (bboxes : nat -> bbox) (start count : nat) (by_ bx : nat)
  : result (list nat) :=
  rfold (fun hits f =>
    if b_skip (bboxes f) then Ok hits
    else if cpu_overlap bs H W (bboxes f) by_ bx
         then if (M <=? length hits)%nat then Fail ERuntime else Ok (hits ++ [f])
         else Ok hits) (seq start count) [].

(* rasterize_meshes.cu:652-678, rasterize_points.cu:262-289: thread pid handles pixel (yi, xi) of
   bin (by, bx) of batch element n; threads beyond the image do nothing *)
Definition fine_decode (BH BW bs pid : nat) : nat * (nat * nat) * (nat * nat) :=
  let n := (pid / (BH * BW * bs * bs))%nat in
  let i := (pid mod (BH * BW * bs * bs))%nat in
  let by_ := (i / (BW * bs * bs))%nat in
  let i := (i mod (BW * bs * bs))%nat in
  let bx := (i / (bs * bs))%nat in
  let i := (i mod (bs * bs))%nat in
  (n, (by_, bx), (i / bs + by_ * bs, i mod bs + bx * bs)%nat).
(* number of bins along an axis (rasterize_coarse.cu:93-94) *)
Definition num_bins (S bs : nat) : nat := (1 + (S - 1) / bs)%nat.

(* the coarse-to-fine pipeline for output pixel (yo, xo) of the batch element whose primitives
   are start..stop-1 (rasterize_coarse.cu + the fine kernels); [order] is the order in which the
   chunks of this batch element reach the bin *)
Definition fine_bin (bs H W : nat) (M E chunk_size : nat) (bboxes : nat -> bbox) (start stop : nat)
    (order : list nat) (yo xo : nat) : result (list nat) :=
  cells <- coarse_bin (Z.of_nat bs) (Z.of_nat H) (Z.of_nat W) M E chunk_size bboxes start stop order
             (Z.of_nat ((H - 1 - yo) / bs)) (Z.of_nat ((W - 1 - xo) / bs)) ;;
  Ok (bin_candidates cells).
(* rasterize_meshes.cu:322-335, rasterize_points.cu:139-150: the K slots of the pixel *)
Definition cuda_idx {X} (K : nat) (l : list (cpix X)) : list Z := fill_row K (-1)%Z (map (fun e => Z.of_nat (c_idx e)) l).
Definition cuda_z {X} (K : nat) (l : list (cpix X)) : list R := fill_row K (-1) (map c_z l).
Definition cuda_pay {X} (K : nat) (pad : X) (l : list (cpix X)) : list X := fill_row K pad (map c_pay l).
