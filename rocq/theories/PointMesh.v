(* Model of loss/point_mesh_distance.py (lines 258-401), csrc/point_mesh/point_mesh_cpu.cpp:156-252 and
   csrc/point_mesh/point_mesh_cuda.cu:24-134, 215-300: distances between the points and the edges or faces of a batch.
   Simplifications: distances are reals (no rounding; the largest float is a constant they are compared with), the batch
   index, thread and block numbers are natural numbers, and the shapes of the tensors are fixed by the types. *)
From Coq Require Import Permutation.
From Verif Require Import Packing Pointclouds.
From Verif Require Import Base RBase Geom FaceAreas Meshes Laplace Sampling Threads Reduce.
Local Open Scope R_scope.

(* std::numeric_limits<float>::max(), FLT_MAX *)
Definition flt_max : R := (2 ^ 24 - 1) * 2 ^ 104.

Section Forward.
Context {A B : Type} (d : A -> B -> R).

(* point_mesh_cpu.cpp:199-207: the loop over b_n; the last of several equal minima is kept *)
Definition scan (Bs : list B) (a : A) (b_start b_end : nat) : result (R * Z) :=
  rfold (fun st b_n => b <- rget Bs b_n ;;
                       let dist := d a b in
                       Ok (if Rleb dist (fst st) then (dist, Z.of_nat b_n) else st))
        (seq b_start (b_end - b_start)) (flt_max, 0%Z).

(* point_mesh_cpu.cpp:181-183; None stands for numeric_limits<int64_t>::max() *)
Record cursor := Cursor { a_batch_end : option nat; b_batch_start : nat; b_batch_end : nat; batch_idx : nat }.
(* point_mesh_cpu.cpp:185-195 *)
Definition advance (afirst bfirst : list nat) (B_N a_n : nat) (c : cursor) : result cursor :=
  if match a_batch_end c with Some e => (a_n =? e)%nat | None => false end then
    let batch := S (batch_idx c) in
    if (batch =? length afirst)%nat then Ok (Cursor None (b_batch_end c) B_N batch)
    else
      ae <- rget afirst batch ;;
      be <- rget bfirst batch ;;
      Ok (Cursor (Some ae) (b_batch_end c) be batch)
  else Ok c.
(* point_mesh_cpu.cpp:184-210: the loop over a_n *)
Fixpoint cpu_loop (afirst bfirst : list nat) (Bs : list B) (l : list A) (a_n : nat) (c : cursor) : result (list (R * Z)) :=
  match l with
  | [] => Ok []
  | a :: l =>
      c <- advance afirst bfirst (length Bs) a_n c ;;
      r <- scan Bs a (b_batch_start c) (b_batch_end c) ;;
      rs <- cpu_loop afirst bfirst Bs l (S a_n) c ;;
      Ok (r :: rs)
  end.
(* point_mesh_cpu.cpp:156-213 HullHullDistanceForwardCpu *)
Definition cpu_forward (As : list A) (afirst : list nat) (Bs : list B) (bfirst : list nat) : result (list (R * Z)) :=
  if negb (length bfirst =? length afirst)%nat then Fail ERuntime
  else cpu_loop afirst bfirst Bs As 0 (Cursor (Some 0%nat) 0 0 0).

(* point_mesh_cuda.cu:87-107: what thread tid finds among the count targets that start at startt *)
Definition threads : nat := 128.
Definition thread_scan (Bs : list B) (a : A) (startt count tid : nat) : result (R * Z) :=
  rfold (fun st j => b <- rget Bs (startt + j) ;;
                     let dist := d a b in
                     let min_dist := if (j =? tid)%nat then dist else fst st in
                     Ok (if Rleb dist min_dist then (dist, Z.of_nat (startt + j)) else (min_dist, snd st)))
        (grid_stride tid threads count) (flt_max, 0%Z).
(* point_mesh_cuda.cu:108-133: the block of object a; r is what thread 0 writes. Anything may come out if a target is read
   from outside the tensor. *)
Definition shared (l : list (R * Z)) : mem := Mem (fun q => fst (nth q l (0, 0%Z))) (fun q => snd (nth q l (0, 0%Z))).
Definition block_result (Bs : list B) (a : A) (startt count : nat) (r : R * Z) : Prop :=
  match rmap (thread_scan Bs a startt count) (seq 0 threads) with
  | Ok l => exists m', block_reduce false 1 (shared l) m' /\ r = (mval m' 0%nat, midx m' 0%nat)
  | Fail _ => True
  end.
(* point_mesh_cuda.cu:55-67: start and end of batch element b *)
Definition batch_start (first : list nat) (b : nat) : result nat := rget first b.
Definition batch_end (first : list nat) (total b : nat) : result nat := if (b + 1 <? length first)%nat then rget first (b + 1) else Ok total.
(* what block (i, b) does to the outputs: None if i is not an object of batch element b (point_mesh_cuda.cu:84) *)
Definition block_work (As : list A) (afirst : list nat) (Bs : list B) (bfirst : list nat) (blk : nat * nat) : result (option (nat * A * nat * nat)) :=
  let '(i, b) := blk in
  starto <- batch_start afirst b ;;
  endo <- batch_end afirst (length As) b ;;
  startt <- batch_start bfirst b ;;
  endt <- batch_end bfirst (length Bs) b ;;
  if (i <? endo - starto)%nat then a <- rget As (starto + i) ;; Ok (Some ((starto + i)%nat, a, startt, (endt - startt)%nat)) else Ok None.
(* point_mesh_cuda.cu:136-213 DistanceForwardCuda: a grid of max_objects x batch_size blocks that run in any order *)
Definition gpu_forward (As : list A) (afirst : list nat) (Bs : list B) (bfirst : list nat) (max_objects : nat) (out : result (list (R * Z))) : Prop :=
  if negb (length bfirst =? length afirst)%nat then out = Fail ERuntime
  else exists order res,
    Permutation order (list_prod (seq 0 max_objects) (seq 0 (length afirst))) /\
    (forall blk o a startt count, In blk order -> block_work As afirst Bs bfirst blk = Ok (Some (o, a, startt, count)) -> block_result Bs a startt count (res blk)) /\
    out = rfold (fun acc blk => w <- block_work As afirst Bs bfirst blk ;;
                                match w with None => Ok acc | Some (o, _, _, _) => upd acc o (res blk) end)
                order (repeat (0, 0%Z) (length As)).
End Forward.

(* ---- backward ----
   A cell of the two gradient tensors: the object's (false) or the target's (true), its row and its position in the row.
   bw a b g: the components of the gradients of g * distance with respect to a and b. *)
Section Backward.
Context {A B : Type} (bw : A -> B -> R -> list R * list R).
Definition cell : Type := bool * nat * nat.
Definition cell_eqb (x y : cell) : bool := Bool.eqb (fst (fst x)) (fst (fst y)) && (snd (fst x) =? snd (fst y))%nat && (snd x =? snd y)%nat.
Definition numbered (side : bool) (row : nat) (l : list R) : list (cell * R) := map (fun p => ((side, row, fst p), snd p)) (combine (seq 0 (length l)) l).
(* the additions made for object o: point_mesh_cpu.cpp:240-250, point_mesh_cuda.cu:251-298 *)
Definition adds_of (points_first : bool) (As : list A) (Bs : list B) (idx : list Z) (g : list R) (o : nat) : result (list (cell * R)) :=
  a <- rget As o ;;
  i <- rget idx o ;;
  if (i <? 0)%Z then Fail EOutOfBounds else
  b <- rget Bs (Z.to_nat i) ;;
  x <- rget g o ;;
  let r := bw a b x in
  let wa := numbered false o (fst r) in let wb := numbered true (Z.to_nat i) (snd r) in
  Ok (if points_first then wa ++ wb else wb ++ wa).
Definition add_at (m : cell -> R) (w : cell * R) : cell -> R := fun c => if cell_eqb c (fst w) then m c + snd w else m c.
Definition add_all (ws : list (cell * R)) : cell -> R := fold_left add_at ws (fun _ => 0).
(* point_mesh_cpu.cpp:216-252 HullHullDistanceBackwardCpu *)
Definition cpu_backward (As : list A) (Bs : list B) (idx : list Z) (g : list R) : result (cell -> R) :=
  if negb ((length idx =? length As) && (length g =? length As))%nat then Fail ERuntime
  else ws <- rmap (adds_of true As Bs idx g) (seq 0 (length As)) ;; Ok (add_all (concat ws)).
(* point_mesh_cuda.cu:240-299 DistanceBackwardKernel: thread t of n handles o = t, t + n, ...; its atomic additions come in
   program order, those of different threads in any order. objects_are_points: the points' cells are added first (280-297) *)
Definition gpu_backward (n : nat) (objects_are_points : bool) (As : list A) (Bs : list B) (idx : list Z) (g : list R) (out : result (cell -> R)) : Prop :=
  match rmap (fun t => ws <- rmap (adds_of objects_are_points As Bs idx g) (grid_stride t n (length As)) ;; Ok (concat ws)) (seq 0 n) with
  | Fail e => out = Fail e
  | Ok per_thread => exists trace, interleaving per_thread trace /\ out = Ok (add_all trace)
  end.
End Backward.

(* ---- the distances between points, segments and triangles (point_mesh_cpu.cpp:93-150, geometry_utils) ---- *)
Definition seg : Type := vec3 * vec3.
Definition tri : Type := vec3 * vec3 * vec3.
Definition point_edge (p : vec3) (s : seg) : R := pline3 p (fst s) (snd s).
Definition point_face (min_area : R) (p : vec3) (t : tri) : R := ptri3 kEps vEps p (fst (fst t)) (snd (fst t)) (snd t) min_area.
Definition flat3 (v : vec3) : list R := [x3 v; y3 v; z3 v].
Definition point_edge_bwd (p : vec3) (s : seg) (g : R) : list R * list R :=
  let '(gp, ga, gb) := pline3_bwd p (fst s) (snd s) g in (flat3 gp, flat3 ga ++ flat3 gb).
Definition point_face_bwd (min_area : R) (p : vec3) (t : tri) (g : R) : list R * list R :=
  let '(gp, ga, gb, gc) := ptri3_bwd kEps vEps p (fst (fst t)) (snd (fst t)) (snd t) g min_area in (flat3 gp, flat3 ga ++ flat3 gb ++ flat3 gc).
(* point_mesh_cpu.cpp:111-150: the overloads whose first hull is the segment or triangle swap the arguments *)
Definition edge_point_bwd (s : seg) (p : vec3) (g : R) : list R * list R := (snd (point_edge_bwd p s g), fst (point_edge_bwd p s g)).
Definition face_point_bwd (min_area : R) (t : tri) (p : vec3) (g : R) : list R * list R := (snd (point_face_bwd min_area p t g), fst (point_face_bwd min_area p t g)).

(* ---- loss/point_mesh_distance.py ----
   A forward function takes the points, the first points, the primitives, the first primitives and the largest count. *)
Definition forward_fn (T : Type) : Type := list vec3 -> list nat -> list T -> list nat -> nat -> result (list (R * Z)).
(* point_mesh_cpu.cpp:322-330, 396-404 and 341-350, 413-420 *)
Definition cpu_points_to {T} (d : vec3 -> T -> R) : forward_fn T := fun pts pf xs xf _ => cpu_forward d pts pf xs xf.
Definition cpu_to_points {T} (d : vec3 -> T -> R) : forward_fn T := fun pts pf xs xf _ => cpu_forward (fun x p => d p x) xs xf pts pf.
(* point_mesh_cuda.cu: PointFaceDistanceForwardCuda, FacePointDistanceForwardCuda, PointEdge..., EdgePoint...: f is a run of the kernel *)
Definition gpu_points_to {T} (d : vec3 -> T -> R) (f : forward_fn T) : Prop := forall pts pf xs xf k, gpu_forward d pts pf xs xf k (f pts pf xs xf k).
Definition gpu_to_points {T} (d : vec3 -> T -> R) (f : forward_fn T) : Prop := forall pts pf xs xf k, gpu_forward (fun x p => d p x) xs xf pts pf k (f pts pf xs xf k).
(* torch.max of no elements raises *)
Definition maximum_of (l : list nat) : result nat := match l with [] => Fail ERuntime | _ => Ok (max_nat l) end.

Section Argsort.
Variable argsort : list Z -> list nat.
Variable F : Type.

(* point_mesh_distance.py:280-322 point_mesh_edge_distance *)
Definition point_mesh_edge_distance (pe ep : forward_fn seg) (m : meshes) (c : pointclouds F) : result (R * meshes * pointclouds F) :=
  if negb (mN m =? cN F c)%nat then Fail EValue
  else
    let N := mN m in
    r <- points_packed F c ;; let '(points, c) := r in
    r <- cloud_to_packed_first_idx F c ;; let '(points_first, c) := r in
    max_points <- maximum_of (num_points_per_cloud F c) ;;
    r <- verts_packed m ;; let '(verts, m) := r in
    r <- edges_packed argsort m ;; let '(edges, m) := r in
    segms <- rmap (edge_verts verts) edges ;;
    r <- mesh_to_edges_packed_first_idx argsort m ;; let '(segms_first, m) := r in
    r <- num_edges_per_mesh argsort m ;; let '(ne, m) := r in
    match segms_first, ne with
    | Some segms_first, Some ne =>
        max_segms <- maximum_of ne ;;
        point_to_edge <- pe points points_first segms segms_first max_points ;;
        r <- packed_to_cloud_idx F c ;; let '(cidx, c) := r in
        weights_p <- gathered (num_points_per_cloud F c) cidx ;;
        let point_dist := weighted_sum (map fst point_to_edge) weights_p / INR N in
        edge_to_point <- ep points points_first segms segms_first max_segms ;;
        r <- edges_packed_to_mesh_idx argsort m ;; let '(midx, m) := r in
        r <- num_edges_per_mesh argsort m ;; let '(ne, m) := r in
        match ne with
        | Some ne =>
            weights_s <- gathered ne midx ;;
            let edge_dist := weighted_sum (map fst edge_to_point) weights_s / INR N in
            Ok (point_dist + edge_dist, m, c)
        | None => Fail EAttr
        end
    | _, _ => Fail EAttr
    end.

(* point_mesh_distance.py:354-401 point_mesh_face_distance *)
Definition point_mesh_face_distance (pf fp : forward_fn tri) (m : meshes) (c : pointclouds F) : result (R * meshes * pointclouds F) :=
  if negb (mN m =? cN F c)%nat then Fail EValue
  else
    let N := mN m in
    r <- points_packed F c ;; let '(points, c) := r in
    r <- cloud_to_packed_first_idx F c ;; let '(points_first, c) := r in
    max_points <- maximum_of (num_points_per_cloud F c) ;;
    r <- verts_packed m ;; let '(verts, m) := r in
    r <- faces_packed m ;; let '(faces, m) := r in
    tris <- rmap (face_verts verts) faces ;;   (* verts_packed[faces_packed] *)
    r <- mesh_to_faces_packed_first_idx m ;; let '(tris_first, m) := r in
    max_tris <- maximum_of (num_faces_per_mesh m) ;;
    point_to_face <- pf points points_first tris tris_first max_points ;;
    r <- packed_to_cloud_idx F c ;; let '(cidx, c) := r in
    weights_p <- gathered (num_points_per_cloud F c) cidx ;;
    let point_dist := weighted_sum (map fst point_to_face) weights_p / INR N in
    face_to_point <- fp points points_first tris tris_first max_tris ;;
    r <- faces_packed_to_mesh_idx m ;; let '(midx, m) := r in
    weights_t <- gathered (num_faces_per_mesh m) midx ;;
    let face_dist := weighted_sum (map fst face_to_point) weights_t / INR N in
    Ok (point_dist + face_dist, m, c).
End Argsort.
