(* Model of pytorch3d/ops/cubify.py. A tensor of shape (N, D, H, W) is a function of four indices;
   the function is only read inside the shape. Floats are reals; devices are not modelled. *)
From Verif Require Import Base Packing RBase Geom FaceAreas Meshes Subdivide.
Local Open Scope R_scope.

Definition point := (Z * Z * Z)%type.
Inductive align_mode := TopLeft | Corner | Center.

(* cubify.py:18-34 unravel_index for dims (N, H, W, D) *)
Definition unravel_index (dims : Z * Z * Z) (idx : Z) : Z * Z * Z * Z :=
  let '(H, W, D) := dims in
  let n := (idx / (H * W * D))%Z in
  let h := ((idx - n * H * W * D) / (W * D))%Z in
  let w := ((idx - n * H * W * D - h * W * D) / D)%Z in
  let d := (idx - n * H * W * D - h * W * D - w * D)%Z in
  (n, h, w, d).
(* cubify.py:37-53 ravel_index *)
Definition ravel_index (dims : Z * Z * Z) (i : Z * Z * Z) : Z :=
  let '(H, W, D) := dims in let '(a, b, c) := i in (a * W * D + b * D + c)%Z.

(* cubify.py:111-124, 127-145 *)
Definition cube_verts : list point :=
  [(0, 0, 0); (0, 0, 1); (0, 1, 0); (0, 1, 1); (1, 0, 0); (1, 0, 1); (1, 1, 0); (1, 1, 1)]%Z.
Definition cube_faces : list (nat * nat * nat) :=
  [(0, 1, 2); (1, 3, 2); (2, 3, 6); (3, 7, 6); (0, 2, 6); (0, 6, 4);
   (0, 5, 1); (0, 4, 5); (6, 7, 5); (6, 5, 4); (1, 7, 3); (1, 5, 7)]%nat.

(* torch.nonzero of a matrix: row and column of the non-zero entries in row-major order *)
Fixpoint nonzero_row (i : Z) (j : nat) (row : list R) : list (Z * nat) :=
  match row with [] => [] | x :: r => (if Reqb x 0 then [] else [(i, j)]) ++ nonzero_row i (S j) r end.
Fixpoint nonzero (i : Z) (rows : list (list R)) : list (Z * nat) :=
  match rows with [] => [] | r :: rs => nonzero_row i 0 r ++ nonzero (i + 1) rs end.
(* rows of a tensor of the given shape in row-major order *)
Definition cells (N H W D : nat) : list (nat * nat * nat * nat) :=
  flat_map (fun n => flat_map (fun h => flat_map (fun w => map (fun d => (n, h, w, d)) (seq 0 D)) (seq 0 W)) (seq 0 H)) (seq 0 N).
Definition grid (H W D : nat) : list (nat * nat * nat) :=
  flat_map (fun h => flat_map (fun w => map (fun d => (h, w, d)) (seq 0 D)) (seq 0 W)) (seq 0 H).

Section Voxels.
Variables (N D H W : nat) (vox : nat -> nat -> nat -> nat -> R) (thresh : R).

(* cubify.py:151-158: thresholded voxels, and for every pair of neighbours whether both are set. The
   weights of the convolutions are 0.5, 0.5. *)
Definition voxelt (n d h w : nat) : R := if Rleb thresh (vox n d h w) then 1 else 0.
Definition gt_half (x : R) : R := if Rltb (1 / 2) x then 1 else 0.
Definition voxelt_x (n d h w : nat) : R := gt_half (1 / 2 * voxelt n d h w + 1 / 2 * voxelt n d h (S w)).
Definition voxelt_y (n d h w : nat) : R := gt_half (1 / 2 * voxelt n d h w + 1 / 2 * voxelt n d (S h) w).
Definition voxelt_z (n d h w : nat) : R := gt_half (1 / 2 * voxelt n d h w + 1 / 2 * voxelt n (S d) h w).
(* cubify.py:160-183: faces_idx[k] *)
Definition mask_low (v : nat -> R) (i : nat) : R := match i with O => 1 | S i' => 1 - v i' end.
Definition mask_high (v : nat -> R) (size i : nat) : R := if (S i <? size)%nat then 1 - v i else 1.
Definition faces_idx (k n h w d : nat) : R :=
  match k with
  | 0 | 1 => mask_low (fun w => voxelt_x n d h w) w
  | 2 | 3 => mask_high (fun h => voxelt_y n d h w) H h
  | 4 | 5 => mask_low (fun d => voxelt_z n d h w) d
  | 6 | 7 => mask_low (fun h => voxelt_y n d h w) h
  | 8 | 9 => mask_high (fun w => voxelt_x n d h w) W w
  | _ => mask_high (fun d => voxelt_z n d h w) D d
  end%nat * voxelt n d h w.

(* cubify.py:185-194 *)
Definition linind : list (Z * nat) :=
  nonzero 0 (map (fun c => let '(n, h, w, d) := c in map (fun k => faces_idx k n h w d) (seq 0 (length cube_faces))) (cells N H W D)).

(* cubify.py:199-214: one corner of a face as an index of the grid of vertices *)
Definition grid_corner (yxz : Z * Z * Z) (v : nat) : result Z :=
  let '(h, w, d) := yxz in
  p <- rget cube_verts v ;; let '(x, y, z) := p in
  Ok (ravel_index (Z.of_nat H + 1, Z.of_nat W + 1, Z.of_nat D + 1)%Z (y + h, x + w, z + d)%Z).
Definition grid_face (l : Z * nat) : result (Z * face) :=
  let '(n, h, w, d) := unravel_index (Z.of_nat H, Z.of_nat W, Z.of_nat D) (fst l) in
  f <- rget cube_faces (snd l) ;; let '(a, b, c) := f in
  i <- grid_corner (h, w, d) a ;; j <- grid_corner (h, w, d) b ;; k <- grid_corner (h, w, d) c ;; Ok (n, (i, j, k)).

(* cubify.py:216-234 *)
Definition axis_pos (a : align_mode) (size : nat) (i : nat) : R :=
  let t := match a with Center => INR i - 1 / 2 | _ => INR i end in
  let margin := match a with Corner => 0 | _ => 1 end in
  t * 2 / (INR size - margin) - 1.
Definition grid_verts (a : align_mode) : list vec3 :=
  map (fun c => let '(h, w, d) := c in V3 (axis_pos a W w) (axis_pos a H h) (axis_pos a D d)) (grid (H + 1) (W + 1) (D + 1)).

(* idleverts.scatter_(0, indices, 0) *)
Definition scatter_zero (flags : list nat) (indices : list Z) : result (list nat) :=
  rfold (fun l i => if (i <? 0)%Z then Fail ERuntime else upd l (Z.to_nat i) 0%nat) indices flags.
(* (idle == 0).nonzero() and index_select *)
Definition keep_used {A} (l : list A) (idle : list nat) : list A :=
  map fst (filter (fun p => snd p =? 0)%nat (combine l idle)).

(* cubify.py:242-283; the features of the voxel of every face are only returned for align = center *)
Definition cubify_grid {F} (a : align_mode) (feats : option (nat -> nat -> nat -> nat -> F)) : result (meshes * option (list (list F))) :=
  nf <- rmap grid_face linind ;;
  let verts := grid_verts a in
  match nf with
  | [] => m <- new_list (repeat [] N) (repeat [] N) ;; Ok (m, None)
  | _ =>
      let num_verts := length verts in
      let shifted := map (fun p => shift_face (fst p * Z.of_nat num_verts) (snd p)) nf in
      let indices := flat_map (fun f => let '(i, j, k) := f in [i; j; k]) shifted in
      idle <- scatter_zero (repeat 1%nat (num_verts * N)) indices ;;
      split_size <- bincount N (map fst nf) ;;
      faces_list <- packed_to_list (map snd nf) split_size ;;
      let idle_rows := rows_of N num_verts idle in
      let idlenum := map cumsum idle_rows in
      let verts_list := map (keep_used verts) idle_rows in
      tex <- match feats, a with
             | Some f, Center =>
                 let flat := map (fun c => let '(n, h, w, d) := c in f n d h w) (cells N H W D) in
                 sel <- rmap (fun l => py_nth flat (fst l)) linind ;;
                 r <- packed_to_list sel split_size ;; Ok (Some r)
             | _, _ => Ok None
             end ;;
      faces_list <- rmap (fun n => fs <- rget faces_list n ;; idn <- rget idlenum n ;;
          rmap (fun f => let '(i, j, k) := f in
            x <- py_nth idn i ;; y <- py_nth idn j ;; z <- py_nth idn k ;;
            Ok (i - Z.of_nat x, j - Z.of_nat y, k - Z.of_nat z)%Z) fs) (seq 0 N) ;;
      m <- new_list verts_list faces_list ;; Ok (m, tex)
  end.

(* cubify.py:56-109; conv3d raises if the input is smaller than the kernel *)
Definition cubify {F} (a : align_mode) (feats : option (nat -> nat -> nat -> nat -> F)) : result (meshes * option (list (list F))) :=
  match N with
  | O => m <- new_list [] [] ;; Ok (m, None)
  | _ => if (W <? 2)%nat || (H <? 2)%nat || (D <? 2)%nat then Fail ERuntime else cubify_grid a feats
  end.
End Voxels.
