(* Model of ops/vert_align.py:14-107 and of ndc_grid_sample, ndc_to_grid_sample_coords, renderer/utils.py:359-438.
   torch.nn.functional.grid_sample is that of Textures.v, one channel of one image at one position. Floats are
   reals; the third coordinate of the vertices, which is not used, is kept. *)
From Verif Require Import Base RBase Geom Textures.
Local Open Scope R_scope.

(* ---- inputs ---- *)
(* verts: a tensor (its rank and, for rank 3, its (N, V, 3) entries), Meshes, Pointclouds, or something else *)
Inductive points :=
  | Tensor3 (rows : list (list vec3))
  | TensorOther
  | OfMeshes (verts : list (list vec3))
  | OfClouds (clouds : list (list vec3))
  | Unknown.
(* one element of feats: (N, C, H, W), as N lists of C maps, or of another rank *)
Inductive feature := Maps (channels : nat) (images : list (list tmap)) | BadRank.

(* verts_padded, points_padded: every list filled up with zeros to the longest *)
Definition longest (l : list (list vec3)) : nat := max_nat (map (@length vec3) l).
Definition pad_to (n : nat) (l : list vec3) : list vec3 := l ++ repeat (V3 0 0 0) (n - length l).
Definition padded (l : list (list vec3)) : list (list vec3) := map (pad_to (longest l)) l.
(* meshes.py:746-772 verts_padded_to_packed_idx *)
Definition padded_to_packed_idx (l : list (list vec3)) : result (list nat) :=
  match l with
  | [] => Fail ERuntime
  | _ => Ok (concat (map (fun iv => map (fun j => j + fst iv * longest l)%nat (seq 0 (length (snd iv)))) (combine (seq 0 (length l)) l)))
  end.

(* 59-72 *)
Definition grid_of (p : points) : result (list (list vec3)) :=
  match p with
  | Tensor3 rows => Ok rows
  | TensorOther => Fail EValue
  | OfMeshes l => Ok (padded l)
  | OfClouds l => Ok (padded l)
  | Unknown => Fail EValue
  end.
(* 78-82 *)
Definition check (n : nat) (f : feature) : result (nat * list (list tmap)) :=
  match f with
  | BadRank => Fail EValue
  | Maps c images => if (length images =? n)%nat then Ok (c, images) else Fail EValue
  end.
(* 85-94; torch refuses empty images *)
Definition sample_feature (align : bool) (mode : pad_mode) (im : interp_mode) (grid : list (list vec3)) (f : nat * list (list tmap)) : result (list (list (list R))) :=
  if existsb (existsb (fun m => (mh m <=? 0)%Z || (mw m <=? 0)%Z)) (snd f) then Fail ERuntime
  else Ok (map (fun p => map (fun v => map (fun m => grid_sample align mode im m (x3 v) (y3 v)) (snd p)) (fst p)) (combine grid (snd f))).
(* 95 torch.cat(dim=2) *)
Definition cat_features (a b : list (list (list R))) : list (list (list R)) :=
  map (fun p => map (fun q => fst q ++ snd q) (combine (fst p) (snd p))) (combine a b).
Definition cat_all (l : list (list (list (list R)))) : result (list (list (list R))) :=
  match l with
  | [] => Fail ERuntime
  | a :: l => Ok (fold_left cat_features l a)
  end.
Inductive output := Padded (x : list (list (list R))) | Packed (x : list (list R)).
(* gather(0, idx) *)
Definition gather_rows (x : list (list R)) (idx : list nat) : result (list (list R)) :=
  rmap (fun i => match nth_error x i with Some r => Ok r | None => Fail ERuntime end) idx.
Definition vert_align (feats : list feature) (verts : points) (return_packed : bool)
  (im : interp_mode) (mode : pad_mode) (align : bool) : result output :=
  grid <- grid_of verts ;;
  fs <- rmap (check (length grid)) feats ;;
  sampled <- rmap (sample_feature align mode im grid) fs ;;
  x <- cat_all sampled ;;
  if return_packed then
    (* 97-105; view(-1, 0) raises *)
    if (fold_right Nat.add 0 (map fst fs) =? 0)%nat then Fail ERuntime
    else match verts with
         | OfMeshes l => idx <- padded_to_packed_idx l ;; y <- gather_rows (concat x) idx ;; Ok (Packed y)
         | _ => Ok (Packed (concat x))
         end
  else Ok (Padded x).

(* ---- ndc_grid_sample, one channel of one image, positions flattened ---- *)
(* 430-438 *)
Definition ndc_to_grid_sample_coords (h w : Z) (p : R * R) : result (R * R) :=
  if ((h <=? 0) || (w <=? 0))%Z then Fail EValue
  else
    let aspect := IZR (Z.min h w) / IZR (Z.max h w) in
    let g := (- fst p, - snd p) in
    Ok (if (w <=? h)%Z then (fst g, snd g * aspect) else (fst g * aspect, snd g)).
Definition ndc_grid_sample (align : bool) (mode : pad_mode) (im : interp_mode) (m : tmap) (p : R * R) : result R :=
  g <- ndc_to_grid_sample_coords (mh m) (mw m) p ;; Ok (grid_sample align mode im m (fst g) (snd g)).
