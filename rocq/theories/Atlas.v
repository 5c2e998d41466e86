(* Model of the texture atlas: make_mesh_texture_atlas and make_material_atlas,
   /repo/pytorch3d/io/mtl_io.py:24-311 and 365-396, and TexturesAtlas.sample_textures,
   /repo/pytorch3d/renderer/mesh/textures.py:565-619.  Floats are reals; grid_sample is that of
   Textures.v.  A name of a material is a number (names are only compared).  An image is the list of
   its channels.  n is the texture size, called R in the code. *)
From Coq Require Import Reals List Bool Arith ZArith.
From Verif Require Import Base RBase Textures.
Import ListNotations.
Local Open Scope R_scope.

Definition uv := (R * R)%type.
Definition triple (A : Type) := (A * A * A)%type.
Definition colour := list R.
(* the map of one face: rows y of cells x *)
Definition square := list (list colour).

(* mtl_io.py:275-296 the barycentric coordinates of cell x, y *)
Definition cell_bary (n x y : nat) : R * R * R :=
  let w0 := if (x + y <? n)%nat then (INR x + 1 / 3) / INR n else (INR n - 1 - INR x + 2 / 3) / INR n in
  let w1 := if (x + y <? n)%nat then (INR y + 1 / 3) / INR n else (INR n - 1 - INR y + 2 / 3) / INR n in
  (w0, w1, 1 - (w0 + w1)).
(* mtl_io.py:298-302 *)
Definition uv_pos (f : triple uv) (w : R * R * R) : uv :=
  let '(a, b, c) := f in let '(w0, w1, w2) := w in
  (fst a * w0 + fst b * w1 + fst c * w2, snd a * w0 + snd b * w1 + snd c * w2).
(* _bilinear_interpolation_grid_sample, mtl_io.py:365-396; grid_sample pads with zeros by default *)
Definition sample_image (m : tmap) (p : uv) : R := grid_sample true Zeros Bilinear m (fst p * 2 - 1) (snd p * 2 - 1).
(* make_material_atlas, mtl_io.py:155-308, one face *)
Definition face_square (image : list tmap) (n : nat) (f : triple uv) : square :=
  map (fun y => map (fun x => map (fun m => sample_image m (uv_pos f (cell_bary n x y))) image) (seq 0 n)) (seq 0 n).
Definition material_atlas (image : list tmap) (fs : list (triple uv)) (n : nat) : list square := map (face_square image n) fs.

(* mtl_io.py:131-136 only the colours of an image with transparency; the rows reversed *)
Definition rgb (image : list tmap) : list tmap := if (length image =? 4)%nat then firstn 3 image else image.
Definition flip (m : tmap) : tmap := TMap (mh m) (mw m) (fun i j => tex m (mh m - 1 - i)%Z j).
Definition filled (n : nat) (c : colour) : square := repeat (repeat c n) n.
Definition white : colour := [1; 1; 1].
(* atlas[face_material_names == name] = new *)
Definition assign (names : list nat) (name : nat) (new atlas : list square) : list square :=
  map (fun t => if (fst (fst t) =? name)%nat then snd (fst t) else snd t) (combine (combine names new) atlas).
(* verts_uvs[faces_uvs]; negative indices count from the end *)
Definition vert_uv (vs : list uv) (i : Z) : result uv :=
  let k := if (i <? 0)%Z then (i + Z.of_nat (length vs))%Z else i in
  if (k <? 0)%Z then Fail EIndex else rget vs (Z.to_nat k).
Definition face_uv (vs : list uv) (f : triple Z) : result (triple uv) :=
  let '(a, b, c) := f in
  p <- vert_uv vs a ;; q <- vert_uv vs b ;; r <- vert_uv vs c ;; Ok (p, q, r).
(* mtl_io.py:106-127 *)
Inductive wrap := Repeat | Clamp | NoWrap.
Definition on_uv (g : R -> R) (p : uv) : uv := (g (fst p), g (snd p)).
Definition on_face (g : R -> R) (f : triple uv) : triple uv := let '(a, b, c) := f in (on_uv g a, on_uv g b, on_uv g c).
Definition coordinates (f : triple uv) : list R :=
  let '(a, b, c) := f in [fst a; snd a; fst b; snd b; fst c; snd c].
Definition fraction (u : R) : R := u - IZR (Int_part u).
Definition clamp_uv (u : R) : R := Rmin (Rmax u 0) 1.
Definition wrapped (w : wrap) (fs : list (triple uv)) : list (triple uv) :=
  match w with
  | Repeat =>
      if existsb (fun f => existsb (fun u => Rltb 1 u) (coordinates f)) fs ||
         existsb (fun f => existsb (fun u => Rltb u 0) (coordinates f)) fs
      then map (on_face fraction) fs else fs
  | Clamp => map (on_face clamp_uv) fs
  | NoWrap => fs
  end.
(* make_mesh_texture_atlas, mtl_io.py:24-153.  props: the diffuse colour of a material, if it has one. *)
Definition mesh_atlas (props : list (nat * option colour)) (images : list (nat * list tmap)) (names : list nat)
    (faces : list (triple Z)) (vs : list uv) (n : nat) (w : wrap) : result (list square) :=
  let atlas := repeat (filled n white) (length faces) in
  match props, images with
  | [], [] => Ok atlas
  | _, _ =>
      let atlas := fold_left (fun atlas p =>
        match snd p with None => atlas | Some c => assign names (fst p) (repeat (filled n c) (length faces)) atlas end) props atlas in
      match vs with
      | [] => Ok atlas
      | _ =>
          fs <- rmap (face_uv vs) faces ;;
          let fs := wrapped w fs in
          Ok (fold_left (fun atlas p => assign names (fst p) (material_atlas (map flip (rgb (snd p))) fs n) atlas) images atlas)
      end
  end.

(* ---- textures.py:594-619, one pixel ---- *)
(* .to(torch.int64) *)
Definition to_int (x : R) : Z := if Rltb x 0 then (- Int_part (- x))%Z else Int_part x.
Definition pick (n : nat) (w0 w1 : R) : Z * Z :=
  let x := Z.min (to_int (w0 * INR n)) (Z.of_nat n - 1) in
  let y := Z.min (to_int (w1 * INR n)) (Z.of_nat n - 1) in
  if Rleb ((w0 + w1) * INR n - (IZR x + IZR y)) 1 then (x, y) else (Z.of_nat n - 1 - x, Z.of_nat n - 1 - y)%Z.
Definition zget {A} (l : list A) (i : Z) : result A :=
  let k := if (i <? 0)%Z then (i + Z.of_nat (length l))%Z else i in
  if (k <? 0)%Z then Fail EIndex else rget l (Z.to_nat k).
Definition sample_atlas (atlas : list square) (n : nat) (face : Z) (w : R * R * R) : result colour :=
  let '(w0, w1, _) := w in
  let '(w0, w1) := if (face <? 0)%Z then (0, 0) else (w0, w1) in
  let '(x, y) := pick n w0 w1 in
  s <- zget atlas face ;; row <- zget s y ;; c <- zget row x ;;
  Ok (map (fun v => v * (if (face <? 0)%Z then 0 else 1)) c).
