(* Model of TexturesUV.join_scene and of texture sampling, pytorch3d/renderer/mesh/textures.py:1191-1273,
   1440-1607, for one channel (channels are treated independently) and without multiple maps (maps_ids,
   which join_scene rejects). Floats are reals. *)
From Verif Require Import Base RBase Rectangles.
Local Open Scope R_scope.

Inductive pad_mode := Zeros | Border | Reflection.
Inductive interp_mode := Bilinear | Nearest.
(* a (H, W) map: its shape and its cells; cells out of the shape have no meaning *)
Record tmap := TMap { mh : Z; mw : Z; tex : Z -> Z -> R }.

(* torch.nn.functional.grid_sample, the external function of textures.py:1264-1270, as documented and
   implemented by ATen/native/GridSampler.h *)
Definition unnormalize (align : bool) (size : Z) (g : R) : R :=
  if align then (g + 1) / 2 * IZR (size - 1) else ((g + 1) * IZR size - 1) / 2.
Definition clip (size : Z) (x : R) : R := Rmin (IZR (size - 1)) (Rmax x 0).
Definition reflect (lo hi : R) (x : R) : R :=
  if Reqb lo hi then 0 else
  let y := Rabs (x - lo) in
  let span := hi - lo in
  let flips := Int_part (y / span) in
  let extra := y - IZR flips * span in
  if Z.even flips then extra + lo else span - extra + lo.
Definition source_index (align : bool) (mode : pad_mode) (size : Z) (g : R) : R :=
  let x := unnormalize align size g in
  match mode with
  | Zeros => x
  | Border => clip size x
  | Reflection => clip size (if align then reflect 0 (IZR (size - 1)) x else reflect (-1 / 2) (IZR size - 1 / 2) x)
  end.
Definition cell (m : tmap) (i j : Z) : R :=
  if (0 <=? i)%Z && (i <? mh m)%Z && (0 <=? j)%Z && (j <? mw m)%Z then tex m i j else 0.
Definition bilinear (m : tmap) (y x : R) : R :=
  let x0 := Int_part x in let y0 := Int_part y in
  (IZR (x0 + 1) - x) * (IZR (y0 + 1) - y) * cell m y0 x0 + (x - IZR x0) * (IZR (y0 + 1) - y) * cell m y0 (x0 + 1) +
  (IZR (x0 + 1) - x) * (y - IZR y0) * cell m (y0 + 1) x0 + (x - IZR x0) * (y - IZR y0) * cell m (y0 + 1) (x0 + 1).
(* nearbyint: to the nearest integer, ties to the even one *)
Definition nearbyint (x : R) : Z :=
  let f := Int_part x in
  if Rltb (x - IZR f) (1 / 2) then f else if Rltb (1 / 2) (x - IZR f) then (f + 1)%Z else if Z.even f then f else (f + 1)%Z.
Definition grid_sample (align : bool) (mode : pad_mode) (im : interp_mode) (m : tmap) (gx gy : R) : R :=
  let x := source_index align mode (mw m) gx in
  let y := source_index align mode (mh m) gy in
  match im with Bilinear => bilinear m y x | Nearest => cell m (nearbyint y) (nearbyint x) end.

(* textures.py:1256-1270 one texel; torch.lerp(a, b, w) = a + w (b - a) *)
Definition texel (align : bool) (mode : pad_mode) (im : interp_mode) (m : tmap) (uv : R * R) : R :=
  grid_sample align mode im m (-1 + fst uv * (1 - -1)) (1 + snd uv * (-1 - 1)).
(* textures.py:1217-1226 the uv coordinates of a pixel *)
Definition pixel_uv (vs : list (R * R)) (f : nat * nat * nat) (w : R * R * R) : option (R * R) :=
  let '(a, b, c) := f in let '(wa, wb, wc) := w in
  match nth_error vs a, nth_error vs b, nth_error vs c with
  | Some p, Some q, Some r => Some (wa * fst p + wb * fst q + wc * fst r, wa * snd p + wb * snd q + wc * snd r)
  | _, _, _ => None
  end.

(* a batch: the maps are given by the identities of the tensor objects, memory says what they contain *)
Record uvtex := UV { maps : list Z; faces_uvs : list (list (nat * nat * nat)); verts_uvs : list (list (R * R));
  align_corners : bool; padding_mode : pad_mode; sampling_mode : interp_mode }.

(* slice assignment: the cells with cond get val, computed before the assignment *)
Definition assign (cond : Z -> Z -> bool) (val : Z -> Z -> R) (m : Z -> Z -> R) : Z -> Z -> R :=
  fun r c => if cond r c then val r c else m r c.
Definition in_range (a b x : Z) : bool := (a <=? x)%Z && (x <? b)%Z.

(* textures.py:1440-1479 _place_map_into_single_map *)
Definition transpose (m : tmap) : tmap := TMap (mw m) (mh m) (fun i j => tex m j i).
Definition place_map (align : bool) (mode : pad_mode) (single : Z -> Z -> R) (m : tmap) (loc : place) : Z -> Z -> R :=
  let source := if flipped loc then transpose m else m in
  let border := if align then 0%Z else 1%Z in
  let lu := (px loc + border)%Z in let lv := (py loc + border)%Z in
  let uu := (lu + mh source)%Z in let uv := (lv + mw source)%Z in
  let s := assign (fun r c => in_range lu uu r && in_range lv uv c) (fun r c => tex source (r - lu) (c - lv)) single in
  if match mode with Zeros => false | _ => negb align end then
    let s := assign (fun r c => (r =? lu - 1)%Z && in_range lv uv c) (fun r c => s lu c) s in
    let s := assign (fun r c => (r =? uu)%Z && in_range lv uv c) (fun r c => s (uu - 1)%Z c) s in
    let s := assign (fun r c => in_range lu uu r && (c =? lv - 1)%Z) (fun r c => s r lv) s in
    let s := assign (fun r c => in_range lu uu r && (c =? uv)%Z) (fun r c => s r (uv - 1)%Z) s in
    let s := assign (fun r c => (r =? lu - 1)%Z && (c =? lv - 1)%Z) (fun r c => s lu lv) s in
    let s := assign (fun r c => (r =? lu - 1)%Z && (c =? uv)%Z) (fun r c => s lu (uv - 1)%Z) s in
    let s := assign (fun r c => (r =? uu)%Z && (c =? lv - 1)%Z) (fun r c => s (uu - 1)%Z lv) s in
    assign (fun r c => (r =? uu)%Z && (c =? uv)%Z) (fun r c => s (uu - 1)%Z (uv - 1)%Z) s
  else s.

(* textures.py:1521-1590 the new uv coordinates of one vertex; denom_x and denom_y are not 0 here *)
Definition merged_uv (align : bool) (total : Z * Z) (m : tmap) (loc : place) (uv : R * R) : R * R :=
  let x_shape := if flipped loc then mw m else mh m in
  let y_shape := if flipped loc then mh m else mw m in
  let uv := if flipped loc then (1 - snd uv, 1 - fst uv) else uv in
  let one_if_align := if align then 1%Z else 0%Z in
  let one_if_not_align := (1 - one_if_align)%Z in
  let denom_x := (fst total - one_if_align)%Z in let scale_x := (x_shape - one_if_align)%Z in
  let denom_y := (snd total - one_if_align)%Z in let scale_y := (y_shape - one_if_align)%Z in
  (fst uv * (IZR scale_y / IZR denom_y) + IZR (py loc + one_if_not_align) / IZR denom_y,
   snd uv * (IZR scale_x / IZR denom_x) + IZR (fst total - x_shape - px loc - one_if_not_align) / IZR denom_x).

(* textures.py:1517-1592 the loop over zip(maps, locations, verts_uvs); a division by zero raises
   ZeroDivisionError, shown as ERuntime *)
Fixpoint merge (align : bool) (mode : pad_mode) (memory : Z -> tmap) (total : Z * Z) (l : list (Z * place * list (R * R)))
  (single : Z -> Z -> R) (uvs : list (list (R * R))) : result ((Z -> Z -> R) * list (list (R * R))) :=
  match l with
  | [] => Ok (single, uvs)
  | (id, loc, vs) :: l' =>
    let m := memory id in
    let single := if is_first loc then place_map align mode single m loc else single in
    let one_if_align := if align then 1%Z else 0%Z in
    if (fst total =? one_if_align)%Z || (snd total =? one_if_align)%Z then Fail ERuntime
    else merge align mode memory total l' single (uvs ++ [map (merged_uv align total m loc) vs])
  end.
(* textures.py:1594-1598 *)
Fixpoint merge_faces (offset : nat) (l : list (list (nat * nat * nat) * list (R * R))) : list (list (nat * nat * nat)) :=
  match l with
  | [] => []
  | (fs, vs) :: l' => map (fun f => let '(a, b, c) := f in (offset + a, offset + b, offset + c)%nat) fs :: merge_faces (offset + length vs) l'
  end.

(* textures.py:1481-1607 join_scene: the single map, its faces_uvs and its verts_uvs. The shape of the
   single map is the total size of the layout. *)
Definition join_scene (memory : Z -> tmap) (t : uvtex) : result (tmap * list (nat * nat * nat) * list (R * R)) :=
  let extra := if align_corners t then 0%Z else 2%Z in
  plan <- pack_unique (map (fun id => (mh (memory id) + extra, mw (memory id) + extra, id)%Z) (maps t)) ;;
  let '(total, locs) := plan in
  r <- merge (align_corners t) (padding_mode t) memory total (combine (combine (maps t) locs) (verts_uvs t)) (fun _ _ => 0) [] ;;
  Ok (TMap (fst total) (snd total) (fst r), concat (merge_faces 0 (combine (faces_uvs t) (verts_uvs t))), concat (snd r)).
