(* Model of /repo/pytorch3d/renderer/splatter_blend.py (SplatterBlender), one image of the
   batch at a time (no operation of that file mixes images).  A tensor is a function of its
   indices, numbers are reals.  The projection of the intersections to the screen
   (splatter_blend.py:101-103) is not modelled here: its result is an input. *)
From Coq Require Import Reals ZArith Arith Lra Lia Bool List.
From Verif Require Import Base RBase Geom.
Import ListNotations.
Local Open Scope R_scope.

(* One of the K intersections of a pixel: entry [h, w, k] of background_mask, colors and
   the projected pixel coordinates: splatter_blend.py:73-103. *)
Record frag := Frag { bg : bool; colour : nat -> R; pos : vec3 }.
Definition image := nat -> nat -> nat -> frag.

(* pixel_coords_screen[background_mask] = 1.0: splatter_blend.py:115. *)
Definition screen (f : frag) : vec3 := if bg f then V3 1 1 1 else pos f.

(* The alpha channel (index 3) is 1, and background entries are all zero:
   splatter_blend.py:105-108 and 121. *)
Definition rgba (f : frag) (c : nat) : R :=
  if bg f then 0 else if Nat.eqb c 3 then 1 else colour f c.

(* offsets = product((-1, 0, 1), repeat=2): splatter_blend.py:64-68. *)
Definition offset_x (d : nat) : R := IZR (Z.of_nat (d / 3) - 1).
Definition offset_y (d : nat) : R := IZR (Z.of_nat (d mod 3) - 1).

(* _get_splat_kernel_normalization: splatter_blend.py:126-141. *)
Definition normalization (sigma : R) : result R :=
  if Rleb sigma 0 then Fail EValue
  else Ok ((1 + 5 / 100) /
           sumf 9 (fun d => exp (- (offset_x d ^ 2 + offset_y d ^ 2) / (2 * sigma ^ 2)))).

(* Zero padding by one pixel on every side: the entry at a possibly negative position
   (F.unfold(padding=1) at splatter_blend.py:182, F.pad at 328-330). *)
Definition padded (H W : nat) (t : nat -> nat -> R) (h w : Z) : R :=
  if ((0 <=? h) && (h <? Z.of_nat H) && (0 <=? w) && (w <? Z.of_nat W))%Z
  then t (Z.to_nat h) (Z.to_nat w) else 0.

(* torch.min(dim=...) over the entries 0..n: the value and the position of the first
   smallest entry (on ties torch leaves the position open): splatter_blend.py:191, 197. *)
Fixpoint first_min (f : nat -> R) (n : nat) : R * nat :=
  match n with
  | O => (f O, O)
  | S m => let (v, i) := first_min f m in if Rltb (f n) v then (f n, n) else (v, i)
  end.

(* Entry [d, k, h, w] of F.unfold(q_depth, kernel_size=3, padding=1), whose nine values
   run over the rows of the 3x3 window first: splatter_blend.py:167-184. *)
Definition unfolded (H W : nat) (im : image) (d k h w : nat) : R :=
  padded H W (fun a b => z3 (screen (im a b k)))
         (Z.of_nat h + Z.of_nat (d / 3) - 1) (Z.of_nat w + Z.of_nat (d mod 3) - 1).

(* _compute_occlusion_layers, entry [h, w, d], for K = S n layers:
   splatter_blend.py:144-224. *)
Definition occlusion (H W n : nat) (im : image) (h w d : nat) : Z :=
  let q k := z3 (screen (im h w k)) in
  let p k := unfolded H W im d k h w in
  let (vq, iq) := first_min (fun k => Rabs (p k - q O)) n in
  let (vp, ip) := first_min (fun k => Rabs (p O - q k)) n in
  if Rltb vp vq then (- Z.of_nat ip)%Z else Z.of_nat iq.

(* _compute_splatting_colors_and_weights: the entries [..., d, c] of one intersection,
   c = 0..3 the colour times the weight and c = 4 the weight: splatter_blend.py:227-280. *)
Definition to_center (x : R) : R := IZR (Int_part x) - x + 1 / 2.
Definition splat_weight (sigma norm : R) (f : frag) (d : nat) : R :=
  rgba f 3 * norm *
  exp (- ((to_center (x3 (screen f)) + offset_x d) ^ 2 +
          (to_center (y3 (screen f)) + offset_y d) ^ 2) / (2 * sigma ^ 2)).
Definition splat (sigma norm : R) (f : frag) (d c : nat) : R :=
  if Nat.eqb c 4 then splat_weight sigma norm f d
  else splat_weight sigma norm f d * rgba f c.

(* _offset_splats: padding and the two gathers with crop_ids_h (h + d mod 3) and crop_ids_w
   (w + d / 3): splatter_blend.py:45-62 and 283-342. *)
Definition offset_splats (H W : nat) (t : nat -> nat -> R) (d h w : nat) : R :=
  padded H W t (Z.of_nat h + Z.of_nat (d mod 3) - 1) (Z.of_nat w + Z.of_nat (d / 3) - 1).

(* occlusion_layer_mask, the three columns: splatter_blend.py:372-384. *)
Definition mask (l : nat) (occ : Z) (k : nat) : bool :=
  match l with
  | O => (Z.of_nat k <? occ)%Z
  | S O => (occ =? Z.of_nat k)%Z
  | _ => (occ <? Z.of_nat k)%Z
  end.

(* _compute_splatted_colors_and_weights, channel c of column l: splatter_blend.py:345-396. *)
Definition splatted (sigma norm : R) (H W n : nat) (im : image) (h w l c : nat) : R :=
  sumf (S n) (fun k => sumf 9 (fun d =>
    if mask l (occlusion H W n im h w d) k
    then offset_splats H W (fun a b => splat sigma norm (im a b k) d c) d h w else 0)).

(* _normalize_and_compose_all_layers: splatter_blend.py:399-445. *)
Definition normalized (s : nat -> nat -> R) (l c : nat) : R := s l c * (1 / Rmax (s l 4%nat) 1).
Definition over (t : nat -> nat -> R) (l : nat) (out : nat -> R) : nat -> R :=
  fun c => t l c + (1 - t l 3%nat) * out c.
Definition compose (background : nat -> R) (s : nat -> nat -> R) : nat -> R :=
  let t := normalized s in
  over t 0 (over t 1 (over t 2 (fun c => if Nat.eqb c 3 then 0 else background c))).

(* SplatterBlender.forward: splatter_blend.py:474-567.  With no layer at all (K = 0) the
   minimum over an empty dimension is an IndexError. *)
Definition forward (sigma : R) (background : nat -> R) (H W K : nat) (im : image)
  : result (nat -> nat -> nat -> R) :=
  match K with
  | O => Fail EIndex
  | S n =>
    norm <- normalization sigma ;;
    Ok (fun h w => compose background (splatted sigma norm H W n im h w))
  end.
