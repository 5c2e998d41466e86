(* Model of the ray bundle with bins and of the Gaussians that stand for pieces of a cone:
   /repo/pytorch3d/implicitron/models/renderer/base.py.  One ray at a time, exact reals. *)
From Coq Require Import Reals List.
From Verif Require Import Base RBase Geom Rays.
Import ListNotations.
Local Open Scope R_scope.

(* torch.lerp(a, b, 0.5) *)
Definition lerp_half (a b : R) : R := a + 1 / 2 * (b - a).
(* (bins[..., :-1], bins[..., 1:]) *)
Definition bin_pairs (bins : list R) : list (R * R) := combine (removelast bins) (tl bins).

(* ImplicitronRayBundle, base.py:31-108; xys and the camera counters play no role here.
   Of the two sources of the lengths, bins wins. *)
Record bundle := Bundle {
  b_origin : vec3; b_direction : vec3; b_own : option (list R); b_bins : option (list R); b_radius : option R }.
(* ImplicitronRayBundle.__init__, base.py:78-108 *)
Definition new_bundle (o d : vec3) (lengths bins : option (list R)) (radius : option R) : result bundle :=
  match bins, lengths with
  | Some b, _ => if (length b <=? 1)%nat then Fail EValue else Ok (Bundle o d None (Some b) radius)
  | None, None => Fail EValue
  | None, Some _ => Ok (Bundle o d lengths None radius)
  end.
(* lengths, base.py:110-117 *)
Definition get_lengths (b : bundle) : option (list R) :=
  match b_bins b with
  | Some bins => Some (map (fun p => lerp_half (fst p) (snd p)) (bin_pairs bins))
  | None => b_own b
  end.
(* lengths.setter, base.py:119-126 *)
Definition set_lengths (b : bundle) (v : list R) : result bundle :=
  match b_bins b with
  | Some _ => Fail EValue
  | None => Ok (Bundle (b_origin b) (b_direction b) (Some v) None (b_radius b))
  end.

(* approximate_conical_frustum_as_gaussians, base.py:298-363, for one interval; a zero divisor
   (the interval [0, 0]) gives None for NaN. *)
Definition frustum_gaussian (radius : R) (p : R * R) : option (R * R * R) :=
  let t_mu := lerp_half (snd p) (fst p) in
  let t_delta := (snd p - fst p) / 2 in
  let den := 3 * t_mu ^ 2 + t_delta ^ 2 in
  if Reqb den 0 then None
  else Some (t_mu + 2 * t_mu * t_delta ^ 2 / den,
             t_delta ^ 2 / 3 - (4 / 15) * (t_delta ^ 4 * (12 * t_mu ^ 2 - t_delta ^ 2) / den ^ 2),
             radius ^ 2 * (t_mu ^ 2 / 4 + (5 / 12) * t_delta ^ 2 - 4 / 15 * t_delta ^ 4 / den)).
(* compute_3d_diagonal_covariance_gaussian, base.py:262-295, for one interval; eps is 1e-6 *)
Definition diagonal_covariance (eps : R) (d : vec3) (dir_var radii_var : R) : vec3 :=
  let mag := Rmax (x3 d ^ 2 + y3 d ^ 2 + z3 d ^ 2) eps in
  let entry c := dir_var * c ^ 2 + radii_var * (1 - c ^ 2 / mag) in
  V3 (entry (x3 d)) (entry (y3 d)) (entry (z3 d)).
(* conical_frustum_to_gaussian, base.py:366-412: for every interval the mean and the diagonal of
   the covariance *)
Definition cone_gaussian (eps radius : R) (o d : vec3) (p : R * R) : option (vec3 * vec3) :=
  match frustum_gaussian radius p with
  | None => None
  | Some (mean, dir_var, radii_var) =>
      match ray_points o d [mean] with
      | [m] => Some (m, diagonal_covariance eps d dir_var radii_var)
      | _ => None
      end
  end.
Definition conical_frustum_to_gaussian (b : bundle) : result (list (option (vec3 * vec3))) :=
  match b_radius b, b_bins b with
  | Some r, Some bins => Ok (map (cone_gaussian (1 / 10 ^ 6) r (b_origin b) (b_direction b)) (bin_pairs bins))
  | _, _ => Fail EValue
  end.
