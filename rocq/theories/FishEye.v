(* Model of FishEyeCameras, /repo/pytorch3d/renderer/fisheyecameras.py:23-589, for one camera and one point in camera
   coordinates.  Floats are reals; where the code computes inf or nan the model fails with EValue, and where
   torch.linalg.solve raises on a singular matrix with ERuntime.  The number of radial parameters is six, as theta_pow
   (lines 177, 424) has six entries; other numbers fail with EType (one parameter, which torch would broadcast, is not modelled). *)
From Coq Require Import Reals List Bool Arith.
From Verif Require Import Base RBase.
Import ListNotations.
Local Open Scope R_scope.

Definition pair2 := (R * R)%type.
(* fields of the camera, lines 69-144 *)
Record fisheye := FishEye { focal : R; principal : pair2; radial : list R; tangential : pair2; prism : R * R * R * R;
  use_radial : bool; use_tangential : bool; use_prism : bool }.
(* line 138 *)
Definition epsilon : R := / 10 ^ 10.
(* line 139 *)
Definition distortion_iters : nat := 50.
Definition norm2 (p : pair2) : R := sqrt (fst p * fst p + snd p * snd p).
(* torch.sum(theta_pow * radial_params), theta_pow = t, t^2, ..., lines 176-178; the exponent of the first entry of k is j *)
Fixpoint series (j : nat) (k : list R) (t : R) : R := match k with [] => 0 | a :: k => t ^ j * a + series (S j) k t end.
(* torch.sum(c * radial_params * theta_pow), c = 3, 5, ..., lines 412-414, 428 *)
Fixpoint dseries (j : nat) (k : list R) (t : R) : R := match k with [] => 0 | a :: k => (2 * INR (j - 1) + 3) * a * t ^ j + dseries (S j) k t end.
(* the tangential and thin-prism terms added to base, lines 194-221; xr_yr as given *)
Definition add_tangential (c : fisheye) (x base : pair2) : pair2 :=
  if use_tangential c then
    let temp := 2 * (fst x * fst (tangential c) + snd x * snd (tangential c)) in
    let sq := fst x ^ 2 + snd x ^ 2 in
    (fst base + (temp * fst x + sq * fst (tangential c)), snd base + (temp * snd x + sq * snd (tangential c)))
  else base.
Definition add_prism (c : fisheye) (x base : pair2) : pair2 :=
  if use_prism c then
    let '(s0, s1, s2, s3) := prism c in
    let sq := fst x ^ 2 + snd x ^ 2 in
    (fst base + (s0 * sq + s1 * (sq * sq)), snd base + (s2 * sq + s3 * (sq * sq)))
  else base.
(* _project_points_batch, lines 146-226 *)
Definition project (c : fisheye) (p : R * R * R) : result (R * R * R) :=
  let '(x, y, z) := p in
  if negb (length (radial c) =? 6)%nat then Fail EType else
  if Reqb z 0 then Fail EValue else
  let ab := (x / z, y / z) in
  let r := norm2 ab in
  let th := atan r in
  let th_radial := 1 + series 1 (radial c) (th * th) in
  let th_divr := if Rltb (Rabs r) epsilon then 1 else th / r in
  let coeff := th_radial * th_divr in
  let xr := (coeff * fst ab, coeff * snd ab) in
  let uv := if use_radial c then xr else ab in
  let uv := add_prism c xr (add_tangential c xr uv) in
  Ok (focal c * fst uv + fst (principal c), focal c * snd uv + snd (principal c), 1).

(* ---- unprojection ---- *)
(* lines 377-397 *)
Definition distorted (c : fisheye) (x : pair2) : pair2 := add_prism c x (add_tangential c x x).
(* _compute_duv_distorted_dxryr, lines 460-581: entries 00, 01, 10, 11 *)
Definition jacobian (c : fisheye) (x : pair2) : R * R * R * R :=
  let sq := fst x ^ 2 + snd x ^ 2 in
  let p := tangential c in
  let '(j00, j01, j10, j11) :=
    if use_tangential c then
      let off := 2 * (fst x * snd p + snd x * fst p) in
      (1 + 6 * fst x * fst p + 2 * snd x * snd p, off, off, 1 + 6 * snd x * snd p + 2 * fst x * fst p)
    else (1, 0, 0, 1) in
  if use_prism c then
    let '(s0, s1, s2, s3) := prism c in
    let t1 := 2 * (s0 + 2 * s1 * sq) in let t2 := 2 * (s2 + 2 * s3 * sq) in
    (j00 + fst x * t1, j01 + snd x * t1, j10 + fst x * t2, j11 + snd x * t2)
  else (j00, j01, j10, j11).
(* torch.linalg.solve of a 2 x 2 system *)
Definition solve2 (m : R * R * R * R) (b : pair2) : result pair2 :=
  let '(a, b', c, d) := m in
  let det := a * d - b' * c in
  if Reqb det 0 then Fail ERuntime else Ok ((d * fst b - b' * snd b) / det, (a * snd b - c * fst b) / det).
(* lines 373-408 one iteration *)
Definition newton (c : fisheye) (uv x : pair2) : result pair2 :=
  let e := distorted c x in
  s <- solve2 (jacobian c x) (fst uv - fst e, snd uv - snd e) ;;
  Ok (fst x + fst s, snd x + snd s).
Fixpoint times {A} (n : nat) (f : A -> result A) (a : A) : result A :=
  match n with O => Ok a | S n => b <- f a ;; times n f b end.
(* _compute_xr_yr_from_uv_distorted, lines 350-409 *)
Definition undistort (c : fisheye) (uv : pair2) : result pair2 :=
  if negb (use_tangential c) && negb (use_prism c) then Ok uv else times distortion_iters (newton c uv) uv.
(* lines 416-457 one iteration; the mask of line 436 multiplies the numerator, so a derivative of 0 gives 0 / 0 *)
Definition theta_step (k : list R) (desired th : R) : result R :=
  let t := th * th in
  let th_radial := (1 + series 1 k t) * th in
  let d := 1 + dseries 1 k t in
  if Reqb d 0 then Fail EValue else
  let step := if Rltb epsilon (Rabs d) then (desired - th_radial) / d
    else if Rltb 0 ((desired - th_radial) * d) then 10 * epsilon else - (10 * epsilon) in
  let th := th + step in
  Ok (if Rleb (PI / 2) (Rabs th) then 999 / 1000 * PI / 2 else th).
(* _get_theta_from_norm_xr_yr, lines 399-458 *)
Definition theta_of (k : list R) (desired : R) : result R := times distortion_iters (theta_step k desired) desired.
(* _unproject_points_batch, lines 288-324; the depth of the input is not used *)
Definition unproject (c : fisheye) (q : R * R * R) : result (R * R * R) :=
  let '(u, v, _) := q in
  if negb (length (radial c) =? 6)%nat then Fail EType else
  if Reqb (focal c) 0 then Fail EValue else
  x <- undistort c ((u - fst (principal c)) / focal c, (v - snd (principal c)) / focal c) ;;
  th <- theta_of (radial c) (norm2 x) ;;
  if Reqb (norm2 x) 0 then Fail EValue else
  Ok (tan th / norm2 x * fst x, tan th / norm2 x * snd x, 1).
