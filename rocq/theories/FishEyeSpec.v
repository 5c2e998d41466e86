(* Vocabulary of property C90: the fisheye model of the documentation (fisheyecameras.py:29-52). *)
From Coq Require Import Reals List.
From Verif Require Import Base RBase FishEye.
Import ListNotations.
Local Open Scope R_scope.

(* th + k0 th^3 + k1 th^5 + ... *)
Definition bent (k : list R) (th : R) : R := th + rsum (map (fun i => nth i k 0 * th ^ (2 * i + 3)) (seq 0 (length k))).
(* its slope: 1 + 3 k0 th^2 + 5 k1 th^4 + ... *)
Definition slope (k : list R) (th : R) : R := 1 + rsum (map (fun i => (2 * INR i + 3) * nth i k 0 * th ^ (2 * i + 2)) (seq 0 (length k))).
Definition tangential_term (p : pair2) (x : pair2) : pair2 :=
  let rd2 := fst x ^ 2 + snd x ^ 2 in
  ((2 * fst x ^ 2 + rd2) * fst p + 2 * fst x * snd x * snd p, (2 * snd x ^ 2 + rd2) * snd p + 2 * fst x * snd x * fst p).
Definition prism_term (s : R * R * R * R) (x : pair2) : pair2 :=
  let '(s0, s1, s2, s3) := s in let rd2 := fst x ^ 2 + snd x ^ 2 in
  (s0 * rd2 + s1 * rd2 ^ 2, s2 * rd2 + s3 * rd2 ^ 2).
Definition when (b : bool) (p : pair2) : pair2 := if b then p else (0, 0).
(* the image of the direction (a, b, 1), r = |(a, b)| > 0 *)
Definition image_of (c : fisheye) (a b : R) : pair2 :=
  let r := norm2 (a, b) in
  let xr := (bent (radial c) (atan r) * (a / r), bent (radial c) (atan r) * (b / r)) in
  let base := if use_radial c then xr else (a, b) in
  let t := when (use_tangential c) (tangential_term (tangential c) xr) in
  let s := when (use_prism c) (prism_term (prism c) xr) in
  (focal c * (fst base + fst t + fst s) + fst (principal c), focal c * (snd base + snd t + snd s) + snd (principal c)).
(* neither tangential nor thin-prism distortion is in effect *)
Definition no_shear (c : fisheye) : Prop :=
  (use_tangential c = false \/ tangential c = (0, 0)) /\ (use_prism c = false \/ prism c = (0, 0, 0, 0)).
