(* Model of /repo/pytorch3d/implicitron/tools/circle_fitting.py.  Floats are reals.  torch.linalg.lstsq and
   torch.linalg.eigh are parameters; a square root of a negative number fails with EValue (nan in the code). *)
From Coq Require Import Reals List Bool Arith.
From Verif Require Import Base RBase Geom Rotation.
Import ListNotations.
Local Open Scope R_scope.

Definition pt := (R * R)%type.
Definition psub (p q : pt) : pt := (fst p - fst q, snd p - snd q).
(* 64 the terms y[1:] * x[:-1] - x[1:] * y[:-1] *)
Fixpoint turns (l : list pt) : list R :=
  match l with
  | p :: ((q :: _) as l') => (snd q * fst p - fst q * snd p) :: turns l'
  | _ => []
  end.
(* _signed_area, 42-64 *)
Definition signed_area (path : list pt) : R :=
  match path with [] => rsum [] * (1 / 2) | p :: l => rsum (turns (map (fun q => psub q p) l)) * (1 / 2) end.
(* torch.linspace(0, 2 * pi, n) *)
Definition full_turn (n : nat) : list R :=
  match n with 1%nat => [0] | _ => map (fun i => 2 * PI * (INR i / INR (n - 1))) (seq 0 n) end.
Record circle2 := Circle2 { center : pt; radius : R; generated : list pt }.
Record circle3 := Circle3 { center3 : vec3; radius3 : R; normal3 : vec3; generated3 : list vec3 }.

Section fit.
(* the solution of design @ s = rhs in the least squares sense; the eigenvectors of a symmetric matrix of 3 x 3 (its rows), ascending *)
Variables (lstsq : list (R * R * R) -> list R -> R * R * R) (eigh : vec3 * vec3 * vec3 -> vec3 * vec3 * vec3).

(* fit_circle_in_2d, 81-142 *)
Definition fit2 (points : list pt) (n_points : nat) (angles : option (list R)) : result circle2 :=
  if (length points <? 3)%nat then Fail EValue else
  let '(s0, s1, s2) := lstsq (map (fun p => (fst p, snd p, 1)) points) (map (fun p => fst p ^ 2 + snd p ^ 2) points) in
  let c := (s0 / 2, s1 / 2) in
  let sq := s2 + (fst c ^ 2 + snd c ^ 2) in
  if Rltb sq 0 then Fail EValue else
  let r := sqrt sq in
  let angles := match angles with Some a => Some a | None => if (0 <? n_points)%nat then Some (full_turn n_points) else None end in
  match angles with
  | None => Ok (Circle2 c r [])
  | Some angles =>
      p0 <- rget points 0 ;;
      let d := psub p0 c in
      let start := atan2 (snd d) (fst d) in
      let used := map (fun t => if Rltb 0 (signed_area points) then start + t else start - t) angles in
      Ok (Circle2 c r (map (fun t => (fst c + r * cos t, snd c + r * sin t)) used))
  end.

(* points.transpose @ points, its rows *)
Definition scatter (qs : list vec3) : vec3 * vec3 * vec3 :=
  (V3 (rsum (map (fun q => x3 q * x3 q) qs)) (rsum (map (fun q => x3 q * y3 q) qs)) (rsum (map (fun q => x3 q * z3 q) qs)),
   V3 (rsum (map (fun q => y3 q * x3 q) qs)) (rsum (map (fun q => y3 q * y3 q) qs)) (rsum (map (fun q => y3 q * z3 q) qs)),
   V3 (rsum (map (fun q => z3 q * x3 q) qs)) (rsum (map (fun q => z3 q * y3 q) qs)) (rsum (map (fun q => z3 q * z3 q) qs))).
(* get_rotation_to_best_fit_xy, 17-39: the columns *)
Definition best_fit_rotation (points : list vec3) (centroid : vec3) : vec3 * vec3 * vec3 :=
  let '(_, e1, e2) := eigh (scatter (map (fun p => sub3 p centroid) points)) in
  (e1, e2, cross3 e1 e2).
(* points.mean(0); of no points it is nan *)
Definition mean3 (points : list vec3) : vec3 :=
  let n := INR (length points) in
  V3 (rsum (map x3 points) / n) (rsum (map y3 points) / n) (rsum (map z3 points) / n).
(* q @ r.t(), the columns of r given *)
Definition in_basis (b : vec3 * vec3 * vec3) (q : vec3) : vec3 :=
  let '(e1, e2, e3) := b in add3 (add3 (scal3 (x3 q) e1) (scal3 (y3 q) e2)) (scal3 (z3 q) e3).
(* fit_circle_in_3d, 161-240 *)
Definition fit3 (points : list vec3) (n_points : nat) (angles : option (list R)) (offset up : option vec3) : result circle3 :=
  let m := mean3 points in
  let '(e1, e2, e3) := best_fit_rotation points m in
  f <- fit2 (map (fun p => (dot3 (sub3 p m) e1, dot3 (sub3 p m) e2)) points) n_points angles ;;
  let c := add3 (add3 (scal3 (fst (center f)) e1) (scal3 (snd (center f)) e2)) m in
  match generated f with
  | [] => Ok (Circle3 c (radius f) e3 [])
  | _ =>
      let flat := map (fun g => V3 (fst g) (snd g) 0) (generated f) in
      moved <- match offset with
        | None => Ok flat
        | Some o =>
            match up with
            | None => Fail EValue
            | Some u => Ok (map (fun g => add3 g (if Rltb (dot3 u e3) 0 then V3 (x3 o) (- y3 o) (- z3 o) else o)) flat)
            end
        end ;;
      Ok (Circle3 c (radius f) e3 (map (fun g => add3 (in_basis (e1, e2, e3) g) m) moved))
  end.
End fit.
