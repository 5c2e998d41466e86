(* Vocabulary of property C91. *)
From Coq Require Import Reals List Arith.
From Verif Require Import Base RBase Geom Circle.
Import ListNotations.
Local Open Scope R_scope.

Definition dist2sq (p q : pt) : R := (fst p - fst q) ^ 2 + (snd p - snd q) ^ 2.
Definition cross2 (p q : pt) : R := fst p * snd q - snd p * fst q.
(* some three of the points are not on a line *)
Definition not_on_a_line (l : list pt) : Prop := exists p q r, In p l /\ In q l /\ In r l /\ cross2 (psub q p) (psub r p) <> 0.
(* the area inside a polygon by the shoelace formula: all edges, the closing one included *)
Definition edges (l : list pt) : list (pt * pt) := match l with [] => [] | p :: l' => combine l (l' ++ [p]) end.
Definition shoelace (l : list pt) : R := rsum (map (fun e => cross2 (fst e) (snd e)) (edges l)) / 2.
(* how badly a circle fits *)
Definition misfit (l : list pt) (c : pt) (r2 : R) : R := rsum (map (fun p => (r2 - dist2sq p c) ^ 2) l).
(* what lstsq promises: no other solution has a smaller sum of squared errors *)
Definition error (rows : list (R * R * R)) (rhs : list R) (s : R * R * R) : R :=
  let '(s0, s1, s2) := s in
  rsum (map (fun e => let '((a, b, c), y) := e in (a * s0 + b * s1 + c * s2 - y) ^ 2) (combine rows rhs)).
Definition least_squares (lstsq : list (R * R * R) -> list R -> R * R * R) (rows : list (R * R * R)) (rhs : list R) : Prop :=
  forall s, error rows rhs (lstsq rows rhs) <= error rows rhs s.
(* it keeps that promise for the circle through points l *)
Definition lstsq_good (lstsq : list (R * R * R) -> list R -> R * R * R) (l : list pt) : Prop :=
  least_squares lstsq (map (fun p => (fst p, snd p, 1)) l) (map (fun p => fst p ^ 2 + snd p ^ 2) l).
(* what eigh promises for a symmetric matrix: orthonormal eigenvectors, by ascending eigenvalue *)
Definition apply3 (m : vec3 * vec3 * vec3) (v : vec3) : vec3 := let '(a, b, c) := m in V3 (dot3 a v) (dot3 b v) (dot3 c v).
Definition orthonormal (b : vec3 * vec3 * vec3) : Prop :=
  let '(e0, e1, e2) := b in dot3 e0 e0 = 1 /\ dot3 e1 e1 = 1 /\ dot3 e2 e2 = 1 /\ dot3 e0 e1 = 0 /\ dot3 e0 e2 = 0 /\ dot3 e1 e2 = 0.
Definition eigenvectors (eigh : vec3 * vec3 * vec3 -> vec3 * vec3 * vec3) (m : vec3 * vec3 * vec3) : Prop :=
  orthonormal (eigh m) /\ let '(e0, e1, e2) := eigh m in
    exists l0 l1 l2, l0 <= l1 <= l2 /\ apply3 m e0 = scal3 l0 e0 /\ apply3 m e1 = scal3 l1 e1 /\ apply3 m e2 = scal3 l2 e2.
(* the sum of the squared distances of points to the plane through m across the unit vector n *)
Definition off_plane (l : list vec3) (m n : vec3) : R := rsum (map (fun p => (dot3 (sub3 p m) n) ^ 2) l).
(* some three points of space are not on a line *)
Definition not_on_a_line3 (l : list vec3) : Prop := exists p q r, In p l /\ In q l /\ In r l /\ cross3 (sub3 q p) (sub3 r p) <> V3 0 0 0.
(* the angles of the points to generate: those given, else n over a full turn, none for n = 0 *)
Definition angles_used (n : nat) (angles : option (list R)) : list R :=
  match angles with Some a => a | None => if (0 <? n)%nat then full_turn n else [] end.
