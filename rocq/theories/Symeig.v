(* Model of /repo/pytorch3d/common/workaround/symeig3x3.py for one matrix (the code is batched
   elementwise) over the reals. eps is self._eps, the float epsilon. *)
From Verif Require Import Base RBase Geom LinAlg.
From Coq Require Import Reals.
Local Open Scope R_scope.

(* an index along a dimension of size 3 *)
Inductive idx3 := I0 | I1 | I2.
Definition at3 (v : vec3) (i : idx3) : R := match i with I0 => x3 v | I1 => y3 v | I2 => z3 v end.

Definition row3 (a : mat3) (i : idx3) : vec3 :=
  match i with I0 => V3 (m00 a) (m01 a) (m02 a) | I1 => V3 (m10 a) (m11 a) (m12 a) | I2 => V3 (m20 a) (m21 a) (m22 a) end.
Definition diagonal (a : mat3) : vec3 := V3 (m00 a) (m11 a) (m22 a).
Definition sum_sq3 (v : vec3) : R := x3 v * x3 v + y3 v * y3 v + z3 v * z3 v.
Definition sum_sq (a : mat3) : R := sum_sq3 (row3 a I0) + sum_sq3 (row3 a I1) + sum_sq3 (row3 a I2).
Definition minus_id (a : mat3) (c : R) : mat3 := madd3 a (mscal3 (- c) id3).
(* torch.sort along a dimension of size 3, ascending *)
Definition sort3 (v : vec3) : vec3 :=
  let lo := Rmin (x3 v) (y3 v) in let hi := Rmax (x3 v) (y3 v) in
  V3 (Rmin lo (z3 v)) (Rmax lo (Rmin hi (z3 v))) (Rmax hi (z3 v)).
(* tensor.clamp(lo, hi) *)
Definition clamp (x lo hi : R) : R := Rmin (Rmax x lo) hi.
(* 299-309 _sign_without_zero *)
Definition sign0 (x : R) : R := 2 * (if Rltb 0 x then 1 else 0) - 1.
(* torch.nn.functional.normalize with its default eps *)
Definition normalize_eps : R := / 10 ^ 12.

Section Symeig.
Variable eps : R.
(* torch.argmax and torch.argmin along a dimension of size 3: which of several extremal indices
   they return is left open *)
Variables argmax argmin : vec3 -> idx3.

(* 80-90 q, p1 and p2 *)
Definition se_q (a : mat3) : R := trace3 a / 3.
Definition se_p1 (a : mat3) : R := (sum_sq a - sum_sq3 (diagonal a)) / 2.
Definition se_p2 (a : mat3) : R :=
  let d := diagonal a in let q := se_q a in
  sum_sq3 (V3 (x3 d - q) (y3 d - q) (z3 d - q)) + 2 * Rmax (se_p1 a) eps.
(* 92-93 *)
Definition se_p (a : mat3) : R := sqrt (se_p2 a / 6).
Definition se_b (a : mat3) : mat3 := mscal3 (/ se_p a) (minus_id a (se_q a)).
(* 96-100 *)
Definition se_r (a : mat3) : R := clamp (det3 (se_b a) / 2) (-1 + eps) (1 - eps).
Definition se_phi (a : mat3) : R := acos (se_r a) / 3.
(* 101-105 *)
Definition se_eig (a : mat3) : vec3 :=
  let eig1 := se_q a + 2 * se_p a * cos (se_phi a) in
  let eig2 := se_q a + 2 * se_p a * cos (se_phi a + 2 * PI / 3) in
  let eig3 := 3 * se_q a - eig1 - eig2 in
  V3 eig2 eig3 eig1.
(* 110-112 *)
Definition se_soft (a : mat3) : R := exp (- ((se_p1 a / (6 * eps)) * (se_p1 a / (6 * eps)))).
(* 115-116 *)
Definition se_values (a : mat3) : vec3 :=
  let c := se_soft a in let d := sort3 (diagonal a) in let e := se_eig a in
  V3 (c * x3 d + (1 - c) * x3 e) (c * y3 d + (1 - c) * y3 e) (c * z3 d + (1 - c) * z3 e).

Definition normalize3 (v : vec3) : vec3 := scal3 (/ Rmax (sqrt (dot3 v v)) normalize_eps) v.
(* 188-220 _get_ev0 *)
Definition se_signs (v : vec3) : vec3 := V3 (eps * sign0 (x3 v)) (eps * sign0 (y3 v)) (eps * sign0 (z3 v)).
Definition se_ev0 (c : mat3) : vec3 :=
  let r01 := cross3 (row3 c I0) (row3 c I1) in
  let r12 := cross3 (row3 c I1) (row3 c I2) in
  let r02 := cross3 (row3 c I0) (row3 c I2) in
  let s := se_signs r01 in
  let p01 := add3 r01 s in let p12 := add3 r12 s in let p02 := add3 r02 s in
  let norms := V3 (sum_sq3 p01) (sum_sq3 p12) (sum_sq3 p02) in
  let k := argmax norms in
  let m := match k with I0 => p01 | I1 => p12 | I2 => p02 end in
  scal3 (/ sqrt (at3 norms k)) m.
(* 41-61 the three rotations, applied to w, and 243-261 _get_uv *)
Definition quarter (k : idx3) (w : vec3) : vec3 :=
  match k with
  | I0 => V3 0 (- z3 w) (y3 w)
  | I1 => V3 (- z3 w) 0 (x3 w)
  | I2 => V3 (- y3 w) (x3 w) 0
  end.
Definition se_uv (w : vec3) : vec3 * vec3 :=
  let k := argmin (V3 (Rabs (x3 w)) (Rabs (y3 w)) (Rabs (z3 w))) in
  let u := normalize3 (quarter k w) in
  (u, cross3 w u).
(* 263-297 _get_ev1 *)
Definition se_ev1 (c : mat3) (u v : vec3) : vec3 :=
  let n00 := dot3 u (mulv3 c u) in let n01 := dot3 u (mulv3 c v) in
  let n10 := dot3 v (mulv3 c u) in let n11 := dot3 v (mulv3 c v) in
  let s := sign0 (n00 * n10 + n01 * n11) in
  let a := n00 + s * n10 in let b := n01 + s * n11 in
  let t := eps * sign0 a in
  let a' := a + t in let b' := b + t in
  (* rowspace @ [[0, -1], [1, 0]], normalized *)
  let n := Rmax (sqrt (b' * b' + - a' * - a')) normalize_eps in
  add3 (scal3 (b' / n) u) (scal3 (- a' / n) v).
(* 161-186 _construct_eigenvecs *)
Definition se_triple (a : mat3) (alpha0 alpha1 : R) : vec3 * vec3 * vec3 :=
  let ev0 := se_ev0 (minus_id a alpha0) in
  let '(u, v) := se_uv ev0 in
  let ev1 := se_ev1 (minus_id a alpha1) u v in
  (ev0, ev1, cross3 ev0 ev1).
(* 125-159 _construct_eigenvecs_set: the columns of the result *)
Definition se_vectors (a : mat3) (e : vec3) : vec3 * vec3 * vec3 :=
  let t01 := se_triple a (x3 e) (y3 e) in
  let '(w0, w1, w2) := se_triple a (z3 e) (y3 e) in
  if Rltb (z3 e - y3 e) (y3 e - x3 e) then t01 else (w2, w1, w0).
(* 63-123 forward, with eigenvectors *)
Definition symeig3x3 (a : mat3) : vec3 * (vec3 * vec3 * vec3) :=
  (se_values a, se_vectors a (se_values a)).
End Symeig.
