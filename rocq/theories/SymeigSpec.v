(* Vocabulary for the statements about symeig3x3 and the local coordinate frames of point clouds. *)
From Verif Require Import Base RBase Geom LinAlg Symeig Spectral.
Local Open Scope R_scope.

(* the index of a largest, of a smallest entry *)
Definition is_argmax (f : vec3 -> idx3) : Prop := forall v i, at3 v i <= at3 v (f v).
Definition is_argmin (f : vec3 -> idx3) : Prop := forall v i, at3 v (f v) <= at3 v i.
(* the energy outside of the diagonal, and the root mean squared deviation from a multiple of the identity *)
Definition off_diagonal (a : mat3) : R :=
  (m01 a ^ 2 + m02 a ^ 2 + m10 a ^ 2 + m12 a ^ 2 + m20 a ^ 2 + m21 a ^ 2) / 2.
Definition spread (a : mat3) : R :=
  let q := (m00 a + m11 a + m22 a) / 3 in
  sqrt (((m00 a - q) ^ 2 + (m11 a - q) ^ 2 + (m22 a - q) ^ 2 + 2 * off_diagonal a) / 6).
(* an orthonormal eigenbasis with ascending eigenvalues, as torch.linalg.eigh returns it *)
Definition eigh_of (a : mat3) (r : vec3 * (vec3 * vec3 * vec3)) : Prop :=
  let '(e, (v1, v2, v3)) := r in
  eigens a (x3 e) (y3 e) (z3 e) v1 v2 v3 /\ x3 e <= y3 e <= z3 e.
