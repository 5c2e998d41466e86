(* Vocabulary for the statements about corresponding_cameras_alignment. *)
From Verif Require Import Base RBase Geom LinAlg Camera Alignment AlignmentSpec.
Local Open Scope R_scope.

(* the extrinsics of the cameras *)
Definition poses (cs : cameras) : list (mat3 * vec3) := combine (cs_R cs) (cs_T cs).
(* a batch of n >= 1 cameras whose R are orthogonal *)
Definition cameras_ok (cs : cameras) (n : nat) : Prop :=
  (1 <= n)%nat /\ length (cs_R cs) = n /\ length (cs_T cs) = n /\ List.Forall orthogonal (cs_R cs).
(* (R_A R, T_A R + s_A T), the extrinsics the documentation gives the aligned cameras *)
Definition realigned (t : similarity) (p : mat3 * vec3) : mat3 * vec3 :=
  (mul3 (rot t) (fst p), add3 (vmul3 (shift t) (fst p)) (scal3 (scale t) (snd p))).
(* the same cameras with other extrinsics *)
Definition same_but_poses (a b : cameras) : Prop :=
  cs_cls a = cs_cls b /\ cs_int a = cs_int b /\ cs_K a = cs_K b /\ cs_ndc a = cs_ndc b /\ cs_size a = cs_size b.
(* the point (X' R_A + T_A) / s_A *)
Definition partner (t : similarity) (x : vec3) : vec3 := div3 (add3 (vmul3 x (rot t)) (shift t)) (scale t).
(* the centre -T R^T of a camera with orthogonal R *)
Definition seat (p : mat3 * vec3) : vec3 :=
  let v := vmul3 (snd p) (tr3 (fst p)) in V3 (- x3 v) (- y3 v) (- z3 v).

(* sums of squared differences of the rotations and of the translations *)
Definition mdist (a b : mat3) : R :=
  (m00 a - m00 b) ^ 2 + (m01 a - m01 b) ^ 2 + (m02 a - m02 b) ^ 2 + (m10 a - m10 b) ^ 2 + (m11 a - m11 b) ^ 2
  + (m12 a - m12 b) ^ 2 + (m20 a - m20 b) ^ 2 + (m21 a - m21 b) ^ 2 + (m22 a - m22 b) ^ 2.
Definition turn_error (t : similarity) (ps ps' : list (mat3 * vec3)) : R :=
  rsum (map (fun pp => mdist (fst (realigned t (fst pp))) (fst (snd pp))) (combine ps ps')).
Definition shift_error (t : similarity) (ps ps' : list (mat3 * vec3)) : R :=
  rsum (map (fun pp => sqdist (snd (realigned t (fst pp))) (snd (snd pp))) (combine ps ps')).
(* the mean of R_i R_i'^T, whose decomposition is computed *)
Definition turn_cov (ps ps' : list (mat3 * vec3)) : mat3 :=
  mscal3 (/ INR (length ps)) (fold_right (fun pp m => madd3 (mul3 (fst (fst pp)) (tr3 (fst (snd pp)))) m) zero3 (combine ps ps')).
(* how far the centres of the cameras spread *)
Definition spread (cs : cameras) : R := variance (repeat 1 (length (poses cs))) (map seat (poses cs)).
