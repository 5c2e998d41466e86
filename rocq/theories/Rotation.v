(* Model of /repo/pytorch3d/transforms/rotation_conversions.py, so3.py, se3.py and math.py.
   Exact reals; leading batch dimensions are pointwise maps and are left out except where a
   function mixes batch elements (matrix_to_axis_angle with fast=True, hat_inv). A division by
   exactly zero (inf/nan in floats) is an explicit Fail. *)
From Verif Require Import Base RBase Geom LinAlg Transform.
Local Open Scope R_scope.

Record quat := Q { qw : R; qx : R; qy : R; qz : R }.

(* torch.atan2 *)
Definition atan2 (y x : R) : R :=
  if Rltb 0 x then atan (y / x)
  else if Rltb x 0 then (if Rltb y 0 then atan (y / x) - PI else atan (y / x) + PI)
  else if Rltb 0 y then PI / 2 else if Rltb y 0 then - (PI / 2) else 0.
(* torch.sinc(x / pi) = sin(x)/x, 1 at 0 *)
Definition sinc_pi (x : R) : R := if Reqb x 0 then 1 else sin x / x.
Definition qnorm2 (q : quat) : R := qw q * qw q + qx q * qx q + qy q * qy q + qz q * qz q.

(* quaternion_to_matrix: 43-71 *)
Definition quaternion_to_matrix (q : quat) : result mat3 :=
  let '(Q r i j k) := q in
  if Reqb (qnorm2 q) 0 then Fail ERuntime else
  let two_s := 2 / qnorm2 q in
  Ok (M3 (1 - two_s * (j * j + k * k)) (two_s * (i * j - k * r)) (two_s * (i * k + j * r))
         (two_s * (i * j + k * r)) (1 - two_s * (i * i + k * k)) (two_s * (j * k - i * r))
         (two_s * (i * k - j * r)) (two_s * (j * k + i * r)) (1 - two_s * (i * i + j * j))).

(* _copysign: 74-89 *)
Definition copysign (a b : R) : R := if eqb (Rltb a 0) (Rltb b 0) then a else - a.
(* _sqrt_positive_part: 92-99 *)
Definition sqrt_positive_part (x : R) : R := if Rltb 0 x then sqrt x else 0.
(* standardize_quaternion: 370-382 *)
Definition standardize (q : quat) : quat :=
  if Rltb (qw q) 0 then Q (- qw q) (- qx q) (- qy q) (- qz q) else q.
(* argmax over four values: the first maximal index *)
Definition argmax4 (a b c d : R) : nat :=
  let i1 := if Rltb a b then 1%nat else 0%nat in
  let m1 := if Rltb a b then b else a in
  let i2 := if Rltb m1 c then 2%nat else i1 in
  let m2 := if Rltb m1 c then c else m1 in
  if Rltb m2 d then 3%nat else i2.
(* matrix_to_quaternion: 102-162 *)
Definition matrix_to_quaternion (m : mat3) : quat :=
  let a0 := sqrt_positive_part (1 + m00 m + m11 m + m22 m) in
  let a1 := sqrt_positive_part (1 + m00 m - m11 m - m22 m) in
  let a2 := sqrt_positive_part (1 - m00 m + m11 m - m22 m) in
  let a3 := sqrt_positive_part (1 - m00 m - m11 m + m22 m) in
  let cand a w x y z :=
    let d := 2 * Rmax a (1 / 10) in Q (w / d) (x / d) (y / d) (z / d) in
  standardize
    match argmax4 a0 a1 a2 a3 with
    | 0%nat => cand a0 (a0 * a0) (m21 m - m12 m) (m02 m - m20 m) (m10 m - m01 m)
    | 1%nat => cand a1 (m21 m - m12 m) (a1 * a1) (m10 m + m01 m) (m02 m + m20 m)
    | 2%nat => cand a2 (m02 m - m20 m) (m10 m + m01 m) (a2 * a2) (m12 m + m21 m)
    | _ => cand a3 (m10 m - m01 m) (m20 m + m02 m) (m21 m + m12 m) (a3 * a3)
    end.

(* ---- Euler angles ---- *)
(* the conventions accepted by the checks at 208-216 / 278-287 *)
Definition axis_eqb (a b : axis) : bool :=
  match a, b with AX, AX | AY, AY | AZ, AZ => true | _, _ => false end.
Definition valid_convention (c : list axis) : bool :=
  match c with
  | [a; b; c] => negb (axis_eqb b a) && negb (axis_eqb b c)
  | _ => false
  end.
(* euler_angles_to_matrix: 195-221 *)
Definition euler_angles_to_matrix (e : vec3) (conv : list axis) : result mat3 :=
  match conv with
  | [a; b; c] =>
      if valid_convention conv
      then Ok (mul3 (mul3 (axis_rot a (x3 e)) (axis_rot b (y3 e))) (axis_rot c (z3 e)))
      else Fail EValue
  | _ => Fail EValue
  end.
(* _index_from_letter: 257-264 *)
Definition axis_index (a : axis) : nat := match a with AX => 0 | AY => 1 | AZ => 2 end.
Definition vnth (v : vec3) (i : nat) : R := match i with 0%nat => x3 v | 1%nat => y3 v | _ => z3 v end.
Definition mrow (m : mat3) (i : nat) : vec3 :=
  match i with 0%nat => V3 (m00 m) (m01 m) (m02 m) | 1%nat => V3 (m10 m) (m11 m) (m12 m)
  | _ => V3 (m20 m) (m21 m) (m22 m) end.
Definition mcol (m : mat3) (j : nat) : vec3 :=
  match j with 0%nat => V3 (m00 m) (m10 m) (m20 m) | 1%nat => V3 (m01 m) (m11 m) (m21 m)
  | _ => V3 (m02 m) (m12 m) (m22 m) end.
Definition ment (m : mat3) (i j : nat) : R := vnth (mrow m i) j.
(* _angle_from_tan: 224-254 *)
Definition angle_from_tan (ax other : axis) (data : vec3) (horizontal tait_bryan : bool) : R :=
  let '(i1, i2) := match ax with AX => (2, 1) | AY => (0, 2) | AZ => (1, 0) end%nat in
  let '(i1, i2) := if horizontal then (i2, i1) else (i1, i2) in
  let even := match ax, other with AX, AY | AY, AZ | AZ, AX => true | _, _ => false end in
  if eqb horizontal even then atan2 (vnth data i1) (vnth data i2)
  else if tait_bryan then atan2 (- vnth data i2) (vnth data i1)
  else atan2 (vnth data i2) (- vnth data i1).
Definition clamp1 (x : R) : R := Rmin (Rmax x (-1)) 1.
(* matrix_to_euler_angles: 267-307 *)
Definition matrix_to_euler_angles (m : mat3) (conv : list axis) : result vec3 :=
  match conv with
  | [a; b; c] =>
      if valid_convention conv then
        let i0 := axis_index a in
        let i2 := axis_index c in
        let tait_bryan := negb (Nat.eqb i0 i2) in
        let neg := (Nat.eqb (i0 + 1) i2) || (Nat.eqb i0 (i2 + 2)) in
        let central :=
          if tait_bryan then asin (clamp1 (ment m i0 i2) * (if neg then -1 else 1))
          else acos (clamp1 (ment m i0 i0)) in
        Ok (V3 (angle_from_tan a b (mcol m i2) false tait_bryan) central
               (angle_from_tan c b (mrow m i0) true tait_bryan))
      else Fail EValue
  | _ => Fail EValue
  end.

(* ---- quaternion algebra: 385-460 ---- *)
Definition quaternion_raw_multiply (a b : quat) : quat :=
  Q (qw a * qw b - qx a * qx b - qy a * qy b - qz a * qz b)
    (qw a * qx b + qx a * qw b + qy a * qz b - qz a * qy b)
    (qw a * qy b - qx a * qz b + qy a * qw b + qz a * qx b)
    (qw a * qz b + qx a * qy b - qy a * qx b + qz a * qw b).
Definition quaternion_multiply (a b : quat) : quat := standardize (quaternion_raw_multiply a b).
Definition quaternion_invert (q : quat) : quat := Q (qw q) (- qx q) (- qy q) (- qz q).
Definition quaternion_apply (q : quat) (p : vec3) : vec3 :=
  let o := quaternion_raw_multiply (quaternion_raw_multiply q (Q 0 (x3 p) (y3 p) (z3 p)))
             (quaternion_invert q) in
  V3 (qx o) (qy o) (qz o).
(* random_quaternions: 310-331, for a given sample o of randn *)
Definition normalize_sample (o : quat) : result quat :=
  let d := copysign (sqrt (qnorm2 o)) (qw o) in
  if Reqb d 0 then Fail ERuntime
  else Ok (Q (qw o / d) (qx o / d) (qy o / d) (qz o / d)).

(* ---- axis/angle: 463-598 ---- *)
Definition axis_angle_to_quaternion (v : vec3) : quat :=
  let a := norm3 v in
  let s := / 2 * sinc_pi (a * / 2) in
  Q (cos (a * / 2)) (x3 v * s) (y3 v * s) (z3 v * s).
Definition quaternion_to_axis_angle (q : quat) : result vec3 :=
  let n := norm3 (V3 (qx q) (qy q) (qz q)) in
  let s := / 2 * sinc_pi (atan2 n (qw q)) in
  if Reqb s 0 then Fail ERuntime else Ok (V3 (qx q / s) (qy q / s) (qz q / s)).
(* so3.hat: so3.py:235-273 *)
Definition hat (v : vec3) : mat3 :=
  M3 0 (- z3 v) (y3 v) (z3 v) 0 (- x3 v) (- y3 v) (x3 v) 0.
Definition axis_angle_to_matrix_fast (v : vec3) : mat3 :=
  let a := norm3 v in
  let k := hat v in
  let a2 := if Reqb (a * a) 0 then 1 else a * a in
  madd3 (madd3 id3 (mscal3 (sinc_pi a) k)) (mscal3 ((1 - cos a) / a2) (mul3 k k)).
Definition axis_angle_to_matrix (v : vec3) (fast : bool) : result mat3 :=
  if fast then Ok (axis_angle_to_matrix_fast v)
  else quaternion_to_matrix (axis_angle_to_quaternion v).
Definition matrix_to_axis_angle_slow (m : mat3) : result vec3 :=
  quaternion_to_axis_angle (matrix_to_quaternion m).
(* torch.isclose(a, b): |a - b| <= atol + rtol |b| with the default tolerances *)
Definition isclose (a b : R) : bool := Rleb (Rabs (a - b)) (/ 100000000 + / 100000 * Rabs b).
Definition fast_angle (m : mat3) : R :=
  atan2 (norm3 (V3 (m21 m - m12 m) (m02 m - m20 m) (m10 m - m01 m))) (trace3 m - 1).
Definition near_pi (m : mat3) : bool := isclose (fast_angle m) PI.
Definition fast_row (m : mat3) : vec3 := V3 (/ 2 * (m00 m + 1)) (/ 2 * m01 m) (/ 2 * m02 m).
(* matrix_to_axis_angle, fast=True: 524-556, a batch. torch.norm(n) at 554 is taken over the
   rows of all the near-pi matrices of the batch together. *)
Definition matrix_to_axis_angle_fast (ms : list mat3) : result (list vec3) :=
  let total := sqrt (fold_right (fun m s => dot3 (fast_row m) (fast_row m) + s) 0
                                (filter near_pi ms)) in
  rmap (fun m =>
    let ang := fast_angle m in
    if near_pi m
    then if Reqb total 0 then Fail ERuntime
         else Ok (scal3 (ang / total) (fast_row m))
    else let om := if isclose ang 0 then V3 0 0 0
                   else V3 (m21 m - m12 m) (m02 m - m20 m) (m10 m - m01 m) in
         let s := sinc_pi ang in
         if Reqb s 0 then Fail ERuntime else Ok (scal3 (/ 2 / s) om)) ms.

(* ---- 6D: 601-641. F.normalize(v) = v / max(|v|, 1e-12) ---- *)
Definition norm_eps : R := / 1000000000000.
Definition normalize (v : vec3) : vec3 := scal3 (/ Rmax (norm3 v) norm_eps) v.
Definition rows3 (a b c : vec3) : mat3 :=
  M3 (x3 a) (y3 a) (z3 a) (x3 b) (y3 b) (z3 b) (x3 c) (y3 c) (z3 c).
Definition rotation_6d_to_matrix (a1 a2 : vec3) : mat3 :=
  let b1 := normalize a1 in
  let b2 := normalize (sub3 a2 (scal3 (dot3 b1 a2) b1)) in
  rows3 b1 b2 (cross3 b1 b2).
Definition matrix_to_rotation_6d (m : mat3) : vec3 * vec3 := (mrow m 0, mrow m 1).

(* ---- math.py:18-88 ---- *)
Definition dacos_dx (x : R) : R := (-1) / sqrt (1 - x * x).
Definition acos_linear_approximation (x x0 : R) : R := (x - x0) * dacos_dx x0 + acos x0.
Definition acos_linear_extrapolation (x lower upper : R) : result R :=
  if Rltb upper lower then Fail EValue
  else if Rleb lower (-1) || Rleb 1 upper then Fail EValue
  else Ok (if Rleb x lower then acos_linear_approximation x lower
           else if Rleb upper x then acos_linear_approximation x upper
           else acos x).

(* ---- so3.py ---- *)
(* so3_rotation_angle: 57-110, one matrix; acos of a value outside [-1,1] is nan *)
Definition so3_rotation_angle (m : mat3) (eps : R) (cos_angle : bool) (cos_bound : R) : result R :=
  let tr := trace3 m in
  if Rltb tr (-1 - eps) || Rltb (3 + eps) tr then Fail EValue else
  let phi_cos := (tr - 1) * / 2 in
  if cos_angle then Ok phi_cos
  else if Rltb 0 cos_bound
       then acos_linear_extrapolation phi_cos (- (1 - cos_bound)) (1 - cos_bound)
       else if Rltb phi_cos (-1) || Rltb 1 phi_cos then Fail ERuntime else Ok (acos phi_cos).
(* so3_relative_angle: 18-54 *)
Definition so3_relative_angle (a b : mat3) (eps : R) (cos_angle : bool) (cos_bound : R) : result R :=
  so3_rotation_angle (mul3 a (tr3 b)) eps cos_angle cos_bound.
(* so3_exp_map / _so3_exp_map: 113-171 *)
Definition clamped_angle (v : vec3) (eps : R) : R := sqrt (Rmax (dot3 v v) eps).
Definition so3_exp_map (v : vec3) : result mat3 := axis_angle_to_matrix v false.
(* so3_log_map: 174-196 *)
Definition so3_log_map (m : mat3) : result vec3 := matrix_to_axis_angle_slow m.
(* hat_inv: 199-232, on a batch *)
Definition hat_tol : R := / 100000.
Definition skew_ok (m : mat3) : bool :=
  Rleb (Rabs (m00 m + m00 m)) hat_tol && Rleb (Rabs (m01 m + m10 m)) hat_tol &&
  Rleb (Rabs (m02 m + m20 m)) hat_tol && Rleb (Rabs (m11 m + m11 m)) hat_tol &&
  Rleb (Rabs (m12 m + m21 m)) hat_tol && Rleb (Rabs (m22 m + m22 m)) hat_tol.
(* the maximum of an empty tensor raises *)
Definition hat_inv (ms : list mat3) : result (list vec3) :=
  match ms with
  | [] => Fail ERuntime
  | _ => if forallb skew_ok ms then Ok (map (fun m => V3 (m21 m) (m02 m) (m10 m)) ms)
         else Fail EValue
  end.

(* ---- se3.py ---- *)
(* _se3_V_matrix: 183-210 *)
Definition se3_V (v : vec3) (ang : R) : mat3 :=
  madd3 (madd3 id3 (mscal3 ((1 - cos ang) / (ang * ang)) (hat v)))
        (mscal3 ((ang - sin ang) / (ang * ang * ang)) (mul3 (hat v) (hat v))).
(* transform.permute(0,2,1): R and T are transposed into the row convention *)
Definition rigid (r : mat3) (t : vec3) : mat4 :=
  M4 (m00 r) (m10 r) (m20 r) 0 (m01 r) (m11 r) (m21 r) 0 (m02 r) (m12 r) (m22 r) 0
     (x3 t) (y3 t) (z3 t) 1.
(* se3_exp_map: 14-98 *)
Definition se3_exp_map (lt lr : vec3) (eps : R) : result mat4 :=
  r <- so3_exp_map lr ;;
  let ang := clamped_angle lr eps in
  if Reqb ang 0 then Fail ERuntime else
  Ok (rigid r (mulv3 (se3_V lr ang) lt)).
(* se3_log_map: 101-180; _get_se3_V_input at 177 is called without eps, so its default 1e-4
   clamps the angle whatever eps the caller gives. torch.allclose uses the default tolerance. *)
Definition se3_log_map (t : mat4) (eps : R) : result (vec3 * vec3) :=
  if Rleb (Rabs (n03 t)) (/ 100000000) && Rleb (Rabs (n13 t)) (/ 100000000)
     && Rleb (Rabs (n23 t)) (/ 100000000)
  then
    lr <- so3_log_map (tr3 (block3 t)) ;;
    iv <- inv3 (se3_V lr (clamped_angle lr (/ 10000))) ;;
    Ok (mulv3 iv (V3 (n30 t) (n31 t) (n32 t)), lr)
  else Fail EValue.
