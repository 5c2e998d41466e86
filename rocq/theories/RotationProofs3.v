From Verif Require Import Base RBase Geom LinAlg Transform Rotation RotationSpec RotationProofs RotationProofs2.
Local Open Scope R_scope.

(* ---- rotations form a group ---- *)
Lemma rotation_mul a b : rotation a -> rotation b -> rotation (mul3 a b).
Proof.
  intros [Ha Da] [Hb Db]. split.
  - rewrite tr3_mul. rewrite mul3_assoc, <- (mul3_assoc b), Hb, mul3_1_l. exact Ha.
  - rewrite det3_mul, Da, Db. ring.
Qed.
Lemma rotation_tr a : rotation a -> rotation (tr3 a).
Proof.
  intros [Ha Da]. split; [|rewrite det3_tr; exact Da]. rewrite tr3_tr. apply mul3_inv_comm. exact Ha.
Qed.
Lemma rotation_id : rotation id3.
Proof. split; [rewrite tr3_id; apply mul3_1_l|apply det3_id]. Qed.
Lemma axis_rotation a t : rotation (axis_rot a t).
Proof.
  pose proof (sin2_cos2 t) as T. unfold Rsqr in T.
  split; [|destruct a; unfold axis_rot, det3; cbn [m00 m01 m02 m10 m11 m12 m20 m21 m22]; lra].
  destruct a; unfold axis_rot, mul3, tr3, id3; cbn [m00 m01 m02 m10 m11 m12 m20 m21 m22]; apply M3_eq; lra.
Qed.
Lemma euler_rotation e conv m : euler_angles_to_matrix e conv = Ok m -> rotation m.
Proof.
  unfold euler_angles_to_matrix. destruct conv as [|a [|b [|c [|d l]]]]; try discriminate.
  destruct (valid_convention _); [|discriminate]. intros H; injection H as <-.
  repeat apply rotation_mul; apply axis_rotation.
Qed.

(* a rotation is determined by one row and one column crossing at an entry of modulus < 1 *)
Lemma cross_pair k a b a' b' s : (s = 1 \/ s = -1) -> k * k < 1 ->
  a - a' = s * (k * (b - b')) -> b - b' = s * (k * (a - a')) -> a = a' /\ b = b'.
Proof.
  intros Hs Hk E1 E2. assert (Z : (a - a') * (1 - k * k) = 0).
  { rewrite E2 in E1. destruct Hs as [-> | ->]; lra. }
  apply Rmult_integral in Z. assert (Ha : a - a' = 0) by (destruct Z; [assumption|lra]).
  rewrite Ha in E2. assert (b - b' = 0) by lra. lra.
Qed.

Lemma rotation_cross m m' i j : (i < 3)%nat -> (j < 3)%nat -> rotation m -> rotation m' ->
  mrow m i = mrow m' i -> mcol m j = mcol m' j -> ment m i j * ment m i j < 1 -> m = m'.
Proof.
  intros Hi Hj R R' Er Ec Hk. apply rotation_rel in R, R'.
  destruct R as [A00 A01 A02 A10 A11 A12 A20 A21 A22 _ _ _ _ _ _ _ _ _ _ _ _].
  destruct R' as [B00 B01 B02 B10 B11 B12 B20 B21 B22 _ _ _ _ _ _ _ _ _ _ _ _].
  destruct m as [a b c d e f g h l], m' as [a' b' c' d' e' f' g' h' l'].
  destruct i as [|[|[|i]]]; try lia; destruct j as [|[|[|j]]]; try lia;
  unfold mrow, mcol, ment, vnth, mrow in *; cbn [m00 m01 m02 m10 m11 m12 m20 m21 m22 x3 y3 z3] in *;
  revert A00 A01 A02 A10 A11 A12 A20 A21 A22 B00 B01 B02 B10 B11 B12 B20 B21 B22;
  injection Er as ? ? ?; injection Ec as ? ? ?; subst; intros A00 A01 A02 A10 A11 A12 A20 A21 A22 B00 B01 B02 B10 B11 B12 B20 B21 B22.
  - assert (e = e' /\ l = l') as [-> ->] by (apply (cross_pair a' _ _ _ _ 1); [left; reflexivity|exact Hk|lra|lra]).
    assert (f = f' /\ h = h') as [-> ->] by (apply (cross_pair a' _ _ _ _ (-1)); [right; reflexivity|exact Hk|lra|lra]). reflexivity.
  - assert (d = d' /\ l = l') as [-> ->] by (apply (cross_pair b' _ _ _ _ (-1)); [right; reflexivity|exact Hk|lra|lra]).
    assert (f = f' /\ g = g') as [-> ->] by (apply (cross_pair b' _ _ _ _ 1); [left; reflexivity|exact Hk|lra|lra]). reflexivity.
  - assert (d = d' /\ h = h') as [-> ->] by (apply (cross_pair c' _ _ _ _ 1); [left; reflexivity|exact Hk|lra|lra]).
    assert (e = e' /\ g = g') as [-> ->] by (apply (cross_pair c' _ _ _ _ (-1)); [right; reflexivity|exact Hk|lra|lra]). reflexivity.
  - assert (b = b' /\ l = l') as [-> ->] by (apply (cross_pair d' _ _ _ _ (-1)); [right; reflexivity|exact Hk|lra|lra]).
    assert (c = c' /\ h = h') as [-> ->] by (apply (cross_pair d' _ _ _ _ 1); [left; reflexivity|exact Hk|lra|lra]). reflexivity.
  - assert (a = a' /\ l = l') as [-> ->] by (apply (cross_pair e' _ _ _ _ 1); [left; reflexivity|exact Hk|lra|lra]).
    assert (c = c' /\ g = g') as [-> ->] by (apply (cross_pair e' _ _ _ _ (-1)); [right; reflexivity|exact Hk|lra|lra]). reflexivity.
  - assert (a = a' /\ h = h') as [-> ->] by (apply (cross_pair f' _ _ _ _ (-1)); [right; reflexivity|exact Hk|lra|lra]).
    assert (b = b' /\ g = g') as [-> ->] by (apply (cross_pair f' _ _ _ _ 1); [left; reflexivity|exact Hk|lra|lra]). reflexivity.
  - assert (b = b' /\ f = f') as [-> ->] by (apply (cross_pair g' _ _ _ _ 1); [left; reflexivity|exact Hk|lra|lra]).
    assert (c = c' /\ e = e') as [-> ->] by (apply (cross_pair g' _ _ _ _ (-1)); [right; reflexivity|exact Hk|lra|lra]). reflexivity.
  - assert (a = a' /\ f = f') as [-> ->] by (apply (cross_pair h' _ _ _ _ (-1)); [right; reflexivity|exact Hk|lra|lra]).
    assert (c = c' /\ d = d') as [-> ->] by (apply (cross_pair h' _ _ _ _ 1); [left; reflexivity|exact Hk|lra|lra]). reflexivity.
  - assert (a = a' /\ e = e') as [-> ->] by (apply (cross_pair l' _ _ _ _ 1); [left; reflexivity|exact Hk|lra|lra]).
    assert (b = b' /\ d = d') as [-> ->] by (apply (cross_pair l' _ _ _ _ (-1)); [right; reflexivity|exact Hk|lra|lra]). reflexivity.
Qed.

Lemma clamp1_id x : -1 <= x <= 1 -> clamp1 x = x.
Proof. intros H. unfold clamp1. rewrite Rmax_left by lra. apply Rmin_left. lra. Qed.

Lemma asin_parts k : k * k < 1 -> sin (asin k) = k /\ 0 < cos (asin k) /\ cos (asin k) * cos (asin k) = 1 - k * k.
Proof.
  intros H. assert (K : -1 < k < 1) by nra. assert (S : sin (asin k) = k) by (apply sin_asin; lra).
  split; [exact S|]. split; [apply cos_gt_0; pose proof (asin_bound_lt k ltac:(lra)); lra|].
  pose proof (sin2_cos2 (asin k)) as T. unfold Rsqr in T. rewrite S in T. lra.
Qed.
Lemma acos_parts k : k * k < 1 -> cos (acos k) = k /\ 0 < sin (acos k) /\ sin (acos k) * sin (acos k) = 1 - k * k.
Proof.
  intros H. assert (K : -1 < k < 1) by nra. assert (S : cos (acos k) = k) by (apply cos_acos; lra).
  split; [exact S|]. split; [apply sin_gt_0; pose proof (acos_bound_lt k ltac:(lra)); lra|].
  pose proof (sin2_cos2 (acos k)) as T. unfold Rsqr in T. rewrite S in T. lra.
Qed.

Ltac euler_polar r Hr :=
  match goal with |- context [atan2 ?y ?x] =>
    let P := fresh "P" in let A := fresh "A" in
    destruct (atan2_polar x y r Hr) as [P A]; [nra|];
    let t := fresh "t" in set (t := atan2 y x) in *; clearbody t end.

Lemma euler_inverse m a b c : rotation m -> valid_convention [a; b; c] = true ->
  central_entry m a c * central_entry m a c < 1 ->
  exists e, matrix_to_euler_angles m [a; b; c] = Ok e /\ euler_angles_to_matrix e [a; b; c] = Ok m.
Proof.
  intros R V Hk. unfold matrix_to_euler_angles, euler_angles_to_matrix. rewrite V. eexists. split; [reflexivity|].
  f_equal. symmetry. apply (rotation_cross _ _ (axis_index a) (axis_index c)).
  1,2: destruct a, c; cbn; lia.
  exact R. repeat apply rotation_mul; apply axis_rotation.
  all: try exact Hk.
  all: apply rotation_rel in R; destruct R as [_ _ _ _ _ _ _ _ _ R0 R1 R2 K0 K1 K2 _ _ _ _ _ _].
  all: unfold central_entry in *; destruct m as [p q r s t u v w x];
    destruct a, b, c; try discriminate V;
    cbn [axis_index Nat.eqb negb orb Nat.add] in *;
    unfold mrow, mcol, ment, angle_from_tan, mrow, vnth in *;
    cbn [axis_index Nat.eqb negb orb Nat.add eqb] in *;
    cbn [m00 m01 m02 m10 m11 m12 m20 m21 m22 x3 y3 z3] in *.
  all: rewrite clamp1_id by nra.
  all: try match goal with
    | |- context [asin (?k * ?n)] =>
       replace (k * n) with (n * k) by ring;
       assert (Hk' : (n * k) * (n * k) < 1) by lra;
       destruct (asin_parts (n * k) Hk') as (S & C & C2); set (y := asin (n * k)) in *; clearbody y
    | |- context [acos ?k] => destruct (acos_parts k Hk) as (S & C & C2); set (y := acos k) in *; clearbody y
  end.
  all: match type of C with 0 < ?r => repeat euler_polar r C end.
  all: unfold mul3, axis_rot; cbn [m00 m01 m02 m10 m11 m12 m20 m21 m22 x3 y3 z3].
  all: apply V3_eq; lra.
Qed.


Lemma euler_recover e a b c m :
  - PI < x3 e <= PI -> - PI < z3 e <= PI ->
  (if tait_bryan_conv a c then - (PI / 2) < y3 e < PI / 2 else 0 < y3 e < PI) ->
  euler_angles_to_matrix e [a; b; c] = Ok m -> matrix_to_euler_angles m [a; b; c] = Ok e.
Proof.
  intros Hx Hz Hy. unfold euler_angles_to_matrix, matrix_to_euler_angles.
  destruct (valid_convention [a; b; c]) eqn:V; [|discriminate].
  intros H; injection H as <-. f_equal. destruct e as [x y z]. cbn [x3 y3 z3] in *.
  assert (SB : -1 <= sin y <= 1) by apply SIN_bound.
  assert (CB : -1 <= cos y <= 1) by apply COS_bound.
  assert (As : forall k, - (PI / 2) < y < PI / 2 -> k = sin y -> asin k = y) by (intros k B ->; apply asin_sin; lra).
  assert (Ac : forall k, 0 < y < PI -> k = cos y -> acos k = y) by (intros k B ->; apply acos_cos; lra).
  assert (Cp : - (PI / 2) < y < PI / 2 -> 0 < cos y) by (intros; apply cos_gt_0; lra).
  assert (Sp : 0 < y < PI -> 0 < sin y) by (intros; apply sin_gt_0; lra).
  assert (At : forall r t p q, 0 < r -> - PI < t <= PI -> p = r * sin t -> q = r * cos t -> atan2 p q = t)
    by (intros r t p q Hr Ht -> ->; apply atan2_eq; assumption).
  assert (M : exists M, M = mul3 (mul3 (axis_rot a x) (axis_rot b y)) (axis_rot c z)) by (eexists; reflexivity).
  destruct M as [M EM]. rewrite <- EM.
  destruct a, b, c; try discriminate V; cbn in Hy; clear V;
    unfold mrow, mcol, ment, angle_from_tan, mrow, vnth;
    cbn [axis_index Nat.eqb negb orb Nat.add eqb];
    cbn [x3 y3 z3]; rewrite EM; unfold mul3, axis_rot;
    cbn [m00 m01 m02 m10 m11 m12 m20 m21 m22];
    rewrite clamp1_id by lra; apply V3_eq;
    match goal with
    | |- asin _ = _ => apply As; [exact Hy|ring]
    | |- acos _ = _ => apply Ac; [exact Hy|ring]
    | |- _ => first [apply (At (cos y)); [apply Cp; exact Hy|assumption|ring|ring]
                    |apply (At (sin y)); [apply Sp; exact Hy|assumption|ring|ring]]
    end.
Qed.

Lemma euler_range m a b c e : matrix_to_euler_angles m [a; b; c] = Ok e ->
  - PI < x3 e <= PI /\ - PI < z3 e <= PI /\
  (if tait_bryan_conv a c then - (PI / 2) <= y3 e <= PI / 2 else 0 <= y3 e <= PI).
Proof.
  unfold matrix_to_euler_angles. destruct (valid_convention [a; b; c]) eqn:V; [|discriminate].
  intros H; injection H as <-. cbn [x3 y3 z3].
  assert (AR : forall ax o d h t, - PI < angle_from_tan ax o d h t <= PI).
  { intros ax o d h t. unfold angle_from_tan. destruct ax, h, o, t; cbn; apply atan2_range. }
  split; [apply AR|]. split; [apply AR|].
  destruct a, b, c; try discriminate V; cbn [tait_bryan_conv axis_eqb negb axis_index Nat.eqb Nat.add orb];
    first [apply asin_bound|apply acos_bound].
Qed.

Lemma euler_invalid conv : valid_convention conv = false ->
  (forall e, euler_angles_to_matrix e conv = Fail EValue) /\ (forall m, matrix_to_euler_angles m conv = Fail EValue).
Proof.
  intros V. split; intros; unfold euler_angles_to_matrix, matrix_to_euler_angles;
  destruct conv as [|a [|b [|c [|d l]]]]; try reflexivity; rewrite V; reflexivity.
Qed.

(* gimbal lock: rotation about X by t, then Y by pi/2, convention XYZ *)
Lemma gimbal_fails : exists m e m', rotation m /\ matrix_to_euler_angles m [AX; AY; AZ] = Ok e /\
  euler_angles_to_matrix e [AX; AY; AZ] = Ok m' /\ m' <> m.
Proof.
  set (e0 := V3 (PI / 2) (PI / 2) 0).
  destruct (euler_angles_to_matrix e0 [AX; AY; AZ]) as [m|] eqn:E; [|discriminate].
  destruct (matrix_to_euler_angles m [AX; AY; AZ]) as [e|] eqn:E1; [|discriminate].
  destruct (euler_angles_to_matrix e [AX; AY; AZ]) as [m'|] eqn:E2; [|discriminate].
  exists m, e, m'. split; [eapply euler_rotation; exact E|]. split; [exact E1|]. split; [exact E2|].
  unfold euler_angles_to_matrix, e0 in E. cbn [valid_convention axis_eqb negb andb x3 y3 z3] in E. injection E as E.
  unfold mul3, axis_rot in E. cbn [m00 m01 m02 m10 m11 m12 m20 m21 m22] in E.
  rewrite cos_PI2, sin_PI2, cos_0, sin_0 in E.
  assert (E' : m = M3 0 0 1 1 0 0 0 1 0) by (rewrite <- E; apply M3_eq; ring). clear E. subst m.
  unfold matrix_to_euler_angles in E1. cbn [valid_convention axis_eqb negb andb] in E1. injection E1 as E1.
  unfold mrow, mcol, ment, angle_from_tan, mrow, vnth in E1.
  cbn [axis_index Nat.eqb negb orb Nat.add eqb] in E1. cbn [m00 m01 m02 m10 m11 m12 m20 m21 m22 x3 y3 z3] in E1.
  rewrite clamp1_id in E1 by lra. rewrite Rmult_1_r, asin_1 in E1.
  assert (Z : atan2 0 0 = 0).
  { unfold atan2. destruct (Rltb_spec 0 0); [lra|reflexivity]. }
  rewrite Ropp_0, Z in E1. subst e.
  unfold euler_angles_to_matrix in E2. cbn [valid_convention axis_eqb negb andb x3 y3 z3] in E2. injection E2 as E2.
  unfold mul3, axis_rot in E2. cbn [m00 m01 m02 m10 m11 m12 m20 m21 m22] in E2.
  rewrite cos_PI2, sin_PI2, cos_0, sin_0 in E2. rewrite <- E2. intros X.
  apply (f_equal m10) in X. cbn [m10] in X. lra.
Qed.

