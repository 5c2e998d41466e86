From Coquelicot Require Import Coquelicot.
From Coq Require Import Lra Lia Psatz.
From Verif Require Import Base RBase Geom Rays Frustum FrustumSpec.
Local Open Scope R_scope.

Ltac toR := match goal with |- @eq _ ?a ?b => change (@eq R a b) end.
Lemma RInt_by (F f : R -> R) a b : (forall x, is_derive F x (f x)) -> (forall x, continuous f x) ->
  RInt f a b = F b - F a.
Proof.
  intros D C. apply is_RInt_unique. apply (is_RInt_derive F f a b); intros x _; [apply D|apply C].
Qed.

Lemma circle A p q s :
  RInt (fun a => (A + s * (p * cos a + q * sin a)) ^ 2 * s) 0 (2 * PI) = 2 * PI * A ^ 2 * s + PI * (p ^ 2 + q ^ 2) * s ^ 3.
Proof.
  rewrite (RInt_by (fun a => s * (A ^ 2 * a + 2 * A * s * (p * sin a - q * cos a) +
     s ^ 2 * (p ^ 2 * (a / 2 + sin a * cos a / 2) + q ^ 2 * (a / 2 - sin a * cos a / 2) + p * q * (sin a) ^ 2)))).
  - rewrite sin_2PI, cos_2PI, sin_0, cos_0. toR; field.
  - intros a. auto_derive; [exact Logic.I|]. pose proof (sin2_cos2 a) as E. unfold Rsqr in E.
    assert (C : cos a * cos a = 1 - sin a * sin a) by lra.
    toR. apply Rminus_diag_uniq.
    match goal with |- ?X = 0 => replace X with
      (s ^ 3 * (p ^ 2 + q ^ 2) * (1 - sin a * sin a - cos a * cos a) / 2) by field end.
    rewrite C. toR; field.
  - intros a. apply (@ex_derive_continuous R_AbsRing R_NormedModule). auto_derive. exact Logic.I.
Qed.
Lemma circle1 A p q s : RInt (fun a => (A + s * (p * cos a + q * sin a)) * s) 0 (2 * PI) = 2 * PI * A * s.
Proof.
  rewrite (RInt_by (fun a => s * (A * a + s * (p * sin a - q * cos a)))).
  - rewrite sin_2PI, cos_2PI, sin_0, cos_0. toR; ring.
  - intros a. auto_derive; [exact Logic.I|]. toR; ring.
  - intros a. apply (@ex_derive_continuous R_AbsRing R_NormedModule). auto_derive. exact Logic.I.
Qed.
Lemma disk k1 k3 r : RInt (fun s => k1 * s + k3 * s ^ 3) 0 r = k1 * r ^ 2 / 2 + k3 * r ^ 4 / 4.
Proof.
  rewrite (RInt_by (fun s => k1 * s ^ 2 / 2 + k3 * s ^ 4 / 4)).
  - toR; field.
  - intros a. auto_derive; [exact Logic.I|]. toR; field.
  - intros a. apply (@ex_derive_continuous R_AbsRing R_NormedModule). auto_derive. exact Logic.I.
Qed.
Lemma along k2 k3 k4 t0 t1 : RInt (fun t => k2 * t ^ 2 + k3 * t ^ 3 + k4 * t ^ 4) t0 t1 =
  k2 * (t1 ^ 3 - t0 ^ 3) / 3 + k3 * (t1 ^ 4 - t0 ^ 4) / 4 + k4 * (t1 ^ 5 - t0 ^ 5) / 5.
Proof.
  rewrite (RInt_by (fun t => k2 * t ^ 3 / 3 + k3 * t ^ 4 / 4 + k4 * t ^ 5 / 5)).
  - toR; field.
  - intros a. auto_derive; [exact Logic.I|]. toR; field.
  - intros a. apply (@ex_derive_continuous R_AbsRing R_NormedModule). auto_derive. exact Logic.I.
Qed.

Lemma cone_volume r t0 t1 : over_cone r t0 t1 (fun _ _ _ => 1) = PI * r ^ 2 * (t1 ^ 3 - t0 ^ 3) / 3.
Proof.
  unfold over_cone.
  rewrite (RInt_ext _ (fun t => (PI * r ^ 2) * t ^ 2 + 0 * t ^ 3 + 0 * t ^ 4)).
  - rewrite along. toR; field.
  - intros t _. rewrite (RInt_ext _ (fun s => (2 * PI) * s + 0 * s ^ 3)).
    + rewrite disk. toR; field.
    + intros s _. rewrite (RInt_ext _ (fun a => (1 + s * (0 * cos a + 0 * sin a)) * s)).
      * rewrite circle1. toR; ring.
      * intros a _. toR; ring.
Qed.
Lemma cone_first r t0 t1 c a p q :
  over_cone r t0 t1 (fun t s th => c + t * a + (s * cos th * p + s * sin th * q)) =
  PI * r ^ 2 * (c * (t1 ^ 3 - t0 ^ 3) / 3 + a * (t1 ^ 4 - t0 ^ 4) / 4).
Proof.
  unfold over_cone.
  rewrite (RInt_ext _ (fun t => (PI * r ^ 2 * c) * t ^ 2 + (PI * r ^ 2 * a) * t ^ 3 + 0 * t ^ 4)).
  - rewrite along. toR; field.
  - intros t _. rewrite (RInt_ext _ (fun s => (2 * PI * (c + t * a)) * s + 0 * s ^ 3)).
    + rewrite disk. toR; field.
    + intros s _. rewrite (RInt_ext _ (fun th => ((c + t * a) + s * (p * cos th + q * sin th)) * s)).
      * rewrite circle1. toR; ring.
      * intros th _. toR; ring.
Qed.
Lemma cone_second r t0 t1 c a p q :
  over_cone r t0 t1 (fun t s th => (c + t * a + (s * cos th * p + s * sin th * q)) ^ 2) =
  PI * r ^ 2 * (c ^ 2 * (t1 ^ 3 - t0 ^ 3) / 3 + 2 * c * a * (t1 ^ 4 - t0 ^ 4) / 4 +
                (a ^ 2 + r ^ 2 * (p ^ 2 + q ^ 2) / 4) * (t1 ^ 5 - t0 ^ 5) / 5).
Proof.
  unfold over_cone.
  rewrite (RInt_ext _ (fun t => (PI * r ^ 2 * c ^ 2) * t ^ 2 + (PI * r ^ 2 * (2 * c * a)) * t ^ 3 +
     (PI * r ^ 2 * (a ^ 2 + r ^ 2 * (p ^ 2 + q ^ 2) / 4)) * t ^ 4)).
  - rewrite along. toR; field.
  - intros t _. rewrite (RInt_ext _ (fun s => (2 * PI * (c + t * a) ^ 2) * s + (PI * (p ^ 2 + q ^ 2)) * s ^ 3)).
    + rewrite disk. toR; field.
    + intros s _. rewrite (RInt_ext _ (fun th => ((c + t * a) + s * (p * cos th + q * sin th)) ^ 2 * s)).
      * rewrite circle. toR; ring.
      * intros th _. toR; ring.
Qed.

(* The completeness of an orthonormal frame. *)
Lemma frame_x d u v : frame d u v -> 0 < dot3 d d ->
  x3 u ^ 2 + x3 v ^ 2 = 1 - x3 d ^ 2 / dot3 d d /\
  y3 u ^ 2 + y3 v ^ 2 = 1 - y3 d ^ 2 / dot3 d d /\
  z3 u ^ 2 + z3 v ^ 2 = 1 - z3 d ^ 2 / dot3 d d.
Proof.
  intros (U & V & UV & UD & VD) D.
  set (w := cross3 u v).
  assert (W : x3 u ^ 2 + x3 v ^ 2 + x3 w ^ 2 = 1 /\ y3 u ^ 2 + y3 v ^ 2 + y3 w ^ 2 = 1 /\ z3 u ^ 2 + z3 v ^ 2 + z3 w ^ 2 = 1).
  { unfold w, cross3, dot3 in *. cbn [x3 y3 z3]. destruct u as [a b c], v as [e f g]. cbn [x3 y3 z3] in *.
    repeat split.
    - transitivity ((a*a+b*b+c*c) * (e*e+f*f+g*g) - (a*e+b*f+c*g)^2 + a^2 + e^2
        - (a*a+b*b+c*c) * e ^ 2 - (e*e+f*f+g*g) * a^2 + 2 * (a*e+b*f+c*g) * a * e); [ring|].
      rewrite U, V, UV. ring.
    - transitivity ((a*a+b*b+c*c) * (e*e+f*f+g*g) - (a*e+b*f+c*g)^2 + b^2 + f^2
        - (a*a+b*b+c*c) * f ^ 2 - (e*e+f*f+g*g) * b^2 + 2 * (a*e+b*f+c*g) * b * f); [ring|].
      rewrite U, V, UV. ring.
    - transitivity ((a*a+b*b+c*c) * (e*e+f*f+g*g) - (a*e+b*f+c*g)^2 + c^2 + g^2
        - (a*a+b*b+c*c) * g ^ 2 - (e*e+f*f+g*g) * c^2 + 2 * (a*e+b*f+c*g) * c * g); [ring|].
      rewrite U, V, UV. ring. }
  (* d is a multiple of w *)
  set (k := dot3 d w).
  assert (K : x3 d = k * x3 w /\ y3 d = k * y3 w /\ z3 d = k * z3 w).
  { assert (L : dot3 w w = 1) by (unfold w, cross3, dot3 in *; cbn [x3 y3 z3];
      transitivity ((x3 u*x3 u+y3 u*y3 u+z3 u*z3 u) * (x3 v*x3 v+y3 v*y3 v+z3 v*z3 v) - (x3 u*x3 v+y3 u*y3 v+z3 u*z3 v)^2);
      [ring|rewrite U, V, UV; ring]).
    (* w x (d x w) = d - (d.w) w, and d x w = d x (u x v) = u (d.v) - v (d.u) = 0 *)
    assert (X : cross3 d w = V3 0 0 0).
    { unfold w, cross3, dot3 in *. cbn [x3 y3 z3]. f_equal.
      - transitivity (x3 u * (x3 v*x3 d+y3 v*y3 d+z3 v*z3 d) - x3 v * (x3 u*x3 d+y3 u*y3 d+z3 u*z3 d)); [ring|rewrite UD, VD; ring].
      - transitivity (y3 u * (x3 v*x3 d+y3 v*y3 d+z3 v*z3 d) - y3 v * (x3 u*x3 d+y3 u*y3 d+z3 u*z3 d)); [ring|rewrite UD, VD; ring].
      - transitivity (z3 u * (x3 v*x3 d+y3 v*y3 d+z3 v*z3 d) - z3 v * (x3 u*x3 d+y3 u*y3 d+z3 u*z3 d)); [ring|rewrite UD, VD; ring]. }
    clearbody w. unfold k, dot3, cross3 in *.
    assert (X1 := f_equal x3 X). assert (X2 := f_equal y3 X). assert (X3 := f_equal z3 X). cbn [x3 y3 z3] in X1, X2, X3.
    repeat split.
    - transitivity (x3 d * (x3 w * x3 w + y3 w * y3 w + z3 w * z3 w)); [rewrite L; ring|].
      transitivity ((x3 d * x3 w + y3 d * y3 w + z3 d * z3 w) * x3 w + y3 w * (x3 d * y3 w - y3 d * x3 w)
        - z3 w * (z3 d * x3 w - x3 d * z3 w)); [ring|]. rewrite X2, X3. ring.
    - transitivity (y3 d * (x3 w * x3 w + y3 w * y3 w + z3 w * z3 w)); [rewrite L; ring|].
      transitivity ((x3 d * x3 w + y3 d * y3 w + z3 d * z3 w) * y3 w + z3 w * (y3 d * z3 w - z3 d * y3 w)
        - x3 w * (x3 d * y3 w - y3 d * x3 w)); [ring|]. rewrite X1, X3. ring.
    - transitivity (z3 d * (x3 w * x3 w + y3 w * y3 w + z3 w * z3 w)); [rewrite L; ring|].
      transitivity ((x3 d * x3 w + y3 d * y3 w + z3 d * z3 w) * z3 w + x3 w * (z3 d * x3 w - x3 d * z3 w)
        - y3 w * (y3 d * z3 w - z3 d * y3 w)); [ring|]. rewrite X1, X2. ring. }
  assert (L : dot3 w w = 1) by (unfold w, cross3, dot3 in *; cbn [x3 y3 z3];
      transitivity ((x3 u*x3 u+y3 u*y3 u+z3 u*z3 u) * (x3 v*x3 v+y3 v*y3 v+z3 v*z3 v) - (x3 u*x3 v+y3 u*y3 v+z3 u*z3 v)^2);
      [ring|rewrite U, V, UV; ring]).
  clearbody w k. destruct K as (K1 & K2 & K3). destruct W as (W1 & W2 & W3).
  assert (DD : dot3 d d = k ^ 2).
  { unfold dot3 in *. rewrite K1, K2, K3. transitivity (k ^ 2 * (x3 w * x3 w + y3 w * y3 w + z3 w * z3 w)); [ring|rewrite L; ring]. }
  rewrite DD in D |- *. rewrite K1, K2, K3.
  assert (kn : k <> 0) by (intros Z; rewrite Z in D; lra).
  repeat split; (match goal with |- _ = 1 - (k * ?c) ^ 2 / k ^ 2 => replace ((k * c) ^ 2 / k ^ 2) with (c ^ 2) by (field; exact kn) end); lra.
Qed.

Lemma den_pos t0 t1 : t0 < t1 -> 0 < 3 * lerp_half t1 t0 ^ 2 + ((t1 - t0) / 2) ^ 2.
Proof.
  intros L. assert (0 < ((t1 - t0) / 2) ^ 2) by (apply pow_lt; lra).
  pose proof (pow2_ge_0 (lerp_half t1 t0)). lra.
Qed.
Lemma cubes t0 t1 : t0 < t1 -> 0 < t1 ^ 3 - t0 ^ 3.
Proof.
  intros L. replace (t1 ^ 3 - t0 ^ 3) with ((t1 - t0) * (3 * lerp_half t1 t0 ^ 2 + ((t1 - t0) / 2) ^ 2))
    by (unfold lerp_half; field).
  apply Rmult_lt_0_compat; [lra|apply den_pos, L].
Qed.
