(* Property C77 (lighting): Lambert's and Phong's laws hold at every point of every batch. *)
From Coq Require Import Lra.
From Verif Require Import Base RBase Geom LinAlg Tens Lighting LightingSpec.
From Verif Require Import LightingProofs3 LightingProofs4 LightingProofs5 LightingProofs7.
Local Open Scope R_scope.

(* the diffuse term is the light's colour times the clamped cosine between normal and light direction, for
   normals and directions of any length, any intermediate dimensions, and colours and directions that are
   shared, per batch element or (directions) per point *)
Theorem diffuse_lambert : forall normals color dir n ds N col L, (0 < n)%nat ->
  vecs normals n ds N -> prop3 color n col -> direction_of dir n ds L ->
  exists t, diffuse normals color dir = Ok t /\ shp t = n :: ds ++ [3%nat] /\
    forall i js, (i < n)%nat -> inside js ds -> sized (N i js) -> sized (L i js) ->
      row t (i :: js) = scal3 (lambert (N i js) (L i js)) (col i).
Proof. exact diffuse_law. Qed.
Print Assumptions diffuse_lambert.
Example diffuse_lambert_ex :
  let t := packed [V3 0 0 2; V3 3 0 4] in
  vecs t 2 [] (fun i _ => nth i [V3 0 0 2; V3 3 0 4] vzero) /\ prop3 (packed [V3 1 1 1]) 2 (fun _ => V3 1 1 1) /\
  sized (V3 3 0 4) /\ lambert (V3 3 0 4) (V3 0 0 5) = 4 / 5.
Proof.
  assert (N5 : norm3 (V3 3 0 4) = 5) by (apply nuniq; [lra|unfold dot3; cbn; ring]).
  assert (N5' : norm3 (V3 0 0 5) = 5) by (apply nuniq; [lra|unfold dot3; cbn; ring]).
  split; [apply (packed_vecs [V3 0 0 2; V3 3 0 4])|]. split; [apply packed_shared|]. split; [left; rewrite N5; lra|].
  unfold lambert, cosine. rewrite N5, N5'. unfold dot3. cbn [x3 y3 z3]. rewrite Rmax_right; lra.
Qed.

(* the specular term: the cosine between the viewer and the mirrored light, to the power of the shininess, and
   only where the light is in front of the surface *)
Theorem specular_phong : forall points normals dir color cam shin n ds P N L col C s, (0 < n)%nat ->
  vecs points n ds P -> vecs normals n ds N -> direction_of dir n ds L -> prop3 color n col ->
  prop3 cam n C -> prop1 shin n s ->
  exists t, specular points normals dir color cam shin = Ok t /\ shp t = n :: ds ++ [3%nat] /\
    forall i js, (i < n)%nat -> inside js ds ->
      sized (N i js) -> sized (L i js) -> sized (sub3 (C i) (P i js)) -> 0 < s i ->
      row t (i :: js) = scal3 (gloss (N i js) (L i js) (sub3 (C i) (P i js)) (s i)) (col i).
Proof. exact specular_law. Qed.
Print Assumptions specular_phong.

(* the two factors stay between black and the light's colour, vanish when the light is behind the surface and
   are complete exactly when the light is on the normal, or the viewer on the mirrored ray *)
Theorem diffuse_extremes : forall n l c, colour c ->
  within (scal3 (lambert n l) c) c /\ (dot3 n l <= 0 -> scal3 (lambert n l) c = vzero) /\
  (n <> vzero -> l <> vzero -> c <> vzero -> (scal3 (lambert n l) c = c <-> exists k, 0 < k /\ l = scal3 k n)).
Proof. exact lambert_facts. Qed.
Print Assumptions diffuse_extremes.
Theorem specular_extremes : forall n l v s c, colour c -> 0 < s ->
  within (scal3 (gloss n l v s) c) c /\ (dot3 n l <= 0 -> scal3 (gloss n l v s) c = vzero) /\
  (n <> vzero -> l <> vzero -> v <> vzero -> c <> vzero -> 0 < dot3 n l ->
   (scal3 (gloss n l v s) c = c <-> exists k, 0 < k /\ v = scal3 k (mirror n l))).
Proof. exact gloss_facts. Qed.
Print Assumptions specular_extremes.
Example extremes_ex : colour (V3 1 1 1) /\ 0 < dot3 (V3 0 0 1) (V3 1 0 1) /\ mirror (V3 0 0 1) (V3 1 0 1) = V3 (-1) 0 1.
Proof. unfold colour, mirror, dot3, sub3, scal3. cbn. split; [lra|]. split; [lra|]. f_equal; field. Qed.

(* the light classes: constructing a batch of directional or point lights from shared or per-element
   properties, and what they then do to packed points (P, 3) and pixels (N, H, W, K, 3) *)
Theorem lights_constructed : forall n a d s v la ld ls x, (0 < n)%nat ->
  prop3 a n la -> prop3 d n ld -> prop3 s n ls -> prop3 v n x ->
  (exists l, directional_lights a d s v = Ok l /\ lamp l n la ld ls (fun i _ => x i)) /\
  (exists l, point_lights a d s v = Ok l /\ lamp l n la ld ls (fun i p => sub3 (x i) p)).
Proof. exact lights_built. Qed.
Print Assumptions lights_constructed.
Example lights_constructed_ex :
  prop3 (packed [V3 1 1 1]) 2 (fun _ => V3 1 1 1) /\
  prop3 (packed [V3 0 1 0; V3 1 0 0]) 2 (fun i => nth i [V3 0 1 0; V3 1 0 0] vzero).
Proof. split; [apply packed_shared|apply (packed_prop [V3 0 1 0; V3 1 0 0])]. Qed.

(* moving the whole scene rigidly (points, normals, lights and cameras) changes nothing *)
Theorem lighting_rigid : forall q o l l' n la ld ls tw tw' normals normals' points points' cam cam' shin ds N P C s,
  rigid q -> (0 < n)%nat -> (ds = [] \/ exists h w k, ds = [h; w; k]) ->
  lamp l n la ld ls tw -> lamp l' n la ld ls tw' ->
  (forall i p, tw' i (moved q o p) = vmul3 (tw i p) q) ->
  vecs normals n ds N -> vecs normals' n ds (fun i js => vmul3 (N i js) q) ->
  vecs points n ds P -> vecs points' n ds (fun i js => moved q o (P i js)) ->
  prop3 cam n C -> prop3 cam' n (fun i => moved q o (C i)) -> prop1 shin n s ->
  exists d d' sp sp',
    light_diffuse l normals points = Ok d /\ light_diffuse l' normals' points' = Ok d' /\
    light_specular l normals points cam shin = Ok sp /\ light_specular l' normals' points' cam' shin = Ok sp' /\
    forall i js, (i < n)%nat -> inside js ds -> row d' (i :: js) = row d (i :: js) /\ row sp' (i :: js) = row sp (i :: js).
Proof. exact rigid_eval. Qed.
Print Assumptions lighting_rigid.
(* the condition on tw' is met by a point light that moves along and by a directional light that turns along *)
Example lighting_rigid_ex : forall q o x p d,
  sub3 (moved q o x) (moved q o p) = vmul3 (sub3 x p) q /\ (fun _ : vec3 => vmul3 d q) (moved q o p) = vmul3 d q.
Proof. intros. split; [apply moved_sub|reflexivity]. Qed.

(* a light behind the surface gives no highlight: false for a shininess of zero, which Materials allows *)
Theorem specular_dark_refuted : ~ (forall points normals dir color cam shin n ds P N L col C s t i js, (0 < n)%nat ->
  vecs points n ds P -> vecs normals n ds N -> direction_of dir n ds L -> prop3 color n col ->
  prop3 cam n C -> prop1 shin n s -> specular points normals dir color cam shin = Ok t ->
  (i < n)%nat -> inside js ds -> sized (N i js) -> sized (L i js) -> sized (sub3 (C i) (P i js)) -> 0 <= s i ->
  dot3 (N i js) (L i js) < 0 -> row t (i :: js) = vzero).
Proof. exact dark_fails. Qed.
Print Assumptions specular_dark_refuted.

(* points and normals of different shapes are refused *)
Theorem specular_refuses : forall points normals dir color cam shin, shp points <> shp normals ->
  specular points normals dir color cam shin = Fail EValue.
Proof.
  intros points normals dir color cam shin H. unfold specular, shape_eqb. destruct (list_eq_dec Nat.eq_dec (shp points) (shp normals)); [contradiction|reflexivity].
Qed.
Print Assumptions specular_refuses.
