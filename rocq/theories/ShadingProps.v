(* Property C78 (shading): every pixel gets the colour that the laws of lighting give for its surface point. *)
From Coq Require Import Lra.
From Verif Require Import Base RBase Geom LinAlg Tens Lighting LightingSpec.
From Verif Require Import LightingProofs3 LightingProofs4 LightingProofs5 LightingProofs6 LightingProofs7.
Local Open Scope R_scope.

(* phong_shading: position and normal are interpolated over the face of the pixel and lit with the lights and
   the camera of the pixel's own image; a pixel that shows no face only keeps the ambient light *)
Theorem phong_pixel : forall verts vn nv A VN faces p2f bary B l n la ld ls tw cam C m ma md ms s x X h w k,
  (0 < n)%nat -> 0 < s ->
  vecs verts nv [] (fun v _ => A v) -> vecs vn nv [] (fun v _ => VN v) -> faces_ok nv faces ->
  rendered p2f n h w k faces -> vecs bary n [h; w; k] B ->
  lamp l n la ld ls tw -> prop3 cam n C -> shared_material m ma md ms s -> vecs x n [h; w; k] X ->
  exists out, phong_shading verts vn faces p2f bary l cam m x = Ok out /\ shp out = [n; h; w; k; 3%nat] /\
    forall i js, (i < n)%nat -> inside js [h; w; k] ->
      match face_at p2f faces (i :: js) with
      | None => row out (i :: js) = tint (tint ma (la i)) (X i js)
      | Some f =>
          let p := on_face A f (B i js) in
          let q := on_face VN f (B i js) in
          sized q -> sized (tw i p) -> sized (sub3 (C i) p) ->
          row out (i :: js) = shade ma md ms s (la i) (ld i) (ls i) q (tw i p) (sub3 (C i) p) (X i js)
      end.
Proof. exact phong_eval. Qed.
Print Assumptions phong_pixel.

(* flat_shading: the centroid and the normal of the face stand for all of its pixels *)
Theorem flat_pixel : forall verts fn nv A FN faces p2f l n la ld ls tw cam C m ma md ms s x X h w k,
  (0 < n)%nat -> 0 < s ->
  vecs verts nv [] (fun v _ => A v) -> vecs fn (length faces) [] (fun f _ => FN f) -> faces_ok nv faces ->
  rendered p2f n h w k faces ->
  lamp l n la ld ls tw -> prop3 cam n C -> shared_material m ma md ms s -> vecs x n [h; w; k] X ->
  exists out, flat_shading verts fn faces p2f l cam m x = Ok out /\ shp out = [n; h; w; k; 3%nat] /\
    forall i js, (i < n)%nat -> inside js [h; w; k] ->
      match face_at p2f faces (i :: js) with
      | None => row out (i :: js) = tint (tint ma (la i)) (X i js)
      | Some f =>
          let p := centroid A f in
          let q := FN (Z.to_nat (iget p2f (i :: js))) in
          sized q -> sized (tw i p) -> sized (sub3 (C i) p) ->
          row out (i :: js) = shade ma md ms s (la i) (ld i) (ls i) q (tw i p) (sub3 (C i) p) (X i js)
      end.
Proof. exact flat_eval. Qed.
Print Assumptions flat_pixel.

(* gouraud_shading: every vertex is lit with the lights, the camera and the material of its own mesh, for
   batches of meshes of any sizes; the vertex colours are then interpolated *)
Theorem gouraud_pixel : forall n owner verts vn A VN faces colors X p2f bary B l cam m la ld ls tw ma md ms s C h w k,
  (0 < n)%nat -> List.Forall (fun i => (i < n)%nat) owner -> owner <> [] ->
  vecs verts (length owner) [] (fun v _ => A v) -> vecs vn (length owner) [] (fun v _ => VN v) ->
  vecs colors (length owner) [] (fun v _ => X v) -> faces_ok (length owner) faces ->
  rendered p2f n h w k faces -> vecs bary n [h; w; k] B ->
  lamp l n la ld ls tw -> material m n ma md ms s -> prop3 cam n C ->
  (forall v, (v < length owner)%nat ->
     let i := nth v owner 0%nat in
     sized (VN v) /\ sized (tw i (A v)) /\ sized (sub3 (C i) (A v)) /\ 0 < s i) ->
  exists out, gouraud_shading n owner verts vn faces (Some colors) p2f bary l cam m = Ok out /\ shp out = [n; h; w; k; 3%nat] /\
    forall i js, (i < n)%nat -> inside js [h; w; k] ->
      row out (i :: js) =
        match face_at p2f faces (i :: js) with
        | None => vzero
        | Some f =>
            on_face (fun v => let i := nth v owner 0%nat in
                     shade (ma i) (md i) (ms i) (s i) (la i) (ld i) (ls i) (VN v) (tw i (A v)) (sub3 (C i) (A v)) (X v))
                    f (B i js)
        end.
Proof.
  intros n owner verts vn A VN faces colors X p2f bary B l cam m la ld ls tw ma md ms s C h w k Hn Ho NE VV VN' VX HF HR VB HL HM HC HS.
  destruct (gouraud_eval n owner verts vn A VN faces colors X p2f bary B l cam m la ld ls tw ma md ms s C h w k Hn Ho NE VV VN' VX HF HR VB HL HM HC) as (out & E & S & V).
  exists out. split; [exact E|]. split; [exact S|]. intros i js Hi J. rewrite (V i js Hi J). unfold seen.
  destruct (face_at p2f faces (i :: js)) as [[[u v] z]|] eqn:F; [|reflexivity].
  assert (IN : In (u, v, z) faces) by (unfold face_at in F; destruct (iget p2f (i :: js) <? 0)%Z; [discriminate|]; eapply nth_error_In; exact F).
  destruct (HF _ _ _ IN) as (HU & HV & HZ). unfold on_face.
  destruct (HS u HU) as (? & ? & ? & ?). destruct (HS v HV) as (? & ? & ? & ?). destruct (HS z HZ) as (? & ? & ? & ?).
  cbv zeta. rewrite !shade_eval by assumption. reflexivity.
Qed.
Print Assumptions gouraud_pixel.

(* a triangle in the plane z = 0 under a point light, seen from above: the hypotheses of the three theorems *)
Example shading_ex :
  faces_ok 3 tri /\ rendered (IT [1; 1; 2; 1]%nat (fun ix => match ix with [_; _; 0%nat; _] => 0%Z | _ => (-1)%Z end)) 1 1 2 1 tri /\
  vecs tri_verts 3 [] (fun i _ => nth i [V3 0 0 0; V3 1 0 0; V3 0 1 0] vzero) /\
  vecs (filled 1 1 2 1 (V3 (/ 2) (/ 4) (/ 4))) 1 [1; 2; 1]%nat (fun _ _ => V3 (/ 2) (/ 4) (/ 4)) /\
  lamp (Point (packed [V3 1 1 1]) (packed [V3 1 1 1]) (packed [V3 1 1 1]) (packed [V3 0 0 2])) 1
    (fun _ => V3 1 1 1) (fun _ => V3 1 1 1) (fun _ => V3 1 1 1) (fun _ p => sub3 (V3 0 0 2) p) /\
  prop3 (packed [V3 0 0 3]) 1 (fun _ => V3 0 0 3) /\
  shared_material (Mat (packed [V3 1 1 1]) (packed [V3 1 0 0]) (packed [V3 1 1 1]) (T [1%nat] (fun _ => 64))) (V3 1 1 1) (V3 1 0 0) (V3 1 1 1) 64.
Proof.
  split; [exact tri_ok|]. split.
  { split; [reflexivity|]. split; [discriminate|]. intros i js Hi J. inversion J as [|a ? js1 ? Ha J1]; subst. inversion J1 as [|b ? js2 ? Hb J2]; subst. inversion J2 as [|c ? js3 ? Hc J3]; subst. inversion J3; subst. cbn. destruct b; cbn; lia. }
  split; [apply (packed_vecs [V3 0 0 0; V3 1 0 0; V3 0 1 0])|]. split; [apply filled_vecs|]. split.
  { cbn [lamp]. do 3 (split; [apply packed_shared|]). exists (fun _ => V3 0 0 2). split; [apply packed_shared|reflexivity]. }
  split; [apply packed_shared|]. apply shared_eval.
Qed.

(* materials given per mesh, as Materials documents, do not work in phong_shading: with two meshes and one
   face per pixel the result has two faces per pixel *)
Theorem phong_materials_refuted : ~ (forall verts vn nv A VN faces p2f bary B l n la ld ls tw cam C m ma md ms s x X h w k,
  (0 < n)%nat -> vecs verts nv [] (fun v _ => A v) -> vecs vn nv [] (fun v _ => VN v) -> faces_ok nv faces ->
  rendered p2f n h w k faces -> vecs bary n [h; w; k] B ->
  lamp l n la ld ls tw -> prop3 cam n C -> material m n ma md ms s -> vecs x n [h; w; k] X ->
  exists out, phong_shading verts vn faces p2f bary l cam m x = Ok out /\ shp out = [n; h; w; k; 3%nat]).
Proof. exact phong_materials_fail. Qed.
Print Assumptions phong_materials_refuted.

(* single-channel colours do not work in gouraud_shading: squeeze() also drops the channel, and every vertex
   gets one channel per vertex *)
Theorem gouraud_channels_refuted : ~ (forall verts vn nv A VN faces p2f bary B colors cam C c a ma md ms s h w k out,
  vecs verts nv [] (fun v _ => A v) -> vecs vn nv [] (fun v _ => VN v) -> faces_ok nv faces ->
  rendered p2f 1 h w k faces -> vecs bary 1 [h; w; k] B -> prop3 cam 1 C ->
  shp colors = [nv; c] -> shp a = [1%nat; c] -> shp ma = [1%nat; c] -> shp md = [1%nat; c] -> shp ms = [1%nat; c] -> shp s = [1%nat] ->
  gouraud_shading 1 (repeat 0%nat nv) verts vn faces (Some colors) p2f bary (Ambient a) cam (Mat ma md ms s) = Ok out ->
  shp out = [1%nat; h; w; k; c]).
Proof.
  intros H. destruct grey_shape as [sh|e] eqn:G; [|rewrite grey_shape_3 in G; discriminate].
  unfold grey_shape in G.
  destruct (gouraud_shading 1 [0; 0; 0]%nat tri_verts tri_normals tri (Some (channel 3 (/ 2))) (IT [1; 1; 1; 1]%nat (fun _ => 0%Z))
    (filled 1 1 1 1 (V3 1 0 0)) (Ambient (channel 1 1)) (packed [V3 0 0 3])
    (Mat (channel 1 1) (channel 1 1) (channel 1 1) (T [1%nat] (fun _ => 64)))) as [out|e] eqn:E; [|discriminate].
  pose proof (H tri_verts tri_normals 3%nat _ _ tri (IT [1; 1; 1; 1]%nat (fun _ => 0%Z)) (filled 1 1 1 1 (V3 1 0 0)) _ (channel 3 (/ 2)) (packed [V3 0 0 3]) _ 1%nat
    (channel 1 1) (channel 1 1) (channel 1 1) (channel 1 1) (T [1%nat] (fun _ => 64)) 1%nat 1%nat 1%nat out
    (packed_vecs [V3 0 0 0; V3 1 0 0; V3 0 1 0]) (packed_vecs [V3 0 0 1; V3 0 0 1; V3 0 0 1]) tri_ok (all_rendered 1 1 1 1) (filled_vecs _ _ _ _ _) (packed_shared _ _)
    eq_refl eq_refl eq_refl eq_refl eq_refl eq_refl E) as Q.
  cbn [rbind] in G. injection G as G. pose proof grey_shape_3 as K. unfold grey_shape in K. rewrite E in K. cbn [rbind] in K. injection K as K. rewrite K in Q. discriminate.
Qed.
Print Assumptions gouraud_channels_refuted.

(* textures other than per-vertex colours are refused by gouraud_shading *)
Theorem gouraud_refuses : forall n owner verts vn faces p2f bary l cam m,
  gouraud_shading n owner verts vn faces None p2f bary l cam m = Fail EValue.
Proof. reflexivity. Qed.
Print Assumptions gouraud_refuses.
