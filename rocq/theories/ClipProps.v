(* C72: clipping a batch of meshes against a plane in front of the camera. *)
From Verif Require Import Base RBase Geom LinAlg Symeig Clip ClipSpec ClipProofs ClipProofs2 ClipProofs5 ClipProofs6.
From Coq Require Import Psatz.
Local Open Scope R_scope.

(* The clipped faces of a face that is not culled cover exactly its part in front of the plane. *)
Theorem clip_region : forall faces first num fr cf i f q,
  clip_faces faces first num fr = Ok cf -> depth_ok fr -> nth_error faces i = Some f -> ~ dropped fr f ->
  (covered (f_perspective fr) cf i q <-> in_triangle (f_perspective fr) f q /\ in_front_of (f_zclip fr) q).
Proof. intros faces first num fr cf i f q R D Hf N. exact (region fr faces first num cf R i f q D Hf N). Qed.
Print Assumptions clip_region.

(* A culled face leaves nothing behind. *)
Theorem clip_culled_gone : forall faces first num fr cf i f k,
  clip_faces faces first num fr = Ok cf -> nth_error faces i = Some f -> dropped fr f -> source cf k <> Some i.
Proof. intros faces first num fr cf i f k R. exact (no_piece fr faces first num cf R i f k). Qed.
Print Assumptions clip_culled_gone.

(* Every clipped face belongs to one of the faces, and the order of the faces is kept. *)
Theorem clip_sources : forall faces first num fr cf, clip_faces faces first num fr = Ok cf ->
  (forall k, (k < length (c_verts cf))%nat -> exists i, source cf k = Some i /\ (i < length faces)%nat) /\
  (forall k k' i i', (k <= k')%nat -> source cf k = Some i -> source cf k' = Some i' -> (i <= i')%nat).
Proof.
  intros faces first num fr cf R. split; [exact (sources_total fr faces first num cf R)|exact (sources_sorted fr faces first num cf R)].
Qed.
Print Assumptions clip_sources.

(* A clipped face is oriented like the face it belongs to, and no larger. *)
Theorem clip_orientation : forall faces first num fr cf k i f g,
  clip_faces faces first num fr = Ok cf -> depth_ok fr -> source cf k = Some i ->
  nth_error faces i = Some f -> nth_error (c_verts cf) k = Some g ->
  exists s, 0 <= s <= 1 /\ normal_of (f_perspective fr) g = scal3 s (normal_of (f_perspective fr) f).
Proof. intros faces first num fr cf k i f g R. exact (oriented fr faces first num cf R k i f g). Qed.
Print Assumptions clip_orientation.

(* Converting a hit on a clipped face gives the face it belongs to and the barycentric coordinates of the
   same point in that face; an empty pixel stays empty. *)
Theorem clip_convert : forall faces first num fr cf k i f g w,
  clip_faces faces first num fr = Ok cf -> depth_ok fr -> source cf k = Some i ->
  nth_error faces i = Some f -> nth_error (c_verts cf) k = Some g ->
  exists w', convert_one cf (Z.of_nat k) w = Ok (Z.of_nat i, w') /\
    weighted (f_perspective fr) f w' = weighted (f_perspective fr) g w /\
    total w' = total w /\ (nonneg3 w -> nonneg3 w').
Proof. intros faces first num fr cf k i f g w R. exact (convert_piece fr faces first num cf R k i f g w). Qed.
Print Assumptions clip_convert.
Theorem clip_convert_empty : forall faces first num fr cf w,
  clip_faces faces first num fr = Ok cf -> convert_one cf (-1) w = Ok ((-1)%Z, w).
Proof. intros faces first num fr cf w R. exact (convert_none fr faces first num cf R w). Qed.
Print Assumptions clip_convert_empty.

(* The meshes of the batch stay together: a clipped face lies in the mesh its face lies in. *)
Theorem clip_meshes : forall faces first num fr cf,
  clip_faces faces first num fr = Ok cf -> batch_of (length faces) first num ->
  exists num', c_num cf = map Z.of_nat num' /\ length num' = length num /\
    batch_of (length (c_verts cf)) (c_first cf) num' /\
    forall m k i, (m < length num)%nat -> source cf k = Some i ->
      (in_mesh (c_first cf) num' m k <-> in_mesh first num m i).
Proof. intros faces first num fr cf R B. exact (meshes_kept fr faces first num cf R B). Qed.
Print Assumptions clip_meshes.

(* The neighbour of a clipped face is the other clipped face of the same face, -1 where there is none. *)
Theorem clip_neighbours : forall faces first num fr cf k i,
  clip_faces faces first num fr = Ok cf -> source cf k = Some i ->
  (exists z, neighbour cf k = Some z /\ (z = -1 \/ exists k', z = Z.of_nat k')%Z) /\
  forall k', neighbour cf k = Some (Z.of_nat k') <-> k' <> k /\ source cf k' = Some i.
Proof. intros faces first num fr cf k i R. exact (neighbour_spec fr faces first num cf R k i). Qed.
Print Assumptions clip_neighbours.

(* Clipping succeeds when the last mesh of the batch has a face; nothing changes where nothing is behind the
   plane or culled. *)
Theorem clip_total : forall faces first num fr,
  batch_of (length faces) first num -> last num 1%nat <> 0%nat -> exists cf, clip_faces faces first num fr = Ok cf.
Proof. exact clip_ok. Qed.
Print Assumptions clip_total.
Theorem clip_nothing : forall faces first num fr, (forall f, In f faces -> ~ touched fr f) ->
  clip_faces faces first num fr = Ok (Clipped faces first (map Z.of_nat num) None None None None).
Proof. exact clip_untouched. Qed.
Print Assumptions clip_nothing.

(* A batch whose last mesh is empty cannot be clipped: the code raises an IndexError. *)
Theorem clip_empty_last_fails : forall faces first num fr,
  batch_of (length faces) first num -> last num 1%nat = 0%nat -> (exists f, In f faces /\ touched fr f) ->
  clip_faces faces first num fr = Fail EIndex.
Proof. exact clip_last_empty. Qed.
Print Assumptions clip_empty_last_fails.

(* ---- a case that meets the hypotheses ---- *)
Definition ex_face : face := (V3 0 0 0, V3 2 0 2, V3 0 2 2).
Definition ex_frustum : frustum := Frustum None None None None None None true false (Some 1).
Example ex_batch : batch_of 1 [0%nat] [1%nat].
Proof. repeat split. intros [|m] H; [reflexivity|cbn in H; lia]. Qed.
Example ex_depth : depth_ok ex_frustum.
Proof. intros _ H. injection H as H. lra. Qed.
Example ex_touched : touched ex_frustum ex_face /\ ~ dropped ex_frustum ex_face.
Proof.
  split; [right; exists 1, I0; cbn; split; [reflexivity|lra]|]. intros [H _]. discriminate H.
Qed.
Example ex_clipped : exists cf, clip_faces [ex_face] [0%nat] [1%nat] ex_frustum = Ok cf /\
  ~ covered true cf 0 (V3 0 0 0) /\ covered true cf 0 (V3 4 0 2).
Proof.
  destruct (clip_total [ex_face] [0%nat] [1%nat] ex_frustum ex_batch ltac:(discriminate)) as [cf R]. exists cf. split; [exact R|].
  pose proof (fun q => clip_region _ _ _ _ _ 0%nat ex_face q R ex_depth eq_refl (proj2 ex_touched)) as C. cbn [f_perspective f_zclip ex_frustum] in C. split.
  - rewrite C. intros [_ H]. cbn in H. lra.
  - rewrite C. split; [|cbn; lra]. exists (V3 0 1 0). split; [unfold nonneg3; cbn; lra|]. split; [unfold total; cbn; lra|]. unfold ex_face, weighted, world, add3, scal3. cbn. apply V3_eq; ring.
Qed.
Example ex_empty_last : exists faces first num fr, batch_of (length faces) first num /\ last num 1%nat = 0%nat /\ exists f, In f faces /\ touched fr f.
Proof.
  exists [ex_face], [0; 1]%nat, [1; 0]%nat, ex_frustum. split.
  - repeat split. intros [|[|m]] H; [reflexivity|reflexivity|cbn in H; lia].
  - split; [reflexivity|]. exists ex_face. split; [left; reflexivity|apply ex_touched].
Qed.

(* ---- what the documentation says of culling is not what happens ---- *)
Definition cull_frustum : frustum := Frustum None (Some 1) None None None None false true None.
Theorem clip_culls_visible_refuted : ~ (forall faces first num fr cf i f,
  clip_faces faces first num fr = Ok cf -> f_zclip fr = None -> nth_error faces i = Some f ->
  (forall k, source cf k <> Some i) -> outside fr f).
Proof.
  intros H. set (f := (V3 2 2 2, V3 0 0 2, V3 0 (1/2) 2)).
  assert (D : dropped cull_frustum f). { split; [reflexivity|]. right; left. exists 1. cbn. repeat split; lra. }
  destruct (clip_total [f] [0%nat] [1%nat] cull_frustum ex_batch ltac:(discriminate)) as [cf R].
  specialize (H _ _ _ _ _ 0%nat f R eq_refl eq_refl (fun k => clip_culled_gone _ _ _ _ _ 0%nat f k R eq_refl D)).
  cbn in H. destruct H as [(t & X & _)|[(t & X & A & B & C)|[(t & X & _)|[(t & X & _)|[(t & X & _)|(t & X & _)]]]]]; try discriminate X.
  injection X as <-. lra.
Qed.
Print Assumptions clip_culls_visible_refuted.
Theorem clip_keeps_outside_refuted : ~ (forall faces first num fr cf i f,
  clip_faces faces first num fr = Ok cf -> f_cull fr = true -> nth_error faces i = Some f -> outside fr f ->
  forall k, source cf k <> Some i).
Proof.
  intros H. set (f := (V3 2 0 2, V3 3 0 2, V3 2 1 2)).
  assert (D : ~ dropped cull_frustum f).
  { intros [_ X]. cbn in X. destruct X as [(t & T & _)|[(t & T & A & B & C)|[(t & T & _)|[(t & T & _)|[(t & T & _)|(t & T & _)]]]]]; try discriminate T. injection T as <-. cbn in B. lra. }
  assert (O : outside cull_frustum f). { right; left. exists 1. cbn. repeat split; lra. }
  destruct (clip_total [f] [0%nat] [1%nat] cull_frustum ex_batch ltac:(discriminate)) as [cf R].
  specialize (H _ _ _ _ _ 0%nat f R eq_refl eq_refl O).
  assert (C : covered false cf 0 (V3 2 0 2)).
  { apply (clip_region _ _ _ _ _ 0%nat f (V3 2 0 2) R); [intros X; discriminate X|reflexivity|exact D|]. split; [|exact I].
    exists (V3 1 0 0). split; [unfold nonneg3; cbn; lra|]. split; [unfold total; cbn; lra|]. unfold f, weighted, world, add3, scal3. cbn. apply V3_eq; ring. }
  destruct C as (k & g & _ & S & _). exact (H k S).
Qed.
Print Assumptions clip_keeps_outside_refuted.
