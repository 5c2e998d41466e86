(* C61: mesh_edge_loss and mesh_laplacian_smoothing. The theorems; the vocabulary is in MeshesSpec.v,
   MeshesHistSpec.v (which Meshes objects are reachable) and LaplaceSpec.v (the losses of a list of meshes). *)
From Verif Require Import Base Packing RBase Geom FaceAreas FaceAreasSpec Meshes MeshesSpec MeshesHistSpec Laplace LaplaceSpec
  LaplaceProofs2 LaplaceProofs3 LaplaceProofs4 LaplaceProofs5 LaplaceProofs7.
Local Open Scope R_scope.

(* For every Meshes object that any history of constructor calls, queries and edits can give: the mean over the meshes
   of the mean over the edges, each once, of (length - target)^2. The object stays what it was. *)
Theorem edge_loss_of_any_batch : forall argsort target m a, sorts argsort -> reachable argsort m a ->
  exists m', mesh_edge_loss argsort target m = Ok (edge_loss target (batch a), m') /\ behaves argsort m' a.
Proof. intros argsort target m a Hs. apply edge_loss_value, Hs. Qed.
Print Assumptions edge_loss_of_any_batch.

(* never negative, and zero exactly when every edge has the target length *)
Theorem edge_loss_zero_iff : forall target b, 0 <= edge_loss target b /\
  (edge_loss target b = 0 <-> forall p e, In p b -> In e (mesh_edges p) -> dist (vertex p (fst e)) (vertex p (snd e)) = target).
Proof. exact edge_loss_zero. Qed.
Print Assumptions edge_loss_zero_iff.

Theorem edge_loss_rigid_motion : forall g target b, rigid g -> Forall good_mesh b -> edge_loss target (moved g b) = edge_loss target b.
Proof. exact edge_loss_rigid. Qed.
Print Assumptions edge_loss_rigid_motion.

(* the edges of a mesh: the sides of its faces, lower vertex first, each once *)
Theorem mesh_edges_are_the_sides : forall p, good_mesh p -> NoDup (mesh_edges p) /\
  forall i j, In (i, j) (mesh_edges p) <-> (i <= j)%nat /\ exists f, In f (snd p) /\ side_of (Z.of_nat i, Z.of_nat j) f.
Proof.
  intros p Hg. split; [apply (NoDup_map_inv zedge), MeshesProofs10.lex_sorted_nodup, (zedges_ok p Hg)|]. intros i j. rewrite mesh_edges_in, nbrs_in. split.
  - intros (L & _ & _ & H). split; [exact L|exact H].
  - intros (L & H). pose proof (adj_range p i j Hg H). split; [exact L|]. split; [lia|]. split; [lia|exact H].
Qed.
Print Assumptions mesh_edges_are_the_sides.

(* The three smoothing losses: the mean over the meshes of the mean over the vertices of the length of
   - uniform: the way to the mean of the neighbours (for faces with three different corners);
   - cot: the way to the mean weighted with the cotangents of the opposite angles;
   - cotcurv: the sum of the weighted edge vectors over four times the area around the vertex. *)
Theorem uniform_smoothing_loss : forall argsort m a, sorts argsort -> reachable argsort m a ->
  Forall (fun p => Forall three_corners (snd p)) (batch a) ->
  exists m', mesh_laplacian_smoothing argsort Uniform m = Ok (smoothing_loss to_centroid (batch a), m') /\ behaves argsort m' a.
Proof. intros argsort m a Hs Hr H. apply (smoothing_value argsort Hs Uniform); [exact Hr|discriminate|intros _; exact H]. Qed.
Print Assumptions uniform_smoothing_loss.
Theorem cot_smoothing_loss : forall argsort m a, sorts argsort -> reachable argsort m a ->
  exists m', mesh_laplacian_smoothing argsort Cot m = Ok (smoothing_loss to_cot_centroid (batch a), m') /\ behaves argsort m' a.
Proof. intros argsort m a Hs Hr. apply (smoothing_value argsort Hs Cot); [exact Hr|discriminate|discriminate]. Qed.
Print Assumptions cot_smoothing_loss.
Theorem cotcurv_smoothing_loss : forall argsort m a, sorts argsort -> reachable argsort m a ->
  exists m', mesh_laplacian_smoothing argsort CotCurv m = Ok (smoothing_loss curvature (batch a), m') /\ behaves argsort m' a.
Proof. intros argsort m a Hs Hr. apply (smoothing_value argsort Hs CotCurv); [exact Hr|discriminate|discriminate]. Qed.
Print Assumptions cotcurv_smoothing_loss.
Theorem unknown_method_rejected : forall argsort m a, sorts argsort -> reachable argsort m a -> mesh_laplacian_smoothing argsort OtherMethod m = Fail EValue.
Proof. intros argsort m a Hs. apply other_method, Hs. Qed.
Print Assumptions unknown_method_rejected.

Theorem smoothing_loss_zero_iff : forall step b, 0 <= smoothing_loss step b /\
  (smoothing_loss step b = 0 <-> forall p i, In p b -> (i < length (fst p))%nat -> step p i = V3 0 0 0).
Proof. exact smoothing_zero. Qed.
Print Assumptions smoothing_loss_zero_iff.

(* rigid motions do not change them, if no vertex is isolated *)
Theorem uniform_loss_rigid_motion : forall g b, rigid g -> Forall good_mesh b -> Forall no_isolated b ->
  smoothing_loss to_centroid (moved g b) = smoothing_loss to_centroid b.
Proof. exact uniform_rigid. Qed.
Print Assumptions uniform_loss_rigid_motion.
Theorem cot_loss_rigid_motion : forall g b, rigid g -> Forall good_mesh b ->
  (forall p i, In p b -> (i < length (fst p))%nat -> 0 < total (cot_weights (fst p) (snd p) i)) ->
  smoothing_loss to_cot_centroid (moved g b) = smoothing_loss to_cot_centroid b.
Proof. exact cot_rigid. Qed.
Print Assumptions cot_loss_rigid_motion.
Theorem cotcurv_loss_rigid_motion : forall g b, rigid g -> Forall good_mesh b -> smoothing_loss curvature (moved g b) = smoothing_loss curvature b.
Proof. exact curvature_rigid. Qed.
Print Assumptions cotcurv_loss_rigid_motion.

(* with an isolated vertex the uniform and the cot loss change when the mesh is moved *)
Theorem isolated_vertex_translation_refuted : exists b, Forall good_mesh b /\ forall t, t <> V3 0 0 0 ->
  smoothing_loss to_centroid (moved (fun v => add3 v t) b) <> smoothing_loss to_centroid b /\
  smoothing_loss to_cot_centroid (moved (fun v => add3 v t) b) <> smoothing_loss to_cot_centroid b.
Proof.
  exists [lonely]. split; [constructor; [exact lonely_good|constructor]|]. intros t Ht. split; [apply lonely_uniform, Ht|apply lonely_cot, Ht].
Qed.
Print Assumptions isolated_vertex_translation_refuted.

(* a batch without any face, or without any mesh, has loss 0 *)
Theorem losses_without_faces : forall argsort target k b m, Forall (fun p : mesh => snd p = []) b -> new_list (map fst b) (map snd b) = Ok m ->
  mesh_edge_loss argsort target m = Ok (0, m) /\ mesh_laplacian_smoothing argsort k m = Ok (0, m).
Proof.
  intros argsort target k b m H E. apply (faceless_empty b m H) in E. unfold mesh_edge_loss, mesh_laplacian_smoothing. rewrite E. split; reflexivity.
Qed.
Print Assumptions losses_without_faces.

(* ---- the hypotheses can be met ---- *)
Definition square_and_triangle : list mesh :=
  [([V3 0 0 0; V3 1 0 0; V3 1 1 0; V3 0 1 0], [(0, 1, 2); (0, 2, 3)]%Z); ([V3 0 0 0; V3 1 0 0; V3 0 1 1], [(2, 1, 0)]%Z)].
Example batch_ok : Forall good_mesh square_and_triangle /\ has_a_face square_and_triangle /\
  Forall (fun p => Forall three_corners (snd p)) square_and_triangle /\ Forall no_isolated square_and_triangle.
Proof.
  split; [repeat constructor; cbn; lia|]. split; [eexists; split; [left; reflexivity|discriminate]|]. split; [repeat constructor; cbn; lia|].
  repeat constructor; intros i Hi; cbn in Hi; destruct i as [|[|[|[|i]]]]; try lia; discriminate.
Qed.
Example reachable_batch : exists argsort m a, sorts argsort /\ reachable argsort m a /\ batch a = square_and_triangle.
Proof.
  destruct batch_ok as (A & B & _). destruct (MeshesProofs2.new_list_repr MeshesProofs11.some_argsort _ A B) as (m & E & _).
  exists MeshesProofs11.some_argsort, m, (from_lists square_and_triangle). split; [exact MeshesProofs11.some_argsort_sorts|]. split; [apply made_from_lists; assumption|reflexivity].
Qed.
Example its_edges : map mesh_edges square_and_triangle = [[(0, 1); (0, 2); (0, 3); (1, 2); (2, 3)]; [(0, 1); (0, 2); (1, 2)]]%nat.
Proof. reflexivity. Qed.
Example cot_positive : forall i, (i < 3)%nat -> 0 < total (cot_weights (fst lonely) (snd lonely) i).
Proof. exact lonely_total. Qed.
Example a_rotation : rigid (fun v => add3 (V3 (- y3 v) (x3 v) (z3 v)) (V3 5 0 0)).
Proof.
  exists (fun v => V3 (- y3 v) (x3 v) (z3 v)), (V3 5 0 0). split; [reflexivity|]. split; [intros u v; unfold add3; cbn; f_equal; ring|]. split; [intros c v; unfold scal3; cbn; f_equal; ring|]. intros v. unfold norm3, dot3. cbn. f_equal. ring.
Qed.
