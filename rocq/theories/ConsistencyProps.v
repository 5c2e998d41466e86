(* C63: mesh_normal_consistency. The theorems; the vocabulary is in MeshesSpec.v, MeshesHistSpec.v (which Meshes objects
   are reachable), LaplaceSpec.v (rigid motions) and ConsistencySpec.v (hinges and the loss of a list of meshes). *)
From Coq Require Import Permutation.
From Verif Require Import Base Packing RBase Geom FaceAreas FaceAreasSpec Meshes MeshesSpec MeshesHistSpec Laplace LaplaceSpec Consistency ConsistencySpec ConsistencyProofs ConsistencyProofs2 ConsistencyProofs3 ConsistencyProofs4 ConsistencyProofs5.
From Verif Require LaplaceProofs7 MeshesProofs2 MeshesProofs11.
Local Open Scope R_scope.

(* For every Meshes object that any history can give: the mean over the meshes of the mean over all pairs of faces that
   share an edge of 1 - cosine. A mesh whose faces share no edge counts as zero. The object stays what it was. *)
Theorem consistency_of_any_batch : forall argsort m a, sorts argsort -> reachable argsort m a ->
  exists m', mesh_normal_consistency argsort m = Ok (consistency (batch a), m') /\ behaves argsort m' a.
Proof. intros argsort m a Hs. exact (consistency_value argsort Hs m a). Qed.
Print Assumptions consistency_of_any_batch.

(* the pairs it runs over: every two places where faces touch the same edge, each pair once *)
Theorem hinges_are_the_face_pairs : forall fs x y, In (x, y) (hinges fs) <->
  fst x = fst y /\ exists i j, (i < j)%nat /\ nth_error (flat_map touches fs) i = Some x /\ nth_error (flat_map touches fs) j = Some y.
Proof.
  intros fs x y. unfold hinges. rewrite filter_In, same_edge_spec. cbn [fst snd]. enough (G : forall l : list touch, In (x, y) (two_of l) <-> exists i j, (i < j)%nat /\ nth_error l i = Some x /\ nth_error l j = Some y) by (rewrite G; tauto).
  induction l as [|z l IH]; [split; [easy|intros ([|] & j & _ & H & _); discriminate]|]. cbn [two_of]. rewrite in_app_iff, IH, in_map_iff. split.
  - intros [(y' & E & H)|(i & j & Hij & Hi & Hj)].
    + injection E as -> ->. apply In_nth_error in H as (n & H). exists 0%nat, (S n). split; [lia|]. split; [reflexivity|exact H].
    + exists (S i), (S j). split; [lia|]. split; assumption.
  - intros ([|i] & [|j] & Hij & Hi & Hj); try lia; cbn [nth_error] in Hi, Hj.
    + injection Hi as ->. left. exists y. split; [reflexivity|eapply nth_error_In; eauto].
    + right. exists i, j. split; [lia|]. split; assumption.
Qed.
Print Assumptions hinges_are_the_face_pairs.

(* two faces that run along the shared edge in opposite directions, as on an oriented surface: 1 - cosine of their normals *)
Theorem bend_of_oriented_faces : forall vs i j a c,
  bend vs (hinge_at i j a c) = 1 - cosine (tri_cross (at_ vs i) (at_ vs j) (at_ vs a)) (tri_cross (at_ vs j) (at_ vs i) (at_ vs c)).
Proof. exact bend_opposite. Qed.
Print Assumptions bend_of_oriented_faces.
(* and in the same direction: the second normal is turned round *)
Theorem bend_of_unoriented_faces : forall vs i j a c,
  bend vs (hinge_at i j a c) = 1 + cosine (tri_cross (at_ vs i) (at_ vs j) (at_ vs a)) (tri_cross (at_ vs i) (at_ vs j) (at_ vs c)).
Proof. exact bend_same. Qed.
Print Assumptions bend_of_unoriented_faces.

Theorem bend_between_0_and_2 : forall vs h, 0 <= bend vs h <= 2.
Proof. exact bend_range. Qed.
Print Assumptions bend_between_0_and_2.
(* between 0 and 2, and zero exactly when every two faces that share an edge continue each other flat *)
Theorem consistency_zero_iff_flat : forall b, 0 <= consistency b <= 2 /\
  (consistency b = 0 <-> forall p h, In p b -> In h (hinges (snd p)) -> flat (fst p) h).
Proof. exact consistency_zero. Qed.
Print Assumptions consistency_zero_iff_flat.

Theorem consistency_rigid_motion : forall g b, rigid g -> Forall good_mesh b -> consistency (moved g b) = consistency b.
Proof. exact consistency_rigid. Qed.
Print Assumptions consistency_rigid_motion.

(* the order of the faces, the corner a face starts with and its orientation do not matter *)
Theorem consistency_ignores_face_order_and_orientation : forall b b',
  Forall2 (fun p p' => fst p = fst p' /\ relisted (snd p) (snd p')) b b' -> consistency b = consistency b'.
Proof. exact consistency_relisted. Qed.
Print Assumptions consistency_ignores_face_order_and_orientation.

(* a batch without any face, or without any mesh, has loss 0 *)
Theorem consistency_without_faces : forall argsort b m, Forall (fun p : mesh => snd p = []) b -> new_list (map fst b) (map snd b) = Ok m ->
  mesh_normal_consistency argsort m = Ok (0, m).
Proof. intros argsort b m H E. apply (LaplaceProofs7.faceless_empty b m H) in E. unfold mesh_normal_consistency. rewrite E. reflexivity. Qed.
Print Assumptions consistency_without_faces.

(* Examples: a flat square, a square folded along its diagonal by a right angle, a single triangle. *)
Definition flat_square : mesh := ([V3 0 0 0; V3 1 0 0; V3 1 1 0; V3 0 1 0], [(0, 1, 2); (0, 2, 3)]%Z).
Definition corner : mesh := ([V3 0 0 0; V3 1 0 0; V3 0 1 0; V3 0 0 1], [(0, 1, 2); (0, 3, 1)]%Z).
Definition triangle : mesh := ([V3 0 0 0; V3 1 0 0; V3 1 1 0], [(0, 1, 2)]%Z).
Definition three : list mesh := [flat_square; triangle; corner].
Example three_good : Forall good_mesh three /\ has_a_face three.
Proof. split; [repeat constructor; cbn; lia|]. unfold has_a_face. exists flat_square. split; [now left|discriminate]. Qed.
Example reachable_three : exists argsort m a, sorts argsort /\ reachable argsort m a /\ batch a = three.
Proof.
  destruct three_good as (A & B). destruct (MeshesProofs2.new_list_repr MeshesProofs11.some_argsort _ A B) as (m & E & _).
  exists MeshesProofs11.some_argsort, m, (from_lists three). split; [exact MeshesProofs11.some_argsort_sorts|]. split; [apply made_from_lists; assumption|reflexivity].
Qed.
Example hinges_of_them : map (fun p => hinges (snd p)) three = [[(((0, 2), 1), ((0, 2), 3))]; []; [(((0, 1), 2), ((0, 1), 3))]]%Z.
Proof. reflexivity. Qed.
Example loss_of_them : consistency three = 1 / 3.
Proof.
  assert (F : bend (fst flat_square) (((0, 2), 1), ((0, 2), 3))%Z = 0).
  { apply bend_zero. unfold flat. assert (W1 : wing (fst flat_square) ((0, 2), 1)%Z = V3 0 0 (-1)) by (change (tri_cross (V3 0 0 0) (V3 1 1 0) (V3 1 0 0) = V3 0 0 (-1)); unfold tri_cross, cross3, sub3; cbn [x3 y3 z3]; f_equal; ring). assert (W2 : wing (fst flat_square) ((0, 2), 3)%Z = V3 0 0 1) by (change (tri_cross (V3 0 0 0) (V3 1 1 0) (V3 0 1 0) = V3 0 0 1); unfold tri_cross, cross3, sub3; cbn [x3 y3 z3]; f_equal; ring). cbn [fst snd] in *. rewrite W1, W2.
    assert (N : forall z, z * z = 1 -> norm3 (V3 0 0 z) = 1) by (intros z Hz; unfold norm3, dot3; cbn [x3 y3 z3]; replace (0 * 0 + 0 * 0 + z * z) with 1 by lra; apply sqrt_1).
    rewrite !N by lra. unfold kEps. split; [lra|]. split; [lra|]. exists 1. split; [lra|]. unfold neg3, scal3. cbn [x3 y3 z3]. f_equal; ring. }
  assert (C : bend (fst corner) (((0, 1), 2), ((0, 1), 3))%Z = 1).
  { unfold bend, cosine. cbn [fst snd]. replace (dot3 _ _) with 0; [unfold Rdiv; ring|]. change (0 = dot3 (tri_cross (V3 0 0 0) (V3 1 0 0) (V3 0 1 0)) (neg3 (tri_cross (V3 0 0 0) (V3 1 0 0) (V3 0 0 1)))). unfold tri_cross, cross3, sub3, neg3, scal3, dot3. cbn [x3 y3 z3]. ring. }
  change (consistency three) with (mean [mean [bend (fst flat_square) (((0, 2), 1), ((0, 2), 3))%Z]; mean []; mean [bend (fst corner) (((0, 1), 2), ((0, 1), 3))%Z]]). rewrite F, C. unfold mean. cbn [length INR]. rewrite !rsum_cons, !rsum_nil. field.
Qed.
