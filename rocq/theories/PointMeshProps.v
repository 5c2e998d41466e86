(* Property C66: the distances between point clouds and meshes, the losses made of them and their gradients, in the CPU and
   the CUDA implementation. *)
From Verif Require Import Packing PackingSpec Pointclouds PointcloudsSpec.
From Verif Require Import Base RBase Geom GeomSpec FaceAreas FaceAreasSpec Meshes MeshesSpec MeshesHistSpec Laplace LaplaceSpec Reduce PointMesh PointMeshSpec PointMeshProofs PointMeshProofs3 PointMeshProofs4 PointMeshProofs5 PointMeshProofs6.
From Verif Require MeshesProofs2 MeshesProofs11 PointcloudsProofs6 PointcloudsProps GeomProps.
Local Open Scope R_scope.

(* ---- the kernels: every object gets the distance to the nearest target of its own batch element, and where it is ---- *)
Theorem cpu_nearest : forall (A B : Type) (d : A -> B -> R) (As : list (list A)) (Bs : list (list B)), length As = length Bs ->
  List.Forall (fun l => l <> []) As -> below_max d As Bs ->
  exists out, cpu_forward d (concat As) (firsts As) (concat Bs) (firsts Bs) = Ok out /\ nearest_all d As Bs out.
Proof. intros A B. exact (@cpu_correct A B). Qed.
Print Assumptions cpu_nearest.
(* whatever the order of the blocks, and of the threads inside a block *)
Theorem gpu_nearest : forall (A B : Type) (d : A -> B -> R) (As : list (list A)) (Bs : list (list B)), length As = length Bs -> below_max d As Bs ->
  forall (largest : nat) out, List.Forall (fun l => (length l <= largest)%nat) As ->
  gpu_forward d (concat As) (firsts As) (concat Bs) (firsts Bs) largest out -> exists l, out = Ok l /\ nearest_all d As Bs l.
Proof. intros A B d As Bs HL HD k out Hk. exact (gpu_correct d As Bs HL k out HD Hk). Qed.
Print Assumptions gpu_nearest.
(* the CPU loop does not step over an element without objects: what follows is compared with the wrong targets *)
Theorem cpu_nearest_with_empty_refuted : ~ (forall As Bs out, length As = length Bs -> below_max point_edge As Bs ->
  cpu_forward point_edge (concat As) (firsts As) (concat Bs) (firsts Bs) = Ok out -> nearest_all point_edge As Bs out).
Proof. exact cpu_empty_refuted. Qed.
Print Assumptions cpu_nearest_with_empty_refuted.

(* ---- the losses, after any history of the two batches ---- *)
Section Loss.
Variable argsort : list Z -> list nat.
Hypothesis Hsort : sorts argsort.
Variable F : Type.
Variable fzero : F.
Variables (m : meshes) (am : astate) (c : pointclouds F) (ac : cstate F).
Hypothesis Hm : reachable argsort m am.
Hypothesis Hc : creachable F fzero c ac.
Let clouds := points_of F (clouds F ac).
Let edges := map edges_of (batch am).
Let faces := map faces_of (batch am).

Theorem edge_distance_cpu : length (batch am) = length clouds -> close_enough point_edge clouds edges -> List.Forall (fun l => l <> []) clouds -> List.Forall (fun l => l <> []) edges ->
  exists m' c', point_mesh_edge_distance argsort F (cpu_points_to point_edge) (cpu_to_points point_edge) m c = Ok (mean_to_nearest point_edge clouds edges, m', c') /\ behaves argsort m' am /\ cbehaves F fzero c' ac.
Proof.
  unfold clouds, edges. intros HL HD H1 H2. assert (HL' : length (batch am) = length (PointcloudsSpec.clouds F ac)) by (rewrite HL; unfold points_of; apply map_length). assert (HL2 : length (points_of F (PointcloudsSpec.clouds F ac)) = length (map edges_of (batch am))) by (rewrite map_length; symmetry; exact HL).
  apply (edge_core argsort Hsort F fzero _ _ m am c ac Hm Hc HL' HD); [apply cpu_answers_points|apply cpu_answers_prims]; assumption.
Qed.
Theorem edge_distance_gpu : forall pe ep, gpu_points_to point_edge pe -> gpu_to_points point_edge ep -> length (batch am) = length clouds -> close_enough point_edge clouds edges ->
  exists m' c', point_mesh_edge_distance argsort F pe ep m c = Ok (mean_to_nearest point_edge clouds edges, m', c') /\ behaves argsort m' am /\ cbehaves F fzero c' ac.
Proof.
  unfold clouds, edges. intros pe ep G1 G2 HL HD. assert (HL' : length (batch am) = length (PointcloudsSpec.clouds F ac)) by (rewrite HL; unfold points_of; apply map_length). assert (HL2 : length (points_of F (PointcloudsSpec.clouds F ac)) = length (map edges_of (batch am))) by (rewrite map_length; symmetry; exact HL).
  apply (edge_core argsort Hsort F fzero _ _ m am c ac Hm Hc HL' HD); [apply gpu_answers_points|apply gpu_answers_prims]; assumption.
Qed.
Theorem face_distance_cpu : forall min_area, length (batch am) = length clouds -> close_enough (point_face min_area) clouds faces -> List.Forall (fun l => l <> []) clouds -> List.Forall (fun l => l <> []) faces ->
  exists m' c', point_mesh_face_distance F (cpu_points_to (point_face min_area)) (cpu_to_points (point_face min_area)) m c = Ok (mean_to_nearest (point_face min_area) clouds faces, m', c') /\ behaves argsort m' am /\ cbehaves F fzero c' ac.
Proof.
  unfold clouds, faces. intros ma HL HD H1 H2. assert (HL' : length (batch am) = length (PointcloudsSpec.clouds F ac)) by (rewrite HL; unfold points_of; apply map_length). assert (HL2 : length (points_of F (PointcloudsSpec.clouds F ac)) = length (map faces_of (batch am))) by (rewrite map_length; symmetry; exact HL).
  apply (face_core argsort Hsort F fzero (point_face ma) _ _ m am c ac Hm Hc HL' HD); [apply cpu_answers_points|apply cpu_answers_prims]; assumption.
Qed.
Theorem face_distance_gpu : forall min_area pf fp, gpu_points_to (point_face min_area) pf -> gpu_to_points (point_face min_area) fp -> length (batch am) = length clouds -> close_enough (point_face min_area) clouds faces ->
  exists m' c', point_mesh_face_distance F pf fp m c = Ok (mean_to_nearest (point_face min_area) clouds faces, m', c') /\ behaves argsort m' am /\ cbehaves F fzero c' ac.
Proof.
  unfold clouds, faces. intros ma pe ep G1 G2 HL HD. assert (HL' : length (batch am) = length (PointcloudsSpec.clouds F ac)) by (rewrite HL; unfold points_of; apply map_length). assert (HL2 : length (points_of F (PointcloudsSpec.clouds F ac)) = length (map faces_of (batch am))) by (rewrite map_length; symmetry; exact HL).
  apply (face_core argsort Hsort F fzero (point_face ma) _ _ m am c ac Hm Hc HL' HD); [apply gpu_answers_points|apply gpu_answers_prims]; assumption.
Qed.
Theorem different_batch_sizes : length (batch am) <> length clouds ->
  (forall pe ep, point_mesh_edge_distance argsort F pe ep m c = Fail EValue) /\ (forall pf fp, point_mesh_face_distance F pf fp m c = Fail EValue).
Proof.
  unfold clouds, points_of. rewrite map_length. intros HL. split; intros; [exact (edge_sizes argsort Hsort F fzero _ _ m am c ac Hm Hc HL)|exact (face_sizes argsort Hsort F fzero _ _ m am c ac Hm Hc HL)].
Qed.
End Loss.
Print Assumptions edge_distance_cpu.
Print Assumptions edge_distance_gpu.
Print Assumptions face_distance_cpu.
Print Assumptions face_distance_gpu.
Print Assumptions different_batch_sizes.

(* ---- what the values mean ---- *)
(* the smallest computed distance is the distance to the nearest point on any of the edges *)
Theorem nearest_edge_is_min : forall p segs, segs <> [] -> List.Forall sound_seg segs -> List.Forall (fun s => point_edge p s < flt_max) segs ->
  is_min (on_segs segs) (sqd3 p) (smallest (map (point_edge p) segs)).
Proof. exact smallest_is_min. Qed.
Print Assumptions nearest_edge_is_min.
Theorem distances_nonneg : forall clouds, (forall edges, 0 <= mean_to_nearest point_edge clouds edges) /\ (forall min_area faces, 0 <= mean_to_nearest (point_face min_area) clouds faces).
Proof. intros C. split; [intros X; exact (loss_nonneg point_edge edge_nonneg C X)|intros ma X; exact (loss_nonneg (point_face ma) (face_nonneg ma) C X)]. Qed.
Print Assumptions distances_nonneg.
(* zero exactly when every point lies on an edge of its mesh and every edge goes through a point of its cloud *)
Theorem edge_distance_zero_iff : forall clouds edges, length clouds = length edges -> List.Forall (List.Forall sound_seg) edges ->
  (mean_to_nearest point_edge clouds edges = 0 <-> forall g ps segs, nth_error clouds g = Some ps -> nth_error edges g = Some segs ->
     (forall p, In p ps -> on_segs segs p) /\ (forall s, In s segs -> exists p, In p ps /\ on_seg3 p (fst s) (snd s))).
Proof. exact edge_loss_zero. Qed.
Print Assumptions edge_distance_zero_iff.
(* an element with points and no primitives, or primitives and no points, contributes the largest float *)
Theorem one_side_empty : forall (T : Type) (d : vec3 -> T -> R), (forall xs, xs <> [] -> to_nearest d [] xs = flt_max) /\ (forall ps, ps <> [] -> to_nearest d ps [] = flt_max).
Proof. intros T d. split; [exact (lonely_primitives d)|exact (lonely_points d)]. Qed.
Print Assumptions one_side_empty.

(* ---- gradients: each tensor cell holds the sum of its contributions, whatever the order of the atomic additions ---- *)
Theorem backward_rows : forall (A B : Type) (bw : A -> B -> R -> list R * list R) As Bs idx g, picks As Bs idx g ->
  (exists out, cpu_backward bw As Bs idx g = Ok out /\ gradient_rows As Bs idx g bw out) /\
  (forall n first out, (0 < n)%nat -> gpu_backward bw n first As Bs idx g out -> exists o, out = Ok o /\ gradient_rows As Bs idx g bw o).
Proof. intros A B bw As Bs idx g HP. split; [exact (cpu_cells bw As Bs idx g HP)|intros n f out; exact (gpu_cells bw As Bs idx g HP n f out)]. Qed.
Print Assumptions backward_rows.
Theorem backward_cpu_gpu : forall (A B : Type) (bw : A -> B -> R -> list R * list R) As Bs idx g n first o1 o2, picks As Bs idx g -> (0 < n)%nat ->
  cpu_backward bw As Bs idx g = Ok o1 -> gpu_backward bw n first As Bs idx g (Ok o2) ->
  (forall o k, (o < length As)%nat -> o1 (false, o, k) = o2 (false, o, k)) /\ (forall j k, o1 (true, j, k) = o2 (true, j, k)).
Proof.
  intros A B bw As Bs idx g n f o1 o2 HP Hn E1 E2. destruct (cpu_cells bw As Bs idx g HP) as (c1 & C1 & D1). destruct (gpu_cells bw As Bs idx g HP n f _ Hn E2) as (c2 & C2 & D2). rewrite C1 in E1. injection E1 as ->. injection C2 as ->. exact (cells_agree bw As Bs idx g o1 c2 HP D1 D2).
Qed.
Print Assumptions backward_cpu_gpu.
(* for edges longer than the code's epsilon these are the gradients of the weighted sum of the distances *)
Theorem point_edge_backward : forall ps segs idx g, picks ps segs idx g -> List.Forall long_seg segs ->
  (exists out, cpu_backward point_edge_bwd ps segs idx g = Ok out /\ points_to_segs_gradient ps segs idx g out) /\
  (forall n out, (0 < n)%nat -> gpu_backward point_edge_bwd n true ps segs idx g out -> exists o, out = Ok o /\ points_to_segs_gradient ps segs idx g o).
Proof.
  intros ps segs idx g HP HS. destruct (backward_rows _ _ point_edge_bwd ps segs idx g HP) as ((out & E & C) & G). split.
  - exists out. split; [exact E|exact (point_edge_gradient ps segs idx g out HP HS C)].
  - intros n o Hn H. destruct (G n true o Hn H) as (o' & -> & C'). exists o'. split; [reflexivity|exact (point_edge_gradient ps segs idx g o' HP HS C')].
Qed.
Print Assumptions point_edge_backward.
Theorem edge_point_backward : forall segs ps idx g, picks segs ps idx g -> List.Forall long_seg segs ->
  (exists out, cpu_backward edge_point_bwd segs ps idx g = Ok out /\ segs_to_points_gradient segs ps idx g out) /\
  (forall n out, (0 < n)%nat -> gpu_backward edge_point_bwd n false segs ps idx g out -> exists o, out = Ok o /\ segs_to_points_gradient segs ps idx g o).
Proof.
  intros segs ps idx g HP HS. destruct (backward_rows _ _ edge_point_bwd segs ps idx g HP) as ((out & E & C) & G). split.
  - exists out. split; [exact E|exact (edge_point_gradient segs ps idx g out HP HS C)].
  - intros n o Hn H. destruct (G n false o Hn H) as (o' & -> & C'). exists o'. split; [reflexivity|exact (edge_point_gradient segs ps idx g o' HP HS C')].
Qed.
Print Assumptions edge_point_backward.

(* ---- the hypotheses can be met ---- *)
Definition two_meshes : list mesh := [([V3 0 0 0; V3 1 0 0; V3 0 1 0], [(0, 1, 2)]%Z); ([V3 0 0 0; V3 2 0 0; V3 0 2 0], [(0, 1, 2)]%Z)].
Definition three_points : list (cloud R) := [[Row R (V3 0 0 0) None None; Row R (V3 1 0 0) None None]; [Row R (V3 2 0 0) None None]].
Example batches : exists argsort m am c ac, sorts argsort /\ reachable argsort m am /\ creachable R 0 c ac /\ batch am = two_meshes /\ clouds R ac = three_points.
Proof.
  assert (G : List.Forall good_mesh two_meshes) by (repeat constructor; cbn; lia). assert (H : has_a_face two_meshes) by (eexists; split; [left; reflexivity|discriminate]).
  destruct (MeshesProofs2.new_list_repr MeshesProofs11.some_argsort _ G H) as (m & E & _).
  assert (P : has_a_point R three_points) by (eexists; split; [left; reflexivity|discriminate]).
  assert (A1 : list_arg R (nor R) three_points GNone) by (left; split; [reflexivity|repeat constructor]). assert (A2 : list_arg R (fea R) three_points GNone) by (left; split; [reflexivity|repeat constructor]).
  destruct (PointcloudsProps.clouds_from_lists R 0 three_points _ _ P A1 A2) as (c & Ec & _).
  exists MeshesProofs11.some_argsort, m, (from_lists two_meshes), c. eexists. split; [exact MeshesProofs11.some_argsort_sorts|]. split; [apply made_from_lists; assumption|]. split; [eapply made_lists; [exact P|exact A1|exact A2|exact Ec]|]. split; reflexivity.
Qed.
Example their_edges : map (@length seg) (map edges_of two_meshes) = [3; 3]%nat /\ nth 0 (edges_of (nth 1 two_meshes ([], []))) (V3 0 0 0, V3 0 0 0) = (V3 0 0 0, V3 2 0 0) /\ List.Forall (fun l => l <> []) (map faces_of two_meshes).
Proof. split; [reflexivity|]. split; [reflexivity|]. repeat constructor; discriminate. Qed.
Example a_gpu_run : exists pe ep pf fp, gpu_points_to point_edge pe /\ gpu_to_points point_edge ep /\ gpu_points_to (point_face 1) pf /\ gpu_to_points (point_face 1) fp.
Proof.
  exists (fun pts pf xs xf k => gpu_in_turn point_edge pts pf xs xf k), (fun pts pf xs xf k => gpu_in_turn (fun x p => point_edge p x) xs xf pts pf k),
         (fun pts pf xs xf k => gpu_in_turn (point_face 1) pts pf xs xf k), (fun pts pf xs xf k => gpu_in_turn (fun x p => point_face 1 p x) xs xf pts pf k).
  repeat split; intros pts pf xs xf k; apply gpu_in_turn_ok.
Qed.
Example small_sizes : List.Forall (List.Forall long_seg) (map edges_of two_meshes).
Proof.
  replace (map edges_of two_meshes) with [[(V3 0 0 0, V3 1 0 0); (V3 0 0 0, V3 0 1 0); (V3 1 0 0, V3 0 1 0)]; [(V3 0 0 0, V3 2 0 0); (V3 0 0 0, V3 0 2 0); (V3 2 0 0, V3 0 2 0)]] by reflexivity.
  repeat constructor; unfold long_seg, sqd3; cbn; lra.
Qed.
Example some_picks : picks [V3 0 0 0; V3 1 0 0; V3 2 0 0] (edges_of (nth 0 two_meshes ([], []))) [0; 1; 1]%Z [1; 2; 3].
Proof. split; [reflexivity|]. split; [reflexivity|]. change (length (edges_of (nth 0 two_meshes ([], [])))) with 3%nat. repeat constructor; lia. Qed.
Example a_gpu_backward : exists out, gpu_backward point_edge_bwd 2 true [V3 0 0 0; V3 1 0 0; V3 2 0 0] (edges_of (nth 0 two_meshes ([], []))) [0; 1; 1]%Z [1; 2; 3] out.
Proof. apply gpu_runs. lia. Qed.
