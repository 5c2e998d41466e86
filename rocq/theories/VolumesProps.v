(* C44: Volumes. `reachable v a` ranges over every object the constructor, indexing and update_padded can produce,
   with the grids, sizes and translations it should hold. *)
From Verif Require Import Base RBase Geom LinAlg Transform Volumes VolumesSpec VolumesProofs VolumesProofs2 VolumesProofs3.
Local Open Scope R_scope.

(* the lists returned are the grids given, in order, at their own sizes *)
Theorem volumes_lists v a : reachable v a ->
  len v = length (a_dens a) /\ get_grid_sizes v = map dims (a_dens a) /\ get_align_corners v = a_align a /\
  (exists l, densities_list v = Ok l /\ same_lists l (a_dens a)) /\
  match a_feats a with None => features_list v = Ok None | Some f => exists l, features_list v = Ok (Some l) /\ same_lists l f end.
Proof. exact (volumes_hold v a). Qed.
Print Assumptions volumes_lists.
(* the constructor accepts matching grids with every documented form of voxel size and translation (but one, below) *)
Theorem volumes_constructor dens feats voxel trans align vs ts :
  good_arg dens -> (forall f, feats = Some f -> fits f (map dims (elements dens))) ->
  voxel_sizes (length (elements dens)) voxel vs -> vectors (length (elements dens)) trans ts ->
  exists v, new_volumes dens feats voxel trans align = Ok v /\ reachable v (Batch (elements dens) (option_map elements feats) vs ts align).
Proof. exact (volumes_constructed dens feats voxel trans align vs ts). Qed.
Print Assumptions volumes_constructor.
Example ragged_exists : exists v, reachable v (Batch ragged None [V3 1 1 1; V3 1 1 1] [V3 0 0 0; V3 0 0 0] true).
Proof. exact (some_ragged true). Qed.
Example ragged_is : map dims ragged = [(2, 2, 2); (3, 3, 3)]%nat. Proof. reflexivity. Qed.
Theorem volume_translation_one_number_refuted dens feats voxel align t vs :
  good_arg dens -> voxel_sizes (length (elements dens)) voxel vs -> new_volumes dens feats voxel (STen1 [t]) align = Fail EIndex.
Proof. exact (one_number_translation dens feats voxel align t vs). Qed.
Print Assumptions volume_translation_one_number_refuted.

(* indexing: integers, lists and masks select the volumes they name, with their sizes and transforms *)
Theorem volumes_index v a ix ps : reachable v a -> chosen (length (a_dens a)) ix ps -> ps <> [] ->
  exists v' a', vgetitem v (VIndex ix) = Ok v' /\ selects ix a a' /\ a_align a' = true /\ reachable v' a'.
Proof. exact (volumes_indexed v a ix ps). Qed.
Print Assumptions volumes_index.
Example index_last : chosen 2 (IxInt (-1)) [1%nat] /\ chosen 2 (IxMask [false; true]) [1%nat] /\ chosen 2 (IxList [1; 0; 1]%Z) [1; 0; 1]%nat.
Proof. repeat split; try (exists 1%nat; repeat split; lia); repeat constructor; try (cbn; lia). Qed.
Theorem volumes_index_nothing v a ix : reachable v a -> chosen (length (a_dens a)) ix [] -> vgetitem v (VIndex ix) = Fail EIndex.
Proof. exact (VolumesProofs2.volumes_index_nothing v a ix). Qed.
Print Assumptions volumes_index_nothing.
Theorem volumes_index_tuple_refuted v i : exists e, vgetitem v (VTuple1 i) = Fail e.
Proof. exact (tuple_index v i). Qed.
Print Assumptions volumes_index_tuple_refuted.
(* "keeps every property" is false of align_corners: it comes back as True *)
Theorem volumes_index_align_refuted :
  exists v a v', reachable v a /\ vgetitem v (VIndex (IxInt 0)) = Ok v' /\ get_align_corners v = false /\ get_align_corners v' = true.
Proof.
  destruct (some_ragged false) as (v & H). destruct (volumes_index v _ (IxInt 0) [0%nat] H) as (v' & a' & E & _); [exists 0%nat; cbn; repeat split; lia|discriminate|].
  exists v; eexists; exists v'. split; [exact H|]. split; [exact E|]. split; [apply (proj1 (proj2 (proj2 (volumes_lists _ _ H))))|apply (index_drops_align _ _ _ E)].
Qed.
Print Assumptions volumes_index_align_refuted.

(* update_padded: accepted exactly when every grid keeps its size *)
Theorem volumes_update v a dens feats : reachable v a -> fits dens (map dims (a_dens a)) -> (forall f, feats = Some f -> fits f (map dims (a_dens a))) ->
  exists v', update_padded v dens feats = Ok v' /\ reachable v' (Batch (elements dens) (option_map elements feats) (a_voxel a) (a_trans a) (a_align a)).
Proof. exact (volumes_updated v a dens feats). Qed.
Print Assumptions volumes_update.
Theorem volumes_update_wrong_size v a dens feats : reachable v a -> good_arg dens -> map dims (elements dens) <> map dims (a_dens a) -> update_padded v dens feats = Fail EValue.
Proof. exact (volumes_update_wrong v a dens feats). Qed.
Print Assumptions volumes_update_wrong_size.
Theorem volumes_update_wrong_features v a dens f : reachable v a -> fits dens (map dims (a_dens a)) -> good_arg f -> map dims (elements f) <> map dims (a_dens a) ->
  update_padded v dens (Some f) = Fail EValue.
Proof. exact (volumes_update_wrong_feats v a dens f). Qed.
Print Assumptions volumes_update_wrong_features.
(* so the padded densities of a ragged batch are refused *)
Theorem volumes_update_own_padded_refuted v a feats : reachable v a -> ~ all_equal (map dims (a_dens a)) -> update_padded v (ATensor (densities v)) feats = Fail EValue.
Proof. exact (own_padded v a feats). Qed.
Print Assumptions volumes_update_own_padded_refuted.
Example ragged_not_equal : ~ all_equal (map dims ragged).
Proof. intros H. specialize (H (2, 2, 2)%nat (3, 3, 3)%nat). cbn in H. discriminate H; auto. Qed.

(* coordinates *)
Theorem volumes_local_to_world v a pts : reachable v a -> length pts = length (a_dens a) -> concat pts <> [] -> local_to_world_coords v pts = Ok (each world_of a pts).
Proof. exact (local_to_world_value v a pts). Qed.
Print Assumptions volumes_local_to_world.
Theorem volumes_world_to_local v a pts : reachable v a -> List.Forall invertible (frames a) -> length pts = length (a_dens a) -> concat pts <> [] ->
  world_to_local_coords v pts = Ok (each local_of a pts).
Proof. exact (world_to_local_value v a pts). Qed.
Print Assumptions volumes_world_to_local.
Theorem volumes_transforms_inverse v a pts out : reachable v a -> List.Forall invertible (frames a) -> length pts = length (a_dens a) -> concat pts <> [] ->
  (plain out pts -> exists w o, local_to_world_coords v pts = Ok o /\ plain o w /\ world_to_local_coords v w = Ok out) /\
  (plain out pts -> exists w o, world_to_local_coords v pts = Ok o /\ plain o w /\ local_to_world_coords v w = Ok out).
Proof. exact (there_and_back v a pts out). Qed.
Print Assumptions volumes_transforms_inverse.
Example ragged_invertible : List.Forall invertible (frames (Batch ragged None [V3 1 1 1; V3 1 1 1] [V3 0 0 0; V3 0 0 0] true)).
Proof. repeat constructor; cbn; lia || lra. Qed.
(* with a side of length one or a voxel of size zero there is no way back *)
Theorem volumes_no_inverse v a pts : reachable v a -> ~ List.Forall invertible (frames a) -> exists e, world_to_local_coords v pts = Fail e.
Proof. exact (no_inverse v a pts). Qed.
Print Assumptions volumes_no_inverse.

(* the coordinate grid: every voxel of every grid at its documented place *)
Theorem volumes_grid_shape v a : reachable v a -> length (local_coord_grid v) = length (a_dens a) /\
  forall row, In row (local_coord_grid v) -> length row = (fst (fst (get_resolution v)) * (snd (fst (get_resolution v)) * snd (get_resolution v)))%nat.
Proof. exact (grid_shape v a). Qed.
Print Assumptions volumes_grid_shape.
Theorem volumes_grid_covers v a s c : reachable v a -> In s (map dims (a_dens a)) -> inside s c -> inside (get_resolution v) c.
Proof. intros H Hs. apply (resolution_covers v a s H Hs). Qed.
Print Assumptions volumes_grid_covers.
Theorem volumes_local_grid v a n f c : reachable v a -> List.Forall big (map dims (a_dens a)) -> (a_align a = false -> all_equal (map dims (a_dens a))) ->
  nth_error (frames a) n = Some f -> inside (fst (fst f)) c ->
  let p := voxel_centre (a_align a) (fst (fst f)) c in
  grid_at (get_resolution v) (local_coord_grid v) n c = Some (Some (x3 p), Some (y3 p), Some (z3 p)).
Proof. exact (voxel_positions v a n f c). Qed.
Print Assumptions volumes_local_grid.
Theorem volumes_world_grid v a n f c : reachable v a -> List.Forall big (map dims (a_dens a)) -> a_align a = true ->
  nth_error (frames a) n = Some f -> inside (fst (fst f)) c ->
  exists g, world_coord_grid v = Ok g /\ grid_at (get_resolution v) g n c = Some (Some (voxel_world f c)).
Proof. exact (aligned_world_positions v a n f c). Qed.
Print Assumptions volumes_world_grid.
Theorem volumes_world_grid_any v a n f c : reachable v a -> List.Forall big (map dims (a_dens a)) -> (a_align a = false -> all_equal (map dims (a_dens a))) ->
  nth_error (frames a) n = Some f -> inside (fst (fst f)) c ->
  exists g, world_coord_grid v = Ok g /\ grid_at (get_resolution v) g n c = Some (Some (world_of f (voxel_centre (a_align a) (fst (fst f)) c))).
Proof. exact (world_positions v a n f c). Qed.
Print Assumptions volumes_world_grid_any.
Example ragged_big : List.Forall big (map dims ragged). Proof. repeat constructor; cbn; lia. Qed.
(* without align_corners the world grid is not spaced by the voxel size *)
Theorem volumes_spacing_refuted f k j i : big (fst (fst f)) ->
  x3 (world_of f (voxel_centre false (fst (fst f)) (k, j, S i))) - x3 (world_of f (voxel_centre false (fst (fst f)) (k, j, i))) = x3 (snd (fst f)) * (INR (snd (fst (fst f))) - 1) / INR (snd (fst (fst f))).
Proof. exact (sides_spacing f k j i). Qed.
Print Assumptions volumes_spacing_refuted.
Theorem volumes_ragged_sides_refuted : exists v a n f c, reachable v a /\ a_align a = false /\ List.Forall big (map dims (a_dens a)) /\ nth_error (frames a) n = Some f /\ inside (fst (fst f)) c /\
  let p := voxel_centre false (fst (fst f)) c in
  grid_at (get_resolution v) (local_coord_grid v) n c <> Some (Some (x3 p), Some (y3 p), Some (z3 p)).
Proof. exact ragged_sides. Qed.
Print Assumptions volumes_ragged_sides_refuted.
Theorem volumes_flat_grid_refuted v a n s c q : reachable v a -> nth_error (map dims (a_dens a)) n = Some s -> (fst (fst s) = 1 \/ snd (fst s) = 1 \/ snd s = 1)%nat ->
  grid_at (get_resolution v) (local_coord_grid v) n c = Some q -> finite q = None.
Proof. exact (flat_coordinates v a n s c q). Qed.
Print Assumptions volumes_flat_grid_refuted.
