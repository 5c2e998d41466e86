(* C62: taubin_smoothing. The vocabulary is in LaplaceSpec.v and MeshesHistSpec.v. *)
From Verif Require Import Base Packing RBase Geom FaceAreas FaceAreasSpec Meshes MeshesSpec MeshesHistSpec Laplace LaplaceSpec
  LaplaceProofs2 LaplaceProofs3 LaplaceProofs4 LaplaceProofs5 LaplaceProofs6 LaplaceProofs7.
Local Open Scope R_scope.

(* Every mesh of the batch is smoothed on its own, n times with lam and then mu; the faces stay. *)
Theorem taubin_smooths_every_mesh : forall argsort lam mu n m a, sorts argsort -> reachable argsort m a ->
  Forall (fun p => Forall three_corners (snd p) /\ no_isolated p) (batch a) ->
  exists m', taubin_smoothing argsort lam mu n m = Ok (map (fun p => map Some (fst (taubin n lam mu p))) (batch a), map snd (batch a), m') /\ behaves argsort m' a.
Proof. intros argsort lam mu n m a Hs. apply taubin_value, Hs. Qed.
Print Assumptions taubin_smooths_every_mesh.

Theorem taubin_keeps_sizes_and_faces : forall n lam mu p, length (fst (taubin n lam mu p)) = length (fst p) /\ snd (taubin n lam mu p) = snd p.
Proof. intros. split; [apply taubin_length|apply taubin_faces]. Qed.
Print Assumptions taubin_keeps_sizes_and_faces.

(* smoothing commutes with rigid motions *)
Theorem taubin_rigid_motion : forall g n lam mu p, rigid g -> no_isolated p ->
  taubin n lam mu (map g (fst p), snd p) = (map g (fst (taubin n lam mu p)), snd p).
Proof. exact taubin_rigid. Qed.
Print Assumptions taubin_rigid_motion.

(* an isolated vertex becomes nan, whatever the batch *)
Theorem taubin_isolated_vertex_refuted : forall argsort lam mu n m a b1 p b2 k, sorts argsort -> reachable argsort m a ->
  batch a = b1 ++ p :: b2 -> (k < length (fst p))%nat -> nbrs p k = [] ->
  exists vl fl m' row, taubin_smoothing argsort lam mu (S n) m = Ok (vl, fl, m') /\ nth_error vl (length b1) = Some row /\ nth_error row k = Some None.
Proof. intros argsort lam mu n m a b1 p b2 k Hs. apply taubin_isolated, Hs. Qed.
Print Assumptions taubin_isolated_vertex_refuted.

(* a batch of one mesh without faces becomes a batch made of no vertex lists *)
Theorem taubin_without_faces_refuted : forall argsort lam mu n v, exists m m', new_list [[v]] [[]] = Ok m /\ taubin_smoothing argsort lam mu n m = Ok ([], [[]], m').
Proof.
  intros argsort lam mu n v. assert (I : taubin_iterate n lam mu [] [] = Ok []) by (induction n as [|n IH]; [reflexivity|]; cbn; exact IH).
  eexists _, _. split; [reflexivity|]. unfold taubin_smoothing. cbn -[taubin_iterate]. rewrite I. reflexivity.
Qed.
Print Assumptions taubin_without_faces_refuted.

(* ---- the hypotheses can be met ---- *)
Definition tetrahedron : mesh := ([V3 0 0 0; V3 1 0 0; V3 0 1 0; V3 0 0 1], [(0, 1, 2); (0, 2, 3); (0, 3, 1); (1, 3, 2)]%Z).
Example tetrahedron_ok : good_mesh tetrahedron /\ Forall three_corners (snd tetrahedron) /\ no_isolated tetrahedron.
Proof.
  split; [repeat constructor; cbn; lia|]. split; [repeat constructor; cbn; lia|]. intros i Hi. cbn in Hi. destruct i as [|[|[|[|i]]]]; try lia; discriminate.
Qed.
Example isolated_exists : good_mesh lonely /\ nbrs lonely 3 = [].
Proof. split; [exact lonely_good|reflexivity]. Qed.
