(* C41: SubdivideMeshes. *)
From Coq Require Import Lra.
From Verif Require Import Base Packing RBase Geom FaceAreas FaceAreasSpec Meshes MeshesSpec MeshesHistSpec Subdivide SubdivideSpec.
From Verif Require MeshesProofs8 MeshesProofs11 SubdivideProofs4 SubdivideProofs5 SubdivideProofs6.
Local Open Scope nat_scope.

(* Subdividing a batch of meshes of any sizes subdivides every mesh on its own; the result is an
   ordinary Meshes object; the features are subdivided in the same way; the input keeps its meaning. *)
Theorem subdivide_splits_every_mesh : forall argsort (F : Type) (d : F) (mean : F -> F -> F) m a (feats : option (list F)),
  sorts argsort -> reachable argsort m a -> (forall f, feats = Some f -> length f = length (all_verts (batch a))) ->
  exists o nf m' b' Es, subdivide_heterogeneous argsort mean m feats = Ok (o, nf, m') /\ reachable argsort m' a /\
    subdivided_batch (batch a) Es b' /\ reachable argsort o (from_lists b') /\
    match feats with
    | None => nf = None
    | Some f => exists Fs, pieces (vcount (batch a)) f Fs /\
        nf = Some (concat (map (fun q => split_edges d mean (fst q) (snd q)) (combine Fs Es)))
    end.
Proof. exact (@SubdivideProofs6.hetero_batch). Qed.
Print Assumptions subdivide_splits_every_mesh.

(* The same with precomputed faces, for meshes with the faces and the number of vertices of the mesh
   they were computed from. *)
Theorem subdivide_precomputed : forall argsort (F : Type) (d : F) (mean : F -> F -> F) m0 a0 p0 rest m a (feats : option feats_arg),
  sorts argsort -> reachable argsort m0 a0 -> batch a0 = p0 :: rest -> snd p0 <> [] ->
  reachable argsort m a -> (forall p, In p (batch a) -> snd p = snd p0 /\ length (fst p) = length (fst p0)) ->
  (forall f, feats = Some f -> exists Fs, match f with FPacked l => concat Fs = l | FPadded p => Meshes.rows p = Fs end /\ map (@length F) Fs = vcount (batch a)) ->
  exists faces o nf m' b' E a', precompute argsort m0 = Ok faces /\
    subdivide_homogeneous argsort mean faces m feats = Ok (o, nf, m') /\ reachable argsort m' a /\
    subdivided_batch (batch a) (map (fun _ => E) (batch a)) b' /\ batch a' = b' /\ reachable argsort o a' /\
    match feats with
    | None => nf = None
    | Some f => exists Fs, match f with FPacked l => concat Fs = l | FPadded p => Meshes.rows p = Fs end /\
        map (@length F) Fs = vcount (batch a) /\ nf = Some (map (fun r => split_edges d mean r E) Fs)
    end.
Proof. exact (@SubdivideProofs6.homo_batch). Qed.
Print Assumptions subdivide_precomputed.

(* a subdivided mesh has V + E vertices and 4F faces, whose indices are in range *)
Theorem subdivided_counts : forall p E p', good_mesh p -> subdivided p E p' ->
  good_mesh p' /\ length (fst p') = length (fst p) + length E /\ length (snd p') = 4 * length (snd p).
Proof. exact SubdivideProofs4.subdivided_good. Qed.
Print Assumptions subdivided_counts.

(* the corners of the four faces that replace face number n *)
Theorem subdivided_corners : forall p E p' n a b c, good_mesh p -> subdivided p E p' -> nth_error (snd p) n = Some (a, b, c) ->
  let A := at_ (fst p) a in let B := at_ (fst p) b in let C := at_ (fst p) c in let F := length (snd p) in
  exists f0 f1 f2 f3,
    nth_error (snd p') n = Some f0 /\ nth_error (snd p') (F + n) = Some f1 /\
    nth_error (snd p') (F + F + n) = Some f2 /\ nth_error (snd p') (F + F + F + n) = Some f3 /\
    points (fst p') f0 = (A, midpoint A B, midpoint A C) /\
    points (fst p') f1 = (B, midpoint B C, midpoint B A) /\
    points (fst p') f2 = (C, midpoint C A, midpoint C B) /\
    points (fst p') f3 = (midpoint B C, midpoint C A, midpoint A B).
Proof. exact SubdivideProofs5.face_parts. Qed.
Print Assumptions subdivided_corners.

(* each of them has a quarter of the area, in the same plane and with the same orientation *)
Theorem subdivided_quarters : forall A B C, let q := scal3 (1 / 4)%R (tri_cross A B C) in
  tri_cross A (midpoint A B) (midpoint A C) = q /\ tri_cross B (midpoint B C) (midpoint B A) = q /\
  tri_cross C (midpoint C A) (midpoint C B) = q /\ tri_cross (midpoint B C) (midpoint C A) (midpoint A B) = q.
Proof. exact SubdivideProofs5.quarter_cross. Qed.
Print Assumptions subdivided_quarters.

(* Without any face in the batch the call raises TypeError, although every mesh has been subdivided
   already: nothing has to be split. *)
Theorem subdivide_without_faces_refuted : exists b m, Forall good_mesh b /\ new_list (map fst b) (map snd b) = Ok m /\
  forall argsort mean, subdivide_heterogeneous argsort (F := R) mean m None = Fail EType.
Proof.
  exists [([V3 0 0 0; V3 1 0 0]%R, [])]. eexists. split; [repeat constructor|]. split; [reflexivity|]. intros argsort mean. reflexivity.
Qed.
Print Assumptions subdivide_without_faces_refuted.

(* ---- the hypotheses can be met ---- *)
Definition two_sizes : list mesh :=
  [([V3 0 0 0; V3 1 0 0; V3 0 1 0; V3 0 0 1]%R, [(0, 1, 2); (0, 2, 3)]%Z); ([V3 2 0 0; V3 3 0 0; V3 2 1 0]%R, [(2, 1, 0)]%Z); ([], [])].
Example two_sizes_reachable : exists m, reachable MeshesProofs11.some_argsort m (from_lists two_sizes).
Proof.
  assert (G : Forall good_mesh two_sizes) by (repeat constructor; cbn; lia). assert (H : has_a_face two_sizes) by (eexists; split; [left; reflexivity|discriminate]).
  destruct (MeshesProofs8.list_behaves _ MeshesProofs11.some_argsort_sorts two_sizes G H) as (m & E & _). exists m. apply made_from_lists; assumption.
Qed.
Example one_triangle : subdivided ([V3 0 0 0; V3 1 0 0; V3 0 1 0]%R, [(0, 1, 2)]%Z) [(0, 1); (0, 2); (1, 2)]%Z
  ([V3 0 0 0; V3 1 0 0; V3 0 1 0; midpoint (V3 0 0 0) (V3 1 0 0); midpoint (V3 0 0 0) (V3 0 1 0); midpoint (V3 1 0 0) (V3 0 1 0)]%R,
   [(0, 3, 4); (1, 5, 3); (2, 4, 5); (5, 4, 3)]%Z).
Proof.
  split; [|split; [reflexivity|]].
  - split; [repeat constructor; cbn; lia|]. intros (x, y). cbn. split.
    + intros [E|[E|[E|[]]]]; injection E as <- <-; (split; [lia|]); exists (0, 1, 2)%Z; (split; [left; reflexivity|]); unfold side_of; cbn; tauto.
    + intros (L & f & [<-|[]] & [H|H]); cbn in H; destruct H as [H|[H|[H|[]]]]; injection H as H1 H2; subst; cbn in *; try lia; auto.
  - exists [(2, 1, 0)%Z]. split; [|reflexivity]. repeat constructor; cbn; try lia.
Qed.
