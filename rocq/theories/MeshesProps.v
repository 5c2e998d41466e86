(* C04-C07 and part of C46: the Meshes container. *)
From Verif Require Import Base RBase Geom FaceAreas FaceAreasSpec Meshes MeshesSpec MeshesHistSpec.
From Verif Require MeshesProofs MeshesProofs2 MeshesProofs7 MeshesProofs8 MeshesProofs9 MeshesProofs10 MeshesProofs11.
Local Open Scope nat_scope.

(* ---- C04: accessors ---- *)

(* Every object that came from a constructor and any later use answers every accessor as the
   meshes it stands for say, and goes on doing so whatever is called next. *)
Theorem meshes_accessors_agree : forall argsort m a, sorts argsort -> reachable argsort m a -> behaves argsort m a.
Proof. intros argsort m a Hs. exact (MeshesProofs9.reachable_behaves argsort Hs m a). Qed.
Print Assumptions meshes_accessors_agree.

(* an answer is determined by the state alone: the order of earlier calls cannot matter *)
Theorem meshes_answers_determined : forall q a r r', wf_state a -> tell q a r -> tell q a r' -> r = r'.
Proof. exact MeshesProofs11.tell_unique. Qed.
Print Assumptions meshes_answers_determined.

Theorem meshes_from_lists : forall argsort b, sorts argsort -> Forall good_mesh b -> has_a_face b ->
  exists m, new_list (map fst b) (map snd b) = Ok m /\ behaves argsort m (from_lists b).
Proof. intros argsort b Hs. exact (MeshesProofs8.list_behaves argsort Hs b). Qed.
Print Assumptions meshes_from_lists.

Theorem meshes_from_padded : forall argsort b M D ft, sorts argsort ->
  Forall good_mesh b -> has_a_face b -> (forall p, In p b -> length (fst p) = M) ->
  length ft = length b -> Forall (Forall is_pad) ft -> Forall (fun r => length r = D) (zip_app (map snd b) ft) ->
  exists m, new_padded (Pad M (map fst b)) (Pad D (zip_app (map snd b) ft)) = Ok m /\
    behaves argsort m (A b (map (fun _ => []) b) ft None).
Proof. intros argsort b M D ft Hs. exact (MeshesProofs8.padded_behaves argsort Hs b M D ft). Qed.
Print Assumptions meshes_from_padded.

Theorem meshes_with_normals : forall argsort b ns, sorts argsort -> Forall good_mesh b -> has_a_face b -> map (@length _) ns = vcount b ->
  exists m m', new_list (map fst b) (map snd b) = Ok m /\ set_verts_normals (NList ns) m = Ok m' /\
    behaves argsort m' (A b (vtail (from_lists b)) (ftail (from_lists b)) (Some (concat ns))).
Proof. intros argsort b ns Hs. exact (MeshesProofs8.list_normals_behaves argsort Hs b ns). Qed.
Print Assumptions meshes_with_normals.

(* any list of meshes, also without faces, is shown as it was given *)
Theorem meshes_lists_kept : forall b, Forall good_mesh b ->
  exists m, new_list (map fst b) (map snd b) = Ok m /\ shows m b /\ mN m = length b.
Proof. exact MeshesProofs7.shows_new_list. Qed.
Print Assumptions meshes_lists_kept.

(* copying and updating leave the original as it was *)
Theorem meshes_clone : forall argsort m a, sorts argsort -> reachable argsort m a ->
  exists m' m1, clone m = Ok (m', m1) /\ behaves argsort m' a /\ behaves argsort m1 a.
Proof. intros argsort m a Hs. exact (MeshesProofs9.reachable_clone argsort Hs m a). Qed.
Print Assumptions meshes_clone.
Theorem meshes_update_padded : forall argsort m a nv a', sorts argsort -> reachable argsort m a -> does (Update nv) a a' ->
  exists m' m1, update_padded nv m = Ok (m', m1) /\ behaves argsort m' a' /\ behaves argsort m1 a.
Proof. intros argsort m a nv a' Hs. exact (MeshesProofs9.reachable_update argsort Hs m a nv a'). Qed.
Print Assumptions meshes_update_padded.

(* Not so for a batch that has vertices but no face: the list view keeps the vertices, the counts
   and the packed view have none, and moving the vertices loses them. *)
Theorem faceless_batch_refuted : forall v o, exists m m1 m2 m3 m4,
  new_list [[v]] [[]] = Ok m /\ verts_list m = Ok ([[v]], m1) /\ num_verts_per_mesh m = [] /\
  verts_packed m = Ok ([], m2) /\ offset_verts_ (OneOffset o) m = Ok m3 /\ verts_list m3 = Ok ([], m4).
Proof. intros v o. do 5 eexists. repeat split; reflexivity. Qed.
Print Assumptions faceless_batch_refuted.
(* and padded construction with padding faces only gives an object whose lists cannot be read *)
Theorem padded_faceless_refuted : forall v, exists m,
  new_padded (Pad 1 [[v]]) (Pad 1 [[(-1, -1, -1)%Z]]) = Ok m /\ verts_list m = Fail EValue /\ clone m = Fail EValue.
Proof. intros v. eexists. repeat split; reflexivity. Qed.
Print Assumptions padded_faceless_refuted.
(* lists of different lengths are accepted *)
Theorem list_lengths_unchecked_refuted : forall v, exists m,
  new_list [[v]] [[]; []] = Ok m /\ mN m = 1.
Proof. intros v. eexists. split; reflexivity. Qed.
Print Assumptions list_lengths_unchecked_refuted.

(* ---- C05: indexing, extending, splitting, joining ---- *)
Theorem index_selects : forall argsort ix m b b', sorts argsort -> shows m b -> Forall good_mesh b -> selected ix b b' ->
  exists o m', getitem ix m = Ok (o, m') /\ shows o b' /\ shows m' b /\ (has_a_face b' -> behaves argsort o (from_lists b')).
Proof.
  intros argsort ix m b b' Hs H1 H2 H3. destruct (MeshesProofs8.getitem_ok argsort ix m b b' H1 H2 H3) as (o & m' & E & F & S & _).
  exists o, m'. split; [exact E|]. split; [apply F|]. split; [exact S|]. exact (MeshesProofs8.fresh_behaves argsort Hs b' o F).
Qed.
Print Assumptions index_selects.
Theorem index_out_of_range : forall ix m b, shows m b -> (forall b', ~ selected ix b b') -> getitem ix m = Fail EIndex.
Proof. exact MeshesProofs8.getitem_fail. Qed.
Print Assumptions index_out_of_range.

Theorem extend_repeats : forall argsort n m b, sorts argsort -> shows m b -> Forall good_mesh b -> (0 < n)%Z ->
  let b' := flat_map (fun p => repeat p (Z.to_nat n)) b in
  exists o m', extend n m = Ok (o, m') /\ shows o b' /\ shows m' b /\ (has_a_face b' -> behaves argsort o (from_lists b')).
Proof.
  intros argsort n m b Hs H1 H2 H3. destruct (MeshesProofs8.extend_ok argsort n m b H1 H2 H3) as (o & m' & E & F & S).
  exists o, m'. split; [exact E|]. split; [apply F|]. split; [exact S|]. exact (MeshesProofs8.fresh_behaves argsort Hs _ o F).
Qed.
Print Assumptions extend_repeats.
Theorem extend_rejects : forall n m, (n <= 0)%Z -> extend n m = Fail EValue.
Proof. intros n m H. unfold extend. destruct (Z.leb_spec n 0); [reflexivity|lia]. Qed.
Print Assumptions extend_rejects.

Theorem split_parts : forall sizes m b, shows m b -> Forall good_mesh b ->
  exists os m', split sizes m = Ok (os, m') /\ Forall2 shows os (chunks sizes b) /\ shows m' b.
Proof.
  intros sizes m b H1 H2. destruct (MeshesProofs8.split_from_ok (fun _ => []) sizes 0 m b H1 H2) as (os & m' & E & F & S).
  exists os, m'. split; [exact E|]. split; [|exact S]. cbn [skipn] in F. clear - F. induction F as [|x y l l' H _ IH]; constructor; [apply H|exact IH].
Qed.
Print Assumptions split_parts.
Theorem join_batch_concat : forall argsort ms bs, sorts argsort -> Forall2 shows ms bs -> Forall (Forall good_mesh) bs ->
  exists o, join_batch ms = Ok o /\ shows o (concat bs) /\ (has_a_face (concat bs) -> behaves argsort o (from_lists (concat bs))).
Proof.
  intros argsort ms bs Hs H1 H2. destruct (MeshesProofs8.join_ok argsort ms bs H1 H2) as (o & E & F).
  exists o. split; [exact E|]. split; [apply F|]. exact (MeshesProofs8.fresh_behaves argsort Hs _ o F).
Qed.
Print Assumptions join_batch_concat.
(* splitting and joining again gives the batch back *)
Theorem split_then_join : forall argsort sizes m b, sorts argsort -> shows m b -> Forall good_mesh b -> sum_nat sizes = length b ->
  exists os m' o, split sizes m = Ok (os, m') /\ map mN os = sizes /\ join_batch os = Ok o /\ shows o b /\
    (has_a_face b -> behaves argsort o (from_lists b)).
Proof.
  intros argsort sizes m b Hs H1 H2 H3. destruct (MeshesProofs8.split_from_ok argsort sizes 0 m b H1 H2) as (os & m' & E & F & S).
  cbn [skipn] in F. destruct (MeshesProofs8.chunks_concat sizes b H3) as (C1 & C2).
  destruct (MeshesProofs8.join_ok argsort os (chunks sizes b)) as (o & Eo & Fo).
  - clear - F. induction F as [|x y l l' H _ IH]; constructor; [apply H|exact IH].
  - apply Forall_forall. intros c Hc. apply Forall_forall. intros p Hp. rewrite Forall_forall in H2. apply H2.
    rewrite <- C1. apply in_concat. exists c. auto.
  - rewrite C1 in Fo. exists os, m', o. split; [exact E|]. split; [|split; [exact Eo|split; [apply Fo|exact (MeshesProofs8.fresh_behaves argsort Hs _ o Fo)]]].
    transitivity (map (@length _) (chunks sizes b)); [|exact C2]. clear - F. induction F as [|x y l l' H _ IH]; [reflexivity|]. destruct H as (_ & HN & _). cbn [map]. rewrite HN, IH. reflexivity.
Qed.
Print Assumptions split_then_join.

(* a scene is one mesh with all vertices and all faces; every face still names the same positions *)
Theorem join_scene_one_mesh : forall argsort m a, sorts argsort -> reachable argsort m a ->
  exists o, join_scene m = Ok o /\ shows o [(all_verts (batch a), all_faces (batch a))] /\
    behaves argsort o (if length (batch a) =? 1 then a else A [(all_verts (batch a), all_faces (batch a))] [[]] [[]] None).
Proof.
  intros argsort m a Hs H. destruct (MeshesProofs9.reachable_repr argsort Hs m a H) as (W & Rm). exact (MeshesProofs9.scene_ok argsort Hs a m W Rm).
Qed.
Print Assumptions join_scene_one_mesh.
Theorem scene_faces_keep_positions : forall b i p k f, Forall good_mesh b -> nth_error b i = Some p -> nth_error (snd p) k = Some f ->
  exists f', nth_error (all_faces b) (fstart b i + k) = Some f' /\ map (at_ (all_verts b)) (corners f') = map (at_ (fst p)) (corners f).
Proof. intros b i p k f Hg. exact (MeshesProofs11.scene_positions b Hg [] i p k f). Qed.
Print Assumptions scene_faces_keep_positions.

Theorem submeshes_restrict : forall argsort m b ids, sorts argsort -> shows m b -> mN m = length b -> Forall good_mesh b -> length ids = length b ->
  Forall2 (fun p is => Forall (ids_fit p) is) b ids ->
  exists o subs, submeshes ids m = Ok o /\ Forall2 (fun q ps => Forall2 (part_of (fst q)) (snd q) ps) (combine b ids) subs /\
    shows o (concat subs) /\ (has_a_face (concat subs) -> behaves argsort o (from_lists (concat subs))).
Proof.
  intros argsort m b ids Hs H1 H2 H3 H4 H5. destruct (MeshesProofs9.submeshes_ok argsort m b ids H1 H2 H3 H4 H5) as (o & subs & E & F1 & _ & F).
  exists o, subs. split; [exact E|]. split; [exact F1|]. split; [apply F|]. exact (MeshesProofs8.fresh_behaves argsort Hs _ o F).
Qed.
Print Assumptions submeshes_restrict.

Theorem get_mesh_returns : forall m b i, shows m b -> mN m = length b ->
  (forall p, (0 <= i)%Z -> nth_error b (Z.to_nat i) = Some p -> get_mesh_verts_faces i m = Ok p) /\
  ((i < 0 \/ Z.of_nat (length b) < i)%Z -> get_mesh_verts_faces i m = Fail EValue) /\
  (i = Z.of_nat (length b) -> get_mesh_verts_faces i m = Fail EIndex).   (* one past the end passes the range check *)
Proof. exact MeshesProofs9.get_mesh_ok. Qed.
Print Assumptions get_mesh_returns.
Theorem bounding_boxes_tight : forall m b, shows m b -> b <> [] -> Forall (fun p => fst p <> []) b ->
  exists boxes, get_bounding_boxes m = Ok boxes /\ Forall2 (fun p box => box_of (fst p) box) b boxes.
Proof. exact MeshesProofs9.boxes_ok. Qed.
Print Assumptions bounding_boxes_tight.

(* ---- C06: edges ---- *)
Theorem edges_each_once : forall argsort m a, sorts argsort -> reachable argsort m a ->
  exists E m', edges_packed argsort m = Ok (E, m') /\ NoDup E /\
    forall x y, In (x, y) E <-> (x <= y)%Z /\ exists f, In f (all_faces (batch a)) /\ (In (x, y) (sides f) \/ In (y, x) (sides f)).
Proof.
  intros argsort m a Hs H. destruct (MeshesProofs9.reachable_behaves argsort Hs m a H [] a (done a)) as (m0 & E0 & Hq). cbn in E0. injection E0 as <-.
  destruct (Hq QEdges) as (r & m' & E & T). cbn in E. destruct (edges_packed argsort m) as [(es, m1)|]; [|discriminate]. cbn in E. injection E as <- <-.
  destruct T as (T & _). exists es, m1. split; [reflexivity|]. split; [apply MeshesProofs10.lex_sorted_nodup, T|]. intros x y. apply (proj2 T (x, y)).
Qed.
Print Assumptions edges_each_once.
Theorem face_edges_opposite : forall argsort m a, sorts argsort -> reachable argsort m a ->
  exists E m1 t m2, edges_packed argsort m = Ok (E, m1) /\ faces_packed_to_edges_packed argsort m1 = Ok (Some t, m2) /\
    Forall2 (opposite_edges E) (all_faces (batch a)) t.
Proof.
  intros argsort m a Hs H. destruct (MeshesProofs9.reachable_behaves argsort Hs m a H [Ask QEdges] a (step (Ask QEdges) [] a a a eq_refl (done a))) as (m0 & E0 & Hq).
  destruct (MeshesProofs9.reachable_behaves argsort Hs m a H [] a (done a)) as (m0' & E0' & Hq'). cbn in E0'. injection E0' as <-.
  cbn [run apply] in E0. destruct (Hq' QEdges) as (r & m1 & E1 & T1). rewrite E1 in E0. cbn [rbind snd] in E0. injection E0 as <-.
  destruct (Hq QFacesToEdges) as (r2 & m2 & E2 & T2). cbn in E1, E2.
  destruct (edges_packed argsort m) as [(es, m1')|]; [|discriminate]. cbn in E1. injection E1 as <- <-.
  destruct (faces_packed_to_edges_packed argsort m1') as [(t, m2')|] eqn:F2; [|discriminate]. cbn in E2. injection E2 as <- <-.
  destruct T1 as (T1 & _). destruct T2 as (E' & l' & HE' & -> & HF). exists es, m1', l', m2'. split; [reflexivity|]. split; [exact F2|].
  rewrite (MeshesProofs5.edge_list_unique _ _ _ T1 HE'). exact HF.
Qed.
Print Assumptions face_edges_opposite.
(* the edges of the batch are those of its meshes, one mesh after the other *)
Theorem edges_per_mesh : forall argsort m a, sorts argsort -> reachable argsort m a -> exists Es, own_edges (batch a) Es /\
  (exists m', edges_packed argsort m = Ok (move_edges 0 (batch a) Es, m')) /\
  (exists m', edges_packed_to_mesh_idx argsort m = Ok (owners 0 (map (@length _) Es), m')) /\
  (exists m', num_edges_per_mesh argsort m = Ok (Some (map (@length _) Es), m')) /\
  (exists m', mesh_to_edges_packed_first_idx argsort m = Ok (Some (map (fun i => sum_nat (firstn i (map (@length _) Es))) (seq 0 (length (batch a)))), m')).
Proof.
  intros argsort m a Hs H. destruct (MeshesProofs9.reachable_behaves argsort Hs m a H [] a (done a)) as (m0 & E0 & Hq). cbn in E0. injection E0 as <-.
  destruct (Hq QEdges) as (r & m' & E & T). cbn in E. destruct (edges_packed argsort m) as [(es, m1)|]; [|discriminate]. cbn in E. injection E as <- <-.
  destruct T as (_ & Es & HEs & ->). exists Es. split; [exact HEs|]. split; [eauto|].
  assert (U := MeshesProofs11.own_edges_unique (batch a) Es). repeat split.
  - destruct (Hq QEdgesToMesh) as (r & m' & E & T). cbn in E. destruct (edges_packed_to_mesh_idx argsort m) as [(x, m2)|]; [|discriminate]. cbn in E. injection E as <- <-.
    destruct T as (Es' & H' & ->). rewrite (U Es' HEs H'). eauto.
  - destruct (Hq QNumEdges) as (r & m' & E & T). cbn in E. destruct (num_edges_per_mesh argsort m) as [(x, m2)|]; [|discriminate]. cbn in E. injection E as <- <-.
    destruct T as (Es' & H' & ->). rewrite (U Es' HEs H'). eauto.
  - destruct (Hq QMeshToEdgesFirst) as (r & m' & E & T). cbn in E. destruct (mesh_to_edges_packed_first_idx argsort m) as [(x, m2)|]; [|discriminate]. cbn in E. injection E as <- <-.
    destruct T as (Es' & H' & ->). rewrite (U Es' HEs H'). eauto.
Qed.
Print Assumptions edges_per_mesh.

(* ---- C07: in-place edits ---- *)
(* after any accessors, offsets, scalings and copies, every accessor answers as a batch freshly
   built from the new vertices does (scalings within scale_safe, see does) *)
Theorem edited_equals_rebuilt : forall argsort b os a' m, sorts argsort ->
  Forall good_mesh b -> has_a_face b -> new_list (map fst b) (map snd b) = Ok m ->
  Forall edit os -> history os (from_lists b) a' ->
  exists me mf, run argsort os m = Ok me /\ new_list (map fst (batch a')) (map snd (batch a')) = Ok mf /\
    forall q, exists r me' mf', ask argsort q me = Ok (r, me') /\ ask argsort q mf = Ok (r, mf').
Proof. intros argsort b os a' m Hs. exact (MeshesProofs11.edit_rebuild argsort Hs b os a' m). Qed.
Print Assumptions edited_equals_rebuilt.

(* outside scale_safe the cached vertex normals are stale *)
Theorem scaled_normals_refuted : exists b m0 m1 m2 m3 l,
  Forall good_mesh b /\ has_a_face b /\
  new_list (map fst b) (map snd b) = Ok m0 /\ verts_normals_packed m0 = Ok (l, m1) /\
  scale_verts_ (OneScale 0%R) m1 = Ok m2 /\ shows m2 (scale_batch [0%R] b) /\
  verts_normals_packed m2 = Ok (l, m3) /\ l <> concat (map mesh_normals (scale_batch [0%R] b)).
Proof.
  assert (Hg : Forall good_mesh [MeshesProofs10.triangle]) by (constructor; [apply MeshesProofs10.triangle_good|constructor]).
  assert (Hf : has_a_face [MeshesProofs10.triangle]) by (exists MeshesProofs10.triangle; split; [left; reflexivity|discriminate]).
  destruct (MeshesProofs10.stale_normals (fun _ => []) _ Hg Hf 0%R) as (m0 & m1 & m2 & m3 & E0 & E1 & E2 & E3 & E4).
  exists [MeshesProofs10.triangle], m0, m1, m2, m3, (concat (map mesh_normals [MeshesProofs10.triangle])).
  repeat (split; [assumption|]). exact MeshesProofs10.triangle_stale.
Qed.
Print Assumptions scaled_normals_refuted.
(* for every batch and every scale the cached normals are simply kept *)
Theorem scaled_normals_kept : forall b s, Forall good_mesh b -> has_a_face b -> exists m0 m1 m2 m3,
  new_list (map fst b) (map snd b) = Ok m0 /\ verts_normals_packed m0 = Ok (concat (map mesh_normals b), m1) /\
  scale_verts_ (OneScale s) m1 = Ok m2 /\ shows m2 (scale_batch (repeat s (length b)) b) /\
  verts_normals_packed m2 = Ok (concat (map mesh_normals b), m3).
Proof. intros b s Hg Hf. exact (MeshesProofs10.stale_normals (fun _ => []) b Hg Hf s). Qed.
Print Assumptions scaled_normals_kept.

(* ---- C46 (uniform Laplacian of a batch) ---- *)
Theorem laplacian_packed_entries : forall b L, Forall good_mesh b -> Forall (fun p => Forall three_corners (snd p)) b ->
  tell QLaplacian (from_lists b) (AMatrix L) -> forall i j x, nth_error L i = Some x -> forall y, nth_error x j = Some y ->
  (i = j -> y = (-1)%R) /\
  (i <> j -> adjacent (all_faces b) i j -> forall ns, neighbours (all_faces b) i ns -> y = (/ INR (length ns))%R) /\
  (i <> j -> ~ adjacent (all_faces b) i j -> y = 0%R).
Proof. exact MeshesProofs10.laplacian_entries. Qed.
Print Assumptions laplacian_packed_entries.

(* ---- the hypotheses can be met ---- *)
Example argsort_exists : exists argsort, sorts argsort.
Proof. exact (ex_intro _ _ MeshesProofs11.some_argsort_sorts). Qed.

Definition two_meshes : list mesh :=
  [([V3 0 0 0; V3 1 0 0; V3 0 1 0; V3 0 0 1]%R, [(0, 1, 2); (0, 2, 3)]%Z); ([V3 2 0 0; V3 3 0 0; V3 2 1 0]%R, [(2, 1, 0)]%Z); ([], [])].
Example two_meshes_good : Forall good_mesh two_meshes /\ has_a_face two_meshes /\ Forall (fun p => Forall three_corners (snd p)) two_meshes.
Proof.
  split; [|split].
  - repeat constructor; cbn; lia.
  - eexists. split; [left; reflexivity|discriminate].
  - repeat constructor; lia.
Qed.
(* an object that was built, moved, indexed and extended is reachable *)
Example reachable_object : exists m a, reachable MeshesProofs11.some_argsort m a /\ length (batch a) = 4.
Proof.
  destruct two_meshes_good as (Hg & Hf & _).
  destruct (MeshesProofs8.list_behaves _ MeshesProofs11.some_argsort_sorts two_meshes Hg Hf) as (m & E & B).
  set (ops := [Ask QVertNormals; Offset (OneOffset (V3 1 2 3)%R); Select (XList [-2; 0]%Z); Extend 2; Ask QEdges]).
  assert (exists a, history ops (from_lists two_meshes) a /\ length (batch a) = 4) as (a & H & L).
  { eexists. split.
    - eapply step; [reflexivity|]. eapply step; [reflexivity|]. eapply step.
      { eexists. split; [|split; [|reflexivity]].
        - cbn. constructor; [right; split; [split; [reflexivity|discriminate]|reflexivity]|]. constructor; [left; split; [discriminate|reflexivity]|]. constructor.
        - eexists. split; [left; reflexivity|discriminate]. }
      eapply step; [split; [lia|reflexivity]|]. eapply step; [reflexivity|]. apply done.
    - reflexivity. }
  pose proof (made_from_lists MeshesProofs11.some_argsort two_meshes m Hg Hf E) as R0.
  assert (G : forall os m a a', reachable MeshesProofs11.some_argsort m a -> history os a a' ->
            exists m', reachable MeshesProofs11.some_argsort m' a').
  { induction os as [|o os IH]; intros m' a0 a1 Hr Hh; inversion Hh; subst; [eauto|].
    destruct (MeshesProofs9.reachable_repr _ MeshesProofs11.some_argsort_sorts _ _ Hr) as (W & Rm).
    destruct (MeshesProofs8.step_ok _ MeshesProofs11.some_argsort_sorts o _ _ _ W Rm H2) as (m1 & E1 & _).
    eapply IH; [|eassumption]. eapply used; eassumption. }
  destruct (G ops m _ a R0 H) as (m' & R'). eauto.
Qed.
(* a scaling that is safe *)
Example safe_scaling : scale_safe 2 MeshesProofs10.triangle.
Proof.
  split; [lra|]. intros w Hw. cbn in Hw. right.
  assert (Hn : raw_normal (fst MeshesProofs10.triangle) (snd MeshesProofs10.triangle) w = V3 0 0 1).
  { destruct w as [|[|[|w]]]; [exact MeshesProofs10.triangle_normal| | |lia];
      rewrite <- MeshesProofs10.triangle_normal; reflexivity. }
  cbv zeta. rewrite Hn. assert (N : norm3 (V3 0 0 1) = 1%R).
  { unfold norm3, dot3. cbn. replace (0 * 0 + 0 * 0 + 1 * 1)%R with 1%R by ring. apply sqrt_1. }
  rewrite N. lra.
Qed.
