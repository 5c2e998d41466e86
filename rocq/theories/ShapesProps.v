(* C73: closed surfaces: SubdivideMeshes, ico_sphere and torus. *)
From Coq Require Import Lra.
From Verif Require Import Base Packing RBase Geom FaceAreas FaceAreasSpec Meshes MeshesSpec MeshesHistSpec Subdivide SubdivideSpec Shapes ShapesSpec.
From Verif Require MeshesProofs11 SubdivideProofs6 ShapesProofs ShapesProofs2 ShapesProofs4 ShapesProofs5.
Local Open Scope Z_scope.

(* Subdividing a batch in which some mesh is a closed surface gives a batch in which the mesh at the
   same place is one, with the same Euler characteristic. *)
Theorem subdivide_keeps_closed : forall argsort m a, sorts argsort -> reachable argsort m a ->
  exists o m' b', subdivide_heterogeneous argsort (F := unit) (fun u _ => u) m None = Ok (o, None, m') /\ reachable argsort o (from_lists b') /\
    length b' = length (batch a) /\
    forall n p p', nth_error (batch a) n = Some p -> nth_error b' n = Some p' -> good_mesh p -> closed_surface (snd p) -> one_sided (snd p) ->
      closed_surface (snd p') /\ one_sided (snd p') /\
      forall E E', edge_list (snd p) E -> edge_list (snd p') E' -> euler p' E' = euler p E.
Proof.
  intros argsort m a Hs Hr. destruct (SubdivideProofs6.hetero_batch argsort tt (fun u _ : unit => u) m a None Hs Hr) as (o & nf & m' & b' & Es & E & _ & S & R & ->); [discriminate|].
  exists o, m', b'. split; [exact E|]. split; [exact R|]. clear - S. revert S. generalize (batch a) as b. intros b S. split.
  - induction S; cbn; lia.
  - induction S as [|p b E Es p' b' Hsub S IH]; intros [|n] q q' Hq Hq' G C O; cbn in Hq, Hq'; try discriminate; [|exact (IH n q q' Hq Hq' G C O)].
    injection Hq as <-. injection Hq' as <-. split; [exact (ShapesProofs.subdivided_closed p E p' G Hsub C O)|].
    split; [exact (ShapesProofs2.subdivided_one_sided p E p' G Hsub C O)|]. intros E0 E1 H0 H1.
    rewrite (ShapesProofs2.subdivided_euler p E p' E1 G Hsub C O H1). unfold euler.
    pose proof (ShapesProofs2.closed_edges _ _ C H0). pose proof (ShapesProofs2.closed_edges _ _ C (proj1 Hsub)). lia.
Qed.
Print Assumptions subdivide_keeps_closed.

(* ico_sphere: for every level a closed surface like a sphere, facing outward, with all vertices at
   distance 1 (level 0: up to the rounding of the constants). *)
Theorem ico_sphere_closed : forall argsort level, sorts argsort -> 0 <= level ->
  exists m p, ico_sphere argsort level = Ok m /\ reachable argsort m (from_lists [p]) /\
    length (fst p) = (10 * 4 ^ Z.to_nat level + 2)%nat /\ length (snd p) = (20 * 4 ^ Z.to_nat level)%nat /\
    good_mesh p /\ closed_surface (snd p) /\ one_sided (snd p) /\ Forall (outward (fst p)) (snd p) /\
    (forall E, edge_list (snd p) E -> euler p E = 2) /\
    Forall (fun v => (1 <= norm3 v * norm3 v <= 1 + 6 / 100000)%R) (fst p) /\
    (0 < level -> Forall (fun v => norm3 v = 1%R) (fst p)).
Proof. intros argsort level Hs. exact (ShapesProofs4.ico_ok argsort Hs level). Qed.
Print Assumptions ico_sphere_closed.

(* every level from 1 on is the subdivision of the level before, with the same first vertices *)
Theorem ico_sphere_refines : forall argsort level, sorts argsort -> 0 < level ->
  exists m p m' p', ico_sphere argsort level = Ok m /\ reachable argsort m (from_lists [p]) /\
    ico_sphere argsort (level + 1) = Ok m' /\ reachable argsort m' (from_lists [p']) /\
    firstn (length (fst p)) (fst p') = fst p /\
    exists E p1, subdivided p E p1 /\ snd p' = snd p1 /\ fst p' = map (fun v => div3 v (norm3 v)) (fst p1).
Proof. intros argsort level Hs. exact (ShapesProofs4.ico_refines argsort Hs level). Qed.
Print Assumptions ico_sphere_refines.
Theorem ico_sphere_negative : forall argsort level, level < 0 -> ico_sphere argsort level = Fail EValue.
Proof. exact ShapesProofs4.ico_negative. Qed.
Print Assumptions ico_sphere_negative.

(* torus: a closed surface like a torus, with all vertices on the torus *)
Theorem torus_closed : forall argsort r R sides rings, sorts argsort -> 3 <= sides -> 3 <= rings ->
  exists m p, torus r R sides rings = Ok m /\ reachable argsort m (from_lists [p]) /\
    length (fst p) = Z.to_nat (rings * sides) /\ length (snd p) = Z.to_nat (2 * rings * sides) /\
    good_mesh p /\ closed_surface (snd p) /\ one_sided (snd p) /\
    (forall E, edge_list (snd p) E -> euler p E = 0) /\ Forall (on_torus r R) (fst p).
Proof. exact ShapesProofs5.torus_ok. Qed.
Print Assumptions torus_closed.
Theorem torus_small : forall argsort r R sides rings, sorts argsort -> 0 < sides -> 0 < rings ->
  exists m p, torus r R sides rings = Ok m /\ reachable argsort m (from_lists [p]) /\
    length (fst p) = Z.to_nat (rings * sides) /\ length (snd p) = Z.to_nat (2 * rings * sides) /\ Forall (on_torus r R) (fst p).
Proof. exact ShapesProofs5.torus_counts. Qed.
Print Assumptions torus_small.
Theorem torus_value_error : forall r R sides rings, sides <= 0 \/ rings <= 0 -> torus r R sides rings = Fail EValue.
Proof. exact ShapesProofs5.torus_fails. Qed.
Print Assumptions torus_value_error.

(* with two sides (or one) torus returns a mesh that is no closed surface: some sides of faces are
   used several times in the same direction *)
Theorem torus_two_sides_refuted : forall r R : R, exists m f, torus r R 2 3 = Ok m /\ faces_l m = Some [f] /\ ~ closed_surface f.
Proof.
  intros r R. eexists. eexists. split; [reflexivity|]. split; [reflexivity|]. intros (N & _). vm_compute in N.
  repeat match goal with H : NoDup (_ :: _) |- _ => let A := fresh in apply NoDup_cons_iff in H; destruct H as (A & H);
    try (exfalso; apply A; cbn; tauto) end.
Qed.
Print Assumptions torus_two_sides_refuted.

(* A face that is there with both orientations makes subdivision glue four faces to one edge: the
   condition on orientations cannot be dropped. *)
Definition pillow : mesh := ([V3 0 0 0; V3 1 0 0; V3 0 1 0]%R, [(0, 1, 2); (0, 2, 1)]).
Theorem pillow_refuted : closed_surface (snd pillow) /\
  exists E p', subdivided pillow E p' /\ ~ closed_surface (snd p').
Proof.
  split; [apply ShapesProofs4.closedb_ok; vm_compute; reflexivity|].
  exists [(0, 1); (0, 2); (1, 2)]. eexists (_, _). split.
  - split; [|split; [reflexivity|]].
    + split; [repeat constructor; cbn; lia|]. intros (u, v). cbn. split.
      * intros [Q|[Q|[Q|[]]]]; injection Q as <- <-; (split; [lia|]); exists (0, 1, 2); cbn; unfold side_of; cbn; auto 10.
      * intros (L & f & [<-|[<-|[]]] & S); unfold side_of in S; cbn in S; destruct S as [[Q|[Q|[Q|[]]]]|[Q|[Q|[Q|[]]]]]; injection Q as <- <-; first [lia|auto].
    + exists [(2, 1, 0); (2, 0, 1)]. split; [repeat constructor; cbn; try lia; reflexivity|reflexivity].
  - cbn [snd]. intros (N & _). vm_compute in N.
    repeat match goal with H : NoDup (_ :: _) |- _ => let A := fresh in apply NoDup_cons_iff in H; destruct H as (A & H);
      try (exfalso; apply A; cbn; tauto) end.
Qed.
Print Assumptions pillow_refuted.

(* ---- the hypotheses can be met ---- *)
Definition tetra : mesh := ([V3 0 0 0; V3 1 0 0; V3 0 1 0; V3 0 0 1]%R, [(0, 2, 1); (0, 1, 3); (1, 2, 3); (0, 3, 2)]).
Example tetra_closed : good_mesh tetra /\ closed_surface (snd tetra) /\ one_sided (snd tetra).
Proof.
  split; [repeat constructor; cbn; lia|]. split; [apply ShapesProofs4.closedb_ok; vm_compute; reflexivity|apply ShapesProofs4.one_sidedb_ok; vm_compute; reflexivity].
Qed.
Example tetra_reachable : exists m, reachable MeshesProofs11.some_argsort m (from_lists [tetra]).
Proof. destruct (ShapesProofs4.new_one _ MeshesProofs11.some_argsort_sorts tetra (proj1 tetra_closed)) as (m & _ & H); [discriminate|eauto]. Qed.
Example open_not_closed : ~ closed_surface [(0, 1, 2)].
Proof. intros (_ & B). destruct (B 0 1 ltac:(cbn; auto)) as (_ & H). cbn in H. repeat (destruct H as [H|H]; [discriminate H|]). exact H. Qed.
