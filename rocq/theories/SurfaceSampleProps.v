(* Property C67: sample_points_from_meshes puts its samples on the surface of their own mesh, chooses faces by area and places
   uniformly inside the face. *)
From Verif Require Import Packing PackingSpec.
From Verif Require Import Base RBase Geom GeomSpec FaceAreas FaceAreasSpec Meshes MeshesSpec MeshesHistSpec PointMesh PointMeshSpec SurfaceSample SurfaceSampleSpec.
From Verif Require MeshesProofs MeshesProofs9 MeshesProps LaplaceProofs3 SurfaceSampleProofs SurfaceSampleProofs3 SurfaceSampleProofs4.
Local Open Scope R_scope.

Definition any_faces (p : mesh) : bool := negb (length (snd p) =? 0)%nat.
Definition row {T} (o : option (list T)) (i : nat) : option T := match o with Some l => nth_error l i | None => None end.

Section Sampling.
Variable argsort : list Z -> list nat.
Hypothesis Hsort : sorts argsort.
Variable multinomial : list (list R) -> nat -> result (list (list nat)).
Variable rand : nat -> nat -> list (list (R * R)).
Hypothesis Hmu : multinomial_ok multinomial.
Hypothesis Hr : rand_ok rand.

(* whatever is drawn: shapes, zero rows for the meshes without faces, samples in faces of positive area of their own mesh,
   normals and textures of the same point of the same face *)
Theorem samples_on_surface : forall m a features n return_normals return_textures, reachable argsort m a -> (0 < n)%nat ->
  (forall p, In p (batch a) -> snd p <> [] -> 0 < mesh_area p) ->
  (return_textures = true -> exists l, features = Some l /\ map (@length _) l = vcount (batch a) /\ List.Forall (fun p => snd p <> []) (batch a)) ->
  exists s m', sample_points_from_meshes multinomial rand (option_map (@concat _) features) n return_normals return_textures m = Ok (s, m') /\ behaves argsort m' a /\
    length (points s) = length (batch a) /\
    (if return_normals then exists l, normals s = Some l /\ length l = length (batch a) else normals s = None) /\
    (if return_textures then exists l, textures s = Some l /\ length l = length (batch a) else textures s = None) /\
    forall i p, nth_error (batch a) i = Some p -> exists pts, nth_error (points s) i = Some pts /\ sample_row n p (row features i) pts (row (normals s) i) (row (textures s) i).
Proof. exact (SurfaceSampleProofs3.samples_main argsort Hsort multinomial rand Hmu Hr). Qed.

(* the face of a sample is what multinomial draws when every face of the mesh weighs its area; the place in the face is
   given by one pair of uniform numbers *)
Theorem faces_chosen_by_area : forall m a n, reachable argsort m a -> (0 < n)%nat -> (forall p, In p (batch a) -> snd p <> [] -> 0 < mesh_area p) ->
  let used := filter any_faces (batch a) in
  exists drawn s m',
    multinomial (map (fun p => map triangle_area (faces_of p) ++ repeat 0 (max_nat (fcount (batch a)) - length (faces_of p))) used) n = Ok drawn /\ length drawn = length used /\
    sample_points_from_meshes multinomial rand None n false false m = Ok (s, m') /\
    map snd (filter (fun q => any_faces (fst q)) (combine (batch a) (points s))) =
    map (fun q => map (fun kuv => at_weights (1 - sqrt (fst (snd kuv))) (sqrt (fst (snd kuv)) * (1 - snd (snd kuv))) (sqrt (fst (snd kuv)) * snd (snd kuv))
                                    (nth (fst kuv) (faces_of (fst (fst q))) (V3 0 0 0, V3 0 0 0, V3 0 0 0)))
                      (combine (snd (fst q)) (snd q)))
        (combine (combine used drawn) (rand (length used) n)).
Proof. exact (SurfaceSampleProofs4.law argsort Hsort multinomial rand Hmu Hr). Qed.

(* no samples, or a mesh whose faces all have area zero: RuntimeError from multinomial *)
Theorem samples_cannot_be_drawn : forall m a features n return_normals return_textures, reachable argsort m a -> (return_textures = true -> features <> None) ->
  n = 0%nat \/ (exists p, In p (batch a) /\ snd p <> [] /\ mesh_area p = 0) ->
  sample_points_from_meshes multinomial rand features n return_normals return_textures m = Fail ERuntime.
Proof. exact (SurfaceSampleProofs4.cannot_draw argsort Hsort multinomial rand Hmu). Qed.

(* the documentation promises rows of zeros for the textures of empty meshes; the function raises instead *)
Theorem textures_of_empty_meshes_refuted : forall m a l n return_normals p, reachable argsort m a -> (0 < n)%nat ->
  (forall p, In p (batch a) -> snd p <> [] -> 0 < mesh_area p) -> In p (batch a) -> snd p = [] ->
  sample_points_from_meshes multinomial rand (Some l) n return_normals true m = Fail ERuntime.
Proof. exact (SurfaceSampleProofs4.textures_need_faces argsort Hsort multinomial rand Hmu Hr). Qed.
End Sampling.
Print Assumptions samples_on_surface.
Print Assumptions faces_chosen_by_area.
Print Assumptions samples_cannot_be_drawn.
Print Assumptions textures_of_empty_meshes_refuted.

(* a pair uniform in the unit square gives a point uniform in the face: the pairs whose point falls into the part of the face
   cut off by s and q are those of a rectangle, and the rectangle's area is the part's share of the face's area *)
Theorem uniform_in_face : forall t u v s q, triangle_area t <> 0 -> 0 < u < 1 -> 0 <= v < 1 -> 0 < s <= 1 -> 0 < q <= 1 ->
  (inside (combine3 (bary_of (u, v)) t) (sub_triangle t s q) <-> u <= s * s /\ v <= q) /\
  triangle_area (sub_triangle t s q) = (s * s) * q * triangle_area t.
Proof. intros. split; [apply SurfaceSampleProofs4.uniform; assumption|apply SurfaceSampleProofs4.share_area; lra]. Qed.
Print Assumptions uniform_in_face.

(* a batch without faces, and missing textures *)
Theorem samples_rejected : forall multinomial rand features n return_normals return_textures m,
  (isempty m = true -> sample_points_from_meshes multinomial rand features n return_normals return_textures m = Fail EValue) /\
  (forall argsort a, sorts argsort -> reachable argsort m a -> sample_points_from_meshes multinomial rand None n return_normals true m = Fail EValue).
Proof.
  intros mu rand f n rn rt m. split; [intros H; unfold sample_points_from_meshes; rewrite H; reflexivity|].
  intros argsort a Hs Hre. destruct (MeshesProofs9.reachable_repr argsort Hs m a Hre) as (Hw & R0). unfold sample_points_from_meshes. rewrite (MeshesProofs.not_empty argsort a m Hw R0). destruct (LaplaceProofs3.verts_ask argsort a m Hw R0) as (m1 & E1 & _). rewrite E1. reflexivity.
Qed.
Print Assumptions samples_rejected.

(* ---- the hypotheses can be met: functions that keep the two contracts, a batch with and one without an empty mesh ---- *)
Fixpoint first_positive (l : list R) : nat := match l with [] => 0 | x :: l => if Rltb 0 x then 0 else S (first_positive l) end.
Definition demo_multinomial (w : list (list R)) (n : nat) : result (list (list nat)) :=
  if (n =? 0)%nat || existsb (fun row => Rleb (rsum row) 0) w then Fail ERuntime else Ok (map (fun row => repeat (first_positive row) n) w).
Lemma first_positive_good l : List.Forall (Rle 0) l -> 0 < rsum l -> (first_positive l < length l)%nat /\ 0 < nth (first_positive l) l 0.
Proof.
  induction 1 as [|x l Hx Hl IH]; [unfold rsum; cbn; lra|]. cbn [first_positive length nth]. intros H. destruct (Rltb_spec 0 x) as [P|P]; [split; [apply Nat.lt_0_succ|exact P]|]. change (rsum (x :: l)) with (x + rsum l) in H. destruct (IH ltac:(lra)) as (I1 & I2). split; [apply -> Nat.succ_lt_mono; exact I1|exact I2].
Qed.
Example multinomial_contract_met : multinomial_ok demo_multinomial.
Proof.
  intros w n Hw. unfold demo_multinomial. split.
  - intros (Hn & HS). replace (n =? 0)%nat with false by (symmetry; apply Nat.eqb_neq; lia). cbn [orb].
    assert (EX : existsb (fun row => Rleb (rsum row) 0) w = false). { clear Hw. induction HS as [|r w H HS IH]; [reflexivity|]. cbn [existsb]. rewrite IH. destruct (Rleb_spec (rsum r) 0); [lra|reflexivity]. }
    rewrite EX. eexists. split; [reflexivity|]. clear EX. induction HS as [|r w H HS IH]; [constructor|]. inversion Hw; subst. cbn [map]. constructor; [|apply IH; assumption]. split; [apply repeat_length|]. apply Forall_forall. intros k Hk. apply repeat_spec in Hk. subst k. apply first_positive_good; assumption.
  - intros [->|HE]; [reflexivity|]. apply Exists_exists in HE. destruct HE as (r & Hr & HE). replace (existsb (fun row => Rleb (rsum row) 0) w) with true; [rewrite orb_true_r; reflexivity|]. symmetry. apply existsb_exists. exists r. split; [exact Hr|]. destruct (Rleb_spec (rsum r) 0); [reflexivity|lra].
Qed.
Definition demo_rand (a b : nat) : list (list (R * R)) := repeat (repeat (/ 4, / 2) b) a.
Example rand_contract_met : rand_ok demo_rand.
Proof.
  intros a b. unfold demo_rand. split; [apply repeat_length|]. apply Forall_forall. intros r H. apply repeat_spec in H. subst r. split; [apply repeat_length|]. apply Forall_forall. intros uv H. apply repeat_spec in H. subst uv. cbn. lra.
Qed.
Definition one_triangle : mesh := ([V3 0 0 0; V3 2 0 0; V3 0 2 0], [(0, 1, 2)%Z]).
Definition no_triangle : mesh := ([V3 5 5 5], []).
Lemma two_by_two : triangle_area (V3 0 0 0, V3 2 0 0, V3 0 2 0) = 2.
Proof.
  unfold triangle_area, norm3. replace (dot3 _ _) with (4 * 4) by (unfold tri_cross, dot3, cross3, sub3; cbn [x3 y3 z3]; ring). rewrite sqrt_square by lra. lra.
Qed.
Lemma one_area : mesh_area one_triangle = 2.
Proof. unfold mesh_area. change (faces_of one_triangle) with [(V3 0 0 0, V3 2 0 0, V3 0 2 0)]. cbn [map]. rewrite two_by_two. unfold rsum. cbn. lra. Qed.
Example demo_batch : forall argsort, sorts argsort -> exists m, new_list (map fst [one_triangle; no_triangle]) (map snd [one_triangle; no_triangle]) = Ok m /\
  reachable argsort m (from_lists [one_triangle; no_triangle]) /\ (forall p, In p [one_triangle; no_triangle] -> snd p <> [] -> 0 < mesh_area p).
Proof.
  intros argsort Hs. assert (G : List.Forall good_mesh [one_triangle; no_triangle]) by (repeat constructor; cbn; lia). assert (HF : has_a_face [one_triangle; no_triangle]) by (exists one_triangle; split; [left; reflexivity|discriminate]).
  destruct (MeshesProps.meshes_from_lists argsort _ Hs G HF) as (m & E & _). exists m. split; [exact E|]. split; [apply made_from_lists; assumption|]. intros p [<-|[<-|[]]] H; [rewrite one_area; lra|contradiction H; reflexivity].
Qed.
Example demo_uniform : triangle_area (V3 0 0 0, V3 2 0 0, V3 0 2 0) <> 0.
Proof. rewrite two_by_two. lra. Qed.
Example demo_textures : map (@length vec3) [[V3 1 0 0; V3 0 1 0; V3 0 0 1]] = vcount [one_triangle] /\ List.Forall (fun p : mesh => snd p <> []) [one_triangle].
Proof. split; [reflexivity|]. repeat constructor. discriminate. Qed.
