(* C42: cubify. *)
From Coq Require Import Lra.
From Verif Require Import Base RBase Geom FaceAreas MeshesSpec Meshes MeshesHistSpec Cubify CubifySpec.
From Verif Require CubifyProofs2 CubifyProofs3 CubifyProofs4.
Local Open Scope nat_scope.

(* The documented position of a grid point. *)
Definition placed (a : align_mode) : nat -> nat -> nat -> pt -> vec3 :=
  match a with TopLeft => place_topleft | Center => place_center | Corner => place_corner end.

(* For grids of at least two values along every axis, mesh n has exactly two triangles, pointing
   outwards, for each side between a set voxel and one that is not set or lies outside the grid; the
   vertices are the corners of these triangles, each once; and the mesh is closed and consistently
   oriented.  With align "center" every triangle gets the feature of its voxel. *)
Theorem cubify_surface : forall N D H W vox thresh (F : Type) a (feats : option (nat -> nat -> nat -> nat -> F)),
  0 < N -> 2 <= W -> 2 <= H -> 2 <= D ->
  exists m tex b sides, cubify N D H W vox thresh a feats = Ok (m, tex) /\
    new_list (map fst b) (map snd b) = Ok m /\ length b = N /\ length sides = N /\ Forall good_mesh b /\
    (forall n p S, nth_error b n = Some p -> nth_error sides n = Some S -> exists T,
       surface (set_voxel D H W (vox n) thresh) S T /\ made_of (placed a W H D) T p /\ closed_oriented (snd p)) /\
    match feats, a with
    | Some f, Center => has_a_face b ->
        tex = Some (map (fun n => flat_map (fun vs => [value_at (f n) (fst vs); value_at (f n) (fst vs)]) (nth n sides [])) (seq 0 N))
    | _, _ => tex = None
    end.
Proof.
  intros N D H W vox thresh F a feats HN HW HH HD. destruct (CubifyProofs4.cubify_ok N D H W vox thresh a feats HN HW HH HD) as (m & tex & b & E & Em & Lb & G & M & X).
  exists m, tex, b, (map (CubifyProofs2.all_sides D H W vox thresh) (seq 0 N)). split; [exact E|]. split; [exact Em|]. split; [exact Lb|]. split; [rewrite map_length; apply seq_length|]. split; [exact G|]. split.
  - intros n p S Hp HS. assert (Hn : n < N) by (rewrite <- Lb; apply nth_error_Some; congruence). rewrite nth_error_map_iff, nth_error_seq_lt in HS by exact Hn. injection HS as <-. exists (CubifyProofs2.all_tris D H W vox thresh n).
    split; [apply CubifyProofs3.tris_surface|]. specialize (M n p Hp). destruct a; exact M.
  - destruct feats as [f|]; [|exact X]. destruct a; try exact X. intros Hf. rewrite (X Hf). f_equal. apply map_ext_in. intros n Hn. apply in_seq in Hn. unfold CubifyProofs4.feats_of.
    rewrite (nth_indep _ [] (CubifyProofs2.all_sides D H W vox thresh 0)) by (rewrite map_length, seq_length; lia). rewrite map_nth, seq_nth by lia. reflexivity.
Qed.
Print Assumptions cubify_surface.

(* An empty batch gives an empty batch. *)
Theorem cubify_empty_batch : forall D H W vox thresh (F : Type) a (feats : option (nat -> nat -> nat -> nat -> F)),
  exists m, cubify 0 D H W vox thresh a feats = Ok (m, None) /\ new_list [] [] = Ok m.
Proof. intros. eexists. split; reflexivity. Qed.
Print Assumptions cubify_empty_batch.

(* Two meshes made of the same triangles have the same surface: the same triangles in space in the
   same order, whatever the numbering of the vertices. *)
Theorem cubify_determined : forall place T p q, made_of place T p -> made_of place T q ->
  map (fun f => let '(i, j, k) := f in (nth_error (fst p) (Z.to_nat i), nth_error (fst p) (Z.to_nat j), nth_error (fst p) (Z.to_nat k))) (snd p) =
  map (fun f => let '(i, j, k) := f in (nth_error (fst q) (Z.to_nat i), nth_error (fst q) (Z.to_nat j), nth_error (fst q) (Z.to_nat k))) (snd q).
Proof.
  assert (K : forall place T p, made_of place T p -> map (fun f => let '(i, j, k) := f in (nth_error (fst p) (Z.to_nat i), nth_error (fst p) (Z.to_nat j), nth_error (fst p) (Z.to_nat k))) (snd p) =
     map (fun t => let '(x, y, z) := t in (Some (place x), Some (place y), Some (place z))) T).
  { intros place T (vs, fs) (P & _ & _ & E & HF). cbn [fst snd] in *. subst vs. induction HF as [|((i, j), k) ((x, y), z) fs T (H1 & H2 & H3) _ IH]; [reflexivity|]. cbn [map]. f_equal; [|exact IH].
    destruct H1 as (_ & H1), H2 as (_ & H2), H3 as (_ & H3). rewrite !nth_error_map_iff, H1, H2, H3. reflexivity. }
  intros place T p q Hp Hq. rewrite (K _ _ _ Hp), (K _ _ _ Hq). reflexivity.
Qed.
Print Assumptions cubify_determined.

(* A grid with one value along some axis has a surface as well, but the call raises. *)
Theorem cubify_thin_grid_refuted : exists D H W vox thresh, set_voxel D H W (vox 0) thresh (0, 0, 0)%Z /\
  forall (F : Type) a (feats : option (nat -> nat -> nat -> nat -> F)), cubify 1 D H W vox thresh a feats = Fail ERuntime.
Proof.
  exists 1, 2, 2, (fun _ _ _ _ => 1%R), (1 / 2)%R. split; [cbn; repeat split; try lia; lra|]. intros F a feats. reflexivity.
Qed.
Print Assumptions cubify_thin_grid_refuted.

(* The documentation says that the voxels with a probability larger than thresh are filled; one that
   equals thresh is filled too: it has exposed sides. *)
Theorem cubify_threshold_refuted : exists D H W vox thresh, (forall n d h w, (vox n d h w <= thresh)%R) /\ 2 <= W /\ 2 <= H /\ 2 <= D /\
  forall (F : Type) a (feats : option (nat -> nat -> nat -> nat -> F)), exists m tex b p, cubify 1 D H W vox thresh a feats = Ok (m, tex) /\
    new_list (map fst b) (map snd b) = Ok m /\ b = [p] /\ snd p <> [].
Proof.
  exists 2, 2, 2, (fun _ _ _ _ => 1%R), 1%R. split; [intros; lra|]. do 3 (split; [lia|]). intros F a feats.
  destruct (cubify_surface 1 2 2 2 (fun _ _ _ _ => 1%R) 1%R F a feats ltac:(lia) ltac:(lia) ltac:(lia) ltac:(lia)) as (m & tex & b & sides & E & Em & Lb & Ls & G & M & _).
  destruct b as [|p [|]]; try discriminate. destruct sides as [|S [|]]; try discriminate. exists m, tex, [p], p. split; [exact E|]. split; [exact Em|]. split; [reflexivity|].
  destruct (M 0 p S eq_refl eq_refl) as (T & (_ & HS & HT) & (P & _ & _ & _ & HF) & _). intros E0. rewrite E0 in HF. inversion HF; subst T. inversion HT; subst S.
  assert (X : In ((0, 0, 0), (-1, 0, 0))%Z []) by (apply HS; split; [cbn; tauto|]; split; [cbn; repeat split; try lia; lra|cbn; lia]). exact X.
Qed.
Print Assumptions cubify_threshold_refuted.

(* ---- the hypotheses can be met ---- *)
(* a grid of 2 x 2 x 2 values with two voxels that meet in an edge only: twelve exposed sides *)
Definition two_voxels (n d h w : nat) : R := if (Nat.eqb d 0 && Nat.eqb h w)%bool then 1%R else 0%R.
Example two_voxels_surface : exists S T, surface (set_voxel 2 2 2 (two_voxels 0) (1 / 2)) S T /\ In ((1, 1, 0), (0, -1, 0))%Z S /\ ~ In ((1, 0, 0), (0, 1, 0))%Z S.
Proof.
  exists (CubifyProofs2.all_sides 2 2 2 two_voxels (1 / 2)%R 0), (CubifyProofs2.all_tris 2 2 2 two_voxels (1 / 2)%R 0).
  pose proof (CubifyProofs3.tris_surface 2 2 2 two_voxels (1 / 2)%R 0) as Q. split; [exact Q|]. destruct Q as (_ & HS & _). split.
  - apply HS. split; [cbn; tauto|]. split; [split; [lia|]; split; [lia|]; split; [lia|]; change (1 / 2 <= 1)%R; lra|]. intros (_ & _ & _ & Y). change (1 / 2 <= 0)%R in Y. lra.
  - intros Y. apply HS in Y. destruct Y as (_ & Y & _). destruct Y as (_ & _ & _ & Y). change (1 / 2 <= 0)%R in Y. lra.
Qed.
(* a tetrahedron is closed and consistently oriented, and stops being so when a face is turned *)
Example closed_tetrahedron : closed_oriented [(0, 2, 1); (0, 1, 3); (1, 2, 3); (0, 3, 2)]%Z.
Proof. intros u v. unfold times. cbn [flat_map directed app filter fst snd]. repeat match goal with |- context [Z.eq_dec ?x ?y] => destruct (Z.eq_dec x y) end; try reflexivity; exfalso; subst; discriminate. Qed.
Example turned_face : ~ closed_oriented [(0, 1, 2); (0, 1, 3); (1, 2, 3); (0, 3, 2)]%Z.
Proof. intros H. specialize (H 0%Z 1%Z). discriminate. Qed.
