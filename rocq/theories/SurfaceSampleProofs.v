From Verif Require Import Packing PackingSpec PackOpsProofs.
From Verif Require Import Base RBase Geom GeomSpec FaceAreas FaceAreasSpec Meshes MeshesSpec MeshesHistSpec MeshesProofs Laplace LaplaceSpec LaplaceProofs3 PointMesh PointMeshSpec PointMeshProofs4 SurfaceSample SurfaceSampleSpec.
Local Open Scope R_scope.

(* ---- lists ---- *)
Fixpoint firsts_from {T} (o : nat) (ls : list (list T)) : list nat :=
  match ls with [] => [] | l :: ls => o :: firsts_from (o + length l) ls end.
Lemma firsts_from_eq {T} (ls : list (list T)) : forall o, map (fun g => (o + begins ls g)%nat) (seq 0 (length ls)) = firsts_from o ls.
Proof.
  induction ls as [|l ls IH]; intros o; [reflexivity|]. cbn [length seq map firsts_from]. f_equal; [unfold begins; cbn [firstn]; change (sum_nat []) with 0%nat; lia|].
  rewrite <- IH. rewrite <- seq_shift, map_map. apply map_ext. intros g. unfold begins. cbn [map firstn]. change (sum_nat (length l :: firstn g (map (@length T) ls))) with (length l + sum_nat (firstn g (map (@length T) ls)))%nat. lia.
Qed.
Lemma firsts_firsts {T} (ls : list (list T)) : firsts ls = firsts_from 0 ls.
Proof. rewrite <- firsts_from_eq. reflexivity. Qed.
Lemma starts_firsts {T} (ls : list (list T)) : starts ls = firsts_from 0 ls.
Proof. rewrite <- firsts_from_eq. reflexivity. Qed.
Definition nonempty {T} (l : list T) : bool := negb (length l =? 0)%nat.
Lemma masked_firsts {T} (ls : list (list T)) : forall o, masked (map nonempty ls) (firsts_from o ls) = Ok (firsts_from o (filter nonempty ls)).
Proof.
  induction ls as [|l ls IH]; intros o; [reflexivity|]. cbn [map masked firsts_from filter]. rewrite IH. cbn [rbind]. destruct l as [|x l]; cbn [nonempty length]; [|reflexivity].
  change (nonempty (@nil T)) with false. cbn iota. rewrite Nat.add_0_r. reflexivity.
Qed.
Lemma concat_nonempty {T} (ls : list (list T)) : concat (filter nonempty ls) = concat ls.
Proof. induction ls as [|[|x l] ls IH]; [reflexivity|exact IH|]. cbn. rewrite IH. reflexivity. Qed.
Lemma put_map {S T} (g : S -> T) z mask : forall x, put_masked (g z) mask (map g x) = match put_masked z mask x with Ok l => Ok (map g l) | Fail e => Fail e end.
Proof.
  induction mask as [|[] mask IH]; intros [|v x]; try reflexivity; cbn [map put_masked].
  - rewrite IH. destruct (put_masked z mask x); reflexivity.
  - specialize (IH []). cbn [map] in IH. rewrite IH. destruct (put_masked z mask []); reflexivity.
  - change (g v :: map g x) with (map g (v :: x)). rewrite IH. destruct (put_masked z mask (v :: x)); reflexivity.
Qed.
Lemma put_filter {S T} (h : S -> bool) (P : S -> T -> Prop) b : forall x, Forall2 P (filter h b) x ->
  exists D, put_masked None (map h b) (map Some x) = Ok D /\ Forall2 (fun s o => match o with Some d => h s = true /\ P s d | None => h s = false end) b D /\
    x = concat (map (fun o => match o with Some d => [d] | None => [] end) D).
Proof.
  induction b as [|s b IH]; intros x H; cbn [filter] in H.
  - inversion H; subst. exists []. cbn. auto.
  - destruct (h s) eqn:E.
    + inversion H; subst. destruct (IH _ H4) as (D & E1 & E2 & E3). exists (Some y :: D). cbn [map put_masked]. rewrite E. cbn. rewrite E1. cbn. split; [reflexivity|]. split; [constructor; auto|]. rewrite E3 at 1. reflexivity.
    + destruct (IH _ H) as (D & E1 & E2 & E3). exists (None :: D). cbn [map]. rewrite E. cbn [put_masked]. rewrite E1. cbn. split; [reflexivity|]. split; [constructor; auto|exact E3].
Qed.
Lemma rmap_then {A B C} (f : A -> result B) (g : B -> C) l r : rmap f l = Ok r -> rmap (fun x => v <- f x ;; Ok (g v)) l = Ok (map g r).
Proof.
  revert r. induction l as [|x l IH]; intros r H; cbn in H |- *; [injection H as <-; reflexivity|]. destruct (f x); [|discriminate]. cbn in *. destruct (rmap f l); [|discriminate]. cbn in *. injection H as <-. rewrite (IH _ eq_refl). reflexivity.
Qed.
Lemma zip2_map {S A B C} (f : A -> B -> C) (ga : S -> list A) (gb : S -> list B) l : zip2 f (map ga l) (map gb l) = map (fun s => map (fun q => f (fst q) (snd q)) (combine (ga s) (gb s))) l.
Proof. unfold zip2. induction l as [|s l IH]; [reflexivity|]. cbn. rewrite IH. reflexivity. Qed.

(* the rows of x that the drawn positions name *)
Lemma gather_rows {S T} (dflt : T) (X : S -> list T) (dr : S -> list nat) l : Forall (fun s => Forall (fun k => (k < length (X s))%nat) (dr s)) l ->
  forall pre, gather2 (pre ++ concat (map X l)) (map (fun p => map (fun k => k + snd p)%nat (fst p)) (combine (map dr l) (firsts_from (length pre) (map X l)))) = Ok (map (fun s => map (fun k => nth k (X s) dflt) (dr s)) l).
Proof.
  induction 1 as [|s l H Hl IH]; intros pre; [reflexivity|]. cbn [map concat firsts_from combine fst snd]. unfold gather2 in *. cbn [rmap].
  assert (E : rmap (rget (pre ++ X s ++ concat (map X l))) (map (fun k => (k + length pre)%nat) (dr s)) = Ok (map (fun k => nth k (X s) dflt) (dr s))).
  { apply rmap_map_ok. eapply Forall_impl; [|exact H]. cbv beta. intros k Hk. unfold rget. rewrite nth_error_app2 by lia. rewrite nth_error_app1 by lia. replace (k + length pre - length pre)%nat with k by lia. rewrite (nth_error_nth' _ dflt Hk). reflexivity. }
  rewrite E. cbn [rbind]. specialize (IH (pre ++ X s)). rewrite app_length, <- app_assoc in IH. rewrite IH. reflexivity.
Qed.

(* ---- the batch ---- *)
Definition with_faces (b : list mesh) : list mesh := filter has_faces b.
Lemma faces_of_length p : length (faces_of p) = length (snd p).
Proof. unfold faces_of. apply map_length. Qed.
Lemma nonempty_faces p : nonempty (faces_of p) = has_faces p.
Proof. unfold nonempty, has_faces. rewrite faces_of_length. reflexivity. Qed.
Lemma filter_faces b : filter nonempty (map faces_of b) = map faces_of (with_faces b).
Proof. induction b as [|p b IH]; [reflexivity|]. cbn [map filter with_faces]. unfold with_faces in *. cbn [filter]. rewrite nonempty_faces. destruct (has_faces p); cbn [map]; rewrite IH; reflexivity. Qed.
Lemma area_triangle t : fst (let '(a, b, c) := t in area_normal a b c) = triangle_area t.
Proof. destruct t as [[a b] c]. unfold triangle_area, area_normal, norm3, tri_cross, dot3, cross3, sub3. cbn [fst x3 y3 z3]. reflexivity. Qed.
Definition weights_of (b : list mesh) : list (list R) :=
  map (fun p => map triangle_area (faces_of p) ++ repeat 0 (max_nat (fcount b) - length (faces_of p))) (with_faces b).
Lemma fcount_faces b : fcount b = map (@length _) (map faces_of b).
Proof. unfold fcount. rewrite map_map. apply map_ext. intros p. rewrite faces_of_length. reflexivity. Qed.
Lemma count_filter {T} (h : T -> bool) l : count_if (fun b => b) (map h l) = length (filter h l).
Proof. unfold count_if. induction l as [|x l IH]; [reflexivity|]. cbn. destruct (h x); cbn; rewrite IH; reflexivity. Qed.

Definition datum : Type := mesh * list nat * list (R * R) * list vec3.
Definition dmesh (s : datum) : mesh := fst (fst (fst s)).
Definition ddrawn (s : datum) : list nat := snd (fst (fst s)).
Definition duv (s : datum) : list (R * R) := snd (fst s).
Definition dft (s : datum) : list vec3 := snd s.
Definition zero_tri : tri := (V3 0 0 0, V3 0 0 0, V3 0 0 0).
Definition dtris (X : datum -> list tri) (s : datum) : list tri := map (fun k => nth k (X s) zero_tri) (ddrawn s).
Definition dpoints (s : datum) : list vec3 := map (fun q => combine3 (fst q) (snd q)) (combine (map bary_of (duv s)) (dtris (fun s => faces_of (dmesh s)) s)).
Definition dnormals (s : datum) : list vec3 := map (fun k => nth k (map unit_normal (faces_of (dmesh s))) (V3 0 0 0)) (ddrawn s).
Definition dtextures (s : datum) : list vec3 := map (fun q => combine3 (fst q) (snd q)) (combine (map bary_of (duv s)) (dtris (fun s => faces_of (with_features (dmesh s) (dft s))) s)).
Definition or_zero (n : nat) (f : datum -> list vec3) (o : option datum) : list vec3 := match o with Some s => f s | None => repeat (V3 0 0 0) n end.
Definition somes {T} (D : list (option T)) : list T := concat (map (fun o => match o with Some d => [d] | None => [] end) D).

Fixpoint data (b : list mesh) (dr : list (list nat)) (uv : list (list (R * R))) (ft : list (list vec3)) : list datum :=
  match b, dr, uv, ft with p :: b, d :: dr, u :: uv, f :: ft => (p, d, u, f) :: data b dr uv ft | _, _, _, _ => [] end.
Lemma data_maps : forall b dr uv ft, length dr = length b -> length uv = length b -> length ft = length b ->
  map dmesh (data b dr uv ft) = b /\ map ddrawn (data b dr uv ft) = dr /\ map duv (data b dr uv ft) = uv /\ map dft (data b dr uv ft) = ft.
Proof.
  induction b as [|p b IH]; intros [|d dr] [|u uv] [|f ft] H1 H2 H3; try discriminate; [repeat split; reflexivity|]. cbn in H1, H2, H3. destruct (IH dr uv ft ltac:(lia) ltac:(lia) ltac:(lia)) as (E1 & E2 & E3 & E4). cbn [data map dmesh ddrawn duv dft fst snd]. rewrite E1, E2, E3, E4. repeat split; reflexivity.
Qed.
Lemma all_with_faces b : Forall (fun p : mesh => snd p <> []) b -> with_faces b = b.
Proof. unfold with_faces. induction 1 as [|p b H Hb IH]; [reflexivity|]. cbn [filter]. unfold has_faces at 1. destruct (snd p); [contradiction|]. cbn. f_equal. exact IH. Qed.
Lemma faces_from_features : forall b fl, map (@length _) fl = vcount b -> forall o, faces_from o (map (fun q => with_features (fst q) (snd q)) (combine b fl)) = faces_from o b.
Proof.
  induction b as [|p b IH]; intros [|l fl] H o; try discriminate; [reflexivity|]. cbn in H. injection H as H1 H2. cbn [combine map fst snd faces_from]. unfold with_features at 1 2. cbn [fst snd]. rewrite H1, IH by exact H2. reflexivity.
Qed.
Lemma features_good : forall b fl, map (@length _) fl = vcount b -> Forall good_mesh b -> Forall good_mesh (map (fun q => with_features (fst q) (snd q)) (combine b fl)) /\ all_verts (map (fun q => with_features (fst q) (snd q)) (combine b fl)) = concat fl.
Proof.
  induction b as [|p b IH]; intros [|l fl] H G; try discriminate; [split; [constructor|reflexivity]|]. cbn in H. injection H as H1 H2. inversion G; subst. destruct (IH fl H2 H4) as (I1 & I2). cbn [combine map fst snd]. split.
  - constructor; [|exact I1]. unfold good_mesh, with_features in *. cbn [fst snd]. rewrite H1. exact H3.
  - unfold all_verts in *. cbn [map concat]. rewrite I2. reflexivity.
Qed.
Lemma data_features : forall b dr uv ft, length dr = length b -> length uv = length b -> length ft = length b ->
  map (fun s => faces_of (with_features (dmesh s) (dft s))) (data b dr uv ft) = map faces_of (map (fun q => with_features (fst q) (snd q)) (combine b ft)).
Proof.
  induction b as [|p b IH]; intros [|d dr] [|u uv] [|f ft] H1 H2 H3; try discriminate; [reflexivity|]. cbn in H1, H2, H3. cbn [data map combine fst snd dmesh dft]. rewrite IH by lia. reflexivity.
Qed.

Section Core.
Variable argsort : list Z -> list nat.
Hypothesis Hsort : sorts argsort.
Variable multinomial : list (list R) -> nat -> result (list (list nat)).
Variable rand : nat -> nat -> list (list (R * R)).
Notation repr := (MeshesProofs.repr argsort).

Definition textures_fit (b : list mesh) (fls : option (list (list vec3))) (rt : bool) : Prop :=
  rt = true -> exists l, fls = Some l /\ map (@length _) l = vcount b /\ Forall (fun p => snd p <> []) b.
Definition features_for (b : list mesh) (fls : option (list (list vec3))) (rt : bool) : list (list vec3) :=
  match fls, rt with Some l, true => l | _, _ => map (fun _ => []) (with_faces b) end.
Lemma features_length b fls rt : textures_fit b fls rt -> length (features_for b fls rt) = length (with_faces b).
Proof.
  unfold textures_fit, features_for. intros H. destruct rt; [|destruct fls; apply map_length]. destruct (H eq_refl) as (l & -> & E & F). rewrite all_with_faces by exact F. apply (f_equal (@length _)) in E. unfold vcount in E. rewrite !map_length in E. exact E.
Qed.

(* everything up to the drawing *)
Lemma reach_multinomial m a feats n rn rt : wf_state a -> repr a m -> (rt = true -> feats <> None) -> exists m', repr a m' /\
  sample_points_from_meshes multinomial rand feats n rn rt m =
  (drawn <- multinomial (weights_of (batch a)) n ;;
   let sample_face_idxs := map (fun p => map (fun k => k + snd p)%nat (fst p)) (combine drawn (firsts_from 0 (map faces_of (with_faces (batch a))))) in
   let w := map (map bary_of) (rand (length (with_faces (batch a))) n) in
   tris <- gather2 (concat (map faces_of (batch a))) sample_face_idxs ;;
   samples <- put_masked (repeat (V3 0 0 0) n) (map has_faces (batch a)) (zip2 combine3 w tris) ;;
   ns <- (if rn then
            l <- gather2 (map unit_normal (concat (map faces_of (batch a)))) sample_face_idxs ;;
            l <- put_masked (repeat (V3 0 0 0) n) (map has_faces (batch a)) l ;;
            Ok (Some l)
          else Ok None) ;;
   ts <- (if rt then
           match feats with
           | None => Fail EValue
           | Some features =>
               if negb (length sample_face_idxs * n =? length (batch a) * n)%nat then Fail ERuntime else
               face_features <- rmap (face_verts features) (all_faces (batch a)) ;;
               texels <- gather2 face_features sample_face_idxs ;;
               Ok (Some (zip2 combine3 w texels))
           end
         else Ok None) ;;
   Ok (Sampled samples ns ts, m')).
Proof.
  intros Hw R0 Ht. unfold sample_points_from_meshes. rewrite (not_empty argsort a m Hw R0). destruct (verts_ask argsort a m Hw R0) as (m1 & E1 & R1). rewrite E1. cbn [rbind].
  replace (rt && match feats with Some _ => false | None => true end)%bool with false by (destruct rt; [|reflexivity]; destruct feats; [reflexivity|destruct (Ht eq_refl eq_refl)]).
  destruct (faces_ask argsort a m1 Hw R1) as (m2 & E2 & R2). rewrite E2. cbn [rbind]. destruct (ffirst_ask argsort Hsort a m2 Hw R2) as (m3 & E3 & R3). rewrite E3. cbn [rbind]. exists m3. split; [exact R3|].
  pose proof (faces_moved (batch a) (proj1 Hw) []) as EL. cbn [app length] in EL. change (faces_from 0 (batch a)) with (all_faces (batch a)) in EL.
  assert (EA : face_areas_normals (all_verts (batch a)) (all_faces (batch a)) = Ok (map (fun v : tri => let '(v0, v1, v2) := v in area_normal v0 v1 v2) (concat (map faces_of (batch a))))).
  { unfold face_areas_normals. rewrite <- (rmap_then _ (fun v : tri => let '(v0, v1, v2) := v in area_normal v0 v1 v2) _ _ EL). f_equal. apply FunctionalExtensionality.functional_extensionality. intros f. destruct (face_verts (all_verts (batch a)) f) as [[[? ?] ?]|]; reflexivity. }
  rewrite EA. cbn [rbind]. unfold num_faces_per_mesh. rewrite (r_nf _ _ _ R3), (r_valid _ _ _ R3), (r_N _ _ _ R3). rewrite max_ok by (pose proof (wf_nonempty a Hw); destruct (batch a); [contradiction|discriminate]). cbn [rbind].
  replace (masked (map has_faces (batch a)) (firsts (map faces_of (batch a)))) with (Ok (firsts_from 0 (map faces_of (with_faces (batch a))))).
  2:{ rewrite firsts_firsts, <- filter_faces, <- masked_firsts. f_equal. rewrite map_map. apply map_ext. intros p. apply nonempty_faces. }
  cbn [rbind]. rewrite map_map. rewrite (map_ext _ _ area_triangle). rewrite <- (concat_nonempty (map faces_of (batch a))), filter_faces at 1. rewrite concat_map.
  replace (firsts_from 0 (map faces_of (with_faces (batch a)))) with (starts (map (map triangle_area) (map faces_of (with_faces (batch a))))) at 1.
  2:{ rewrite starts_firsts. generalize 0%nat. induction (map faces_of (with_faces (batch a))) as [|l ls IH]; intros o; [reflexivity|]. cbn [map firsts_from]. rewrite map_length, IH. reflexivity. }
  rewrite packed_to_padded_op.
  2:{ apply Forall_forall. intros e He. apply in_map_iff in He. destruct He as (l & <- & He). rewrite map_length. apply in_map_iff in He. destruct He as (p & <- & Hp). apply filter_In in Hp. pose proof (max_bounds (map faces_of (batch a))) as HB. rewrite Forall_forall in HB. rewrite fcount_faces. apply HB, in_map, Hp. }
  cbn [rbind]. unfold weights_of. rewrite !map_map. replace (map (fun x => map triangle_area (faces_of x) ++ repeat 0 (max_nat (fcount (batch a)) - length (map triangle_area (faces_of x)))) (with_faces (batch a))) with (map (fun p => map triangle_area (faces_of p) ++ repeat 0 (max_nat (fcount (batch a)) - length (faces_of p))) (with_faces (batch a))) by (apply map_ext; intros p; rewrite map_length; reflexivity).
  destruct (multinomial _ n) as [drawn|]; [|reflexivity]. cbn [rbind]. rewrite EL. cbn [rbind]. rewrite count_filter. reflexivity.
Qed.
End Core.
