(* The losses: from the answers of the kernels to the means, through the containers. *)
From Verif Require Import Packing PackingSpec Pointclouds PointcloudsSpec.
From Verif Require MeshesProofs11 PointcloudsProofs PointcloudsProofs6 MeshesProofs6 MeshesProofs8 MeshesProofs9.
From Verif Require Import Base RBase Geom GeomSpec FaceAreas FaceAreasSpec Meshes MeshesSpec MeshesHistSpec MeshesProofs MeshesProofs3 Laplace LaplaceSpec LaplaceProofs2 LaplaceProofs3 Sampling Reduce PointMesh PointMeshSpec PointMeshProofs PointMeshProofs3.
Local Open Scope R_scope.

Lemma smallest_le l x : In x l -> smallest l <= x.
Proof. induction l as [|y l IH]; [intros []|]. cbn. intros [->|H]; [apply Rmin_l|]. eapply Rle_trans; [apply Rmin_r|auto]. Qed.
Lemma smallest_glb l z : z <= flt_max -> (forall x, In x l -> z <= x) -> z <= smallest l.
Proof. intros Hz H. induction l as [|y l IH]; [exact Hz|]. cbn. apply Rmin_glb; [apply H; left; reflexivity|apply IH; intros x Hx; apply H; right; exact Hx]. Qed.
Section D.
Context {A B : Type} (d : A -> B -> R).
Lemma nearest_value a bs s r : nearest_of d a bs s r -> (forall b, In b bs -> d a b < flt_max) -> fst r = smallest (map (d a) bs).
Proof.
  intros H Hb. destruct bs as [|b0 bs]; [cbn in H; subst r; reflexivity|]. destruct H as (j & b & Hj & -> & Hm). cbn [fst]. apply nth_error_In in Hj. apply Rle_antisym.
  - apply smallest_glb; [left; apply Hb; exact Hj|]. intros x Hx. apply in_map_iff in Hx as (b' & <- & H'). apply Hm. exact H'.
  - apply smallest_le. apply in_map_iff. exists b. auto.
Qed.
Definition rows_of (As : list (list A)) (Bs : list (list B)) : list (list R) := map (fun q => map (fun a => smallest (map (d a) (snd q))) (fst q)) (combine As Bs).
Lemma rows_length As Bs : length As = length Bs -> map (@length R) (rows_of As Bs) = map (@length A) As.
Proof. revert Bs. induction As as [|x As IH]; intros [|y Bs] H; cbn in *; try discriminate; [reflexivity|]. unfold rows_of in *. cbn [combine map fst snd]. rewrite map_length. f_equal. apply IH. lia. Qed.
Lemma nth_error_combine (As : list (list A)) (Bs : list (list B)) g xs ys : nth_error As g = Some xs -> nth_error Bs g = Some ys -> nth_error (combine As Bs) g = Some (xs, ys).
Proof. revert Bs g. induction As as [|x As IH]; intros [|y Bs] [|g] H1 H2; cbn in *; try discriminate; [congruence|auto]. Qed.
Lemma all_values As Bs out : length As = length Bs -> below_max d As Bs -> nearest_all d As Bs out -> map fst out = concat (rows_of As Bs).
Proof.
  intros HL HD (Lo & N). assert (LC : length (concat (rows_of As Bs)) = length (concat As)) by (rewrite !length_concat_sum; f_equal; apply rows_length; exact HL).
  apply nth_error_ext_len; [rewrite map_length; lia|]. intros o Ho. rewrite map_length, Lo in Ho. destruct (find_place As o Ho) as (g & xs & i & Hg & Hi & ->).
  destruct (nth_error Bs g) as [ys|] eqn:Eb; [|exfalso; apply nth_error_None in Eb; assert (g < length As)%nat by (apply nth_error_Some; congruence); lia]. destruct (nth_error xs i) as [a|] eqn:Ea; [|apply nth_error_None in Ea; lia].
  destruct (N g xs ys i a Hg Eb Ea) as (r & Er & Nr). rewrite (map_nth_error fst _ _ Er). rewrite (nearest_value a ys _ r Nr) by (intros b Hb; apply (HD g xs ys a b Hg Eb); [exact (nth_error_In _ _ Ea)|exact Hb]).
  rewrite <- (begins_eq (rows_of As Bs) As g) by (apply rows_length; exact HL). symmetry. apply (nth_concat (rows_of As Bs) g (map (fun a => smallest (map (d a) ys)) xs)).
  - unfold rows_of. exact (map_nth_error _ _ _ (nth_error_combine As Bs g xs ys Hg Eb)).
  - exact (map_nth_error (fun a => smallest (map (d a) ys)) _ _ Ea).
Qed.
End D.

Lemma sum_mean (l : list R) : l <> [] -> rsum l / INR (length l) = mean l.
Proof. destruct l; [contradiction|reflexivity]. Qed.
Lemma two_means {T} (d : vec3 -> T -> R) C X : length C = length X -> C <> [] ->
  rsum (map mean (rows_of d C X)) / INR (length C) + rsum (map mean (rows_of (fun x p => d p x) X C)) / INR (length C) = mean_to_nearest d C X.
Proof.
  intros HL HN. unfold mean_to_nearest. rewrite <- sum_mean.
  - rewrite map_length, combine_length, HL, Nat.min_id. unfold Rdiv. rewrite <- Rmult_plus_distr_r. f_equal. clear HN. revert X HL. induction C as [|p C IH]; intros [|x X] HL; cbn in HL; try discriminate; [cbn; lra|].
    unfold rows_of in *. cbn [combine map fst snd]. rewrite !rsum_cons. specialize (IH X ltac:(lia)). unfold to_nearest at 1. lra.
  - destruct C; [contradiction|]. destruct X; [discriminate|]. discriminate.
Qed.

Section Arg.
Variable argsort : list Z -> list nat.
Hypothesis Hsort : sorts argsort.
Notation repr := (MeshesProofs.repr argsort).
Variable F : Type.
Variable fzero : F.
Notation crepr := (PointcloudsProofs.crepr F fzero).
Notation cwf := (PointcloudsProofs.cwf F).
Notation pts a := (points_of F (clouds F a)).

Lemma points_ask a hn hf c : cwf a hn hf -> crepr a hn hf c -> exists c', points_packed F c = Ok (concat (pts a), c') /\ crepr a hn hf c'.
Proof.
  intros W R0. destruct (PointcloudsProofs.cask_tell F fzero (QPointsPacked) a hn hf c W R0) as (r & c' & E & T & R'). cbn in E. destruct (points_packed F c) as [x|]; [|discriminate]. cbn [rbind] in E. injection E as <- <-. cbn in T. exists (snd x). split; [rewrite <- T; destruct x; reflexivity|exact R'].
Qed.
Lemma pidx_ask a hn hf c : cwf a hn hf -> crepr a hn hf c -> exists c', packed_to_cloud_idx F c = Ok (owners 0 (sizes F (clouds F a)), c') /\ crepr a hn hf c'.
Proof.
  intros W R0. destruct (PointcloudsProofs.cask_tell F fzero (QPackedToCloud) a hn hf c W R0) as (r & c' & E & T & R'). cbn in E. destruct (packed_to_cloud_idx F c) as [x|]; [|discriminate]. cbn [rbind] in E. injection E as <- <-. cbn in T. exists (snd x). split; [rewrite <- T; destruct x; reflexivity|exact R'].
Qed.
Lemma sizes_points a : sizes F (clouds F a) = map (@length vec3) (pts a).
Proof. unfold sizes, points_of. rewrite map_map. apply map_ext. intros c. symmetry. apply map_length. Qed.
Lemma pfirst_ask a hn hf c : cwf a hn hf -> crepr a hn hf c -> exists c', cloud_to_packed_first_idx F c = Ok (firsts (pts a), c') /\ crepr a hn hf c'.
Proof.
  intros W R0. destruct (PointcloudsProofs.cask_tell F fzero (QCloudToFirst) a hn hf c W R0) as (r & c' & E & T & R'). cbn in E. destruct (cloud_to_packed_first_idx F c) as [x|]; [|discriminate]. cbn [rbind] in E. injection E as <- <-. cbn in T. exists (snd x). split; [|exact R'].
  replace (firsts (pts a)) with (fst x); [destruct x; reflexivity|]. rewrite T. unfold firsts. replace (length (pts a)) with (length (clouds F a)) by (unfold points_of; symmetry; apply map_length). apply map_ext. intros g. unfold begins. rewrite <- sizes_points. reflexivity.
Qed.
Lemma zedges_len b : map (@length _) (map zedges b) = map (@length _) (map edges_of b).
Proof. rewrite !map_map. apply map_ext. intros p. unfold zedges, edges_of. rewrite !map_length. reflexivity. Qed.
Lemma efirst_ask a m : wf_state a -> repr a m -> exists m', mesh_to_edges_packed_first_idx argsort m = Ok (Some (firsts (map edges_of (batch a))), m') /\ repr a m'.
Proof.
  intros Hw Rm. destruct (MeshesProofs6.ask_tell argsort Hsort QMeshToEdgesFirst a m Hw Rm) as (r & m' & E & T & R'). cbn in E. destruct (mesh_to_edges_packed_first_idx argsort m) as [x|]; [|discriminate]. cbn [rbind] in E. injection E as <- <-. cbn in T. destruct T as (Es & Ho & T).
  rewrite (MeshesProofs11.own_edges_unique _ _ _ Ho (zedges_own _ (proj1 Hw))) in T. exists (snd x). split; [|exact R']. replace (firsts (map edges_of (batch a))) with (map (fun i => sum_nat (firstn i (map (@length _) (map zedges (batch a))))) (seq 0 (length (batch a)))); [rewrite <- T; destruct x; reflexivity|]. unfold firsts. rewrite (map_length edges_of). apply map_ext. intros g. unfold begins. rewrite <- zedges_len. reflexivity.
Qed.
Lemma ffirst_ask a m : wf_state a -> repr a m -> exists m', mesh_to_faces_packed_first_idx m = Ok (firsts (map faces_of (batch a)), m') /\ repr a m'.
Proof.
  intros Hw Rm. destruct (MeshesProofs6.ask_tell argsort Hsort QMeshToFacesFirst a m Hw Rm) as (r & m' & E & T & R'). cbn in E. destruct (mesh_to_faces_packed_first_idx m) as [x|]; [|discriminate]. cbn [rbind] in E. injection E as <- <-. cbn in T. exists (snd x). split; [|exact R'].
  unfold firsts. rewrite map_length. replace (map (begins (map faces_of (batch a))) (seq 0 (length (batch a)))) with (fst x); [destruct x; reflexivity|]. rewrite T. apply map_ext. intros g. unfold fstart, begins. do 2 f_equal. unfold fcount. rewrite map_map. apply map_ext. intros p. unfold faces_of. rewrite map_length. reflexivity.
Qed.
Lemma fidx_ask a m : wf_state a -> repr a m -> exists m', faces_packed_to_mesh_idx m = Ok (owners 0 (fcount (batch a)), m') /\ repr a m'.
Proof.
  intros Hw Rm. destruct (MeshesProofs6.ask_tell argsort Hsort QFacesPackedToMesh a m Hw Rm) as (r & m' & E & T & R'). cbn in E. destruct (faces_packed_to_mesh_idx m) as [x|]; [|discriminate]. cbn [rbind] in E. injection E as <- <-. cbn in T. exists (snd x). split; [rewrite <- T; destruct x; reflexivity|exact R'].
Qed.
Lemma max_ok l : l <> [] -> maximum_of l = Ok (max_nat l).
Proof. destruct l; [contradiction|reflexivity]. Qed.
Lemma max_bounds {T} (ls : list (list T)) : Forall (fun l => (length l <= max_nat (map (@length T) ls))%nat) ls.
Proof.
  apply Forall_forall. intros l H. assert (G : forall xs x, In x xs -> (x <= max_nat xs)%nat).
  { clear. intros xs x. unfold max_nat. induction xs as [|y xs IH]; [intros []|]. cbn. intros [->|H]; [lia|]. specialize (IH H). lia. }
  apply G, in_map, H.
Qed.
Lemma rmap_bind_id {S T} (f : S -> result T) l : rmap (fun e => v <- f e ;; Ok v) l = rmap f l.
Proof. induction l as [|x l IH]; [reflexivity|]. cbn [rmap]. rewrite IH. destruct (f x); reflexivity. Qed.
Lemma edges_split b : concat (map (fun p => map (fun e => (vertex p (fst e), vertex p (snd e))) (mesh_edges p)) b) = concat (map edges_of b).
Proof. reflexivity. Qed.
Lemma faces_moved b : Forall good_mesh b -> forall pre, rmap (face_verts (pre ++ all_verts b)) (faces_from (length pre) b) = Ok (concat (map faces_of b)).
Proof.
  induction 1 as [|p b Hp Hb IH]; intros pre; [reflexivity|]. cbn [faces_from map concat]. apply rmap_app_ok.
  - unfold faces_of. apply rmap_map_ok. eapply Forall_impl; [|exact Hp]. intros ((i, j), k) (Hi & Hj & Hk). cbv beta. unfold move_face. unfold all_verts. cbn [map concat]. rewrite face_in; [rewrite !at_mid by lia; reflexivity|]. unfold in_range. rewrite !app_length. lia.
  - specialize (IH (pre ++ fst p)). rewrite app_length, <- app_assoc in IH. exact IH.
Qed.

Section Run.
Context {T : Type} (d : vec3 -> T -> R) (C : list (list vec3)) (X : list (list T)).
(* what is needed of the two forward functions *)
Definition answers_points (f : forward_fn T) : Prop := forall k, Forall (fun l => (length l <= k)%nat) C -> exists o, f (concat C) (firsts C) (concat X) (firsts X) k = Ok o /\ nearest_all d C X o.
Definition answers_prims (f : forward_fn T) : Prop := forall k, Forall (fun l => (length l <= k)%nat) X -> exists o, f (concat C) (firsts C) (concat X) (firsts X) k = Ok o /\ nearest_all (fun x p => d p x) X C o.
End Run.
Lemma below_swap {T} (d : vec3 -> T -> R) C X : below_max d C X -> below_max (fun x p => d p x) X C.
Proof. intros H g xs ys a b H1 H2 H3 H4. exact (H g ys xs b a H2 H1 H4 H3). Qed.

Theorem edge_core pe ep m am c ac : reachable argsort m am -> creachable F fzero c ac -> length (batch am) = length (clouds F ac) ->
  below_max point_edge (pts ac) (map edges_of (batch am)) -> answers_points point_edge (pts ac) (map edges_of (batch am)) pe -> answers_prims point_edge (pts ac) (map edges_of (batch am)) ep ->
  exists m' c', point_mesh_edge_distance argsort F pe ep m c = Ok (mean_to_nearest point_edge (pts ac) (map edges_of (batch am)), m', c') /\ behaves argsort m' am /\ cbehaves F fzero c' ac.
Proof.
  intros Hr Hc HL HD HP HX. destruct (MeshesProofs9.reachable_repr argsort Hsort m am Hr) as (Hw & R0). destruct (PointcloudsProofs6.reachable_repr F fzero c ac Hc) as (hn & hf & Wc & Q0).
  unfold point_mesh_edge_distance. rewrite (r_N _ _ _ R0), (PointcloudsProofs.q_N _ _ _ _ _ _ Q0), HL, Nat.eqb_refl. cbn [negb].
  destruct (points_ask ac hn hf c Wc Q0) as (c1 & D1 & Q1). rewrite D1. cbn [rbind].
  destruct (pfirst_ask ac hn hf c1 Wc Q1) as (c2 & D2 & Q2). rewrite D2. cbn [rbind]. unfold num_points_per_cloud at 1. rewrite (PointcloudsProofs.q_cnt _ _ _ _ _ _ Q2), sizes_points.
  pose proof (wf_nonempty am Hw) as Hne. assert (HneC : pts ac <> []) by (unfold points_of; destruct (batch am); [contradiction|]; destruct (clouds F ac); [discriminate|discriminate]).
  assert (LC : length (pts ac) = length (map edges_of (batch am))) by (unfold points_of; rewrite !map_length; symmetry; exact HL).
  rewrite max_ok by (destruct (pts ac); [contradiction|discriminate]). cbn [rbind].
  destruct (verts_ask argsort am m Hw R0) as (m1 & E1 & R1). rewrite E1. cbn [rbind]. destruct (edges_ask argsort Hsort am m1 Hw R1) as (m2 & E2 & R2). rewrite E2. cbn [rbind].
  pose proof (edge_losses (fun v => v) (batch am) (proj1 Hw) []) as EL. cbn [app length] in EL. rewrite rmap_bind_id in EL. rewrite EL, edges_split. cbn [rbind].
  destruct (efirst_ask am m2 Hw R2) as (m3 & E3 & R3). rewrite E3. cbn [rbind]. destruct (num_edges_ask argsort Hsort am m3 Hw R3) as (m4 & E4 & R4). rewrite E4. cbn [rbind].
  rewrite zedges_len. rewrite max_ok by (destruct (batch am); [contradiction|discriminate]). cbn [rbind].
  destruct (HP _ (max_bounds (pts ac))) as (o1 & O1 & N1). rewrite O1. cbn [rbind].
  destruct (pidx_ask ac hn hf c2 Wc Q2) as (c3 & D3 & Q3). rewrite D3. cbn [rbind]. unfold num_points_per_cloud. rewrite (PointcloudsProofs.q_cnt _ _ _ _ _ _ Q3).
  pose proof (gathered_own (sizes F (clouds F ac)) _ [] eq_refl) as G1. cbn [length] in G1. rewrite G1. cbn [rbind].
  destruct (HX _ (max_bounds (map edges_of (batch am)))) as (o2 & O2 & N2). rewrite O2. cbn [rbind].
  destruct (edges_idx_ask argsort Hsort am m4 Hw R4) as (m5 & E5 & R5). rewrite E5. cbn [rbind]. destruct (num_edges_ask argsort Hsort am m5 Hw R5) as (m6 & E6 & R6). rewrite E6. cbn [rbind].
  pose proof (gathered_own (map (@length _) (map zedges (batch am))) _ [] eq_refl) as G2. cbn [length] in G2. rewrite G2. cbn [rbind]. exists m6, c3. split; [|split].
  - do 3 f_equal. rewrite (all_values point_edge _ _ o1 LC HD N1). rewrite (all_values (fun x p => point_edge p x) _ _ o2 (eq_sym LC) (below_swap _ _ _ HD) N2).
    rewrite sizes_points, <- (rows_length point_edge (pts ac) (map edges_of (batch am)) LC), weighted_means. rewrite zedges_len, <- (rows_length (fun x p => point_edge p x) (map edges_of (batch am)) (pts ac) (eq_sym LC)), weighted_means.
    replace (length (clouds F ac)) with (length (pts ac)) by (unfold points_of; apply map_length). apply two_means; assumption.
  - apply MeshesProofs8.repr_behaves; assumption.
  - exact (PointcloudsProofs6.repr_behaves F fzero _ _ _ _ Wc Q3).
Qed.

Theorem face_core d pf fp m am c ac : reachable argsort m am -> creachable F fzero c ac -> length (batch am) = length (clouds F ac) ->
  below_max d (pts ac) (map faces_of (batch am)) -> answers_points d (pts ac) (map faces_of (batch am)) pf -> answers_prims d (pts ac) (map faces_of (batch am)) fp ->
  exists m' c', point_mesh_face_distance F pf fp m c = Ok (mean_to_nearest d (pts ac) (map faces_of (batch am)), m', c') /\ behaves argsort m' am /\ cbehaves F fzero c' ac.
Proof.
  intros Hr Hc HL HD HP HX. destruct (MeshesProofs9.reachable_repr argsort Hsort m am Hr) as (Hw & R0). destruct (PointcloudsProofs6.reachable_repr F fzero c ac Hc) as (hn & hf & Wc & Q0).
  unfold point_mesh_face_distance. rewrite (r_N _ _ _ R0), (PointcloudsProofs.q_N _ _ _ _ _ _ Q0), HL, Nat.eqb_refl. cbn [negb].
  destruct (points_ask ac hn hf c Wc Q0) as (c1 & D1 & Q1). rewrite D1. cbn [rbind].
  destruct (pfirst_ask ac hn hf c1 Wc Q1) as (c2 & D2 & Q2). rewrite D2. cbn [rbind]. unfold num_points_per_cloud at 1. rewrite (PointcloudsProofs.q_cnt _ _ _ _ _ _ Q2), sizes_points.
  pose proof (wf_nonempty am Hw) as Hne. assert (HneC : pts ac <> []) by (unfold points_of; destruct (batch am); [contradiction|]; destruct (clouds F ac); [discriminate|discriminate]).
  assert (LC : length (pts ac) = length (map faces_of (batch am))) by (unfold points_of; rewrite !map_length; symmetry; exact HL).
  rewrite max_ok by (destruct (pts ac); [contradiction|discriminate]). cbn [rbind].
  destruct (verts_ask argsort am m Hw R0) as (m1 & E1 & R1). rewrite E1. cbn [rbind]. destruct (faces_ask argsort am m1 Hw R1) as (m2 & E2 & R2). rewrite E2. cbn [rbind].
  pose proof (faces_moved (batch am) (proj1 Hw) []) as EL. cbn [app length] in EL. change (faces_from 0 (batch am)) with (all_faces (batch am)) in EL. rewrite EL. cbn [rbind].
  destruct (ffirst_ask am m2 Hw R2) as (m3 & E3 & R3). rewrite E3. cbn [rbind]. assert (EF : fcount (batch am) = map (@length _) (map faces_of (batch am))) by (unfold fcount; rewrite map_map; apply map_ext; intros p; unfold faces_of; rewrite map_length; reflexivity).
  unfold num_faces_per_mesh at 1. rewrite (r_nf _ _ _ R3), EF. rewrite max_ok by (destruct (batch am); [contradiction|discriminate]). cbn [rbind].
  destruct (HP _ (max_bounds (pts ac))) as (o1 & O1 & N1). rewrite O1. cbn [rbind].
  destruct (pidx_ask ac hn hf c2 Wc Q2) as (c3 & D3 & Q3). rewrite D3. cbn [rbind]. unfold num_points_per_cloud. rewrite (PointcloudsProofs.q_cnt _ _ _ _ _ _ Q3).
  pose proof (gathered_own (sizes F (clouds F ac)) _ [] eq_refl) as G1. cbn [length] in G1. rewrite G1. cbn [rbind].
  destruct (HX _ (max_bounds (map faces_of (batch am)))) as (o2 & O2 & N2). rewrite O2. cbn [rbind].
  destruct (fidx_ask am m3 Hw R3) as (m5 & E5 & R5). rewrite E5. cbn [rbind]. unfold num_faces_per_mesh. rewrite (r_nf _ _ _ R5).
  pose proof (gathered_own (fcount (batch am)) _ [] eq_refl) as G2. cbn [length] in G2. rewrite G2. cbn [rbind]. exists m5, c3. split; [|split].
  - do 3 f_equal. rewrite (all_values d _ _ o1 LC HD N1). rewrite (all_values (fun x p => d p x) _ _ o2 (eq_sym LC) (below_swap _ _ _ HD) N2).
    rewrite sizes_points, <- (rows_length d (pts ac) (map faces_of (batch am)) LC), weighted_means. rewrite EF, <- (rows_length (fun x p => d p x) (map faces_of (batch am)) (pts ac) (eq_sym LC)), weighted_means.
    replace (length (clouds F ac)) with (length (pts ac)) by (unfold points_of; apply map_length). apply two_means; assumption.
  - apply MeshesProofs8.repr_behaves; assumption.
  - exact (PointcloudsProofs6.repr_behaves F fzero _ _ _ _ Wc Q3).
Qed.

(* a different number of meshes and clouds *)
Theorem edge_sizes pe ep m am c ac : reachable argsort m am -> creachable F fzero c ac -> length (batch am) <> length (clouds F ac) -> point_mesh_edge_distance argsort F pe ep m c = Fail EValue.
Proof.
  intros Hr Hc HL. destruct (MeshesProofs9.reachable_repr argsort Hsort m am Hr) as (Hw & R0). destruct (PointcloudsProofs6.reachable_repr F fzero c ac Hc) as (hn & hf & Wc & Q0).
  unfold point_mesh_edge_distance. rewrite (r_N _ _ _ R0), (PointcloudsProofs.q_N _ _ _ _ _ _ Q0). destruct (Nat.eqb_spec (length (batch am)) (length (clouds F ac))); [contradiction|reflexivity].
Qed.
Theorem face_sizes pf fp m am c ac : reachable argsort m am -> creachable F fzero c ac -> length (batch am) <> length (clouds F ac) -> point_mesh_face_distance F pf fp m c = Fail EValue.
Proof.
  intros Hr Hc HL. destruct (MeshesProofs9.reachable_repr argsort Hsort m am Hr) as (Hw & R0). destruct (PointcloudsProofs6.reachable_repr F fzero c ac Hc) as (hn & hf & Wc & Q0).
  unfold point_mesh_face_distance. rewrite (r_N _ _ _ R0), (PointcloudsProofs.q_N _ _ _ _ _ _ Q0). destruct (Nat.eqb_spec (length (batch am)) (length (clouds F ac))); [contradiction|reflexivity].
Qed.
End Arg.

(* the implementations *)
Section Impl.
Context {T : Type} (d : vec3 -> T -> R) (C : list (list vec3)) (X : list (list T)).
Context (HL : length C = length X) (HD : below_max d C X).
Lemma cpu_answers_points : Forall (fun l => l <> []) C -> answers_points d C X (cpu_points_to d).
Proof. intros HN k _. exact (cpu_correct d C X HL HN HD). Qed.
Lemma cpu_answers_prims : Forall (fun l => l <> []) X -> answers_prims d C X (cpu_to_points d).
Proof. intros HN k _. exact (cpu_correct (fun x p => d p x) X C (eq_sym HL) HN (below_swap _ _ _ HD)). Qed.
Lemma gpu_answers_points f : gpu_points_to d f -> answers_points d C X f.
Proof. intros Hf k Hk. exact (gpu_correct d C X HL k _ HD Hk (Hf _ _ _ _ _)). Qed.
Lemma gpu_answers_prims f : gpu_to_points d f -> answers_prims d C X f.
Proof. intros Hf k Hk. exact (gpu_correct (fun x p => d p x) X C (eq_sym HL) k _ (below_swap _ _ _ HD) Hk (Hf _ _ _ _ _)). Qed.
End Impl.
