(* subdivide_heterogenerous on reachable Meshes objects. *)
From Coq Require Import Permutation Lra.
From Verif Require Import Base Packing PackingProofs RBase Geom FaceAreas FaceAreasSpec Meshes MeshesSpec MeshesHistSpec MeshesProofs MeshesProofs5 MeshesProofs6 MeshesProofs7 MeshesProofs8 MeshesProofs9 MeshesProofs10 MeshesProofs11 Subdivide SubdivideSpec SubdivideProofs SubdivideProofs2 SubdivideProofs3.
Local Open Scope nat_scope.

Section Argsort.
Variable argsort : list Z -> list nat.
Hypothesis Hsorts : sorts argsort.

(* ---- accessors one after the other ---- *)
Lemma ask_reach q m a : reachable argsort m a -> exists r m', ask argsort q m = Ok (r, m') /\ tell q a r /\ reachable argsort m' a.
Proof.
  intros H. destruct (reachable_behaves argsort Hsorts m a H [] a (done a)) as (m0 & E0 & Hq). cbn in E0. injection E0 as <-.
  destruct (Hq q) as (r & m' & E & T). exists r, m'. split; [exact E|]. split; [exact T|].
  apply (used argsort (Ask q) m a m' a H); [reflexivity|]. cbn [apply]. rewrite E. reflexivity.
Qed.
Ltac acc q m a H := let r := fresh in let m' := fresh "m'" in let E := fresh in let T := fresh in let Rr := fresh in
  destruct (ask_reach q m a H) as (r & m' & E & T & Rr); cbn in E.
Lemma verts_packed_r m a : reachable argsort m a -> exists m', verts_packed m = Ok (all_verts (batch a), m') /\ reachable argsort m' a.
Proof. intros H. acc QVertsPacked m a H. destruct (verts_packed m) as [(x, y)|]; [|discriminate]. injection H1 as <- <-. cbn in H2. subst x. eauto. Qed.
Lemma faces_packed_r m a : reachable argsort m a -> exists m', faces_packed m = Ok (all_faces (batch a), m') /\ reachable argsort m' a.
Proof. intros H. acc QFacesPacked m a H. destruct (faces_packed m) as [(x, y)|]; [|discriminate]. injection H1 as <- <-. cbn in H2. subst x. eauto. Qed.
Lemma faces_idx_r m a : reachable argsort m a -> exists m', faces_packed_to_mesh_idx m = Ok (owners 0 (fcount (batch a)), m') /\ reachable argsort m' a.
Proof. intros H. acc QFacesPackedToMesh m a H. destruct (faces_packed_to_mesh_idx m) as [(x, y)|]; [|discriminate]. injection H1 as <- <-. cbn in H2. subst x. eauto. Qed.
Lemma edges_r m a Es : own_edges (batch a) Es -> reachable argsort m a -> exists m', edges_packed argsort m = Ok (move_edges 0 (batch a) Es, m') /\ reachable argsort m' a.
Proof.
  intros HE H. acc QEdges m a H. destruct (edges_packed argsort m) as [(x, y)|]; [|discriminate]. injection H1 as <- <-. cbn in H2. destruct H2 as (_ & Es' & H' & ->). rewrite (own_edges_unique _ _ _ HE H'). eauto.
Qed.
Lemma edges_idx_r m a Es : own_edges (batch a) Es -> reachable argsort m a -> exists m', edges_packed_to_mesh_idx argsort m = Ok (owners 0 (map (@length _) Es), m') /\ reachable argsort m' a.
Proof.
  intros HE H. acc QEdgesToMesh m a H. destruct (edges_packed_to_mesh_idx argsort m) as [(x, y)|]; [|discriminate]. injection H1 as <- <-. cbn in H2. destruct H2 as (Es' & H' & ->). rewrite (own_edges_unique _ _ _ HE H'). eauto.
Qed.
Lemma faces_edges_r m a Es : Forall good_mesh (batch a) -> own_edges (batch a) Es -> reachable argsort m a ->
  exists t m', faces_packed_to_edges_packed argsort m = Ok (Some t, m') /\ reachable argsort m' a /\ Forall2 (opposite_edges (move_edges 0 (batch a) Es)) (all_faces (batch a)) t.
Proof.
  intros G HE H. acc QFacesToEdges m a H. destruct (faces_packed_to_edges_packed argsort m) as [(x, y)|]; [|discriminate]. injection H1 as <- <-. cbn in H2. destruct H2 as (E & t & H' & -> & HF). exists t, y. split; [reflexivity|]. split; [exact H3|].
  rewrite (edge_list_unique _ _ _ (move_edges_list _ _ G HE 0) H'). exact HF.
Qed.
Lemma counts_r m a : reachable argsort m a -> num_verts_per_mesh m = vcount (batch a) /\ num_faces_per_mesh m = fcount (batch a) /\ mN m = length (batch a).
Proof.
  intros H. split; [|split].
  - acc QNumVerts m a H. injection H1 as <- <-. exact H2.
  - acc QNumFaces m a H. injection H1 as <- <-. exact H2.
  - acc QLen m a H. injection H1 as <- <-. cbn in H2. injection H2 as H2. exact H2.
Qed.
Lemma verts_padded_r m a : reachable argsort m a -> exists p m', verts_padded m = Ok (p, m') /\ reachable argsort m' a /\
  Meshes.rows p = zip_app (map fst (batch a)) (vtail a) /\ dim1 p = max_nat (vcount (batch a)).
Proof. intros H. acc QVertsPadded m a H. destruct (verts_padded m) as [(x, y)|]; [|discriminate]. injection H1 as <- <-. cbn in H2. exists x, y. tauto. Qed.

(* ---- splitting faces ---- *)
Lemma mean_midpoint u v : mean_row u v = midpoint u v.
Proof. destruct u, v. unfold mean_row, midpoint, scal3, add3. cbn. f_equal; lra. Qed.
Lemma subdivide_faces_r m a Es : Forall good_mesh (batch a) -> own_edges (batch a) Es -> reachable argsort m a ->
  exists t m', subdivide_faces argsort m = Ok (quarter (length (all_verts (batch a))) (all_faces (batch a)) t, m') /\ reachable argsort m' a /\
    Forall2 (opposite_edges (move_edges 0 (batch a) Es)) (all_faces (batch a)) t.
Proof.
  intros G HE H. unfold subdivide_faces. destruct (verts_packed_r m a H) as (m1 & E1 & H1). rewrite E1. cbn [rbind].
  destruct (faces_packed_r m1 a H1) as (m2 & E2 & H2). rewrite E2. cbn [rbind]. destruct (faces_edges_r m2 a Es G HE H2) as (t & m3 & E3 & H3 & HF). rewrite E3. cbn [rbind]. exists t, m3. auto.
Qed.

(* the result for mesh n *)
Definition result_mesh (b : list mesh) (Es : list (list (Z * Z))) (Ts : list (list (Z * Z * Z))) (n : nat) : mesh :=
  (split_edges (V3 0 0 0)%R midpoint (fst (nth n b no_mesh)) (nth n Es []),
   blk b Ts 0 n ++ blk b Ts 1 n ++ blk b Ts 2 n ++ blk b Ts 3 n).
Lemma own_edges_nth b Es n : own_edges b Es -> n < length b -> edge_list (snd (nth n b no_mesh)) (nth n Es []).
Proof. intros H. revert n. induction H as [|p E b Es HE _ IH]; intros [|n] Hn; cbn in *; try lia; [exact HE|]. apply IH. lia. Qed.
Lemma result_subdivided b Es Ts n : own_edges b Es -> local_edges b Es Ts -> n < length b ->
  subdivided (nth n b no_mesh) (nth n Es []) (result_mesh b Es Ts n).
Proof.
  intros HE (_ & HT) Hn. split; [apply own_edges_nth; assumption|]. split; [reflexivity|]. exists (nth n Ts []). split; [apply HT; exact Hn|]. cbn zeta. rewrite own_spec. unfold result_mesh. cbn [snd]. unfold blk. rewrite nv_nth by exact Hn. reflexivity.
Qed.
Lemma subdivided_good p E p' : good_mesh p -> subdivided p E p' -> good_mesh p' /\ length (fst p') = length (fst p) + length E /\ length (snd p') = 4 * length (snd p).
Proof.
  intros G (HE & Hv & t & HF & Hs). cbn zeta in Hs. assert (Lv : length (fst p') = length (fst p) + length E) by (rewrite Hv; unfold split_edges; rewrite app_length, map_length; reflexivity).
  split; [|split; [exact Lv|]].
  - unfold good_mesh in *. rewrite Lv, Hs.
    assert (A : forall q, In q (combine (snd p) t) -> let '((a, b, c), (i, j, k)) := q in
      ((0 <= a < Z.of_nat (length (fst p)) /\ 0 <= b < Z.of_nat (length (fst p)) /\ 0 <= c < Z.of_nat (length (fst p))) /\
       (0 <= i < Z.of_nat (length E) /\ 0 <= j < Z.of_nat (length E) /\ 0 <= k < Z.of_nat (length E)))%Z).
    { clear Hs HE. revert G. induction HF as [|((a, b), c) ((i, j), k) fs ts Ho _ IH]; intros G q Hq; [contradiction|]. apply Forall_cons_iff in G. destruct G as (G1 & G2). destruct Hq as [<-|Hq]; [|exact (IH G2 q Hq)].
      cbn in G1, Ho. destruct Ho as ((I1 & I2 & I3) & H1 & H2 & H3). assert (Z.to_nat i < length E) by (apply nth_error_Some; congruence). assert (Z.to_nat j < length E) by (apply nth_error_Some; congruence). assert (Z.to_nat k < length E) by (apply nth_error_Some; congruence). lia. }
    rewrite !Forall_app. refine (conj _ (conj _ (conj _ _))); apply Forall_forall; intros f Hf; apply in_map_iff in Hf; destruct Hf as ((((a, b), c), ((i, j), k)) & <- & Hq); specialize (A _ Hq); cbn in A |- *; lia.
  - rewrite Hs, !app_length, !map_length, combine_length, <- (f2_length _ _ _ HF), Nat.min_id. unfold face. lia.
Qed.
Lemma grouped_rows {F} (d : F) mean (Fs : list (list F)) (Es : list (list (Z * Z))) : length Fs = length Es ->
  map (fun q => fst q ++ snd q) (combine Fs (map (fun q => mids d mean (fst q) (snd q)) (combine Fs Es))) = map (fun n => split_edges d mean (nth n Fs []) (nth n Es [])) (seq 0 (length Fs)).
Proof.
  revert Es. induction Fs as [|f Fs IH]; intros [|E Es] L; try discriminate; [reflexivity|]. cbn [combine map length seq nth fst snd]. rewrite split_edges_mids. f_equal. rewrite <- seq_shift, map_map. apply IH. cbn in L. lia.
Qed.
Lemma mids_length {F} (d : F) mean Fs Es : length Fs = length Es -> map (@length F) (map (fun q => mids d mean (fst q) (snd q)) (combine Fs Es)) = map (@length (Z * Z)) Es.
Proof. revert Es. induction Fs as [|f Fs IH]; intros [|E Es] L; try discriminate; [reflexivity|]. cbn. unfold mids at 1. rewrite map_length. f_equal. apply IH. cbn in L. lia. Qed.
Lemma mids_ext {F} (d : F) mean mean' rows E : (forall u v, mean u v = mean' u v) -> mids d mean rows E = mids d mean' rows E.
Proof. intros H. apply map_ext. intros e. apply H. Qed.

(* grouping rows of features *)
Lemma feats_grouped {F} (d : F) mean b Es Fs : Forall good_mesh b -> own_edges b Es -> map (@length F) Fs = vcount b ->
  exists ms, edge_means mean (concat Fs) (move_edges 0 b Es) = Ok ms /\
    take (concat Fs ++ ms) (create_verts_index (vcount b) (map (@length _) Es)) = Ok (concat (map (fun n => split_edges d mean (nth n Fs []) (nth n Es [])) (seq 0 (length b)))).
Proof.
  intros G HE HF. pose proof (own_edges_length b Es HE) as LE. assert (LF : length Fs = length b) by (rewrite <- (map_length (@length F)), HF; unfold vcount; apply map_length).
  eexists. split; [exact (means_all d mean b Es G HE Fs [] HF)|]. rewrite <- HF. rewrite <- (mids_length d mean Fs Es) by congruence.
  rewrite take_grouped by (rewrite map_length, combine_length; lia). rewrite grouped_rows by congruence. rewrite LF. reflexivity.
Qed.
Lemma split_sizes_ok {F} (d : F) mean b Es Fs : own_edges b Es -> map (@length F) Fs = vcount b ->
  map (@length F) (map (fun n => split_edges d mean (nth n Fs []) (nth n Es [])) (seq 0 (length b))) =
  map (fun n => nth n (vcount b) 0 + nth n (map (@length _) Es) 0) (seq 0 (length (vcount b))).
Proof.
  intros HE HF. unfold vcount at 2. rewrite map_length. rewrite map_map. apply map_ext. intros n. unfold split_edges. rewrite app_length, map_length. rewrite <- HF. change 0 with (length (@nil F)) at 1. rewrite map_nth. change 0 with (length (@nil (Z * Z))). rewrite map_nth. reflexivity.
Qed.
Lemma move_back o f : shift_face (- Z.of_nat o) (move_face o f) = f.
Proof. destruct f as ((a, b), c). cbn. f_equal; [f_equal|]; lia. Qed.
Lemma starts_nth l n : n < length l -> rget (0 :: cumsum (removelast l)) n = Ok (start l n).
Proof.
  intros H. destruct l as [|x l]; [cbn in H; lia|]. unfold rget, cumsum. rewrite cumsum_removelast, firsts_nth by exact H. reflexivity.
Qed.
Lemma rmap_seq {B} (f : nat -> result B) (g : nat -> B) N : (forall n, n < N -> f n = Ok (g n)) -> rmap f (seq 0 N) = Ok (map g (seq 0 N)).
Proof.
  intros H. assert (G : forall l, (forall n, In n l -> n < N) -> rmap f l = Ok (map g l)).
  { induction l as [|n l IH]; intros Hl; [reflexivity|]. cbn [rmap map]. rewrite H by (apply Hl; left; reflexivity). cbn [rbind]. rewrite IH; [reflexivity|]. intros k Hk. apply Hl. right. exact Hk. }
  apply G. intros n Hn. apply in_seq in Hn. lia.
Qed.
Lemma fcount_nth b n : n < length b -> nth n (fcount b) 0 = length (snd (nth n b no_mesh)).
Proof. intros H. unfold fcount. rewrite (nth_indep _ 0 (length (snd no_mesh))) by (rewrite map_length; exact H). rewrite (map_nth (fun p : mesh => length (snd p))). reflexivity. Qed.

Theorem hetero_ok {F} (d : F) (mean : F -> F -> F) m a (feats : option (list F)) :
  reachable argsort m a -> (forall f, feats = Some f -> length f = length (all_verts (batch a))) ->
  exists o nf m' b' Es, subdivide_heterogeneous argsort mean m feats = Ok (o, nf, m') /\ reachable argsort m' a /\
    length b' = length (batch a) /\ length Es = length (batch a) /\
    (forall n, n < length (batch a) -> subdivided (nth n (batch a) no_mesh) (nth n Es []) (nth n b' no_mesh)) /\
    reachable argsort o (from_lists b') /\
    match feats with
    | None => nf = None
    | Some f => exists Fs, pieces (vcount (batch a)) f Fs /\ nf = Some (concat (map (fun n => split_edges d mean (nth n Fs []) (nth n Es [])) (seq 0 (length (batch a)))))
    end.
Proof.
  intros HR Hfeats. destruct (reachable_shows argsort Hsorts m a HR) as (_ & HN & G). set (b := batch a) in *.
  destruct (own_edges_exist b G) as (Es & HE). pose proof (own_edges_length b Es HE) as LE.
  destruct (reachable_repr argsort Hsorts m a HR) as (W & _). destruct W as (_ & HasF & _). fold b in HasF.
  unfold subdivide_heterogeneous. rewrite HN.
  destruct (verts_packed_r m a HR) as (m1 & E1 & R1). rewrite E1. cbn [rbind].
  destruct (subdivide_faces_r m1 a Es G HE R1) as (t & m2 & E2 & R2 & HF). rewrite E2. cbn [rbind]. clear E1 E2 R1.
  destruct (edges_r m2 a Es HE R2) as (m3 & E3 & R3). rewrite E3. cbn [rbind]. clear E3 R2.
  destruct (faces_idx_r m3 a R3) as (m4 & E4 & R4). rewrite E4. cbn [rbind]. clear E4 R3.
  destruct (edges_idx_r m4 a Es HE R4) as (m5 & E5 & R5). rewrite E5. cbn [rbind]. clear E5 R4.
  destruct (counts_r m5 a R5) as (C1 & C2 & _). rewrite C1, C2. fold b in HF |- *. set (nv := vcount b). set (ne := map (@length (Z * Z)) Es). set (N := length b).
  assert (Lnv : length nv = N) by (unfold nv, vcount; apply map_length). assert (Lne : length ne = N) by (unfold ne; rewrite map_length; exact LE).
  assert (B1 : bincount N (owners 0 ne) = Ok ne).
  { rewrite owners_flat, Lne. rewrite (bincount_groups _ (fun n => nth n ne 0)) by reflexivity. f_equal. rewrite <- Lne. rewrite (map_seq_nth (fun x => x) 0 ne). apply map_id. }
  rewrite B1. cbn [rbind]. rewrite sizes_value by congruence. cbn [rbind].
  set (nn := map (fun n => nth n nv 0 + nth n ne 0) (seq 0 (length nv))).
  destruct (ordered_ok nv ne ltac:(congruence)) as (ord & Eo & Ho). fold nn in Eo, Ho. rewrite Eo. cbn [rbind].
  assert (ND : NoDup ([] ++ move_edges 0 b Es)) by (apply lex_sorted_nodup, (proj1 (move_edges_list b Es G HE 0))).
  destruct (local_all b Es HE 0 [] t ND HF) as (Ts & HT & Et). cbn [length Nat.add] in Et.
  rewrite (renumber_all b Es Ts ord G HT Ho t Et). cbn [rbind]. fold nv ne nn N.
  assert (LX : forall q n, q < 4 -> n < N -> length (map (move_face (start nn n)) (blk b Ts q n)) = nth n (fcount b) 0).
  { intros q n _ Hn. rewrite map_length. unfold blk. rewrite own_length by (apply (fs_ts b Es Ts HT); exact Hn). rewrite fcount_nth by exact Hn. reflexivity. }
  assert (LFc : length (fcount b) = N) by (unfold fcount; apply map_length).
  rewrite (take_four (fun q n => map (move_face (start nn n)) (blk b Ts q n)) N (fcount b) LFc LX). cbn [rbind].
  rewrite !owners_flat, LFc.
  rewrite (take_four (fun _ n => repeat (Z.of_nat (0 + n)) (nth n (fcount b) 0)) N (fcount b) LFc) by (intros; apply repeat_length). cbn [rbind].
  rewrite (bincount_groups _ (fun n => nth n (fcount b) 0 + (nth n (fcount b) 0 + (nth n (fcount b) 0 + nth n (fcount b) 0)))) by (intros n _; rewrite !repeat_app; reflexivity). cbn [rbind].
  assert (Av : all_verts b = concat (map fst b)) by reflexivity.
  assert (Lf : map (@length vec3) (map fst b) = vcount b) by (unfold vcount; apply map_map).
  destruct (feats_grouped (V3 0 0 0)%R mean_row b Es (map fst b) G HE Lf) as (ms & Em & Tm). rewrite <- Av in Em, Tm. rewrite Em. cbn [rbind]. fold nv ne in Tm. rewrite Tm. cbn [rbind].
  assert (Mv : forall n, split_edges (V3 0 0 0)%R mean_row (nth n (map fst b) []) (nth n Es []) = fst (result_mesh b Es Ts n)).
  { intros n. unfold result_mesh. cbn [fst]. rewrite !split_edges_mids. change (@nil vec3) with (fst no_mesh) at 1 2. rewrite map_nth. f_equal. apply mids_ext. exact mean_midpoint. }
  pose proof (split_sizes_ok (V3 0 0 0)%R mean_row b Es (map fst b) HE Lf) as Sz. fold nv ne nn in Sz.
  assert (PF : exists nf0, match feats with None => Ok None | Some fs => ms0 <- edge_means mean fs (move_edges 0 b Es) ;; r <- take (fs ++ ms0) (create_verts_index nv ne) ;; Ok (Some r) end = Ok nf0 /\
     exists nf, match nf0 with None => Ok None | Some r => ls <- packed_to_list r nn ;; match ls with [] => Fail ERuntime | _ => Ok (Some (concat ls)) end end = Ok nf /\
     match feats with None => nf = None | Some f => exists Fs, pieces (vcount b) f Fs /\ nf = Some (concat (map (fun n => split_edges d mean (nth n Fs []) (nth n Es [])) (seq 0 (length b)))) end).
  { destruct feats as [f|].
    - specialize (Hfeats f eq_refl). assert (Sf : sum_nat (vcount b) = length f) by (rewrite Hfeats; unfold all_verts; rewrite length_concat_sum, Lf; reflexivity).
      destruct (concat_split_sizes (vcount b) f Sf) as (P1 & P2). set (Fs := split_sizes f (vcount b)) in *.
      destruct (feats_grouped d mean b Es Fs G HE P2) as (ms0 & Em0 & Tm0). rewrite P1 in Em0, Tm0. eexists. rewrite Em0. cbn [rbind]. fold nv ne in Tm0. rewrite Tm0. cbn [rbind]. split; [reflexivity|].
      pose proof (split_sizes_ok d mean b Es Fs HE P2) as Sz0. fold nv ne nn in Sz0. rewrite <- Sz0. rewrite packed_to_list_inverse. cbn [rbind].
      destruct (map (fun n => split_edges d mean (nth n Fs []) (nth n Es [])) (seq 0 (length b))) as [|x l] eqn:El.
      + exfalso. destruct HasF as (p & Hp & _). destruct b; [contradiction|discriminate].
      + eexists. split; [reflexivity|]. exists Fs. split; [split; [exact P1|exact P2]|]. rewrite El. reflexivity.
    - exists None. split; [reflexivity|]. exists None. split; reflexivity. }
  destruct PF as (nf0 & Ef & nf & Ef' & Hnf). rewrite Ef. cbn [rbind]. pose proof (packed_to_list_inverse (map (fun n => split_edges (V3 0 0 0)%R mean_row (nth n (map fst b) []) (nth n Es [])) (seq 0 (length b)))) as PV. rewrite Sz in PV. rewrite PV. clear PV. cbn [rbind].
  set (X := fun n => map (move_face (start nn n)) (blk b Ts 0 n) ++ map (move_face (start nn n)) (blk b Ts 1 n) ++ map (move_face (start nn n)) (blk b Ts 2 n) ++ map (move_face (start nn n)) (blk b Ts 3 n)).
  replace (map (fun n => nth n (fcount b) 0 + (nth n (fcount b) 0 + (nth n (fcount b) 0 + nth n (fcount b) 0))) (seq 0 N)) with (map (@length face) (map X (seq 0 N))).
  2:{ rewrite map_map. apply map_ext_in. intros n Hn. apply in_seq in Hn. unfold X. rewrite !app_length. rewrite (LX 0 n), (LX 1 n), (LX 2 n), (LX 3 n) by lia. reflexivity. }
  rewrite packed_to_list_inverse. cbn [rbind].
  rewrite (rmap_seq _ (fun n => snd (result_mesh b Es Ts n))).
  2:{ intros n Hn. unfold rget at 1. rewrite nth_error_map_iff, nth_error_seq_lt by exact Hn. cbn [option_map rbind]. rewrite starts_nth by (unfold nn; rewrite map_length, seq_length, Lnv; exact Hn). cbn [rbind]. f_equal. unfold X, result_mesh. cbn [snd].
      rewrite !map_app, !map_map. repeat (apply f_equal2; [rewrite <- map_id; apply map_ext; intros f; apply move_back|]). rewrite <- map_id. apply map_ext. intros f. apply move_back. }
  cbn [rbind]. rewrite Ef'. cbn [rbind].
  set (b' := map (result_mesh b Es Ts) (seq 0 N)).
  replace (map (fun n => split_edges (V3 0 0 0)%R mean_row (nth n (map fst b) []) (nth n Es [])) (seq 0 (length b))) with (map fst b').
  2:{ unfold b'. rewrite map_map. apply map_ext. intros n. symmetry. apply Mv. }
  replace (map (fun n => snd (result_mesh b Es Ts n)) (seq 0 N)) with (map snd b') by (unfold b'; apply map_map).
  assert (Lb' : length b' = N) by (unfold b'; rewrite map_length, seq_length; reflexivity).
  assert (Hsub : forall n, n < N -> subdivided (nth n b no_mesh) (nth n Es []) (nth n b' no_mesh)).
  { intros n Hn. replace (nth n b' no_mesh) with (result_mesh b Es Ts n).
    - apply result_subdivided; assumption.
    - symmetry. apply nth_error_nth. unfold b'. rewrite nth_error_map_iff, nth_error_seq_lt by exact Hn. reflexivity. }
  assert (Gb' : Forall good_mesh b').
  { apply Forall_forall. intros p Hp. apply (In_nth _ _ no_mesh) in Hp. destruct Hp as (n & Hn & <-). rewrite Lb' in Hn. eapply subdivided_good; [|apply Hsub; exact Hn]. rewrite Forall_forall in G. apply G. apply nth_In. exact Hn. }
  assert (Fb' : has_a_face b').
  { destruct HasF as (p & Hp & Hs). apply (In_nth _ _ no_mesh) in Hp. destruct Hp as (n & Hn & <-). exists (nth n b' no_mesh). split; [apply nth_In; rewrite Lb'; exact Hn|].
    assert (Gn : good_mesh (nth n b no_mesh)) by (rewrite Forall_forall in G; apply G; apply nth_In; exact Hn). destruct (subdivided_good _ _ _ Gn (Hsub n Hn)) as (_ & _ & L4). intros C. rewrite C in L4. destruct (snd (nth n b no_mesh)); [contradiction|cbn in L4; lia]. }
  destruct (list_behaves argsort Hsorts b' Gb' Fb') as (o & En & _). rewrite En. cbn [rbind].
  exists o, nf, m5, b', Es. split; [reflexivity|]. split; [exact R5|]. split; [exact Lb'|]. split; [exact LE|]. split; [exact Hsub|]. split; [|exact Hnf].
  apply made_from_lists; assumption.
Qed.
End Argsort.
