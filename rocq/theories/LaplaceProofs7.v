From Coq Require Import Permutation Psatz.
From Verif Require Import Base Packing PackingProofs RBase Geom FaceAreas FaceAreasSpec Meshes MeshesSpec MeshesHistSpec MeshesProofs MeshesProofs2 MeshesProofs3 MeshesProofs6 MeshesProofs9 MeshesProofs10 MeshesProofs11 Laplace LaplaceSpec LaplaceProofs LaplaceProofs2 LaplaceProofs3 LaplaceProofs4 LaplaceProofs5 LaplaceProofs6.
From Verif Require PointcloudsProofs2.
Local Open Scope R_scope.

(* ---- batches without faces ---- *)
Lemma faceless_empty b m : Forall (fun p : mesh => snd p = []) b -> new_list (map fst b) (map snd b) = Ok m -> isempty m = true.
Proof.
  intros H E. destruct b as [|p b]; [injection E as <-; reflexivity|]. apply (f_equal (fun r => match r with Ok x => isempty x | Fail _ => true end)) in E. cbv beta iota in E. rewrite <- E. unfold new_list. cbn [map length].
  unfold isempty. cbn [mN valid]. unfold no_valid. apply orb_true_iff. right. apply forallb_forall. intros v Hv. apply in_map_iff in Hv. destruct Hv as (q & <- & Hq). destruct q as (q1, q2). apply in_combine_r in Hq. change q2 with (snd (q1, q2)) in Hq. set (q := (q1, q2)) in *. clearbody q. 
  assert (G : snd q = []). { change (filter real_face (snd p) :: map (filter real_face) (map snd b)) with (map (filter real_face) (map snd (p :: b))) in Hq. apply in_map_iff in Hq. destruct Hq as (f & <- & Hf). apply in_map_iff in Hf. destruct Hf as (x & <- & Hx). rewrite Forall_forall in H. rewrite (H x Hx). reflexivity. }
  rewrite G. cbn. rewrite andb_false_r. reflexivity.
Qed.

(* ---- isolated vertices ---- *)
Lemma step_total lam es vs : Forall (in_graph (length vs)) es -> exists vs', smooth_step eps12 lam es vs = Ok vs' /\ length vs' = length vs.
Proof.
  intros H. unfold smooth_step.
  assert (E : exists ws, rmap (fun e => v0 <- nan_at vs (fst e) ;; v1 <- nan_at vs (snd e) ;;
                       Ok [(fst e, opt2 (fun w v => (w, scal3 w v)) (edge_weight eps12 v0 v1) v1);
                           (snd e, opt2 (fun w v => (w, scal3 w v)) (edge_weight eps12 v0 v1) v0)]) es = Ok ws).
  { induction H as [|e es (A & B) H (ws & IH)]; [eexists; reflexivity|]. cbn [rmap].
    assert (N : forall z, (0 <= z < Z.of_nat (length vs))%Z -> exists v, nan_at vs z = Ok v). { intros z Hz. unfold nan_at. destruct (Z.ltb_spec z 0); [lia|]. unfold rget. destruct (nth_error vs (Z.to_nat z)) eqn:E; [eauto|]. apply nth_error_None in E. lia. }
    destruct (N _ A) as (v0 & ->), (N _ B) as (v1 & ->). cbn [rbind]. rewrite IH. eexists. reflexivity. }
  destruct E as (ws & ->). cbn [rbind]. eexists. split; [reflexivity|]. rewrite map_length, combine_length, seq_length. lia.
Qed.
Lemma step_none lam es vs vs' i : smooth_step eps12 lam es vs = Ok vs' -> nth_error vs i = Some None -> nth_error vs' i = Some None.
Proof.
  unfold smooth_step. destruct (rmap _ es) as [ws|]; [|discriminate]. cbn [rbind]. intros E H. injection E as <-. rewrite nth_error_map_iff. assert (L : (i < length vs)%nat) by (apply nth_error_Some; congruence).
  assert (C : nth_error (combine (seq 0 (length vs)) vs) i = Some (i, None)). { apply PointcloudsProofs2.nth_combine; [rewrite nth_error_seq_lt by exact L; reflexivity|exact H]. }
  rewrite C. cbn [option_map fst snd]. destruct (opt_sum _) as [(t, s)|]; reflexivity.
Qed.
Lemma iterate_total n lam mu es : forall vs, Forall (in_graph (length vs)) es -> exists vs', taubin_iterate n lam mu es vs = Ok vs' /\ length vs' = length vs.
Proof.
  induction n as [|n IH]; intros vs H; [eexists; split; reflexivity|]. cbn [taubin_iterate]. destruct (step_total lam es vs H) as (v1 & -> & L1). cbn [rbind]. rewrite <- L1 in H. destruct (step_total mu es v1 H) as (v2 & -> & L2). cbn [rbind]. rewrite <- L2 in H. destruct (IH v2 H) as (v3 & E & L3). exists v3. split; [exact E|lia].
Qed.
Lemma iterate_none n lam mu es i : forall vs vs', taubin_iterate n lam mu es vs = Ok vs' -> nth_error vs i = Some None -> nth_error vs' i = Some None.
Proof.
  induction n as [|n IH]; intros vs vs' E H; [injection E as <-; exact H|]. cbn [taubin_iterate] in E. destruct (smooth_step eps12 lam es vs) as [v1|] eqn:E1; [|discriminate]. cbn [rbind] in E. destruct (smooth_step eps12 mu es v1) as [v2|] eqn:E2; [|discriminate]. cbn [rbind] in E.
  apply (IH _ _ E). apply (step_none _ _ _ _ _ E2), (step_none _ _ _ _ _ E1), H.
Qed.
Lemma isolated_ends F p k : good_mesh p -> nbrs p k = [] -> ends_sum F (zedges p) k = 0.
Proof.
  intros Hg Hn. apply ends_none. apply Forall_map, Forall_forall. intros (i, j) H. apply mesh_edges_in in H. destruct H as (_ & Hi & H). unfold zedge. cbn [fst snd]. split; intros E; apply Nat2Z.inj in E; subst.
  - rewrite Hn in H. destruct H.
  - assert (In i (nbrs p k)) by (apply nbrs_in in H; destruct H as (Hk & f & Hf & Hs); apply nbrs_in; split; [exact Hi|exists f; split; [exact Hf|apply side_sym, Hs]]). rewrite Hn in H0. destruct H0.
Qed.
Lemma isolated_new lam b1 p b2 k : Forall good_mesh (b1 ++ p :: b2) -> (k < length (fst p))%nat -> nbrs p k = [] ->
  new_vertex (all_verts (b1 ++ p :: b2)) (zall (b1 ++ p :: b2)) lam (length (all_verts b1) + k) = None.
Proof.
  intros Hg Hk Hn. assert (Hp : good_mesh p) by (rewrite Forall_forall in Hg; apply Hg, in_elt). unfold new_vertex. rewrite ends_local, isolated_ends by assumption. cbv zeta. destruct (Reqb_spec 0 0); [reflexivity|lra].
Qed.
Lemma pieces_row {T} (vl : list (list T)) b1 (p : mesh) b2 k : map (@length T) vl = vcount (b1 ++ p :: b2) -> (k < length (fst p))%nat ->
  exists row, nth_error vl (length b1) = Some row /\ nth_error row k = nth_error (concat vl) (length (all_verts b1) + k).
Proof.
  revert vl. induction b1 as [|q b1 IH]; intros vl E Hk; destruct vl as [|row vl]; cbn in E; try discriminate.
  - injection E as E1 E2. exists row. split; [reflexivity|]. cbn [concat]. unfold all_verts. cbn [map concat length Nat.add]. rewrite nth_error_app1 by lia. reflexivity.
  - injection E as E1 E2. destruct (IH vl E2 Hk) as (r & H1 & H2). exists r. split; [exact H1|]. rewrite H2. cbn [concat]. unfold all_verts at 2. cbn [map concat]. rewrite app_length. fold (all_verts b1). rewrite nth_error_app2 by lia. f_equal. lia.
Qed.
Section Arg.
Variable argsort : list Z -> list nat.
Hypothesis Hsort : sorts argsort.
Theorem taubin_isolated lam mu n m a b1 p b2 k : reachable argsort m a -> batch a = b1 ++ p :: b2 -> (k < length (fst p))%nat -> nbrs p k = [] ->
  exists vl fl m' row, taubin_smoothing argsort lam mu (S n) m = Ok (vl, fl, m') /\ nth_error vl (length b1) = Some row /\ nth_error row k = Some None.
Proof.
  intros Hr Eb Hk Hn. destruct (reachable_repr argsort Hsort m a Hr) as (Hw & R0). pose proof (proj1 Hw) as Hg. unfold taubin_smoothing.
  destruct (verts_ask argsort a m Hw R0) as (m1 & E1 & R1). rewrite E1. cbn [rbind]. destruct (edges_ask argsort Hsort a m1 Hw R1) as (m2 & E2 & R2). rewrite E2. cbn [rbind]. fold (zall (batch a)).
  assert (GR : Forall (in_graph (length (map Some (all_verts (batch a))))) (zall (batch a))) by (rewrite map_length; apply zall_range, Hg).
  destruct (iterate_total (S n) lam mu _ _ GR) as (vs' & E3 & L3). rewrite E3. cbn [rbind]. unfold num_verts_per_mesh. rewrite (r_nv _ _ _ R2).
  destruct (split_total vs' (vcount (batch a))) as (vl & E4 & P1 & P2). { rewrite L3, map_length. unfold all_verts, vcount. rewrite length_concat_sum, map_map. reflexivity. }
  rewrite E4. cbn [rbind]. destruct (faces_list_ok argsort a m2 Hw R2) as (m3 & E5 & R3 & _). rewrite E5. cbn [rbind].
  rewrite Eb in P2. destruct (pieces_row vl b1 p b2 k P2 Hk) as (row & H1 & H2). exists vl, (map snd (batch a)), m3, row. split; [reflexivity|]. split; [exact H1|]. rewrite H2, P1.
  cbn [taubin_iterate] in E3. rewrite smooth_step_value in E3 by (apply zall_range, Hg). cbn [rbind] in E3. destruct (smooth_step eps12 mu _ _) as [v2|] eqn:E6; [|discriminate]. cbn [rbind] in E3.
  apply (iterate_none _ _ _ _ _ _ _ E3). apply (step_none _ _ _ _ _ E6). rewrite nth_error_map_iff, nth_error_seq_lt by (rewrite Eb, all_verts_mid, !app_length; lia). cbn [option_map Nat.add]. f_equal. rewrite Eb. apply isolated_new; [rewrite <- Eb; exact Hg|exact Hk|exact Hn].
Qed.
End Arg.

(* ---- a triangle and an isolated vertex at the origin ---- *)
Definition lonely : mesh := ([V3 0 0 0; V3 1 0 0; V3 0 1 0; V3 0 0 0], [(0, 1, 2)%Z]).
Lemma lonely_good : good_mesh lonely.
Proof. repeat constructor; cbn; lia. Qed.
Lemma four_mean x y z w : mean [mean [x; y; z; w]] = (x + y + z + w) / 4.
Proof. unfold mean. cbn [length]. rewrite !rsum_cons, !rsum_nil. cbn [INR]. field. Qed.
Lemma lonely_shift step t : (forall i, (i < 3)%nat -> norm3 (step (mv (fun v => v) t lonely) i) = norm3 (step lonely i)) -> step lonely 3%nat = V3 0 0 0 -> step (mv (fun v => v) t lonely) 3%nat = sub3 (V3 0 0 0) t -> t <> V3 0 0 0 ->
  smoothing_loss step (moved (fun v => add3 v t) [lonely]) <> smoothing_loss step [lonely].
Proof.
  intros H H3 H3' Ht. rewrite (moved_mv _ (fun v => v) t) by reflexivity. unfold smoothing_loss. cbn [map seq length fst mv lonely]. fold lonely. fold (mv (fun v => v) t lonely). rewrite !four_mean. rewrite !H by lia. rewrite H3, H3'. intros E.
  assert (E0 : norm3 (sub3 (V3 0 0 0) t) = norm3 (V3 0 0 0)) by lra. rewrite (proj2 (norm_zero (V3 0 0 0)) eq_refl) in E0. apply norm_zero in E0. apply Ht. destruct t as [x y z]. unfold sub3 in E0. cbn in E0. injection E0 as E1 E2 E3. f_equal; lra.
Qed.
Lemma lonely_uniform t : t <> V3 0 0 0 -> smoothing_loss to_centroid (moved (fun v => add3 v t) [lonely]) <> smoothing_loss to_centroid [lonely].
Proof.
  intros Ht. apply lonely_shift; [| | |exact Ht].
  - intros i Hi. rewrite (centroid_mv (fun v => v) t) by (try reflexivity; try apply lonely_good; try (cbn; lia); (destruct i as [|[|[|i]]]; [discriminate|discriminate|discriminate|lia])). reflexivity.
  - change (to_centroid lonely 3) with (sub3 (V3 0 0 0) (V3 0 0 0)). unfold sub3. cbn. f_equal; lra.
  - change (to_centroid (mv (fun v => v) t lonely) 3) with (sub3 (V3 0 0 0) (add3 (V3 0 0 0) t)). f_equal. destruct t. unfold add3. cbn. f_equal; lra.
Qed.
Lemma one_corner vs x y z : 0 < dot3 (sub3 (at_ vs y) (at_ vs z)) (sub3 (at_ vs y) (at_ vs z)) ->
  0 < rsum [dist (at_ vs y) (at_ vs z) * dist (at_ vs y) (at_ vs z) / (2 * area_of (at_ vs x) (at_ vs y) (at_ vs z))].
Proof.
  intros D. rewrite rsum_cons, rsum_nil, Rplus_0_r. unfold dist. rewrite norm_sq. apply Rdiv_lt_0_compat; [exact D|]. pose proof (area_pos (at_ vs x) (at_ vs y) (at_ vs z)). lra.
Qed.
Lemma lonely_total i : (i < 3)%nat -> 0 < total (cot_weights (fst lonely) (snd lonely) i).
Proof.
  intros Hi. rewrite cot_total_value. destruct i as [|[|[|i]]]; [apply (one_corner _ 0 1 2)%Z|apply (one_corner _ 1 2 0)%Z|apply (one_corner _ 2 0 1)%Z|lia].
  - change (0 < dot3 (sub3 (V3 1 0 0) (V3 0 1 0)) (sub3 (V3 1 0 0) (V3 0 1 0))). unfold dot3, sub3. cbn [x3 y3 z3]. lra.
  - change (0 < dot3 (sub3 (V3 0 1 0) (V3 0 0 0)) (sub3 (V3 0 1 0) (V3 0 0 0))). unfold dot3, sub3. cbn [x3 y3 z3]. lra.
  - change (0 < dot3 (sub3 (V3 0 0 0) (V3 1 0 0)) (sub3 (V3 0 0 0) (V3 1 0 0))). unfold dot3, sub3. cbn [x3 y3 z3]. lra.
Qed.
Lemma lonely_cot t : t <> V3 0 0 0 -> smoothing_loss to_cot_centroid (moved (fun v => add3 v t) [lonely]) <> smoothing_loss to_cot_centroid [lonely].
Proof.
  intros Ht. apply lonely_shift; [| | |exact Ht].
  - intros i Hi. rewrite (cot_centroid_mv (fun v => v) t) by (try reflexivity; try apply lonely_good; try (cbn; lia); apply lonely_total, Hi). reflexivity.
  - unfold to_cot_centroid. change (cot_weights (fst lonely) (snd lonely) 3) with (@nil (R * vec3)). cbv zeta. unfold total. cbn [map]. rewrite rsum_nil. destruct (Rltb_spec 0 0); [lra|]. change (vertex lonely 3) with (V3 0 0 0). unfold sub3. cbn. f_equal; lra.
  - unfold to_cot_centroid. change (cot_weights (fst (mv (fun v => v) t lonely)) (snd (mv (fun v => v) t lonely)) 3) with (@nil (R * vec3)). cbv zeta. unfold total. cbn [map]. rewrite rsum_nil. destruct (Rltb_spec 0 0); [lra|]. change (vertex (mv (fun v => v) t lonely) 3) with (add3 (V3 0 0 0) t). f_equal. destruct t. unfold add3. cbn. f_equal; lra.
Qed.
