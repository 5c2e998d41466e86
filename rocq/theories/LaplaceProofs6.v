From Coq Require Import Permutation Psatz.
From Verif Require Import Base Packing PackingProofs RBase Geom FaceAreas FaceAreasSpec Meshes MeshesSpec MeshesHistSpec MeshesProofs MeshesProofs2 MeshesProofs3 MeshesProofs6 MeshesProofs9 MeshesProofs10 MeshesProofs11 Laplace LaplaceSpec LaplaceProofs LaplaceProofs2 LaplaceProofs3 LaplaceProofs4 LaplaceProofs5.
Local Open Scope R_scope.

Lemma opt_sum_some l : opt_sum (map Some l) = Some (rsum (map fst l), vsum (map snd l)).
Proof. induction l as [|x l IH]; [reflexivity|]. cbn [map opt_sum fold_right]. fold (opt_sum (map Some l)). rewrite IH. reflexivity. Qed.
Definition wt (vs : list vec3) (i z : Z) : R := / (dist (at_ vs i) (at_ vs z) + eps12).
Definition row_list (vs : list vec3) (i : nat) (es : list (Z * Z)) : list (R * vec3) :=
  flat_map (fun e => (if (fst e =? Z.of_nat i)%Z then [(wt vs (fst e) (snd e), scal3 (wt vs (fst e) (snd e)) (at_ vs (snd e)))] else []) ++
                     (if (snd e =? Z.of_nat i)%Z then [(wt vs (fst e) (snd e), scal3 (wt vs (fst e) (snd e)) (at_ vs (fst e)))] else [])) es.
Lemma wt_sym vs i z : wt vs i z = wt vs z i.
Proof. unfold wt. rewrite dist_sym. reflexivity. Qed.
Lemma row_total_ends vs i es : rsum (map fst (row_list vs i es)) = ends_sum (wt vs (Z.of_nat i)) es i.
Proof.
  unfold row_list, ends_sum. induction es as [|e es IH]; [reflexivity|]. cbn [flat_map map]. rewrite !map_app, !rsum_app, IH, rsum_cons. f_equal.
  destruct (Z.eqb_spec (fst e) (Z.of_nat i)) as [E1|], (Z.eqb_spec (snd e) (Z.of_nat i)) as [E2|]; cbn [map fst]; rewrite ?rsum_cons, ?rsum_nil; rewrite <- ?E1, <- ?E2, ?(wt_sym vs (snd e) (fst e)); try lra. rewrite E1, E2. lra.
Qed.
Lemma row_vsum_ends vs i es a : coord a (vsum (map snd (row_list vs i es))) = ends_sum (fun z => wt vs (Z.of_nat i) z * coord a (at_ vs z)) es i.
Proof.
  rewrite coord_vsum, map_map. unfold row_list, ends_sum. induction es as [|e es IH]; [reflexivity|]. cbn [flat_map map]. rewrite !map_app, !rsum_app, IH, rsum_cons. f_equal.
  destruct (Z.eqb_spec (fst e) (Z.of_nat i)) as [E1|], (Z.eqb_spec (snd e) (Z.of_nat i)) as [E2|]; cbn [map snd]; rewrite ?rsum_cons, ?rsum_nil, ?coord_scal.
  - rewrite E1, E2. lra.
  - rewrite <- E1. lra.
  - rewrite <- E2, (wt_sym vs (snd e) (fst e)). lra.
  - lra.
Qed.
Lemma nan_at_in vs z : (0 <= z < Z.of_nat (length vs))%Z -> nan_at (map Some vs) z = Ok (Some (at_ vs z)).
Proof.
  intros H. unfold nan_at, at_. destruct (Z.ltb_spec z 0); [lia|]. unfold rget. rewrite nth_error_map_iff, (nth_error_nth' vs (V3 0 0 0)) by lia. reflexivity.
Qed.
Definition new_vertex (vs : list vec3) (es : list (Z * Z)) (lam : R) (i : nat) : option vec3 :=
  let t := ends_sum (wt vs (Z.of_nat i)) es i in
  if Reqb t 0 then None else Some (add3 (scal3 (1 - lam) (at_ vs (Z.of_nat i))) (div3 (scal3 lam (vsum (map snd (row_list vs i es)))) t)).
Lemma smooth_step_value lam es vs : Forall (in_graph (length vs)) es -> smooth_step eps12 lam es (map Some vs) = Ok (map (new_vertex vs es lam) (seq 0 (length vs))).
Proof.
  intros H. unfold smooth_step.
  assert (E : rmap (fun e => v0 <- nan_at (map Some vs) (fst e) ;; v1 <- nan_at (map Some vs) (snd e) ;;
                       Ok [(fst e, opt2 (fun w v => (w, scal3 w v)) (edge_weight eps12 v0 v1) v1);
                           (snd e, opt2 (fun w v => (w, scal3 w v)) (edge_weight eps12 v0 v1) v0)]) es
    = Ok (map (fun e => [(fst e, Some (wt vs (fst e) (snd e), scal3 (wt vs (fst e) (snd e)) (at_ vs (snd e)))); (snd e, Some (wt vs (fst e) (snd e), scal3 (wt vs (fst e) (snd e)) (at_ vs (fst e))))]) es)).
  { induction H as [|e es (A & B) H IH]; [reflexivity|]. cbn [rmap map]. rewrite !nan_at_in by assumption. cbn [rbind]. rewrite IH. reflexivity. }
  rewrite E. cbn [rbind]. clear E. f_equal. rewrite map_length.
  assert (C : combine (seq 0 (length vs)) (map Some vs) = map (fun i => (i, Some (at_ vs (Z.of_nat i)))) (seq 0 (length vs))).
  { pose proof (self_seq vs) as S0. rewrite S0 at 2. rewrite map_map. apply combine_self_map. }
  rewrite C, map_map. apply map_ext. intros i. cbn [fst snd].
  assert (M : map snd (filter (fun q : Z * option (R * vec3) => (fst q =? Z.of_nat i)%Z) (concat (map (fun e => [(fst e, Some (wt vs (fst e) (snd e), scal3 (wt vs (fst e) (snd e)) (at_ vs (snd e)))); (snd e, Some (wt vs (fst e) (snd e), scal3 (wt vs (fst e) (snd e)) (at_ vs (fst e))))]) es))) = map Some (row_list vs i es)).
  { clear. unfold row_list. induction es as [|e es IH]; [reflexivity|]. cbn [map concat flat_map]. rewrite filter_app, map_app, IH, map_app. f_equal. cbn [filter fst]. destruct (fst e =? Z.of_nat i)%Z, (snd e =? Z.of_nat i)%Z; reflexivity. }
  rewrite M, opt_sum_some, row_total_ends. reflexivity.
Qed.
Lemma near_pos p i j : 0 < near_weight p i j.
Proof. apply Rinv_0_lt_compat. unfold dist. pose proof (norm_nonneg (sub3 (vertex p i) (vertex p j))). lra. Qed.
Lemma new_vertex_local lam b1 p b2 k : Forall good_mesh (b1 ++ p :: b2) -> Forall three_corners (snd p) -> (k < length (fst p))%nat -> nbrs p k <> [] ->
  new_vertex (all_verts (b1 ++ p :: b2)) (zall (b1 ++ p :: b2)) lam (length (all_verts b1) + k) = Some (add3 (scal3 (1 - lam) (vertex p k)) (scal3 lam (near_mean p k))).
Proof.
  intros Hg H3 Hk Hn. assert (Hp : good_mesh p) by (rewrite Forall_forall in Hg; apply Hg, in_elt). unfold new_vertex.
  assert (W : forall j, In j (nbrs p k) -> wt (all_verts (b1 ++ p :: b2)) (Z.of_nat (length (all_verts b1) + k)) (Z.of_nat j + Z.of_nat (length (all_verts b1))) = near_weight p k j /\ at_ (all_verts (b1 ++ p :: b2)) (Z.of_nat j + Z.of_nat (length (all_verts b1))) = vertex p j).
  { intros j Hj. apply nbrs_in in Hj. assert (AJ : at_ (all_verts (b1 ++ p :: b2)) (Z.of_nat j + Z.of_nat (length (all_verts b1))) = vertex p j) by (rewrite <- (vertex_local b1 p b2 j) by tauto; f_equal; lia). split; [|exact AJ]. unfold wt. rewrite AJ, vertex_local by exact Hk. reflexivity. }
  set (ws := map (fun j => (near_weight p k j, vertex p j)) (nbrs p k)).
  assert (T0 : ends_sum (wt (all_verts (b1 ++ p :: b2)) (Z.of_nat (length (all_verts b1) + k))) (zall (b1 ++ p :: b2)) (length (all_verts b1) + k) = total ws).
  { rewrite ends_local, ends_nbrs by assumption. unfold total, ws. rewrite map_map. cbn [fst]. apply rsum_map_ext. intros j Hj. apply W, Hj. }
  assert (S0 : vsum (map snd (row_list (all_verts (b1 ++ p :: b2)) (length (all_verts b1) + k) (zall (b1 ++ p :: b2)))) = combination ws).
  { apply coord_ext. intros a. rewrite row_vsum_ends, ends_local, ends_nbrs by assumption. unfold combination, ws. rewrite coord_vsum, !map_map. cbn [fst snd]. apply rsum_map_ext. intros j Hj. destruct (W j Hj) as (-> & ->). rewrite coord_scal. reflexivity. }
  assert (TP : 0 < total ws).
  { unfold total, ws. rewrite map_map. cbn [fst]. destruct (nbrs p k) as [|j js]; [contradiction|]. cbn [map]. rewrite rsum_cons. pose proof (near_pos p k j). assert (0 <= rsum (map (fun x => near_weight p k x) js)) by (apply rsum_nonneg, Forall_map, Forall_forall; intros x _; left; apply near_pos). lra. }
  rewrite T0, S0, vertex_local by exact Hk. cbv zeta. destruct (Reqb_spec (total ws) 0); [lra|]. f_equal. unfold near_mean. fold ws. cbv zeta. f_equal. unfold div3, scal3. cbn [x3 y3 z3]. f_equal; field; lra.
Qed.
Definition tame (p : mesh) : Prop := good_mesh p /\ Forall three_corners (snd p) /\ no_isolated p.
Lemma tame_smoothed lam p : tame p -> tame (smoothed lam p).
Proof. intros (A & B & C). split; [|split]; [unfold good_mesh; rewrite smoothed_length; exact A|exact B|apply smoothed_no_isolated, C]. Qed.
Lemma zedges_smoothed lam p : zedges (smoothed lam p) = zedges p.
Proof. unfold zedges. f_equal. unfold mesh_edges. rewrite smoothed_length. apply flat_map_ext. intros i. rewrite smoothed_nbrs. reflexivity. Qed.
Lemma zall_smoothed lam b : zall (map (smoothed lam) b) = zall b.
Proof. unfold zall. generalize 0%nat. induction b as [|p b IH]; intros o; [reflexivity|]. cbn [map move_edges]. rewrite zedges_smoothed, smoothed_length, IH. reflexivity. Qed.
Lemma smooth_step_batch lam b : Forall tame b -> smooth_step eps12 lam (zall b) (map Some (all_verts b)) = Ok (map Some (all_verts (map (smoothed lam) b))).
Proof.
  intros H. assert (Hg : Forall good_mesh b) by (eapply Forall_impl; [|exact H]; intros p Hp; apply Hp). rewrite smooth_step_value by (apply zall_range, Hg). f_equal.
  rewrite (rows_split _ (fun p k => Some (add3 (scal3 (1 - lam) (vertex p k)) (scal3 lam (near_mean p k))))).
  - unfold all_verts. rewrite concat_map, !map_map. f_equal. apply map_ext. intros p. unfold smoothed. cbn [fst]. rewrite map_map. reflexivity.
  - intros b1 p b2 k Eb Hk. assert (HT : tame p) by (rewrite Forall_forall in H; apply H; rewrite Eb; apply in_elt). destruct HT as (A & B & C). assert (Hg' : Forall good_mesh (b1 ++ p :: b2)) by (rewrite <- Eb; exact Hg). rewrite Eb. apply new_vertex_local; [exact Hg'|exact B|exact Hk|apply C, Hk].
Qed.
Lemma taubin_batch n lam mu : forall b, Forall tame b -> taubin_iterate n lam mu (zall b) (map Some (all_verts b)) = Ok (map Some (all_verts (map (taubin n lam mu) b))).
Proof.
  induction n as [|n IH]; intros b H; [cbn [taubin_iterate taubin]; rewrite map_id; reflexivity|]. cbn [taubin_iterate]. rewrite smooth_step_batch by exact H. cbn [rbind].
  assert (H1 : Forall tame (map (smoothed lam) b)) by (apply Forall_map; eapply Forall_impl; [|exact H]; intros p; apply tame_smoothed). rewrite <- (zall_smoothed lam b) at 1. rewrite smooth_step_batch by exact H1. cbn [rbind].
  assert (H2 : Forall tame (map (smoothed mu) (map (smoothed lam) b))) by (apply Forall_map; eapply Forall_impl; [|exact H1]; intros p; apply tame_smoothed). rewrite <- (zall_smoothed lam b), <- (zall_smoothed mu (map (smoothed lam) b)), IH by exact H2. rewrite !map_map. reflexivity.
Qed.
Lemma taubin_length n lam mu : forall p, length (fst (taubin n lam mu p)) = length (fst p).
Proof. induction n as [|n IH]; intros p; [reflexivity|]. cbn [taubin]. rewrite IH, !smoothed_length. reflexivity. Qed.
Lemma taubin_faces n lam mu : forall p, snd (taubin n lam mu p) = snd p.
Proof. induction n as [|n IH]; intros p; [reflexivity|]. cbn [taubin]. rewrite IH. reflexivity. Qed.
Section Arg.
Variable argsort : list Z -> list nat.
Hypothesis Hsort : sorts argsort.
Theorem taubin_value lam mu n m a : reachable argsort m a -> Forall (fun p => Forall three_corners (snd p) /\ no_isolated p) (batch a) ->
  exists m', taubin_smoothing argsort lam mu n m = Ok (map (fun p => map Some (fst (taubin n lam mu p))) (batch a), map snd (batch a), m') /\ behaves argsort m' a.
Proof.
  intros Hr HT. destruct (reachable_repr argsort Hsort m a Hr) as (Hw & R0). pose proof (proj1 Hw) as Hg. unfold taubin_smoothing.
  destruct (verts_ask argsort a m Hw R0) as (m1 & E1 & R1). rewrite E1. cbn [rbind]. destruct (edges_ask argsort Hsort a m1 Hw R1) as (m2 & E2 & R2). rewrite E2. cbn [rbind]. fold (zall (batch a)).
  rewrite taubin_batch. 2:{ rewrite Forall_forall in *. intros p Hp. specialize (HT p Hp). split; [apply Hg, Hp|exact HT]. } cbn [rbind].
  unfold num_verts_per_mesh. rewrite (r_nv _ _ _ R2). pose proof (packed_to_list_inverse (map (fun p => map Some (fst (taubin n lam mu p))) (batch a))) as PI.
  assert (E3 : map Some (all_verts (map (taubin n lam mu) (batch a))) = concat (map (fun p => map Some (fst (taubin n lam mu p))) (batch a))) by (unfold all_verts; rewrite concat_map, !map_map; reflexivity).
  assert (E4 : map (@length _) (map (fun p => map Some (fst (taubin n lam mu p))) (batch a)) = vcount (batch a)) by (unfold vcount; rewrite map_map; apply map_ext; intros p; rewrite map_length; apply taubin_length).
  rewrite E4 in PI. rewrite E3, PI. cbn [rbind]. destruct (faces_list_ok argsort a m2 Hw R2) as (m3 & E5 & R3 & _). rewrite E5. cbn [rbind]. exists m3. split; [reflexivity|]. apply MeshesProofs8.repr_behaves; assumption.
Qed.
End Arg.
