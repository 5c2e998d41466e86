From Coq Require Import Permutation Psatz.
From Verif Require Import Base Packing PackingProofs RBase Geom FaceAreas FaceAreasSpec Meshes MeshesSpec MeshesHistSpec MeshesProofs MeshesProofs2 MeshesProofs3 MeshesProofs6 MeshesProofs9 MeshesProofs10 MeshesProofs11 Laplace LaplaceSpec LaplaceProofs LaplaceProofs2 LaplaceProofs3 LaplaceProofs4.
Local Open Scope R_scope.

(* ---- means ---- *)
Lemma mean_nonneg l : Forall (fun x => 0 <= x) l -> 0 <= mean l.
Proof.
  intros H. unfold mean. destruct l as [|x l]; [lra|]. apply Rmult_le_pos; [apply rsum_nonneg, H|]. left. apply Rinv_0_lt_compat, lt_0_INR. cbn. lia.
Qed.
Lemma sum_zero_all l : Forall (fun x => 0 <= x) l -> (rsum l = 0 <-> Forall (fun x => x = 0) l).
Proof.
  induction 1 as [|x l Hx H IH]; [split; [constructor|reflexivity]|]. rewrite rsum_cons, Forall_cons_iff. pose proof (rsum_nonneg l H). split.
  - intros E. split; [lra|]. apply IH. lra.
  - intros (-> & E). apply IH in E. lra.
Qed.
Lemma mean_zero l : Forall (fun x => 0 <= x) l -> (mean l = 0 <-> Forall (fun x => x = 0) l).
Proof.
  intros H. rewrite <- (sum_zero_all l H). unfold mean. destruct l as [|x l]; [split; reflexivity|]. assert (P : 0 < INR (length (x :: l))) by (apply lt_0_INR; cbn; lia). split.
  - intros E. apply (Rmult_eq_reg_r (/ INR (length (x :: l)))); [|apply Rgt_not_eq, Rinv_0_lt_compat, P]. unfold Rdiv in E. lra.
  - intros ->. unfold Rdiv. lra.
Qed.
Lemma norm_zero v : norm3 v = 0 <-> v = V3 0 0 0.
Proof.
  split; [|intros ->; unfold norm3, dot3; cbn [x3 y3 z3]; rewrite !Rmult_0_l, !Rplus_0_l; apply sqrt_0]. intros H. pose proof (norm_sq v) as S. rewrite H in S. destruct v as [x y z]. unfold dot3 in S. cbn [x3 y3 z3] in S.
  assert (x = 0) by nra. assert (y = 0) by nra. assert (z = 0) by nra. congruence.
Qed.
Theorem edge_loss_zero target b : 0 <= edge_loss target b /\ (edge_loss target b = 0 <-> forall p e, In p b -> In e (mesh_edges p) -> dist (vertex p (fst e)) (vertex p (snd e)) = target).
Proof.
  unfold edge_loss. assert (N : forall p, Forall (fun x => 0 <= x) (map (fun e => (dist (vertex p (fst e)) (vertex p (snd e)) - target) ^ 2) (mesh_edges p))) by (intros p; apply Forall_map, Forall_forall; intros e _; apply pow2_ge_0).
  assert (N2 : Forall (fun x => 0 <= x) (map (fun p => mean (map (fun e => (dist (vertex p (fst e)) (vertex p (snd e)) - target) ^ 2) (mesh_edges p))) b)) by (apply Forall_map, Forall_forall; intros p _; apply mean_nonneg, N).
  split; [apply mean_nonneg, N2|]. rewrite mean_zero by exact N2. rewrite Forall_map, Forall_forall. split.
  - intros H p e Hp He. specialize (H p Hp). apply (mean_zero _ (N p)) in H. rewrite Forall_map, Forall_forall in H. specialize (H e He). cbv beta in H. apply Rminus_diag_uniq. nra.
  - intros H p Hp. apply (mean_zero _ (N p)). apply Forall_map, Forall_forall. intros e He. rewrite (H p e Hp He). ring.
Qed.
Theorem smoothing_zero step b : 0 <= smoothing_loss step b /\ (smoothing_loss step b = 0 <-> forall p i, In p b -> (i < length (fst p))%nat -> step p i = V3 0 0 0).
Proof.
  unfold smoothing_loss. assert (N : forall p, Forall (fun x => 0 <= x) (map (fun i => norm3 (step p i)) (seq 0 (length (fst p))))) by (intros p; apply Forall_map, Forall_forall; intros e _; apply norm_nonneg).
  assert (N2 : Forall (fun x => 0 <= x) (map (fun p => mean (map (fun i => norm3 (step p i)) (seq 0 (length (fst p))))) b)) by (apply Forall_map, Forall_forall; intros p _; apply mean_nonneg, N).
  split; [apply mean_nonneg, N2|]. rewrite mean_zero by exact N2. rewrite Forall_map, Forall_forall. split.
  - intros H p i Hp Hi. specialize (H p Hp). apply (mean_zero _ (N p)) in H. rewrite Forall_map, Forall_forall in H. apply norm_zero, H, in_seq. lia.
  - intros H p Hp. apply (mean_zero _ (N p)). apply Forall_map, Forall_forall. intros i Hi. apply in_seq in Hi. apply norm_zero, H; [exact Hp|lia].
Qed.

(* ---- rigid motions ---- *)
Lemma pol u v : dot3 u v = (dot3 (add3 u v) (add3 u v) - dot3 u u - dot3 v v) / 2.
Proof. destruct u as [a b c], v as [d e f]. unfold dot3, add3. cbn [x3 y3 z3]. field. Qed.
Lemma lagrange u v : dot3 (cross3 u v) (cross3 u v) = dot3 u u * dot3 v v - dot3 u v * dot3 u v.
Proof. destruct u as [a b c], v as [d e f]. unfold dot3, cross3. cbn [x3 y3 z3]. ring. Qed.
Section Rigid.
Variables (l : vec3 -> vec3) (t : vec3).
Hypothesis Hadd : forall u v, l (add3 u v) = add3 (l u) (l v).
Hypothesis Hscal : forall c v, l (scal3 c v) = scal3 c (l v).
Hypothesis Hnorm : forall v, norm3 (l v) = norm3 v.
Notation g := (fun v => add3 (l v) t).
Lemma l_sub u v : l (sub3 u v) = sub3 (l u) (l v).
Proof.
  replace (sub3 u v) with (add3 u (scal3 (-1) v)) by (destruct u, v; unfold sub3, add3, scal3; cbn; f_equal; ring). rewrite Hadd, Hscal. destruct (l u), (l v). unfold sub3, add3, scal3. cbn. f_equal; ring.
Qed.
Lemma l_dot u v : dot3 (l u) (l v) = dot3 u v.
Proof. rewrite (pol (l u)), (pol u), <- Hadd, <- !norm_sq, !Hnorm. reflexivity. Qed.
Lemma g_sub u v : sub3 (g u) (g v) = l (sub3 u v).
Proof. rewrite l_sub. destruct (l u), (l v), t. unfold sub3, add3. cbn. f_equal; ring. Qed.
Lemma g_dist u v : dist (g u) (g v) = dist u v.
Proof. unfold dist. rewrite g_sub. apply Hnorm. Qed.
Lemma g_cross x y z : norm3 (tri_cross (g x) (g y) (g z)) = norm3 (tri_cross x y z).
Proof. unfold tri_cross. rewrite !g_sub. unfold norm3. f_equal. rewrite !lagrange, !l_dot. reflexivity. Qed.
Lemma g_area x y z : area_of (g x) (g y) (g z) = area_of x y z.
Proof. unfold area_of. rewrite g_cross. reflexivity. Qed.
Lemma g_cotan x y z : cotan (g x) (g y) (g z) = cotan x y z.
Proof. unfold cotan. rewrite g_area, !g_sub, l_dot. reflexivity. Qed.
Lemma l_0 : l (V3 0 0 0) = V3 0 0 0.
Proof. replace (V3 0 0 0) with (scal3 0 (V3 0 0 0)) at 1 by (unfold scal3; cbn; f_equal; ring). rewrite Hscal. apply scal3_0. Qed.
Lemma g_combination ws : combination (map (fun w => (fst w, g (snd w))) ws) = add3 (l (combination ws)) (scal3 (total ws) t).
Proof.
  unfold combination, total. induction ws as [|w ws IH].
  - cbn [map vsum fold_right]. rewrite l_0. apply coord_ext. intros a. rewrite coord_add, coord_scal, !coord_0, rsum_nil. lra.
  - cbn [map]. unfold vsum in *. cbn [fold_right]. rewrite IH, Hadd, Hscal, rsum_cons. cbn [fst snd]. apply coord_ext. intros a. rewrite !coord_add, !coord_scal, !coord_add. ring.
Qed.
Lemma total_map ws : total (map (fun w => (fst w, g (snd w))) ws) = total ws.
Proof. unfold total. rewrite map_map. reflexivity. Qed.
Lemma g_mean ws : total ws <> 0 -> scal3 (/ total ws) (combination (map (fun w => (fst w, g (snd w))) ws)) = g (scal3 (/ total ws) (combination ws)).
Proof.
  intros H. rewrite g_combination. cbv beta. rewrite Hscal. apply coord_ext. intros a. rewrite coord_scal, !coord_add, !coord_scal. field. exact H.
Qed.
Lemma at_moved vs z : (0 <= z < Z.of_nat (length vs))%Z -> at_ (map g vs) z = g (at_ vs z).
Proof. intros H. unfold at_. rewrite (nth_indep _ (V3 0 0 0) (g (V3 0 0 0))) by (rewrite map_length; lia). apply (map_nth g). Qed.
Definition mv (p : mesh) : mesh := (map g (fst p), snd p).
Lemma nbrs_mv p i : nbrs (mv p) i = nbrs p i.
Proof. unfold nbrs, mv. cbn [fst snd]. rewrite map_length. reflexivity. Qed.
Lemma edges_mv p : mesh_edges (mv p) = mesh_edges p.
Proof. unfold mesh_edges. replace (length (fst (mv p))) with (length (fst p)) by (unfold mv; cbn [fst]; rewrite map_length; reflexivity). apply flat_map_ext. intros i. rewrite nbrs_mv. reflexivity. Qed.
Lemma vertex_mv p i : (i < length (fst p))%nat -> vertex (mv p) i = g (vertex p i).
Proof. intros H. apply at_moved. lia. Qed.
Lemma corners_mv vs fs i : Forall (in_range (length vs)) fs -> cot_weights (map g vs) fs i = map (fun w => (fst w, g (snd w))) (cot_weights vs fs i).
Proof.
  intros H. apply (corners_in_range _ _ i) in H. unfold cot_weights. induction H as [|((x, y), z) c (A & B & C) H IH]; [reflexivity|]. cbn [flat_map app map fst snd]. rewrite IH, !at_moved by assumption. rewrite !g_cotan. reflexivity.
Qed.
Lemma area_mv vs fs i : Forall (in_range (length vs)) fs -> area_at (map g vs) fs i = area_at vs fs i.
Proof.
  intros H. apply (corners_in_range _ _ i) in H. unfold area_at. induction H as [|((x, y), z) c (A & B & C) H IH]; [reflexivity|]. cbn [map]. rewrite !rsum_cons, IH, !at_moved, g_area by assumption. reflexivity.
Qed.
Lemma centroid_mv p i : good_mesh p -> (i < length (fst p))%nat -> nbrs p i <> [] -> to_centroid (mv p) i = l (to_centroid p i).
Proof.
  intros Hg Hi Hn. unfold to_centroid. rewrite nbrs_mv. destruct (nbrs p i) as [|j js] eqn:E; [contradiction|].
  set (ws := map (fun j => (1, vertex p j)) (j :: js)). assert (T0 : total ws = INR (length (j :: js))). { unfold total, ws. rewrite map_map. cbn [fst]. clear. induction (j :: js) as [|x xs IH]; [reflexivity|]. cbn [map]. rewrite rsum_cons, IH. cbn [length]. rewrite S_INR. lra. }
  assert (C0 : combination ws = vsum (map (vertex p) (j :: js))). { unfold combination, ws. rewrite map_map. cbn [fst snd]. f_equal. apply map_ext. intros x. apply coord_ext. intros a. rewrite coord_scal. lra. }
  assert (C1 : combination (map (fun w => (fst w, g (snd w))) ws) = vsum (map (vertex (mv p)) (j :: js))). { unfold combination, ws. rewrite !map_map. cbn [fst snd]. f_equal. apply map_ext_in. intros x Hx. rewrite <- E in Hx. apply nbrs_in in Hx. rewrite vertex_mv by tauto. apply coord_ext. intros a. rewrite coord_scal. lra. }
  rewrite <- C1, <- C0, <- T0, g_mean, vertex_mv, g_sub; [reflexivity|exact Hi|]. rewrite T0. apply not_0_INR. discriminate.
Qed.
Lemma cot_centroid_mv p i : good_mesh p -> (i < length (fst p))%nat -> 0 < total (cot_weights (fst p) (snd p) i) -> to_cot_centroid (mv p) i = l (to_cot_centroid p i).
Proof.
  intros Hg Hi Hp. unfold to_cot_centroid. rewrite vertex_mv by exact Hi. unfold mv. cbn [fst snd]. rewrite corners_mv by exact Hg. cbv zeta. rewrite total_map. destruct (Rltb_spec 0 (total (cot_weights (fst p) (snd p) i))); [|lra]. rewrite g_mean by lra. apply g_sub.
Qed.
Lemma curvature_mv p i : good_mesh p -> (i < length (fst p))%nat -> curvature (mv p) i = l (curvature p i).
Proof.
  intros Hg Hi. unfold curvature. rewrite vertex_mv by exact Hi. unfold mv. cbn [fst snd]. rewrite corners_mv, area_mv by exact Hg. rewrite !combination_minus, total_map, g_combination. destruct (corners_at (snd p) i); [symmetry; apply l_0|]. rewrite Hscal, l_sub, Hscal. f_equal.
  apply coord_ext. intros a. rewrite !coord_sub, !coord_add, !coord_scal, !coord_add. ring.
Qed.
Lemma smoothing_mv step b : (forall p i, In p b -> (i < length (fst p))%nat -> step (mv p) i = l (step p i)) -> smoothing_loss step (map mv b) = smoothing_loss step b.
Proof.
  intros H. unfold smoothing_loss. f_equal. rewrite map_map. apply map_ext_in. intros p Hp. f_equal. unfold mv at 2. cbn [fst]. rewrite map_length. apply map_ext_in. intros i Hi. apply in_seq in Hi. rewrite H by (try assumption; lia). apply Hnorm.
Qed.
Lemma edge_loss_mv target b : Forall good_mesh b -> edge_loss target (map mv b) = edge_loss target b.
Proof.
  intros Hg. unfold edge_loss. f_equal. rewrite map_map. apply map_ext_in. intros p Hp. f_equal. rewrite edges_mv. apply map_ext_in. intros (i, j) He. apply mesh_edges_in in He. destruct He as (_ & Hi & Hj). apply nbrs_in in Hj. cbn [fst snd]. rewrite !vertex_mv, g_dist by tauto. reflexivity.
Qed.
Lemma near_mv p i : (i < length (fst p))%nat -> nbrs p i <> [] -> near_mean (mv p) i = g (near_mean p i).
Proof.
  intros Hi Hn. unfold near_mean. rewrite nbrs_mv. cbv zeta. set (ws := map (fun j => (near_weight p i j, vertex p j)) (nbrs p i)).
  assert (E : map (fun j => (near_weight (mv p) i j, vertex (mv p) j)) (nbrs p i) = map (fun w => (fst w, g (snd w))) ws). { unfold ws. rewrite map_map. apply map_ext_in. intros j Hj. apply nbrs_in in Hj. cbn [fst snd]. unfold near_weight. rewrite !vertex_mv, g_dist by tauto. reflexivity. }
  rewrite E, total_map. apply g_mean. apply Rgt_not_eq. unfold ws, total. rewrite map_map. cbn [fst].
  assert (P : forall j, 0 < near_weight p i j) by (intros j; apply Rinv_0_lt_compat; unfold dist; pose proof (norm_nonneg (sub3 (vertex p i) (vertex p j))); lra).
  destruct (nbrs p i) as [|j js]; [contradiction|]. cbn [map]. rewrite rsum_cons. pose proof (P j). assert (0 <= rsum (map (near_weight p i) js)) by (apply rsum_nonneg, Forall_map, Forall_forall; intros x _; left; apply P). change (map (fun x => near_weight p i x) js) with (map (near_weight p i) js). lra.
Qed.
Lemma smoothed_mv lam p : no_isolated p -> smoothed lam (mv p) = mv (smoothed lam p).
Proof.
  intros Hn. unfold smoothed. unfold mv at 3 4 5. cbn [fst snd]. f_equal. rewrite map_length, map_map. apply map_ext_in. intros i Hi. apply in_seq in Hi. rewrite near_mv, vertex_mv by (try apply Hn; lia). rewrite Hadd, !Hscal. apply coord_ext. intros a. rewrite !coord_add, !coord_scal, !coord_add. ring.
Qed.
Lemma smoothed_length lam p : length (fst (smoothed lam p)) = length (fst p).
Proof. unfold smoothed. cbn [fst]. rewrite map_length, seq_length. reflexivity. Qed.
Lemma smoothed_nbrs lam p i : nbrs (smoothed lam p) i = nbrs p i.
Proof. unfold nbrs. rewrite smoothed_length. reflexivity. Qed.
Lemma smoothed_no_isolated lam p : no_isolated p -> no_isolated (smoothed lam p).
Proof. intros H i Hi. rewrite smoothed_length in Hi. rewrite smoothed_nbrs. apply H, Hi. Qed.
Lemma taubin_mv n lam mu : forall p, no_isolated p -> taubin n lam mu (mv p) = mv (taubin n lam mu p).
Proof.
  induction n as [|n IH]; intros p H; [reflexivity|]. cbn [taubin]. rewrite smoothed_mv by exact H. rewrite smoothed_mv by (apply smoothed_no_isolated, H). apply IH. apply smoothed_no_isolated, smoothed_no_isolated, H.
Qed.
End Rigid.
Lemma moved_mv g l t b : (forall v, g v = add3 (l v) t) -> moved g b = map (mv l t) b.
Proof. intros H. unfold moved, mv. apply map_ext. intros p. f_equal. apply map_ext, H. Qed.
Theorem edge_loss_rigid g target b : rigid g -> Forall good_mesh b -> edge_loss target (moved g b) = edge_loss target b.
Proof. intros (l & t & Hg & A & S & N) H. rewrite (moved_mv g l t b Hg). apply edge_loss_mv; assumption. Qed.
Theorem uniform_rigid g b : rigid g -> Forall good_mesh b -> Forall no_isolated b -> smoothing_loss to_centroid (moved g b) = smoothing_loss to_centroid b.
Proof.
  intros (l & t & Hg & A & S & N) H HI. rewrite (moved_mv g l t b Hg). apply (smoothing_mv l t A S N). intros p i Hp Hi. rewrite Forall_forall in H, HI. apply centroid_mv; auto. apply HI; assumption.
Qed.
Theorem cot_rigid g b : rigid g -> Forall good_mesh b -> (forall p i, In p b -> (i < length (fst p))%nat -> 0 < total (cot_weights (fst p) (snd p) i)) -> smoothing_loss to_cot_centroid (moved g b) = smoothing_loss to_cot_centroid b.
Proof.
  intros (l & t & Hg & A & S & N) H HI. rewrite (moved_mv g l t b Hg). apply (smoothing_mv l t A S N). intros p i Hp Hi. rewrite Forall_forall in H. apply cot_centroid_mv; auto.
Qed.
Theorem curvature_rigid g b : rigid g -> Forall good_mesh b -> smoothing_loss curvature (moved g b) = smoothing_loss curvature b.
Proof.
  intros (l & t & Hg & A & S & N) H. rewrite (moved_mv g l t b Hg). apply (smoothing_mv l t A S N). intros p i Hp Hi. rewrite Forall_forall in H. apply curvature_mv; auto.
Qed.
Theorem taubin_rigid g n lam mu p : rigid g -> no_isolated p -> taubin n lam mu (map g (fst p), snd p) = (map g (fst (taubin n lam mu p)), snd p).
Proof.
  intros (l & t & Hg & A & S & N) H. pose proof (taubin_mv l t A S N n lam mu p H) as E. unfold mv in E. rewrite (map_ext g _ Hg), E. f_equal; [apply map_ext; intros v; symmetry; apply Hg|].
  clear. revert p. induction n as [|n IH]; intros p; [reflexivity|]. cbn [taubin]. rewrite IH. reflexivity.
Qed.
Lemma translation_rigid t : rigid (fun v => add3 v t).
Proof. exists (fun v => v), t. repeat split. Qed.
