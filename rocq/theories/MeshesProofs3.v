From Verif Require Import Base Packing PackingProofs PackOpsProofs RBase Geom FaceAreas FaceAreasSpec Meshes MeshesSpec MeshesHistSpec MeshesProofs MeshesProofs2.
From Verif Require FaceAreasProofs.
Local Open Scope R_scope.

(* ---- normals and areas of a batch are those of its meshes ---- *)
Lemma vsum_app a b : vsum (a ++ b) = add3 (vsum a) (vsum b).
Proof.
  unfold vsum. induction a as [|x a IH]; cbn [app fold_right]; [rewrite add3_comm, add3_0; reflexivity|].
  rewrite IH. apply add3_assoc.
Qed.
Lemma raw_app vs f1 f2 v : raw_normal vs (f1 ++ f2) v = add3 (raw_normal vs f1 v) (raw_normal vs f2 v).
Proof. unfold raw_normal. rewrite map_app. apply vsum_app. Qed.
Lemma scal3_0 v : scal3 0 v = V3 0 0 0.
Proof. unfold scal3. f_equal; ring. Qed.
Lemma raw_none vs fs v : Forall (fun f => count_corner f v = 0%nat) fs -> raw_normal vs fs v = V3 0 0 0.
Proof.
  unfold raw_normal. induction 1 as [|f fs H _ IH]; [reflexivity|]. cbn [map vsum fold_right]. fold (vsum (map (fun f => let '(a, b, c) := f in
    scal3 (INR (count_corner f v)) (tri_cross (at_ vs a) (at_ vs b) (at_ vs c))) fs)). rewrite IH, add3_0.
  destruct f as [[a b] c]. rewrite H. cbn [INR]. apply scal3_0.
Qed.
Lemma raw_ext vs vs' fs fs' v v' :
  Forall2 (fun f f' => count_corner f v = count_corner f' v' /\ fcross vs f = fcross vs' f') fs fs' ->
  raw_normal vs fs v = raw_normal vs' fs' v'.
Proof.
  unfold raw_normal. intros H. f_equal. induction H as [|f f' fs fs' (H1 & H2) _ IH]; [reflexivity|].
  cbn [map]. rewrite IH. f_equal. destruct f as [[a b] c], f' as [[a' b'] c']. rewrite H1. unfold fcross in H2. rewrite H2. reflexivity.
Qed.

Lemma at_mid pre l suf i : (0 <= i < Z.of_nat (length l))%Z -> at_ (pre ++ l ++ suf) (i + Z.of_nat (length pre)) = at_ l i.
Proof.
  intros H. unfold at_. rewrite app_nth2 by lia. rewrite app_nth1 by lia. f_equal. lia.
Qed.
Lemma fcross_move pre l suf f : in_range (length l) f -> fcross (pre ++ l ++ suf) (move_face (length pre) f) = fcross l f.
Proof. destruct f as [[a b] c]. intros (H1 & H2 & H3). cbn. rewrite !at_mid by assumption. reflexivity. Qed.
Lemma count_move o f v : count_corner (move_face o f) (o + v) = count_corner f v.
Proof.
  destruct f as [[a b] c]. cbn.
  assert (E : forall x, ((x + Z.of_nat o =? Z.of_nat (o + v)) = (x =? Z.of_nat v))%Z).
  { intros x. destruct (Z.eqb_spec (x + Z.of_nat o) (Z.of_nat (o + v))), (Z.eqb_spec x (Z.of_nat v)); lia. }
  rewrite !E. reflexivity.
Qed.
Lemma count_out f v : (let '(a, b, c) := f in a <> Z.of_nat v /\ b <> Z.of_nat v /\ c <> Z.of_nat v) -> count_corner f v = 0%nat.
Proof.
  destruct f as [[a b] c]. intros (H1 & H2 & H3). cbn. apply Z.eqb_neq in H1, H2, H3. rewrite H1, H2, H3. reflexivity.
Qed.
Lemma Forall2_map_r {X Y} (P : X -> Y -> Prop) (g : Y -> X) l : Forall (fun y => P (g y) y) l -> Forall2 P (map g l) l.
Proof. induction 1; constructor; auto. Qed.

Lemma faces_from_low b : Forall good_mesh b -> forall o, Forall (fun f => let '(a, b, c) := f in (Z.of_nat o <= a /\ Z.of_nat o <= b /\ Z.of_nat o <= c)%Z) (faces_from o b).
Proof.
  induction 1 as [|p b H _ IH]; intros o; [constructor|]. cbn [faces_from]. apply Forall_app. split.
  - apply Forall_map. eapply Forall_impl; [|exact H]. intros [[x y] z]. unfold in_range, move_face. lia.
  - eapply Forall_impl; [|apply IH]. intros [[x y] z]. lia.
Qed.

Lemma normals_from b : Forall good_mesh b -> forall pre,
  map (fun v => unit_or_short (raw_normal (pre ++ all_verts b) (faces_from (length pre) b) v)) (seq (length pre) (length (all_verts b)))
  = concat (map mesh_normals b).
Proof.
  induction 1 as [|p b H Hb IH]; intros pre; [reflexivity|].
  unfold all_verts at 2. cbn [map concat faces_from]. fold (all_verts b). rewrite app_length, seq_app, map_app. f_equal.
  - unfold mesh_normals. 
    replace (seq (length pre) (length (fst p))) with (map (fun v => length pre + v)%nat (seq 0 (length (fst p)))).
    2:{ apply nth_error_ext_len; [rewrite map_length, !seq_length; reflexivity|]. intros i Hi. rewrite map_length, seq_length in Hi.
        rewrite nth_error_map_iff, !nth_error_seq_lt by exact Hi. cbn. f_equal. }
    rewrite map_map. apply map_ext_in. intros v Hv. apply in_seq in Hv. f_equal.
    rewrite raw_app, (raw_none _ (faces_from _ b)), add3_0.
    2:{ eapply Forall_impl; [|apply (faces_from_low b Hb)]. intros [[x y] z] Hf. apply count_out. lia. }
    apply raw_ext, Forall2_map_r. eapply Forall_impl; [|exact H]. intros f Hf. split; [apply count_move|].
    unfold all_verts. cbn [map concat]. apply fcross_move. exact Hf.
  - specialize (IH (pre ++ fst p)). rewrite app_length in IH. rewrite <- IH.
    apply map_ext_in. intros v Hv. apply in_seq in Hv. f_equal.
    rewrite raw_app, (raw_none _ (map _ (snd p))).
    2:{ apply Forall_map. eapply Forall_impl; [|exact H]. intros [[x y] z] Hf. apply count_out. cbn in Hf |- *. lia. }
    rewrite add3_comm, add3_0. unfold all_verts. cbn [map concat]. rewrite app_assoc. reflexivity.
Qed.
Lemma normals_split b : Forall good_mesh b -> normals_of b = concat (map mesh_normals b).
Proof. intros H. exact (normals_from b H []). Qed.

Lemma areas_from b : Forall good_mesh b -> forall pre,
  map (fun f => let c := fcross (pre ++ all_verts b) f in (norm3 c / 2, unit_or_short c)) (faces_from (length pre) b)
  = concat (map mesh_areas b).
Proof.
  induction 1 as [|p b H Hb IH]; intros pre; [reflexivity|].
  cbn [map concat faces_from]. rewrite map_app. f_equal.
  - rewrite map_map. unfold mesh_areas. apply map_ext_in. intros f Hf. unfold good_mesh in H. rewrite Forall_forall in H. specialize (H f Hf).
    unfold all_verts. cbn [map concat]. rewrite fcross_move by exact H. destruct f as [[x y] z]. reflexivity.
  - specialize (IH (pre ++ fst p)). rewrite app_length in IH. rewrite <- IH. unfold all_verts. cbn [map concat].
    apply map_ext. intros f. rewrite app_assoc. reflexivity.
Qed.
Lemma areas_split b : Forall good_mesh b -> areas_of b = concat (map mesh_areas b).
Proof.
  intros H. rewrite <- (areas_from b H []). unfold areas_of. cbn [length app]. apply map_ext. intros [[x y] z]. reflexivity.
Qed.

(* ---- translation and scaling of one mesh ---- *)
Lemma at_map g vs i : (0 <= i < Z.of_nat (length vs))%Z -> at_ (map g vs) i = g (at_ vs i).
Proof.
  intros H. unfold at_. rewrite (nth_indep _ _ (g (V3 0 0 0))) by (rewrite map_length; lia). apply map_nth.
Qed.
Lemma fcross_shift vs v f : in_range (length vs) f -> fcross (map (fun x => add3 x v) vs) f = fcross vs f.
Proof.
  destruct f as [[a b] c]. intros (H1 & H2 & H3). cbn. rewrite !at_map by assumption. apply FaceAreasProofs.tri_cross_translate.
Qed.
Lemma fcross_scale vs s f : in_range (length vs) f -> fcross (map (scal3 s) vs) f = scal3 (s * s) (fcross vs f).
Proof.
  destruct f as [[a b] c]. intros (H1 & H2 & H3). cbn. rewrite !at_map by assumption. apply FaceAreasProofs.tri_cross_scale.
Qed.
Lemma Forall2_same {X} (P : X -> X -> Prop) l : Forall (fun x => P x x) l -> Forall2 P l l.
Proof. induction 1; constructor; auto. Qed.
Lemma raw_shift p v w : good_mesh p -> raw_normal (map (fun x => add3 x v) (fst p)) (snd p) w = raw_normal (fst p) (snd p) w.
Proof.
  intros H. apply raw_ext. apply Forall2_same. eapply Forall_impl; [|exact H]. intros f Hf. split; [reflexivity|].
  apply fcross_shift; exact Hf.
Qed.
Lemma raw_scale p s w : good_mesh p -> raw_normal (map (scal3 s) (fst p)) (snd p) w = scal3 (s * s) (raw_normal (fst p) (snd p) w).
Proof.
  unfold good_mesh, raw_normal. induction (snd p) as [|f l IH]; intros H.
  - cbn. unfold scal3. cbn. f_equal; ring.
  - apply Forall_cons_iff in H. destruct H as (H & H'). cbn [map vsum fold_right]. unfold vsum in IH. rewrite IH by exact H'. clear IH.
    set (B := fold_right _ _ _). pose proof (fcross_scale (fst p) s f H) as E. destruct f as [[a b] c]. cbn [fcross] in E. rewrite E.
    unfold add3, scal3. cbn [x3 y3 z3]. f_equal; ring.
Qed.
Lemma mesh_normals_shift p v : good_mesh p -> mesh_normals (map (fun x => add3 x v) (fst p), snd p) = mesh_normals p.
Proof.
  intros H. unfold mesh_normals. cbn [fst snd]. rewrite map_length. apply map_ext. intros w. f_equal. apply raw_shift. exact H.
Qed.
Lemma mesh_areas_shift p v : good_mesh p -> mesh_areas (map (fun x => add3 x v) (fst p), snd p) = mesh_areas p.
Proof.
  intros H. unfold mesh_areas. cbn [fst snd]. apply map_ext_in. intros f Hf. unfold good_mesh in H. rewrite Forall_forall in H.
  pose proof (fcross_shift (fst p) v f (H f Hf)) as E. destruct f as [[a b] c]. cbn [fcross] in E. rewrite E. reflexivity.
Qed.

Lemma norm3_scal s v : norm3 (scal3 s v) = Rabs s * norm3 v.
Proof.
  unfold norm3, scal3, dot3. cbn [x3 y3 z3]. rewrite <- (sqrt_Rsqr_abs s). rewrite <- sqrt_mult_alt by apply Rle_0_sqr.
  f_equal. unfold Rsqr. ring.
Qed.
Lemma norm3_0 : norm3 (V3 0 0 0) = 0.
Proof. unfold norm3, dot3. cbn. replace (_ + _) with 0 by ring. apply sqrt_0. Qed.
Lemma unit_scale k v : 0 < k -> v = V3 0 0 0 \/ (/ 1000000 <= norm3 v /\ / 1000000 <= k * norm3 v) ->
  unit_or_short (scal3 k v) = unit_or_short v.
Proof.
  intros Hk [->|(H1 & H2)].
  - unfold unit_or_short. unfold scal3, div3. cbn [x3 y3 z3]. f_equal; unfold Rdiv; ring.
  - unfold unit_or_short. rewrite norm3_scal, (Rabs_right k) by lra. rewrite !Rmax_left by lra.
    assert (norm3 v > 0) by lra. unfold div3, scal3. cbn [x3 y3 z3]. f_equal; field; lra.
Qed.

Lemma mesh_normals_scale p s : good_mesh p -> scale_safe s p -> mesh_normals (map (scal3 s) (fst p), snd p) = mesh_normals p.
Proof.
  intros H (Hs & Hn). unfold mesh_normals. cbn [fst snd]. rewrite map_length. apply map_ext_in. intros w Hw. apply in_seq in Hw.
  rewrite raw_scale by exact H. apply unit_scale; [nra|]. apply Hn. lia.
Qed.
