From Coq Require Import Permutation Psatz.
From Verif Require Import Base Packing RBase Geom FaceAreas FaceAreasSpec Meshes MeshesSpec MeshesProofs6 MeshesProofs10 Laplace LaplaceSpec LaplaceProofs.
Local Open Scope R_scope.

(* ---- triangles ---- *)
Lemma dot_self v : 0 <= dot3 v v.
Proof. unfold dot3. nra. Qed.
Lemma norm_sq v : norm3 v * norm3 v = dot3 v v.
Proof. apply sqrt_sqrt, dot_self. Qed.
Lemma norm_nonneg v : 0 <= norm3 v.
Proof. apply sqrt_pos. Qed.
Lemma heron_sides A B C : let s := / 2 * (A + B + C) in s * (s - A) * (s - B) * (s - C) = (2 * (A * A) * (B * B) + 2 * (B * B) * (C * C) + 2 * (C * C) * (A * A) - (A * A) * (A * A) - (B * B) * (B * B) - (C * C) * (C * C)) / 16.
Proof. cbv zeta. field. Qed.
Lemma heron_cross v0 v1 v2 : let A := norm3 (sub3 v1 v2) in let B := norm3 (sub3 v0 v2) in let C := norm3 (sub3 v0 v1) in let s := / 2 * (A + B + C) in
  s * (s - A) * (s - B) * (s - C) = (norm3 (tri_cross v0 v1 v2) / 2) * (norm3 (tri_cross v0 v1 v2) / 2).
Proof.
  cbv zeta. pose proof (heron_sides (norm3 (sub3 v1 v2)) (norm3 (sub3 v0 v2)) (norm3 (sub3 v0 v1))) as H. cbv zeta in H. rewrite H, !norm_sq.
  replace (norm3 (tri_cross v0 v1 v2) / 2 * (norm3 (tri_cross v0 v1 v2) / 2)) with (norm3 (tri_cross v0 v1 v2) * norm3 (tri_cross v0 v1 v2) / 4) by field. rewrite norm_sq. destruct v0 as [a b c], v1 as [d e f], v2 as [g h i]. unfold tri_cross, cross3, sub3, dot3. cbn [x3 y3 z3]. field.
Qed.
Lemma sqrt_max_sq x y : 0 <= x -> 0 <= y -> sqrt (Rmax (x * x) (y * y)) = Rmax x y.
Proof.
  intros Hx Hy. unfold Rmax. destruct (Rle_dec (x * x) (y * y)), (Rle_dec x y); try (apply sqrt_square; assumption); [|exfalso; nra]. assert (x = y) by nra. subst. apply sqrt_square. assumption.
Qed.
Lemma area_pos x y z : 0 < area_of x y z.
Proof. unfold area_of. eapply Rlt_le_trans; [|apply Rmax_r]. lra. Qed.
Lemma cross_cycle x y z : norm3 (tri_cross y z x) = norm3 (tri_cross x y z).
Proof. unfold norm3. f_equal. destruct x as [a b c], y as [d e f], z as [g h i]. unfold tri_cross, cross3, sub3, dot3. cbn [x3 y3 z3]. ring. Qed.
Lemma area_cycle x y z : area_of y z x = area_of x y z.
Proof. unfold area_of. rewrite cross_cycle. reflexivity. Qed.
Lemma cot_face_value v0 v1 v2 : cot_face eps12 v0 v1 v2 = (area_of v0 v1 v2, (cotan v0 v1 v2, cotan v1 v2 v0, cotan v2 v0 v1)).
Proof.
  unfold cot_face. cbv zeta. pose proof (heron_cross v0 v1 v2) as H. cbv zeta in H. rewrite H.
  replace eps12 with (/ 1000000 * / 1000000) by (unfold eps12; field). rewrite sqrt_max_sq; [|pose proof (norm_nonneg (tri_cross v0 v1 v2)); lra|lra]. fold (area_of v0 v1 v2). rewrite !norm_sq. unfold cotan. pose proof (area_pos v0 v1 v2) as P.
  assert (E1 : area_of v1 v2 v0 = area_of v0 v1 v2) by apply area_cycle. assert (E2 : area_of v2 v0 v1 = area_of v0 v1 v2) by (symmetry; apply area_cycle). rewrite E1, E2.
  f_equal. f_equal; [f_equal|]; destruct v0 as [a b c], v1 as [d e f], v2 as [g h i]; unfold sub3, dot3; cbn [x3 y3 z3]; field; lra.
Qed.
Lemma cotan_pair x y z : cotan z x y + cotan y z x = dist y z * dist y z / (2 * area_of x y z).
Proof.
  unfold cotan, dist. rewrite norm_sq. assert (E1 : area_of z x y = area_of x y z) by (symmetry; apply area_cycle). assert (E2 : area_of y z x = area_of x y z) by apply area_cycle. rewrite E1, E2. pose proof (area_pos x y z) as P.
  destruct x as [a b c], y as [d e f], z as [g h i]. unfold sub3, dot3. cbn [x3 y3 z3]. field. lra.
Qed.

(* ---- the entries of the cotangent Laplacian ---- *)
Definition corner_entry (vs : list vec3) (c : Z * Z * Z) : Z * Z * R := let '(x, y, z) := c in (y, z, cotan (at_ vs x) (at_ vs y) (at_ vs z)).
Definition cot_T (vs : list vec3) (fs : list face) : list (Z * Z * R) := map (corner_entry vs) (all_corners fs).
Lemma vert_in vs i : (0 <= i < Z.of_nat (length vs))%Z -> vert_at vs i = Ok (at_ vs i).
Proof.
  intros H. unfold vert_at, at_. destruct (Z.ltb_spec i 0); [lia|]. unfold rget. rewrite (nth_error_nth' vs (V3 0 0 0)) by lia. reflexivity.
Qed.
Lemma face_in vs f : in_range (length vs) f -> face_verts vs f = Ok (let '(a, b, c) := f in (at_ vs a, at_ vs b, at_ vs c)).
Proof. destruct f as ((a, b), c). intros (H1 & H2 & H3). unfold face_verts. rewrite !vert_in by assumption. reflexivity. Qed.
Definition face_cot (vs : list vec3) (f : face) : R * (R * R * R) := let '(a, b, c) := f in
  (area_of (at_ vs a) (at_ vs b) (at_ vs c), (cotan (at_ vs a) (at_ vs b) (at_ vs c), cotan (at_ vs b) (at_ vs c) (at_ vs a), cotan (at_ vs c) (at_ vs a) (at_ vs b))).
Lemma cots_ok vs fs : Forall (in_range (length vs)) fs -> rmap (fun f => v <- face_verts vs f ;; let '(v0, v1, v2) := v in Ok (cot_face eps12 v0 v1 v2)) fs = Ok (map (face_cot vs) fs).
Proof.
  intros H. induction H as [|f fs Hf H IH]; [reflexivity|]. cbn [rmap map]. rewrite (face_in vs f Hf). destruct f as ((a, b), c). cbn [rbind]. rewrite cot_face_value, IH. reflexivity.
Qed.
Lemma combine_self_map {X Y} (g : X -> Y) l : combine l (map g l) = map (fun x => (x, g x)) l.
Proof. induction l; cbn; congruence. Qed.
Lemma area_rows vs fs i : rsum (map (fun q : Z * R => if (fst q =? Z.of_nat i)%Z then snd q else 0) (concat (map (fun p : face * (R * (R * R * R)) => map (fun i => (i, fst (snd p))) (corners_of (fst p))) (map (fun f => (f, face_cot vs f)) fs)))) = area_at vs fs i.
Proof.
  unfold area_at, corners_at, all_corners. induction fs as [|f fs IH]; [reflexivity|]. cbn [map concat flat_map]. rewrite map_app, filter_app, map_app, !rsum_app, <- IH. clear IH. f_equal. destruct f as ((a, b), c). cbn [fst snd corners_of map face_cot around filter]. rewrite !rsum_cons, rsum_nil.
  assert (E1 : area_of (at_ vs b) (at_ vs c) (at_ vs a) = area_of (at_ vs a) (at_ vs b) (at_ vs c)) by apply area_cycle. assert (E2 : area_of (at_ vs c) (at_ vs a) (at_ vs b) = area_of (at_ vs a) (at_ vs b) (at_ vs c)) by (rewrite <- E1; apply area_cycle).
  destruct (a =? Z.of_nat i)%Z, (b =? Z.of_nat i)%Z, (c =? Z.of_nat i)%Z; cbn [map]; rewrite ?rsum_cons, ?rsum_nil, ?E1, ?E2; ring.
Qed.
Theorem cot_laplacian_ok vs fs : Forall (in_range (length vs)) fs -> cot_laplacian eps12 vs fs = Ok (coo (length vs) (cot_T vs fs ++ transposed (cot_T vs fs)), map (fun i => recip_pos (area_at vs fs i)) (seq 0 (length vs))).
Proof.
  intros H. unfold cot_laplacian. rewrite cots_ok by exact H. cbn [rbind]. rewrite combine_self_map. do 2 f_equal.
  - f_equal. assert (E : concat (map (fun p : face * (R * (R * R * R)) => cot_entries (fst p) (snd (snd p))) (map (fun f => (f, face_cot vs f)) fs)) = cot_T vs fs).
    { clear H. unfold cot_T, all_corners. induction fs as [|f fs IH]; [reflexivity|]. cbn [map concat flat_map]. rewrite map_app, <- IH. f_equal. destruct f as ((a, b), c). reflexivity. }
    rewrite E. reflexivity.
  - apply map_ext. intros i. rewrite area_rows. reflexivity.
Qed.
(* the weights at vertex i, with indices *)
Definition cot_nb (vs : list vec3) (fs : list face) (i : nat) : list (R * Z) :=
  flat_map (fun c => let '(x, y, z) := c in [(cotan (at_ vs z) (at_ vs x) (at_ vs y), y); (cotan (at_ vs y) (at_ vs z) (at_ vs x), z)]) (corners_at fs i).
Lemma cot_nb_weights vs fs i : cot_weights vs fs i = map (fun w => (fst w, at_ vs (snd w))) (cot_nb vs fs i).
Proof. unfold cot_weights, cot_nb. induction (corners_at fs i) as [|((x, y), z) l IH]; [reflexivity|]. cbn [flat_map app map fst snd]. rewrite IH. reflexivity. Qed.
Lemma cot_row (F : Z -> R) vs fs i : rsum (map (fun e => if (e_row e =? Z.of_nat i)%Z then snd e * F (e_col e) else 0) (cot_T vs fs ++ transposed (cot_T vs fs))) = rsum (map (fun w => fst w * F (snd w)) (cot_nb vs fs i)).
Proof.
  rewrite map_app, rsum_app. unfold transposed, cot_T, cot_nb, corners_at, all_corners. rewrite !map_map. induction fs as [|f fs IH]; [cbn; lra|]. cbn [flat_map]. rewrite filter_app, flat_map_app, !map_app, !rsum_app, <- IH. clear IH. unfold around. destruct f as ((a, b), c). cbn [map corner_entry filter flat_map fst snd]. unfold e_row, e_col. cbn [fst snd]. rewrite !rsum_cons, !rsum_nil.
  destruct (a =? Z.of_nat i)%Z, (b =? Z.of_nat i)%Z, (c =? Z.of_nat i)%Z; cbn [flat_map app map fst snd]; rewrite ?rsum_cons, ?rsum_nil; ring.
Qed.
Lemma corner_cols n fs : Forall (in_range n) fs -> Forall (in_range n) (all_corners fs).
Proof. intros H. unfold all_corners. induction H as [|f fs Hf H IH]; [constructor|]. cbn [flat_map]. apply Forall_app. split; [|exact IH]. destruct f as ((a, b), c). destruct Hf as (A & B & C). repeat constructor; cbn; lia. Qed.
Lemma cot_cols vs fs n : Forall (in_range n) fs -> cols_ok n (cot_T vs fs ++ transposed (cot_T vs fs)).
Proof.
  intros H. apply corner_cols in H. apply Forall_app. unfold transposed, cot_T. rewrite map_map. split; apply Forall_map; (eapply Forall_impl; [|exact H]); intros ((x, y), z) (A & B & C); cbn [corner_entry]; unfold e_col; cbn [fst snd]; assumption.
Qed.
Lemma cot_row_vec vs fs i : row_vec (cot_T vs fs ++ transposed (cot_T vs fs)) vs i = combination (cot_weights vs fs i).
Proof.
  apply coord_ext. intros a. unfold row_vec, combination. rewrite !coord_vsum, !map_map, cot_nb_weights, map_map. cbn [fst snd].
  rewrite (rsum_map_ext _ (fun e => if (e_row e =? Z.of_nat i)%Z then snd e * coord a (at_ vs (e_col e)) else 0)) by (intros e _; destruct (e_row e =? Z.of_nat i)%Z; [apply coord_scal|apply coord_0]).
  rewrite (cot_row (fun z => coord a (at_ vs z))). apply rsum_map_ext. intros w _. rewrite coord_scal. reflexivity.
Qed.
Lemma cot_row_total vs fs i : row_total (cot_T vs fs ++ transposed (cot_T vs fs)) i = total (cot_weights vs fs i).
Proof.
  unfold row_total, total. rewrite cot_nb_weights, map_map. cbn [fst]. rewrite <- (rsum_map_ext (fun w => fst w * 1) fst) by (intros; ring). rewrite <- (cot_row (fun _ => 1)). apply rsum_map_ext. intros e _. destruct (_ =? _)%Z; ring.
Qed.
Theorem cot_total_value vs fs i : total (cot_weights vs fs i) = rsum (map (fun c => let '(x, y, z) := c in dist (at_ vs y) (at_ vs z) * dist (at_ vs y) (at_ vs z) / (2 * area_of (at_ vs x) (at_ vs y) (at_ vs z))) (corners_at fs i)).
Proof.
  unfold total, cot_weights. induction (corners_at fs i) as [|((x, y), z) l IH]; [reflexivity|]. cbn [flat_map app map]. rewrite !rsum_cons, IH. cbn [fst]. rewrite <- cotan_pair. ring.
Qed.
Theorem cot_total_nonneg vs fs i : 0 <= total (cot_weights vs fs i).
Proof.
  rewrite cot_total_value. apply rsum_nonneg. apply Forall_forall. intros r Hr. apply in_map_iff in Hr. destruct Hr as (((x, y), z) & <- & _). pose proof (area_pos (at_ vs x) (at_ vs y) (at_ vs z)). apply Rmult_le_pos; [apply Rle_0_sqr|]. left. apply Rinv_0_lt_compat. lra.
Qed.
Lemma cot_entry vs fs i j : Forall (in_range (length vs)) fs -> (i < length vs)%nat -> (j < length vs)%nat ->
  entry (coo (length vs) (cot_T vs fs ++ transposed (cot_T vs fs))) i j = rsum (map (fun w => if (snd w =? Z.of_nat j)%Z then fst w else 0) (cot_nb vs fs i)).
Proof.
  intros H Hi Hj. rewrite coo_entry by assumption. rewrite (rsum_map_ext _ (fun e => if (e_row e =? Z.of_nat i)%Z then snd e * (if (e_col e =? Z.of_nat j)%Z then 1 else 0) else 0)) by (intros e _; destruct (e_row e =? Z.of_nat i)%Z, (e_col e =? Z.of_nat j)%Z; cbn [andb]; ring).
  rewrite (cot_row (fun z => if (z =? Z.of_nat j)%Z then 1 else 0)). apply rsum_map_ext. intros w _. destruct (_ =? _)%Z; ring.
Qed.

(* ---- the norm Laplacian ---- *)
Definition in_graph (V : nat) (e : Z * Z) : Prop := (0 <= fst e < Z.of_nat V /\ 0 <= snd e < Z.of_nat V)%Z.
Lemma edge_in vs e : in_graph (length vs) e -> edge_verts vs e = Ok (at_ vs (fst e), at_ vs (snd e)).
Proof. intros (A & B). unfold edge_verts. rewrite !vert_in by assumption. reflexivity. Qed.
Definition norm_T (vs : list vec3) (es : list (Z * Z)) : list (Z * Z * R) := map (fun e => (fst e, snd e, / (dist (at_ vs (fst e)) (at_ vs (snd e)) + eps12))) es.
Theorem norm_laplacian_ok vs es : Forall (in_graph (length vs)) es -> norm_laplacian eps12 vs es = Ok (coo (length vs) (norm_T vs es ++ transposed (norm_T vs es))).
Proof.
  intros H. unfold norm_laplacian. assert (E : rmap (fun e => v <- edge_verts vs e ;; Ok (/ (norm3 (sub3 (fst v) (snd v)) + eps12))) es = Ok (map (fun e => / (dist (at_ vs (fst e)) (at_ vs (snd e)) + eps12)) es)).
  { induction H as [|e es He H IH]; [reflexivity|]. cbn [rmap map]. rewrite (edge_in vs e He). cbn [rbind fst snd]. rewrite IH. reflexivity. }
  rewrite E. cbn [rbind]. rewrite combine_self_map, map_map. reflexivity.
Qed.
Lemma dist_sym u v : dist u v = dist v u.
Proof. unfold dist, norm3. f_equal. unfold sub3, dot3. cbn [x3 y3 z3]. ring. Qed.
Theorem norm_entries vs es i j : simple_edges (length vs) es -> (i < length vs)%nat -> (j < length vs)%nat -> forall M, norm_laplacian eps12 vs es = Ok M ->
  (joined es i j -> entry M i j = / (dist (at_ vs (Z.of_nat i)) (at_ vs (Z.of_nat j)) + / 1000000000000)) /\ (~ joined es i j -> entry M i j = 0).
Proof.
  intros (H & ND) Hi Hj M E. rewrite norm_laplacian_ok in E by (eapply Forall_impl; [|exact H]; cbv beta; unfold in_graph; intros; lia). apply (f_equal (fun r => match r with Ok m => m | Fail _ => [] end)) in E. cbv beta iota in E. rewrite <- E. clear E M.
  rewrite coo_entry by assumption. rewrite map_app, rsum_app. unfold transposed, norm_T. rewrite !map_map. unfold e_row, e_col. cbn [fst snd].
  set (w := / (dist (at_ vs (Z.of_nat i)) (at_ vs (Z.of_nat j)) + / 1000000000000)).
  rewrite (rsum_map_ext _ (fun e => if ((fst e =? Z.of_nat i) && (snd e =? Z.of_nat j))%Z then w else 0) es) by (intros e _; destruct ((fst e =? Z.of_nat i) && (snd e =? Z.of_nat j))%Z eqn:X; [apply hit_spec in X; subst e; reflexivity|reflexivity]).
  rewrite (rsum_map_ext (fun x : Z * Z => if ((snd x =? _) && _)%Z then _ else 0) (fun e => if ((fst e =? Z.of_nat j) && (snd e =? Z.of_nat i))%Z then w else 0) es).
  2:{ intros e _. rewrite andb_comm. destruct ((fst e =? Z.of_nat j) && (snd e =? Z.of_nat i))%Z eqn:X; [apply hit_spec in X; subst e; cbn [fst snd]; rewrite dist_sym; reflexivity|reflexivity]. }
  pose proof (nodup_low es ND) as NE. split.
  - intros J. assert (NZ : Z.of_nat i <> Z.of_nat j). { rewrite Forall_forall in H. destruct J as [J|J]; specialize (H _ J); cbn in H; lia. } destruct J as [J|J].
    + rewrite sum_one by assumption. rewrite sum_none; [lra|]. apply (not_both es _ _ ND NZ J).
    + rewrite sum_none; [|apply (not_both es _ _ ND (not_eq_sym NZ) J)]. rewrite sum_one by assumption. lra.
  - intros J. unfold joined in J. rewrite !sum_none by tauto. lra.
Qed.
Theorem cot_facing vs fs i j : Forall (in_range (length vs)) fs -> (i < length vs)%nat -> (j < length vs)%nat -> i <> j ->
  entry (coo (length vs) (cot_T vs fs ++ transposed (cot_T vs fs))) i j = rsum (map (fun c => let '(x, y, z) := c in cotan (at_ vs x) (at_ vs y) (at_ vs z)) (facing fs i j)).
Proof.
  intros H Hi Hj NE. rewrite coo_entry by assumption. rewrite map_app, rsum_app. unfold transposed, cot_T, facing. rewrite !map_map. induction (all_corners fs) as [|((x, y), z) l IH]; [cbn; lra|]. cbn [map filter corner_entry fst snd]. unfold e_row, e_col in *. cbn [fst snd] in *. rewrite !rsum_cons.
  destruct (Z.eqb_spec y (Z.of_nat i)), (Z.eqb_spec z (Z.of_nat j)), (Z.eqb_spec y (Z.of_nat j)), (Z.eqb_spec z (Z.of_nat i)); try (exfalso; lia); cbn [andb orb map]; rewrite ?rsum_cons, <- ?IH; lra.
Qed.
Theorem cot_laplacian_all vs fs M inv : Forall (in_range (length vs)) fs -> cot_laplacian eps12 vs fs = Ok (M, inv) ->
  square (length vs) M /\ symmetric (length vs) M /\
  (forall i j, (i < length vs)%nat -> (j < length vs)%nat -> i <> j -> entry M i j = rsum (map (fun c => let '(x, y, z) := c in cotan (at_ vs x) (at_ vs y) (at_ vs z)) (facing fs i j))) /\
  (forall i, (i < length vs)%nat -> rsum (nth i M []) = rsum (map (fun c => let '(x, y, z) := c in dist (at_ vs y) (at_ vs z) * dist (at_ vs y) (at_ vs z) / (2 * area_of (at_ vs x) (at_ vs y) (at_ vs z))) (corners_at fs i)) /\ 0 <= rsum (nth i M [])) /\
  length inv = length vs /\ (forall i, (i < length vs)%nat -> nth i inv 0 = match corners_at fs i with [] => 0 | _ => / area_at vs fs i end).
Proof.
  intros H E. rewrite cot_laplacian_ok in E by exact H.
  assert (E1 : M = coo (length vs) (cot_T vs fs ++ transposed (cot_T vs fs))) by (apply (f_equal (fun r => match r with Ok m => fst m | Fail _ => [] end)) in E; cbv beta iota in E; symmetry; exact E).
  assert (E2 : inv = map (fun i => recip_pos (area_at vs fs i)) (seq 0 (length vs))) by (apply (f_equal (fun r => match r with Ok m => snd m | Fail _ => [] end)) in E; cbv beta iota in E; symmetry; exact E).
  clear E. subst M inv. split; [apply coo_square|]. split; [apply coo_symmetric|]. split; [intros; apply cot_facing; assumption|]. split; [|split].
  - intros i Hi. assert (K : rsum (nth i (coo (length vs) (cot_T vs fs ++ transposed (cot_T vs fs))) []) = total (cot_weights vs fs i)).
    { rewrite <- cot_row_total, <- (nth_map_seq (row_total _) (length vs) i 0 Hi), <- (coo_row_sums _ _ (cot_cols vs fs (length vs) H)). unfold row_sums. rewrite (nth_indep _ 0 (rsum [])) by (rewrite map_length; unfold coo; rewrite map_length, seq_length; exact Hi). rewrite map_nth. reflexivity. }
    rewrite K. split; [apply cot_total_value|apply cot_total_nonneg].
  - rewrite map_length, seq_length. reflexivity.
  - intros i Hi. rewrite (nth_map_seq _ _ _ 0 Hi). unfold area_at. destruct (corners_at fs i) as [|c l]; [cbn; unfold recip_pos; destruct (Rltb_spec 0 0); lra|]. cbn [map]. rewrite rsum_cons. destruct c as ((x, y), z). unfold recip_pos. pose proof (area_pos (at_ vs x) (at_ vs y) (at_ vs z)).
    assert (0 <= rsum (map (fun c => let '(x, y, z) := c in area_of (at_ vs x) (at_ vs y) (at_ vs z)) l)) by (apply rsum_nonneg, Forall_forall; intros r Hr; apply in_map_iff in Hr; destruct Hr as (((x', y'), z') & <- & _); left; apply area_pos).
    destruct (Rltb_spec 0 (area_of (at_ vs x) (at_ vs y) (at_ vs z) + rsum (map (fun c => let '(x, y, z) := c in area_of (at_ vs x) (at_ vs y) (at_ vs z)) l))); lra.
Qed.
Theorem norm_all vs es : simple_edges (length vs) es -> exists M, norm_laplacian eps12 vs es = Ok M /\ square (length vs) M /\ symmetric (length vs) M /\
  (forall i j, (i < length vs)%nat -> (j < length vs)%nat ->
    (joined es i j -> entry M i j = / (dist (at_ vs (Z.of_nat i)) (at_ vs (Z.of_nat j)) + / 1000000000000)) /\ (~ joined es i j -> entry M i j = 0)).
Proof.
  intros H. assert (HG : Forall (in_graph (length vs)) es) by (destruct H as (H & _); eapply Forall_impl; [|exact H]; cbv beta; unfold in_graph; intros; lia).
  eexists. split; [apply norm_laplacian_ok, HG|]. split; [apply coo_square|]. split; [apply coo_symmetric|]. intros i j Hi Hj. apply (norm_entries vs es i j H Hi Hj). apply norm_laplacian_ok, HG.
Qed.
Lemma cotan_angle x y z : 2 * / 1000000 <= norm3 (tri_cross x y z) -> cotan x y z = dot3 (sub3 y x) (sub3 z x) / norm3 (cross3 (sub3 y x) (sub3 z x)).
Proof. intros H. unfold cotan, area_of. rewrite Rmax_left by lra. unfold tri_cross. f_equal. field. Qed.
