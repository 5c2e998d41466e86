(* C46: the Laplacian matrices of ops/laplacian_matrices.py. The theorems; the vocabulary is in LaplaceSpec.v. *)
From Coq Require Import Permutation.
From Verif Require Import Base Packing RBase Geom FaceAreas FaceAreasSpec Meshes MeshesSpec Laplace LaplaceSpec LaplaceProofs LaplaceProofs2.
Local Open Scope R_scope.

(* laplacian: -1 on the diagonal, 1 / degree on the edges, 0 elsewhere *)
Theorem uniform_laplacian_entries : forall V E i j, simple_edges V E -> (i < V)%nat -> (j < V)%nat ->
  (i = j -> entry (laplacian V E) i j = -1) /\
  (i <> j -> joined E i j -> entry (laplacian V E) i j = / INR (edges_at E i)) /\
  (i <> j -> ~ joined E i j -> entry (laplacian V E) i j = 0).
Proof. exact uniform_entries. Qed.
Print Assumptions uniform_laplacian_entries.

(* every row sums to 0, except that of an isolated vertex, which sums to -1 *)
Theorem uniform_laplacian_row_sums : forall V E i, simple_edges V E -> (i < V)%nat ->
  rsum (nth i (laplacian V E) []) = if (edges_at E i =? 0)%nat then -1 else 0.
Proof.
  intros V E i H Hi. rewrite <- (uniform_row_sums V E i H Hi). unfold row_sums. rewrite (nth_indep _ 0 (rsum [])); [rewrite map_nth; reflexivity|]. rewrite map_length, laplacian_coo. rewrite (proj1 (coo_square V (lap_entries V E))). exact Hi.
Qed.
Print Assumptions uniform_laplacian_row_sums.

(* the product with a constant vector is 0 in every row of a vertex that has an edge *)
Theorem uniform_laplacian_annihilates_constants : forall V E c i, simple_edges V E -> (i < V)%nat -> edges_at E i <> 0%nat ->
  nth_error (mat_vecs (laplacian V E) (repeat c V)) i = Some (V3 0 0 0).
Proof. exact uniform_annihilates. Qed.
Print Assumptions uniform_laplacian_annihilates_constants.

(* neither the order of the edges nor their direction matters *)
Theorem uniform_laplacian_edge_set : forall V E E', Permutation (map low_high E) (map low_high E') -> laplacian V E = laplacian V E'.
Proof. exact uniform_edge_set. Qed.
Print Assumptions uniform_laplacian_edge_set.

(* an edge from a vertex to itself, as a face with a repeated vertex gives it, changes the diagonal *)
Theorem uniform_laplacian_loop_refuted : exists V E i, Forall (fun e => (0 <= fst e < Z.of_nat V /\ 0 <= snd e < Z.of_nat V)%Z) E /\ NoDup (map low_high E) /\ (i < V)%nat /\ entry (laplacian V E) i i <> -1.
Proof.
  exists 1%nat, [(0, 0)%Z], 0%nat. split; [repeat constructor; cbn; lia|]. split; [repeat constructor; intros []|]. split; [lia|].
  rewrite lap_entry_at by lia. rewrite (MeshesProofs10.lap_entry_split [(0, 0)%Z] 0 0). unfold deg. cbn. lra.
Qed.
Print Assumptions uniform_laplacian_loop_refuted.

(* cot_laplacian succeeds on faces in range *)
Theorem cot_laplacian_defined : forall vs fs, Forall (in_range (length vs)) fs -> exists M inv, cot_laplacian eps12 vs fs = Ok (M, inv).
Proof. intros vs fs H. eexists _, _. apply cot_laplacian_ok, H. Qed.
Print Assumptions cot_laplacian_defined.

(* it is a symmetric V x V matrix; off the diagonal it holds the sum of the cotangents of the angles opposite to the
   side; row i sums to the sum over the triangles at i of the squared opposite side over twice the area, so never
   below zero; the second result is one over the area of the triangles at i, or 0 *)
Theorem cot_laplacian_matrix : forall vs fs M inv, Forall (in_range (length vs)) fs -> cot_laplacian eps12 vs fs = Ok (M, inv) ->
  square (length vs) M /\ symmetric (length vs) M /\
  (forall i j, (i < length vs)%nat -> (j < length vs)%nat -> i <> j ->
    entry M i j = rsum (map (fun c => let '(x, y, z) := c in cotan (at_ vs x) (at_ vs y) (at_ vs z)) (facing fs i j))) /\
  (forall i, (i < length vs)%nat ->
    rsum (nth i M []) = rsum (map (fun c => let '(x, y, z) := c in
       dist (at_ vs y) (at_ vs z) * dist (at_ vs y) (at_ vs z) / (2 * area_of (at_ vs x) (at_ vs y) (at_ vs z))) (corners_at fs i)) /\
    0 <= rsum (nth i M [])) /\
  length inv = length vs /\
  (forall i, (i < length vs)%nat -> nth i inv 0 = match corners_at fs i with [] => 0 | _ => / area_at vs fs i end).
Proof. exact cot_laplacian_all. Qed.
Print Assumptions cot_laplacian_matrix.

(* the clamped cotangent is the cotangent of the angle for every triangle of area at least 1e-6 *)
Theorem cotan_is_the_cotangent : forall x y z th, 2 * / 1000000 <= norm3 (tri_cross x y z) ->
  dot3 (sub3 y x) (sub3 z x) = dist y x * dist z x * cos th -> norm3 (cross3 (sub3 y x) (sub3 z x)) = dist y x * dist z x * sin th ->
  cotan x y z = cos th / sin th.
Proof.
  intros x y z th H Hc Hs. rewrite (cotan_angle x y z H), Hc, Hs. unfold tri_cross in H. rewrite Hs in H.
  assert (dist y x * dist z x <> 0) by (intros E; rewrite E in H; lra). assert (sin th <> 0) by (intros E; rewrite E in H; lra). field. split; [assumption|]. split; intros E; apply H0; rewrite E; ring.
Qed.
Print Assumptions cotan_is_the_cotangent.

(* norm_laplacian: one over (length + 1e-12) on the edges, 0 elsewhere, the diagonal included *)
Theorem norm_laplacian_matrix : forall vs es, simple_edges (length vs) es -> exists M, norm_laplacian eps12 vs es = Ok M /\
  square (length vs) M /\ symmetric (length vs) M /\
  (forall i j, (i < length vs)%nat -> (j < length vs)%nat ->
    (joined es i j -> entry M i j = / (dist (at_ vs (Z.of_nat i)) (at_ vs (Z.of_nat j)) + / 1000000000000)) /\
    (~ joined es i j -> entry M i j = 0)).
Proof. exact norm_all. Qed.
Print Assumptions norm_laplacian_matrix.

(* ---- the hypotheses can be met ---- *)
Example a_graph : simple_edges 4 [(0, 1); (1, 2); (2, 0)]%Z /\ joined [(0, 1); (1, 2); (2, 0)]%Z 0 2 /\ edges_at [(0, 1); (1, 2); (2, 0)]%Z 0 = 2%nat /\ edges_at [(0, 1); (1, 2); (2, 0)]%Z 3 = 0%nat.
Proof. split; [split; [repeat (apply Forall_cons; [cbn; lia|]); apply Forall_nil|change (NoDup [(0, 1); (1, 2); (0, 2)]%Z); repeat (apply NoDup_cons; [cbn; intuition congruence|]); apply NoDup_nil]|]. split; [right; cbn; auto|]. split; reflexivity. Qed.
Example two_orders : Permutation (map low_high [(0, 1); (1, 2)]%Z) (map low_high [(2, 1); (0, 1)]%Z).
Proof. cbn. apply perm_swap. Qed.
Example two_triangles : let vs := [V3 0 0 0; V3 1 0 0; V3 0 1 0; V3 1 1 0] in let fs := [(0, 1, 2); (1, 3, 2)]%Z in
  Forall (in_range (length vs)) fs /\ facing fs 1 2 = [(0, 1, 2); (3, 2, 1)]%Z /\ corners_at fs 0 = [(0, 1, 2)]%Z /\ cotan (V3 0 0 0) (V3 1 0 0) (V3 0 1 0) = 0 /\ cotan (V3 1 0 0) (V3 0 1 0) (V3 0 0 0) = 1.
Proof.
  cbv zeta. split; [repeat constructor; cbn; lia|]. split; [reflexivity|]. split; [reflexivity|].
  assert (N : forall v, dot3 v v = 1 -> norm3 v = 1) by (intros v Hv; unfold norm3; rewrite Hv; apply sqrt_1).
  split; rewrite cotan_angle; unfold tri_cross; rewrite N; try (unfold dot3, cross3, sub3; cbn [x3 y3 z3]; field); lra.
Qed.
