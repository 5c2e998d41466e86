From Verif Require Import Packing PackingSpec.
From Verif Require Import Base RBase Geom GeomSpec FaceAreas FaceAreasSpec Meshes MeshesSpec MeshesHistSpec MeshesProofs Laplace LaplaceSpec LaplaceProofs3 PointMesh PointMeshSpec PointMeshProofs4 SurfaceSample SurfaceSampleSpec SurfaceSampleProofs SurfaceSampleProofs2 SurfaceSampleProofs3.
From Verif Require MeshesProofs8 MeshesProofs9 PlyProofs6.
Local Open Scope R_scope.

(* ---- uniform within a face ---- *)
Lemma independent (e f : vec3) x y : cross3 e f <> V3 0 0 0 -> x * x3 e + y * x3 f = 0 -> x * y3 e + y * y3 f = 0 -> x * z3 e + y * z3 f = 0 -> x = 0 /\ y = 0.
Proof.
  intros Hc H1 H2 H3. destruct (Req_dec x 0) as [Hx|Hx].
  - split; [exact Hx|]. destruct (Req_dec y 0) as [Hy|Hy]; [exact Hy|exfalso]. apply Hc. rewrite Hx in *. assert (x3 f = 0) by (apply (Rmult_eq_reg_l y); lra). assert (y3 f = 0) by (apply (Rmult_eq_reg_l y); lra). assert (z3 f = 0) by (apply (Rmult_eq_reg_l y); lra). unfold cross3. f_equal; nra.
  - exfalso. apply Hc. assert (A1 : x * x3 e = - (y * x3 f)) by lra. assert (A2 : x * y3 e = - (y * y3 f)) by lra. assert (A3 : x * z3 e = - (y * z3 f)) by lra.
    unfold cross3. f_equal; (apply (Rmult_eq_reg_l x); [|exact Hx]); rewrite Rmult_0_r; match goal with |- x * (?a * ?b - ?c * ?d) = 0 => replace (x * (a * b - c * d)) with ((x * a) * b - (x * c) * d) by ring end; rewrite ?A1, ?A2, ?A3; ring.
Qed.
Lemma share_area t s q : 0 <= s -> 0 <= q -> triangle_area (sub_triangle t s q) = s * s * q * triangle_area t.
Proof.
  destruct t as [[a b] c]. intros Hs Hq. unfold triangle_area, sub_triangle. assert (E : tri_cross a (lerp a b s) (lerp a (lerp b c q) s) = scal3 (s * s * q) (tri_cross a b c)).
  { unfold tri_cross, lerp, cross3, scal3, sub3, add3. cbn [x3 y3 z3]. f_equal; ring. }
  rewrite E. unfold norm3. replace (dot3 (scal3 (s * s * q) (tri_cross a b c)) (scal3 (s * s * q) (tri_cross a b c))) with ((s * s * q) * (s * s * q) * dot3 (tri_cross a b c) (tri_cross a b c)) by (unfold dot3, scal3; cbn [x3 y3 z3]; ring).
  assert (0 <= s * s * q) by (apply Rmult_le_pos; [nra|exact Hq]). rewrite sqrt_mult_alt by nra. rewrite sqrt_square by assumption. field.
Qed.
Lemma uniform t u v s q : triangle_area t <> 0 -> 0 < u < 1 -> 0 <= v < 1 -> 0 < s <= 1 -> 0 < q <= 1 ->
  inside (combine3 (bary_of (u, v)) t) (sub_triangle t s q) <-> u <= s * s /\ v <= q.
Proof.
  destruct t as [[a b] c]. intros Ht Hu Hv Hs Hq. unfold inside, sub_triangle, bary_of, combine3. cbn [fst snd].
  set (r := sqrt u). assert (Hr : 0 < r) by (apply sqrt_lt_R0; lra). assert (Er : r * r = u) by (apply sqrt_sqrt; lra).
  assert (Hc : cross3 (sub3 b a) (sub3 c a) <> V3 0 0 0).
  { intros E. apply Ht. unfold triangle_area, tri_cross, norm3. rewrite E. unfold dot3. cbn. replace (0 * 0 + 0 * 0 + 0 * 0) with 0 by ring. rewrite sqrt_0. field. }
  split.
  - intros (x & y & z & Hx & Hy & Hz & Es & E1 & E2 & E3). unfold lerp, add3, scal3, sub3 in E1, E2, E3. cbn [x3 y3 z3] in E1, E2, E3.
    destruct (independent _ _ (r * (1 - v) - y * s - z * s * (1 - q)) (r * v - z * s * q) Hc) as (I1 & I2); unfold sub3; cbn [x3 y3 z3]; [replace x with (1 - y - z) in * by lra; clear -E1 E2 E3; nra..|].
    assert (A1 : r = (y + z) * s) by nra. assert (A2 : (y + z) <= 1) by lra. assert (A3 : r <= s) by nra. split; [nra|]. assert (A4 : r * v <= r * q) by (replace (r * v) with (z * s * q) by lra; rewrite A1; assert (0 <= y * s * q) by (apply Rmult_le_pos; [apply Rmult_le_pos|]; lra); nra). apply Rmult_le_reg_l with r; assumption.
  - intros (H1 & H2). assert (A1 : r <= s) by (apply Rsqr_incr_0_var; unfold Rsqr; lra). set (z := r * v / (s * q)). set (y := r / s - z). exists (1 - y - z), y, z.
    assert (Hsq : 0 < s * q) by (apply Rmult_lt_0_compat; lra). assert (Ez : z * (s * q) = r * v) by (unfold z; field; split; lra). assert (Ey : (y + z) * s = r) by (unfold y; field; lra).
    assert (Z : 0 <= z) by (unfold z; apply Rmult_le_pos; [nra|left; apply Rinv_0_lt_compat; exact Hsq]). assert (YZ : y + z <= 1) by (apply Rmult_le_reg_r with s; lra).
    assert (Y : 0 <= y). { apply Rmult_le_reg_r with (s * q); [exact Hsq|]. replace (y * (s * q)) with ((y + z) * s * q - z * (s * q)) by ring. rewrite Ey, Ez. nra. }
    split; [lra|]. split; [exact Y|]. split; [exact Z|]. split; [ring|].
    assert (Ez' : z * s * q = r * v) by lra. assert (Eys : y * s + z * s = r) by lra.
    unfold lerp, add3, scal3, sub3. cbn [x3 y3 z3].
    assert (G : forall p1 p2 p3 : R, (1 - r) * p1 + r * (1 - v) * p2 + r * v * p3 = (1 - y - z) * p1 + y * (p1 + s * (p2 - p1)) + z * (p1 + s * (p2 + q * (p3 - p2) - p1))).
    { intros p1 p2 p3. replace ((1 - y - z) * p1 + y * (p1 + s * (p2 - p1)) + z * (p1 + s * (p2 + q * (p3 - p2) - p1))) with (p1 - (y * s + z * s) * p1 + (y * s + z * s) * p2 + (z * s * q) * (p3 - p2)) by ring. rewrite Eys, Ez'. ring. }
    split; [apply G|]. split; apply G.
Qed.

Section Fails.
Variable argsort : list Z -> list nat.
Hypothesis Hsort : sorts argsort.
Variable multinomial : list (list R) -> nat -> result (list (list nat)).
Variable rand : nat -> nat -> list (list (R * R)).
Hypothesis Hmu : multinomial_ok multinomial.
Hypothesis Hr : rand_ok rand.

Lemma cannot_draw m a feats n rn rt : reachable argsort m a -> (rt = true -> feats <> None) -> n = 0%nat \/ (exists p, In p (batch a) /\ snd p <> [] /\ mesh_area p = 0) ->
  sample_points_from_meshes multinomial rand feats n rn rt m = Fail ERuntime.
Proof.
  intros Hre Ht Hc. destruct (MeshesProofs9.reachable_repr argsort Hsort m a Hre) as (Hw & R0). destruct (reach_multinomial argsort Hsort multinomial rand m a feats n rn rt Hw R0 Ht) as (m' & _ & E). rewrite E.
  rewrite (proj2 (Hmu (weights_of (batch a)) n (weights_nonneg _))); [reflexivity|]. destruct Hc as [Hc|(p & Hp & Hf & HA)]; [left; exact Hc|right]. apply Exists_exists. unfold weights_of. eexists. split; [apply in_map; apply filter_In; split; [exact Hp|unfold has_faces; destruct (snd p); [contradiction|reflexivity]]|]. rewrite row_total. lra.
Qed.
Lemma filter_short {T} (h : T -> bool) l : (length (filter h l) <= length l)%nat.
Proof. induction l as [|x l IH]; cbn; [lia|]. destruct (h x); cbn; lia. Qed.
Lemma filter_shorter (b : list mesh) p : In p b -> has_faces p = false -> (length (with_faces b) < length b)%nat.
Proof.
  unfold with_faces. induction b as [|q b IH]; [intros []|]. intros [->|H] E; cbn [filter length].
  - rewrite E. pose proof (filter_short has_faces b). lia.
  - specialize (IH H E). destruct (has_faces q); cbn [length]; lia.
Qed.
(* textures cannot be returned when some mesh of the batch has no faces *)
Lemma textures_need_faces m a l n rn p : reachable argsort m a -> (0 < n)%nat -> (forall p, In p (batch a) -> snd p <> [] -> 0 < mesh_area p) -> In p (batch a) -> snd p = [] ->
  sample_points_from_meshes multinomial rand (Some l) n rn true m = Fail ERuntime.
Proof.
  intros Hre Hn HA Hp Ep. destruct (MeshesProofs9.reachable_repr argsort Hsort m a Hre) as (Hw & R0). destruct (draws multinomial Hmu (batch a) n Hn HA) as (drawn & E & HD).
  destruct (core argsort Hsort multinomial rand Hr m a None n rn false drawn Hw R0 ltac:(discriminate) E HD) as (D & m1 & _ & _ & _ & EQ). cbn [option_map] in EQ.
  destruct (reach_multinomial argsort Hsort multinomial rand m a None n rn false Hw R0 ltac:(discriminate)) as (m2 & _ & E2). rewrite E2, E in EQ. cbn [rbind] in EQ. clear E2.
  destruct (reach_multinomial argsort Hsort multinomial rand m a (Some l) n rn true Hw R0 ltac:(discriminate)) as (m3 & _ & E3). rewrite E3, E. cbn [rbind]. clear E3.
  destruct (gather2 (concat (map faces_of (batch a))) _) as [tris|]; [|discriminate]. cbn [rbind] in *. destruct (put_masked _ _ (zip2 combine3 _ tris)) as [sa|]; [|discriminate]. cbn [rbind] in *.
  match goal with |- rbind (if rn then ?x else ?y) _ = _ => destruct (if rn then x else y) as [ns|] end; [|discriminate]. cbn [rbind] in *.
  match goal with |- context [negb (?x =? ?y)%nat] => assert (HNE : (x =? y)%nat = false) end; [|rewrite HNE; reflexivity]. apply Nat.eqb_neq.
  pose proof (Base.Forall2_length _ _ _ HD) as L1. pose proof (filter_shorter (batch a) p Hp ltac:(unfold has_faces; rewrite Ep; reflexivity)) as L2.
  rewrite map_length, combine_length. replace (length (firsts_from 0 (map faces_of (with_faces (batch a))))) with (length (with_faces (batch a))).
  - rewrite <- L1, Nat.min_id. intros H. apply Nat.mul_cancel_r in H; lia.
  - clear. generalize 0%nat. induction (with_faces (batch a)) as [|q x IH]; intros o; [reflexivity|]. cbn [map firsts_from length]. rewrite <- IH. reflexivity.
Qed.
End Fails.

(* ---- which face and where, from the random numbers ---- *)
Definition picked (s : mesh * list nat * list (R * R)) : list vec3 :=
  map (fun q => let t := nth (fst q) (faces_of (fst (fst s))) zero_tri in
                let r := sqrt (fst (snd q)) in
                at_weights (1 - r) (r * (1 - snd (snd q))) (r * snd (snd q)) t) (combine (snd (fst s)) (snd s)).
Lemma picked_points s : dpoints s = picked (dmesh s, ddrawn s, duv s).
Proof.
  unfold dpoints, picked. cbn [fst snd]. unfold dtris. generalize (duv s) as us, (ddrawn s) as ks. induction us as [|u us IH]; intros [|k ks]; try reflexivity. cbn [map combine fst snd]. rewrite IH. f_equal; try (rewrite combine3_at; reflexivity).
Qed.
Lemma rows_kept n : forall b D L, somes D = L -> Forall2 (fun p o => match o with Some s => has_faces p = true | None => has_faces p = false end) b D ->
  map snd (filter (fun q => has_faces (fst q)) (combine b (map (or_zero n dpoints) D))) = map dpoints L.
Proof.
  induction b as [|p b IH]; intros D L HS H; inversion H; subst; [reflexivity|]. cbn [map combine filter fst]. destruct y as [s|]; rewrite H2.
  - unfold somes. cbn [map concat app snd or_zero]. fold (somes l'). rewrite (IH l' _ eq_refl H4). reflexivity.
  - unfold somes. cbn [map concat app]. fold (somes l'). apply (IH l' _ eq_refl H4).
Qed.
Lemma data_picked : forall b dr uv ft, length dr = length b -> length uv = length b -> length ft = length b -> map dpoints (data b dr uv ft) = map picked (combine (combine b dr) uv).
Proof.
  induction b as [|p b IH]; intros [|d dr] [|u uv] [|f ft] H1 H2 H3; try discriminate; [reflexivity|]. cbn in H1, H2, H3. cbn [data map combine]. rewrite IH by lia. f_equal. rewrite picked_points. reflexivity.
Qed.

Section Law.
Variable argsort : list Z -> list nat.
Hypothesis Hsort : sorts argsort.
Variable multinomial : list (list R) -> nat -> result (list (list nat)).
Variable rand : nat -> nat -> list (list (R * R)).
Hypothesis Hmu : multinomial_ok multinomial.
Hypothesis Hr : rand_ok rand.
Lemma law m a n : reachable argsort m a -> (0 < n)%nat -> (forall p, In p (batch a) -> snd p <> [] -> 0 < mesh_area p) ->
  exists drawn s m', multinomial (weights_of (batch a)) n = Ok drawn /\ length drawn = length (with_faces (batch a)) /\
    sample_points_from_meshes multinomial rand None n false false m = Ok (s, m') /\
    map snd (filter (fun q => has_faces (fst q)) (combine (batch a) (points s))) = map picked (combine (combine (with_faces (batch a)) drawn) (rand (length (with_faces (batch a))) n)).
Proof.
  intros Hre Hn HA. destruct (MeshesProofs9.reachable_repr argsort Hsort m a Hre) as (Hw & R0). destruct (draws multinomial Hmu (batch a) n Hn HA) as (drawn & E & HD).
  destruct (core argsort Hsort multinomial rand Hr m a None n false false drawn Hw R0 ltac:(discriminate) E HD) as (D & m' & R' & SD & F & EQ). cbn [option_map] in EQ.
  exists drawn, (Sampled (map (or_zero n dpoints) D) None None), m'. pose proof (eq_sym (Base.Forall2_length _ _ _ HD)) as L1. split; [exact E|]. split; [exact L1|]. split; [exact EQ|]. cbn [points].
  rewrite (rows_kept n _ _ _ SD) by (eapply PlyProofs6.f2_impl; [|exact F]; cbv beta; intros p [s|] H; tauto).
  apply data_picked; [exact L1|apply Hr|]. cbn. apply map_length.
Qed.
End Law.
