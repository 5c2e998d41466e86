From Verif Require Import Packing PackingSpec.
From Verif Require Import Base RBase Geom GeomSpec FaceAreas FaceAreasSpec Meshes MeshesSpec MeshesHistSpec MeshesProofs Laplace LaplaceSpec LaplaceProofs3 PointMesh PointMeshSpec PointMeshProofs4 SurfaceSample SurfaceSampleSpec SurfaceSampleProofs SurfaceSampleProofs2.
From Verif Require MeshesProofs8 MeshesProofs9 PlyProofs6.
Local Open Scope R_scope.

Lemma area_nonneg t : 0 <= triangle_area t.
Proof. destruct t as [[a b] c]. unfold triangle_area, norm3. pose proof (sqrt_pos (dot3 (tri_cross a b c) (tri_cross a b c))). lra. Qed.
Lemma weights_nonneg b : Forall (Forall (Rle 0)) (weights_of b).
Proof.
  unfold weights_of. apply Forall_forall. intros row H. apply in_map_iff in H. destruct H as (p & <- & _). apply Forall_app. split.
  - apply Forall_forall. intros x H. apply in_map_iff in H. destruct H as (t & <- & _). apply area_nonneg.
  - apply Forall_forall. intros x H. apply repeat_spec in H. lra.
Qed.
Lemma rsum_repeat0 n : rsum (repeat 0 n) = 0.
Proof. induction n as [|n IH]; [reflexivity|]. cbn [repeat]. rewrite rsum_cons, IH. lra. Qed.
Lemma row_total p k : rsum (map triangle_area (faces_of p) ++ repeat 0 k) = mesh_area p.
Proof. rewrite rsum_app, rsum_repeat0. unfold mesh_area. lra. Qed.
Lemma drawn_good p k n d : draws_from (map triangle_area (faces_of p) ++ repeat 0 k) n d ->
  length d = n /\ Forall (fun j => (j < length (faces_of p))%nat /\ 0 < triangle_area (nth j (faces_of p) zero_tri)) d.
Proof.
  intros (HL & HF). split; [exact HL|]. eapply Forall_impl; [|exact HF]. cbv beta. intros j (H1 & H2). rewrite app_length, map_length, repeat_length in H1.
  destruct (Nat.lt_ge_cases j (length (faces_of p))) as [Hj|Hj].
  - split; [exact Hj|]. rewrite app_nth1 in H2 by (rewrite map_length; exact Hj). rewrite (nth_indep _ 0 (triangle_area zero_tri)) in H2 by (rewrite map_length; exact Hj). rewrite map_nth in H2. exact H2.
  - exfalso. rewrite app_nth2 in H2 by (rewrite map_length; exact Hj). rewrite map_length in H2. rewrite nth_repeat in H2. lra.
Qed.
Lemma f2_map_left {S T U} (f : S -> T) (P : T -> U -> Prop) l : forall r, Forall2 P (map f l) r -> Forall2 (fun s => P (f s)) l r.
Proof. induction l as [|s l IH]; intros r H; inversion H; subst; constructor; auto. Qed.

Lemma bary_good uv : 0 <= fst uv < 1 -> 0 <= snd uv < 1 -> let '(w0, w1, w2) := bary_of uv in 0 <= w0 /\ 0 <= w1 /\ 0 <= w2 /\ w0 + w1 + w2 = 1.
Proof.
  intros H1 H2. unfold bary_of. pose proof (sqrt_pos (fst uv)). assert (sqrt (fst uv) <= 1) by (rewrite <- sqrt_1; apply sqrt_le_1; lra). repeat split; try nra.
Qed.
Lemma combine3_at w t : combine3 w t = let '(w0, w1, w2) := w in at_weights w0 w1 w2 t.
Proof. destruct w as [[w0 w1] w2], t as [[a b] c]. unfold combine3, at_weights, add3, scal3. cbn. reflexivity. Qed.
Lemma norm3_div v k : 0 < k -> norm3 (div3 v k) = norm3 v / k.
Proof.
  intros H. unfold norm3, div3, dot3. cbn [x3 y3 z3]. replace (x3 v / k * (x3 v / k) + y3 v / k * (y3 v / k) + z3 v / k * (z3 v / k)) with ((x3 v * x3 v + y3 v * y3 v + z3 v * z3 v) / (k * k)) by (field; lra).
  rewrite sqrt_div_alt by nra. rewrite sqrt_square by lra. reflexivity.
Qed.
Lemma unit_normal_ok t : / 2 ^ 52 <= 2 * triangle_area t -> is_normal (unit_normal t) t.
Proof.
  destruct t as [[a b] c]. unfold triangle_area, unit_normal, is_normal. intros H.
  assert (E : cross3 (sub3 b a) (sub3 c b) = tri_cross a b c) by (unfold tri_cross, cross3, sub3; cbn [x3 y3 z3]; f_equal; ring).
  rewrite E. fold float_epsilon in H. set (n := tri_cross a b c) in *. assert (P : 0 < float_epsilon) by (unfold float_epsilon; apply Rinv_0_lt_compat, pow_lt; lra). rewrite Rmax_left by lra. assert (Hn : 0 < norm3 n) by lra.
  split; [rewrite norm3_div by exact Hn; field; lra|]. split; [|split].
  - unfold div3, dot3. cbn [x3 y3 z3]. replace (x3 n / norm3 n * x3 (sub3 b a) + y3 n / norm3 n * y3 (sub3 b a) + z3 n / norm3 n * z3 (sub3 b a)) with ((x3 n * x3 (sub3 b a) + y3 n * y3 (sub3 b a) + z3 n * z3 (sub3 b a)) / norm3 n) by (field; lra). replace (x3 n * x3 (sub3 b a) + y3 n * y3 (sub3 b a) + z3 n * z3 (sub3 b a)) with 0; [field; lra|]. unfold n, tri_cross, cross3, sub3. cbn [x3 y3 z3]. ring.
  - unfold div3, dot3. cbn [x3 y3 z3]. replace (x3 n / norm3 n * x3 (sub3 c a) + y3 n / norm3 n * y3 (sub3 c a) + z3 n / norm3 n * z3 (sub3 c a)) with ((x3 n * x3 (sub3 c a) + y3 n * y3 (sub3 c a) + z3 n * z3 (sub3 c a)) / norm3 n) by (field; lra). replace (x3 n * x3 (sub3 c a) + y3 n * y3 (sub3 c a) + z3 n * z3 (sub3 c a)) with 0; [field; lra|]. unfold n, tri_cross, cross3, sub3. cbn [x3 y3 z3]. ring.
  - assert (S : norm3 n * norm3 n = dot3 n n) by (apply sqrt_sqrt; unfold dot3; nra). unfold div3, dot3 in *. cbn [x3 y3 z3]. replace (x3 n / norm3 n * x3 n + y3 n / norm3 n * y3 n + z3 n / norm3 n * z3 n) with ((x3 n * x3 n + y3 n * y3 n + z3 n * z3 n) / norm3 n) by (field; lra). rewrite <- S. replace (norm3 n * norm3 n / norm3 n) with (norm3 n) by (field; lra). exact Hn.
Qed.

Lemma nth_error_combine2 {A B} (l : list A) (r : list B) j : forall q, nth_error (combine l r) j = Some q -> nth_error l j = Some (fst q) /\ nth_error r j = Some (snd q).
Proof. revert l r. induction j as [|j IH]; intros [|a l] [|b r] q H; cbn in H |- *; try discriminate; [injection H as <-; auto|apply IH; exact H]. Qed.
Lemma nth_error_map_inv {A B} (f : A -> B) l j y : nth_error (map f l) j = Some y -> exists x, nth_error l j = Some x /\ y = f x.
Proof. rewrite nth_error_map. destruct (nth_error l j); [intros H; injection H as <-; eauto|discriminate]. Qed.

(* one row of the answer *)
Lemma row_good n p fl s : has_faces p = true -> dmesh s = p -> length (ddrawn s) = n -> length (duv s) = n -> Forall (fun uv => 0 <= fst uv < 1 /\ 0 <= snd uv < 1) (duv s) ->
  Forall (fun k => (k < length (faces_of p))%nat /\ 0 < triangle_area (nth k (faces_of p) zero_tri)) (ddrawn s) ->
  (forall l, fl = Some l -> dft s = l) -> forall rn rt : bool, (rt = true -> fl <> None) ->
  sample_row n p fl (dpoints s) (if rn then Some (dnormals s) else None) (if rt then Some (dtextures s) else None).
Proof.
  intros Hp Hm Ld Lu Hu Hd Hf rn rt Hrt. assert (LP : forall X, length (map (fun q : R * R * R * tri => combine3 (fst q) (snd q)) (combine (map bary_of (duv s)) (dtris X s))) = n).
  { intros X. rewrite map_length, combine_length. unfold dtris. rewrite !map_length. lia. }
  split; [apply LP|]. split; [destruct rn; intros l E; [injection E as <-; unfold dnormals; rewrite map_length; exact Ld|discriminate]|].
  split; [destruct rt; intros l E; [injection E as <-; apply LP|discriminate]|].
  split; [intros E; unfold has_faces in Hp; rewrite E in Hp; discriminate|].
  intros _ j x Hj. unfold dpoints in Hj. apply nth_error_map_inv in Hj. destruct Hj as ([w t] & Hj & ->). apply nth_error_combine2 in Hj. destruct Hj as (Hw & Ht). cbn [fst snd] in *.
  apply nth_error_map_inv in Hw. destruct Hw as (uv & Huv & ->). unfold dtris in Ht. apply nth_error_map_inv in Ht. destruct Ht as (k & Hk & ->). rewrite Hm.
  rewrite Forall_forall in Hd. destruct (Hd k (nth_error_In _ _ Hk)) as (K1 & K2). rewrite Forall_forall in Hu. destruct (Hu uv (nth_error_In _ _ Huv)) as (U1 & U2).
  pose proof (bary_good uv U1 U2) as BG. destruct (bary_of uv) as [[w0 w1] w2] eqn:EB. exists k, (nth k (faces_of p) zero_tri), w0, w1, w2.
  split; [apply nth_error_nth'; exact K1|]. split; [exact K2|]. do 4 (split; [tauto|]). split; [rewrite combine3_at; reflexivity|]. split.
  - intros l y El Hy HA. destruct rn; [|discriminate]. injection El as <-. unfold dnormals in Hy. apply nth_error_map_inv in Hy. destruct Hy as (k' & Hk' & ->). rewrite Hk in Hk'. injection Hk' as <-. rewrite Hm. rewrite (nth_indep _ (V3 0 0 0) (unit_normal zero_tri)) by (rewrite map_length; exact K1). rewrite map_nth. apply unit_normal_ok, HA.
  - intros l c f' ft El Ef Hc Hft. destruct rt; [|discriminate]. injection El as <-. unfold dtextures in Hc. apply nth_error_map_inv in Hc. destruct Hc as ([w' t'] & Hc & ->). apply nth_error_combine2 in Hc. cbn [fst snd] in *. destruct Hc as (Hw' & Ht').
    rewrite (map_nth_error _ _ _ Huv) in Hw'. injection Hw' as <-. unfold dtris in Ht'. rewrite (map_nth_error _ _ _ Hk) in Ht'. injection Ht' as <-. rewrite EB, combine3_at, Hm, (Hf _ Ef). f_equal. apply nth_error_nth. exact Hft.
Qed.

Definition row_of {T} (o : option (list T)) (i : nat) : option T := match o with Some l => nth_error l i | None => None end.

Section Main.
Variable argsort : list Z -> list nat.
Hypothesis Hsort : sorts argsort.
Variable multinomial : list (list R) -> nat -> result (list (list nat)).
Variable rand : nat -> nat -> list (list (R * R)).
Hypothesis Hmu : multinomial_ok multinomial.
Hypothesis Hr : rand_ok rand.

Lemma draws b n : (0 < n)%nat -> (forall p, In p b -> snd p <> [] -> 0 < mesh_area p) ->
  exists drawn, multinomial (weights_of b) n = Ok drawn /\
  Forall2 (fun p d => length d = n /\ Forall (fun k => (k < length (faces_of p))%nat /\ 0 < triangle_area (nth k (faces_of p) zero_tri)) d) (with_faces b) drawn.
Proof.
  intros Hn HA. destruct (proj1 (Hmu (weights_of b) n (weights_nonneg b))) as (drawn & E & HD).
  { split; [exact Hn|]. unfold weights_of. apply Forall_forall. intros row H. apply in_map_iff in H. destruct H as (p & <- & H). rewrite row_total. apply filter_In in H. apply HA; [apply H|]. unfold has_faces in H. destruct (snd p); [destruct H; discriminate|discriminate]. }
  exists drawn. split; [exact E|]. apply f2_map_left in HD. eapply PlyProofs6.f2_impl; [|exact HD]. cbv beta. intros p d H. apply drawn_good in H. exact H.
Qed.

Lemma f2_nth {S T} (P : S -> T -> Prop) : forall a b i x, Forall2 P a b -> nth_error a i = Some x -> exists y, nth_error b i = Some y /\ P x y.
Proof. intros a b i x H. revert i. induction H as [|u v a b H1 H IH]; intros [|i] E; cbn in E; try discriminate; [injection E as <-; cbn; eauto|apply IH, E]. Qed.
Lemma data_feature_all : forall b dr uv ft D i s, length dr = length b -> length uv = length b -> length ft = length b -> somes D = data b dr uv ft -> length D = length b -> nth_error D i = Some (Some s) -> nth_error ft i = Some (dft s).
Proof.
  assert (SL : forall T (D : list (option T)), (length (somes D) <= length D)%nat) by (intros T D; unfold somes; induction D as [|[d|] D IH]; cbn; lia).
  assert (DL : forall b dr uv ft, length dr = length b -> length uv = length b -> length ft = length b -> length (data b dr uv ft) = length b) by (induction b as [|p b IH]; intros [|d dr] [|u uv] [|f ft] H1 H2 H3; try discriminate; [reflexivity|]; cbn in *; f_equal; apply IH; lia).
  induction b as [|p b IH]; intros [|d dr] [|u uv] [|f ft] D i s H1 H2 H3 HS HL HN; try discriminate.
  - destruct D; [destruct i; discriminate|discriminate].
  - cbn in H1, H2, H3. destruct D as [|o D]; [discriminate|]. cbn in HL. destruct o as [d0|].
    + unfold somes in HS. cbn [map concat app data] in HS. fold (somes D) in HS. injection HS as -> HS. destruct i as [|i]; [cbn in HN; injection HN as <-; reflexivity|]. cbn in HN |- *. eapply (IH dr uv ft D i s); try lia; assumption.
    + exfalso. unfold somes in HS. cbn [map concat app] in HS. fold (somes D) in HS. apply (f_equal (@length _)) in HS. cbn [data length] in HS. rewrite DL in HS by lia. pose proof (SL _ D). lia.
Qed.

Theorem samples_main m a fls n rn rt : reachable argsort m a -> (0 < n)%nat -> (forall p, In p (batch a) -> snd p <> [] -> 0 < mesh_area p) -> textures_fit (batch a) fls rt ->
  exists s m', sample_points_from_meshes multinomial rand (option_map (@concat _) fls) n rn rt m = Ok (s, m') /\ behaves argsort m' a /\
    length (points s) = length (batch a) /\
    (if rn then exists l, normals s = Some l /\ length l = length (batch a) else normals s = None) /\
    (if rt then exists l, textures s = Some l /\ length l = length (batch a) else textures s = None) /\
    forall i p, nth_error (batch a) i = Some p -> exists pts, nth_error (points s) i = Some pts /\ sample_row n p (row_of fls i) pts (row_of (normals s) i) (row_of (textures s) i).
Proof.
  intros Hre Hn HA Ht. destruct (MeshesProofs9.reachable_repr argsort Hsort m a Hre) as (Hw & R0). destruct (draws (batch a) n Hn HA) as (drawn & E & HD).
  destruct (core argsort Hsort multinomial rand Hr m a fls n rn rt drawn Hw R0 Ht E HD) as (D & m' & R' & SD & F & EQ). exists (Sampled (map (or_zero n dpoints) D) (if rn then Some (map (or_zero n dnormals) D) else None) (if rt then Some (map (or_zero n dtextures) D) else None)), m'.
  assert (LD : length D = length (batch a)) by (symmetry; exact (Base.Forall2_length _ _ _ F)).
  split; [exact EQ|]. split; [apply MeshesProofs8.repr_behaves; assumption|]. cbn [points normals textures]. split; [rewrite map_length; exact LD|].
  split; [destruct rn; [eexists; split; [reflexivity|]; rewrite map_length; exact LD|reflexivity]|]. split; [destruct rt; [eexists; split; [reflexivity|]; rewrite map_length; exact LD|reflexivity]|].
  intros i p Hi. destruct (f2_nth _ _ _ i p F Hi) as (o & Ho & Q). exists (or_zero n dpoints o). split; [apply map_nth_error; exact Ho|].
  replace (row_of (if rn then Some (map (or_zero n dnormals) D) else None) i) with (if rn then Some (or_zero n dnormals o) else None) by (destruct rn; [cbn; symmetry; apply map_nth_error; exact Ho|reflexivity]).
  replace (row_of (if rt then Some (map (or_zero n dtextures) D) else None) i) with (if rt then Some (or_zero n dtextures o) else None) by (destruct rt; [cbn; symmetry; apply map_nth_error; exact Ho|reflexivity]).
  destruct o as [s|]; cbn [or_zero].
  - destruct Q as (Q1 & Q2 & Q3 & Q4 & Q5 & Q6). destruct (Hr (length (with_faces (batch a))) n) as (_ & HU). rewrite Forall_forall in HU. destruct (HU _ Q5) as (U1 & U2).
    destruct rt.
    + destruct (Ht eq_refl) as (l & -> & EV & EF). refine (row_good n p (row_of (Some l) i) s Q1 Q2 Q4 U1 U2 Q6 _ rn true _).
      * intros x Hx. pose proof (features_length (batch a) (Some l) true Ht) as L3. cbn [row_of] in Hx. pose proof (data_feature_all _ _ _ _ D i s (eq_sym (Base.Forall2_length _ _ _ HD)) (proj1 (Hr _ _)) L3 SD) as DF. rewrite (all_with_faces _ EF) in DF. specialize (DF LD Ho). cbn [features_for] in DF. congruence.
      * intros _ Hx. cbn in Hx. apply nth_error_None in Hx. apply (f_equal (@length _)) in EV. unfold vcount in EV. rewrite !map_length in EV. assert (X : (i < length (batch a))%nat) by (apply nth_error_Some; congruence). exact (Nat.lt_irrefl _ (Nat.lt_le_trans _ _ _ X (Nat.le_trans _ _ _ (Nat.eq_le_incl _ _ (eq_sym EV)) Hx))).
    + (* no textures are asked for: the features are not used *)
      pose proof (row_good n p None s Q1 Q2 Q4 U1 U2 Q6 ltac:(discriminate) rn false ltac:(discriminate)) as G. unfold sample_row in *. destruct G as (G1 & G2 & G3 & G4 & G5). repeat (split; [assumption|]). intros Hp j x Hj. destruct (G5 Hp j x Hj) as (k & t & w0 & w1 & w2 & G). exists k, t, w0, w1, w2. intuition discriminate.
  - unfold sample_row. assert (Ep : snd p = []) by (unfold has_faces in Q; destruct (snd p); [reflexivity|discriminate]). split; [apply repeat_length|]. split; [destruct rn; intros l El; [injection El as <-; apply repeat_length|discriminate]|].
    split; [destruct rt; intros l El; [injection El as <-; apply repeat_length|discriminate]|]. split; [|intros Hp; contradiction]. intros _. split; [reflexivity|]. destruct rn; intros l El; [injection El as <-; reflexivity|discriminate].
Qed.
End Main.
