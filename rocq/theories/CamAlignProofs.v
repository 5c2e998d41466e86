(* Proofs about corresponding_cameras_alignment: sums, the least-squares rotation and translation. *)
From Verif Require Import Base RBase Geom LinAlg Transform TransformSpec Camera CameraSpec Alignment AlignmentSpec AlignmentProofs AlignmentProofs2 AlignmentProofs3 CamAlign CamAlignSpec.
Local Open Scope R_scope.

Lemma along_length {A B C} (f : A -> B -> C) a b : length a = length b -> length (along f a b) = length a.
Proof. intros L. unfold along. rewrite map_length, combine_length. lia. Qed.
Lemma along_map {A B C D E} (f : C -> D -> E) (g : A -> C) (h : B -> D) a b : along f (map g a) (map h b) = along (fun x y => f (g x) (h y)) a b.
Proof. unfold along. revert b. induction a as [|x a IH]; intros [|y b]; try reflexivity. cbn. f_equal. apply IH. Qed.
Lemma sum3_ones f x y : length x = length y -> sum3 f (repeat 1 (length x)) x y = rsum (along (f 1) x y).
Proof.
  unfold along. revert y. induction x as [|p x IH]; intros [|q y] L; try discriminate; [reflexivity|].
  cbn [length repeat sum3 combine map fst snd]. rewrite rsum_cons, IH by (cbn in L; lia). reflexivity.
Qed.
Lemma rsum_map_ext {A} (f g : A -> R) l : (forall x, In x l -> f x = g x) -> rsum (map f l) = rsum (map g l).
Proof. intros H. f_equal. apply map_ext_in. exact H. Qed.

Lemma centre_ones x : (1 <= length x)%nat -> centre (repeat 1 (length x)) x = mean_vec x.
Proof.
  intros N. pose proof (wmean_some 0 (repeat 1 (length x)) x) as W. rewrite rsum_ones in W. pose proof (INR_ge1 _ N) as N1.
  specialize (W ltac:(lra)). unfold wmean in W. rewrite rsum_ones, weigh_ones, Rmax_right in W by lra. assert (I : forall a b : vec3, Ok a = Ok b -> b = a) by (intros a b J; congruence). apply I in W. exact W.
Qed.

(* ---- least squares in scale and translation ---- *)
Definition cross (x y : list vec3) : R := rsum (along dot3 (map (fun p => sub3 p (mean_vec x)) x) (map (fun p => sub3 p (mean_vec y)) y)).
Definition square (x : list vec3) : R := rsum (map (fun p => dot3 p p) (map (fun p => sub3 p (mean_vec x)) x)).
Lemma id3_orthogonal : orthogonal id3.
Proof. unfold orthogonal. rewrite tr3_id. apply mul3_1_l. Qed.
Lemma fro_id_cross w x y cx cy : fro id3 (cross_moment w x y cx cy) = sum3 (fun a p q => a * dot3 (sub3 p cx) (sub3 q cy)) w x y.
Proof.
  unfold fro, cross_moment, id3. cbn [m00 m01 m02 m10 m11 m12 m20 m21 m22].
  rewrite (sum3_ext (fun a p q => a * dot3 (sub3 p cx) (sub3 q cy))
     (fun a p q => a * x3 (sub3 p cx) * x3 (sub3 q cy) + (a * y3 (sub3 p cx) * y3 (sub3 q cy) + a * z3 (sub3 p cx) * z3 (sub3 q cy)))).
  - rewrite !sum3_plus. ring.
  - intros a p q. unfold dot3. ring.
Qed.
Lemma rsum_nonneg_map {A} (f : A -> R) l : (forall x, 0 <= f x) -> 0 <= rsum (map f l).
Proof. intros H. induction l as [|x l IH]; cbn [map]; [rewrite rsum_nil; lra|]. rewrite rsum_cons. specialize (H x). lra. Qed.
Lemma dot_nonneg p : 0 <= dot3 p p.
Proof. unfold dot3. assert (T := Rle_0_sqr (x3 p)). assert (U := Rle_0_sqr (y3 p)). assert (W := Rle_0_sqr (z3 p)). unfold Rsqr in *. lra. Qed.
Lemma misfit_id x y T c : (1 <= length x)%nat -> length x = length y ->
  misfit (repeat 1 (length x)) x y (Sim id3 T c) =
  c * c * square x - 2 * c * cross x y + square y + INR (length x) * sqdist (add3 (scal3 c (mean_vec x)) T) (mean_vec y).
Proof.
  intros N L. pose proof (INR_ge1 _ N) as N1. assert (Lw : length x = length (repeat 1 (length x))) by (symmetry; apply repeat_length).
  assert (Lw' : length y = length (repeat 1 (length x))) by congruence.
  rewrite misfit_split by (assumption || (rewrite rsum_ones; lra)). cbn [rot scale].
  rewrite (dev_expand _ _ _ _ _ _ _ Lw Lw' id3_orthogonal), fro_id_cross, rsum_ones.
  assert (Cy : centre (repeat 1 (length x)) y = mean_vec y) by (rewrite L; apply centre_ones; lia). rewrite Cy, (centre_ones x N).
  assert (Ix : inertia (repeat 1 (length x)) x (mean_vec x) = square x).
  { unfold inertia, square. rewrite (sum3_ones _ x x eq_refl), map_map. unfold along. generalize (mean_vec x) as m. clear. intros m. induction x as [|p x IH]; [reflexivity|].
    cbn [combine map fst snd]. rewrite !rsum_cons, IH, sqdist_sub. ring. }
  assert (Iy : inertia (repeat 1 (length x)) y (mean_vec y) = square y).
  { rewrite L. unfold inertia, square. rewrite (sum3_ones _ y y eq_refl), map_map. unfold along. generalize (mean_vec y) as m. clear. intros m. induction y as [|p y IH]; [reflexivity|].
    cbn [combine map fst snd]. rewrite !rsum_cons, IH, sqdist_sub. ring. }
  rewrite Ix, Iy. assert (Cr : sum3 (fun a p q => a * dot3 (sub3 p (mean_vec x)) (sub3 q (mean_vec y))) (repeat 1 (length x)) x y = cross x y).
  { rewrite (sum3_ones _ x y L). unfold cross. rewrite along_map. unfold along. apply rsum_map_ext. intros [p q] _. cbn [fst snd]. ring. }
  rewrite Cr. unfold image. cbn [rot scale shift]. rewrite vmul3_id. reflexivity.
Qed.
Lemma misfit_nonneg_ones x y t : length x = length y -> 0 <= misfit (repeat 1 (length x)) x y t.
Proof.
  intros L. unfold misfit. rewrite (sum3_ones _ x y L). unfold along. apply rsum_nonneg_map. intros p. pose proof (sqdist_nonneg (image t (fst p)) (snd p)). lra.
Qed.
Lemma cross_zero x y : (1 <= length x)%nat -> length x = length y -> square x = 0 -> cross x y = 0.
Proof.
  intros N L Z. destruct (Req_dec (cross x y) 0) as [E|E]; [exact E|exfalso].
  set (c := (square y + 1) / (2 * cross x y)).
  pose proof (misfit_nonneg_ones x y (Sim id3 (sub3 (mean_vec y) (scal3 c (mean_vec x))) c) L) as P.
  rewrite (misfit_id x y _ c N L), Z in P.
  assert (D : sqdist (add3 (scal3 c (mean_vec x)) (sub3 (mean_vec y) (scal3 c (mean_vec x)))) (mean_vec y) = 0)
    by (unfold sqdist, add3, sub3, scal3; cbn [x3 y3 z3]; ring).
  rewrite D in P. assert (2 * c * cross x y = square y + 1) by (unfold c; field; exact E). lra.
Qed.
Definition best_scale (es : bool) (eps : R) (x y : list vec3) : R :=
  if (es && (1 <? length x)%nat)%bool
  then (cross x y / (3 * INR (length x))) / Rmax eps (square x / (3 * INR (length x))) else 1.
Lemma sqdist_self p : sqdist p p = 0.
Proof. unfold sqdist. ring. Qed.
Lemma square_one x : length x = 1%nat -> square x = 0.
Proof.
  destruct x as [|p [|q x]]; intros L; try discriminate. unfold square, mean_vec, vsum3. cbn [length map fold_right INR].
  rewrite rsum_cons, rsum_nil. unfold sub3, div3, add3, dot3. cbn [x3 y3 z3]. field.
Qed.
Lemma translation_best (es : bool) eps x y T' c' : (1 <= length x)%nat -> length x = length y -> 0 < eps ->
  (es = true -> square x = 0 \/ eps <= square x / (3 * INR (length x))) -> (es = false -> c' = 1) ->
  let c := best_scale es eps x y in
  misfit (repeat 1 (length x)) x y (Sim id3 (sub3 (mean_vec y) (scal3 c (mean_vec x))) c)
  <= misfit (repeat 1 (length x)) x y (Sim id3 T' c').
Proof.
  intros N L E HV HC c. rewrite !misfit_id by assumption. pose proof (INR_ge1 _ N) as N1.
  assert (D : sqdist (add3 (scal3 c (mean_vec x)) (sub3 (mean_vec y) (scal3 c (mean_vec x)))) (mean_vec y) = 0)
    by (unfold sqdist, add3, sub3, scal3; cbn [x3 y3 z3]; ring).
  rewrite D. pose proof (sqdist_nonneg (add3 (scal3 c' (mean_vec x)) T') (mean_vec y)) as SN.
  assert (0 <= INR (length x) * sqdist (add3 (scal3 c' (mean_vec x)) T') (mean_vec y)) by (apply Rmult_le_pos; lra).
  assert (Q : c * c * square x - 2 * c * cross x y <= c' * c' * square x - 2 * c' * cross x y); [|lra].
  unfold c, best_scale. destruct es; cbn [andb].
  - specialize (HV eq_refl). destruct (Nat.ltb_spec 1 (length x)) as [N2|N2].
    + destruct HV as [Z|V].
      * rewrite (cross_zero x y N L Z), Z. lra.
      * rewrite Rmax_right by exact V. assert (P : 0 < square x).
        { assert (0 < square x / (3 * INR (length x))) by lra. replace (square x) with (square x / (3 * INR (length x)) * (3 * INR (length x))) by (field; lra). apply Rmult_lt_0_compat; lra. }
        set (c0 := cross x y / _ / _). assert (E0 : c0 * square x = cross x y) by (unfold c0; field; split; lra).
        pose proof (Rle_0_sqr (c' - c0)) as S. unfold Rsqr in S. assert (0 <= square x * ((c' - c0) * (c' - c0))) by (apply Rmult_le_pos; lra).
        assert (square x * ((c' - c0) * (c' - c0)) = c' * c' * square x - 2 * c' * (c0 * square x) + c0 * (c0 * square x)) by ring.
        assert (c0 * c0 * square x = c0 * (c0 * square x)) by ring. rewrite E0 in *. lra.
    + assert (Z : square x = 0) by (apply square_one; lia). rewrite (cross_zero x y N L Z), Z. lra.
  - rewrite (HC eq_refl). lra.
Qed.

(* ---- least squares in the rotation ---- *)
Lemma mdist_fro a b : mdist a b = fro a a - 2 * fro a b + fro b b.
Proof. unfold mdist, fro. ring. Qed.
Lemma fro_orthogonal a : orthogonal a -> fro a a = 3.
Proof.
  intros O. unfold orthogonal in O. assert (E : fro a a = trace3 (mul3 a (tr3 a))) by (unfold fro, trace3, mul3, tr3; cbn [m00 m01 m02 m10 m11 m12 m20 m21 m22]; ring).
  rewrite E, O. unfold trace3, id3. cbn. lra.
Qed.
Lemma fro_move q r r' : fro (mul3 q r) r' = fro (tr3 q) (mul3 r (tr3 r')).
Proof. unfold fro, mul3, tr3. cbn [m00 m01 m02 m10 m11 m12 m20 m21 m22]. ring. Qed.
Lemma fro_add q a b : fro q (madd3 a b) = fro q a + fro q b.
Proof. unfold fro, madd3. cbn [m00 m01 m02 m10 m11 m12 m20 m21 m22]. ring. Qed.
Lemma mdist_nonneg a b : 0 <= mdist a b.
Proof.
  unfold mdist. repeat apply Rplus_le_le_0_compat; apply pow2_ge_0.
Qed.
Lemma turn_expand t ps ps' : length ps = length ps' -> (1 <= length ps)%nat -> orthogonal (rot t) ->
  List.Forall (fun p => orthogonal (fst p)) ps -> List.Forall (fun p => orthogonal (fst p)) ps' ->
  turn_error t ps ps' = 6 * INR (length ps) - 2 * INR (length ps) * fro (tr3 (rot t)) (turn_cov ps ps').
Proof.
  intros L N Q O O'. unfold turn_cov. rewrite fro_scal. pose proof (INR_ge1 _ N) as N1.
  replace (2 * INR (length ps) * (/ INR (length ps) * fro (tr3 (rot t)) (fold_right (fun pp m => madd3 (mul3 (fst (fst pp)) (tr3 (fst (snd pp)))) m) zero3 (combine ps ps'))))
    with (2 * fro (tr3 (rot t)) (fold_right (fun pp m => madd3 (mul3 (fst (fst pp)) (tr3 (fst (snd pp)))) m) zero3 (combine ps ps'))) by (field; lra).
  clear N N1. unfold turn_error. revert ps' L O'. induction ps as [|p ps IH]; intros [|p' ps'] L O'; try discriminate.
  - cbn [combine map fold_right length INR]. rewrite rsum_nil. unfold fro, zero3. cbn. ring.
  - inversion O as [|? ? O1 O2]; subst. inversion O' as [|? ? O1' O2']; subst. cbn [length]. rewrite S_INR. cbn [combine map fold_right fst snd realigned].
    specialize (IH O2 ps' ltac:(cbn in L; lia) O2'). cbn [fst snd realigned] in IH. rewrite rsum_cons, IH, fro_add, mdist_fro, (fro_move (rot t) (fst p) (fst p')).
    rewrite (fro_orthogonal (fst p') O1'), (fro_orthogonal _ (orthogonal_mul _ _ Q O1)). ring.
Qed.
Lemma turn_best u s v ps ps' t t' : length ps = length ps' -> (1 <= length ps)%nat ->
  List.Forall (fun p => orthogonal (fst p)) ps -> List.Forall (fun p => orthogonal (fst p)) ps' ->
  svd_of (turn_cov ps ps') (u, s, v) -> rot t = mul3 v (tr3 u) -> orthogonal (rot t') ->
  orthogonal (rot t) /\ turn_error t ps ps' <= turn_error t' ps ps'.
Proof.
  intros L N O O' (U & V & S1 & S2 & M) Er Q'.
  assert (Q : orthogonal (rot t)) by (rewrite Er; apply orthogonal_mul; [exact V|apply orthogonal_t, U]). split; [exact Q|].
  rewrite (turn_expand t), (turn_expand t') by assumption. pose proof (INR_ge1 _ N) as N1. rewrite M.
  pose proof (fro_bound true (tr3 (rot t')) u s v U V S1 S2 (orthogonal_t _ Q')) as B.
  pose proof (fro_rot_of true u s v U V) as F. assert (Et : tr3 (rot t) = rot_of true u v).
  { rewrite Er. unfold rot_of, sign_fix. rewrite tr3_mul, tr3_tr. assert (D : diag (V3 1 1 1) = id3) by reflexivity. rewrite D, mul3_1_r. reflexivity. }
  rewrite Et, F. assert (INR (length ps) * fro (tr3 (rot t')) (mul3 (mul3 u (diag s)) (tr3 v)) <= INR (length ps) * (x3 s + y3 s + sign_fix true u v * z3 s)) by (apply Rmult_le_compat_l; lra).
  lra.
Qed.
