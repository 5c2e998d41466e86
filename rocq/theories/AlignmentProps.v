(* C68: corresponding_points_alignment returns the best similarity transform. *)
From Verif Require Import Base RBase Geom LinAlg.
From Verif Require Import Alignment AlignmentSpec AlignmentProofs AlignmentProofs2 AlignmentProofs3 AlignmentProofs6 AlignmentProofs7 Spectral.
Local Open Scope R_scope.

(* For weights 0 and 1 (or no weights) the transform returned for a pair of clouds is of the
   requested kind and no other transform of that kind has a smaller sum of squared errors;
   padding takes no part. *)
Theorem alignment_best_fit svd x y w es ar eps :
  padded_batch x -> padded_batch y -> same_sizes x y -> weights_fit x w -> (1 <= width x)%nat -> 0 < eps <= 1 ->
  exists ts, corresponding_points_alignment svd x y w es ar eps = Ok ts /\ length ts = length (rows x) /\
    forall i t, nth_error ts i = Some t ->
      let wi := given_weights x w i in let xi := cloud x i in let yi := cloud y i in
      Forall (fun a => a = 0 \/ a = 1) wi -> 0 < rsum wi ->
      svd_of (moment wi xi yi) (svd (moment wi xi yi)) ->
      (es = true -> eps <= variance wi xi) ->
      best_fit es ar wi xi yi t.
Proof.
  intros Px Py S F W E. destruct (align_all svd x y w es ar eps Px Py S F W E) as (ts & A & L & T).
  exists ts. split; [exact A|]. split; [exact L|]. intros i t H. destruct (T i t H) as [I R].
  exact (best_all svd x y w es ar eps Px Py S F W E i t I R).
Qed.
Print Assumptions alignment_best_fit.

(* In particular, when the points of Y are the images of the points of X under some transform
   of the requested kind, the returned transform maps every point of weight 1 to its partner. *)
Theorem alignment_exact svd x y w es ar eps t0 :
  padded_batch x -> padded_batch y -> same_sizes x y -> weights_fit x w -> (1 <= width x)%nat -> 0 < eps <= 1 ->
  allowed es ar t0 ->
  exists ts, corresponding_points_alignment svd x y w es ar eps = Ok ts /\
    forall i t, nth_error ts i = Some t ->
      let wi := given_weights x w i in let xi := cloud x i in let yi := cloud y i in
      Forall (fun a => a = 0 \/ a = 1) wi -> 0 < rsum wi ->
      svd_of (moment wi xi yi) (svd (moment wi xi yi)) ->
      (es = true -> eps <= variance wi xi) ->
      yi = map (image t0) xi ->
      forall j, (j < length xi)%nat -> nth j wi 0 = 1 ->
        image t (nth j xi (V3 0 0 0)) = image t0 (nth j xi (V3 0 0 0)).
Proof.
  intros Px Py S F W E A0. destruct (align_all svd x y w es ar eps Px Py S F W E) as (ts & A & L & T).
  exists ts. split; [exact A|]. intros i t H wi xi yi B P V C Y j J Wj. destruct (T i t H) as [I R].
  destruct (best_all svd x y w es ar eps Px Py S F W E i t I R B P V C) as [_ M]. fold wi xi yi in M.
  specialize (M t0 A0). rewrite Y, misfit_image in M.
  assert (Lw : length xi = length wi).
  { unfold wi, xi, cloud. rewrite (given_length x w i Px F I), firstn_length.
    pose proof (count_le x i Px I). destruct Px as (_ & Q & _). rewrite Forall_forall in Q.
    rewrite (Q (nth i (rows x) [])) by (apply nth_In, I). lia. }
  rewrite (misfit_zero wi xi (map (image t0) xi) t B Lw ltac:(rewrite map_length; exact Lw) M j ltac:(lia) Wj).
  apply (nth_map_lt _ _ _ (V3 0 0 0)). exact J.
Qed.
Print Assumptions alignment_exact.

(* For any weights: the centres of mass correspond, and the rotation and the scale minimise the
   error, about the centres of mass, in which every point counts with the square of its weight. *)
Theorem alignment_any_weights svd x y w es ar eps :
  padded_batch x -> padded_batch y -> same_sizes x y -> weights_fit x w -> (1 <= width x)%nat -> 0 < eps <= 1 ->
  exists ts, corresponding_points_alignment svd x y w es ar eps = Ok ts /\ length ts = length (rows x) /\
    forall i t, nth_error ts i = Some t ->
      let wi := given_weights x w i in let xi := cloud x i in let yi := cloud y i in
      let xc := map (fun p => sub3 p (centre wi xi)) xi in
      let yc := map (fun p => sub3 p (centre wi yi)) yi in
      let w2 := map (fun a => a * a) wi in
      eps <= rsum wi -> svd_of (moment wi xi yi) (svd (moment wi xi yi)) ->
      (es = true -> eps <= sum3 (fun a p _ => a * sqdist p (centre wi xi)) w2 xi xi / rsum wi) ->
      allowed es ar t /\ image t (centre wi xi) = centre wi yi /\
      forall t', allowed es ar t' ->
        misfit w2 xc yc (Sim (rot t) (V3 0 0 0) (scale t)) <= misfit w2 xc yc (Sim (rot t') (V3 0 0 0) (scale t')).
Proof.
  intros Px Py S F W E. destruct (align_all svd x y w es ar eps Px Py S F W E) as (ts & A & L & T).
  exists ts. split; [exact A|]. split; [exact L|]. intros i t H wi xi yi xc yc w2 Tw V C. destruct (T i t H) as [I R].
  destruct (fit_all svd x y w es ar eps Px Py S F W E i t I R Tw V C) as (Al & Im & D). split; [exact Al|]. split; [exact Im|].
  intros t' A'. specialize (D t' A'). rewrite !dev_misfit in D. exact D.
Qed.
Print Assumptions alignment_any_weights.

(* The documented least-squares fit for other weights is not what is returned: a transform of the
   requested kind with a smaller weighted error exists. *)
Theorem alignment_weighted_fit_refuted : exists svd x y w t t',
  padded_batch x /\ same_sizes x y /\ weights_fit x w /\ Forall (fun a => 0 < a) (given_weights x w 0) /\
  svd_of (moment (given_weights x w 0) (cloud x 0) (cloud y 0)) (svd (moment (given_weights x w 0) (cloud x 0) (cloud y 0))) /\
  corresponding_points_alignment svd x y w true false (/ 1000000000) = Ok [t] /\ allowed true false t' /\
  misfit (given_weights x w 0) (cloud x 0) (cloud y 0) t' < misfit (given_weights x w 0) (cloud x 0) (cloud y 0) t.
Proof.
  exists diag_svd, wx, wy, ww, (Sim id3 (V3 0 0 0) (9 / 5)), (Sim id3 (V3 0 0 0) (5 / 3)).
  split; [split; [reflexivity|split; repeat constructor]|]. split; [split; [reflexivity|split; reflexivity]|].
  split; [split; [reflexivity|split; [reflexivity|repeat constructor]]|].
  change (given_weights wx ww 0) with [1; 1; 2; 2].
  change (cloud wx 0) with [on_x (-1); on_x 1; on_x (-1); on_x 1]. change (cloud wy 0) with [on_x (-1); on_x 1; on_x (-2); on_x 2].
  split; [repeat constructor; lra|]. split.
  - rewrite w_moment. unfold diag_svd, svd_of. cbn [m00 m11 m22 x3 y3 z3].
    assert (O : orthogonal id3) by (unfold orthogonal; rewrite tr3_id; apply mul3_1_l).
    split; [exact O|]. split; [exact O|]. split; [lra|]. split; [lra|].
    rewrite tr3_id, mul3_1_r, mul3_1_l. reflexivity.
  - split; [exact w_result|]. split; [split; cbn [rot scale]; [exact (proj1 (identity_allowed true false))|lra]|].
    rewrite !w_misfit. lra.
Qed.
Print Assumptions alignment_weighted_fit_refuted.

(* ValueError for clouds of different batch size, size or number of points, and for weights that
   do not match *)
Theorem alignment_rejects_shapes svd x y w es ar eps :
  length (nums x) = length (rows x) -> length (nums y) = length (rows y) -> ~ same_sizes x y ->
  corresponding_points_alignment svd x y w es ar eps = Fail EValue.
Proof. exact (rejects_shapes svd x y w es ar eps). Qed.
Print Assumptions alignment_rejects_shapes.
Theorem alignment_rejects_weights svd x y w es ar eps :
  length (nums x) = length (rows x) -> length (nums y) = length (rows y) ->
  match w with
  | WNone => False
  | WTensor n l => length l <> length (rows x) \/ n <> width x
  | WList l => map (@length R) l <> nums x \/ max_nat (nums x) <> width x
  end -> corresponding_points_alignment svd x y w es ar eps = Fail EValue.
Proof. exact (rejects_weights svd x y w es ar eps). Qed.
Print Assumptions alignment_rejects_weights.

(* every matrix has a decomposition as torch.svd returns it *)
Theorem svd_contract_met m : exists r, svd_of m r.
Proof. exact (svd_exists m). Qed.
Print Assumptions svd_contract_met.

(* the hypotheses are met: four points in general position, the second cloud a turned copy; the
   moments are diagonal, so the decomposition is known *)
Definition ex_x : points := PT 4 [[V3 1 0 0; V3 (-1) 0 0; V3 0 1 0; V3 0 (-1) 0]; [V3 1 0 0; V3 (-1) 0 0; V3 7 7 7; V3 7 7 7]] [4%nat; 2%nat].
Example alignment_hypotheses :
  padded_batch ex_x /\ same_sizes ex_x ex_x /\ weights_fit ex_x WNone /\
  given_weights ex_x WNone 1 = [1; 1] /\ cloud ex_x 1 = [V3 1 0 0; V3 (-1) 0 0] /\
  svd_of (moment (given_weights ex_x WNone 0) (cloud ex_x 0) (cloud ex_x 0))
         (diag_svd (moment (given_weights ex_x WNone 0) (cloud ex_x 0) (cloud ex_x 0))) /\
  0 < rsum (given_weights ex_x WNone 0) /\ / 1000000000 <= variance (given_weights ex_x WNone 0) (cloud ex_x 0).
Proof.
  assert (W : given_weights ex_x WNone 0 = [1; 1; 1; 1]) by reflexivity.
  assert (C : cloud ex_x 0 = [V3 1 0 0; V3 (-1) 0 0; V3 0 1 0; V3 0 (-1) 0]) by reflexivity.
  assert (Ce : centre [1; 1; 1; 1] [V3 1 0 0; V3 (-1) 0 0; V3 0 1 0; V3 0 (-1) 0] = V3 0 0 0) by (unfold centre, rsum; cbn; f_equal; lra).
  split; [split; [reflexivity|split; repeat constructor]|]. split; [split; [reflexivity|split; reflexivity]|].
  split; [exact Logic.I|]. split; [reflexivity|]. split; [reflexivity|]. rewrite W, C.
  assert (M : moment [1; 1; 1; 1] [V3 1 0 0; V3 (-1) 0 0; V3 0 1 0; V3 0 (-1) 0] [V3 1 0 0; V3 (-1) 0 0; V3 0 1 0; V3 0 (-1) 0]
    = M3 (/ 2) 0 0 0 (/ 2) 0 0 0 0).
  { unfold moment. rewrite Ce. unfold rsum. cbn. apply M3_eq; lra. }
  split.
  - rewrite M. unfold diag_svd, svd_of. cbn [m00 m11 m22 x3 y3 z3].
    assert (O : orthogonal id3) by (unfold orthogonal; rewrite tr3_id; apply mul3_1_l).
    split; [exact O|]. split; [exact O|]. split; [lra|]. split; [lra|].
    rewrite tr3_id, mul3_1_r, mul3_1_l. reflexivity.
  - split; [unfold rsum; cbn; lra|]. unfold variance. rewrite Ce. unfold rsum, sqdist. cbn. lra.
Qed.
