(* corresponding_points_alignment on one batch element. *)
From Verif Require Import Base RBase Geom LinAlg.
From Verif Require Import Alignment AlignmentSpec AlignmentProofs.
Local Open Scope R_scope.

Lemma weigh_sum (f : vec3 -> R) w x : (f = x3 \/ f = y3 \/ f = z3) ->
  f (vsum3 (weigh w x)) = sum3 (fun a p _ => a * f p) w x x.
Proof.
  intros F. unfold weigh, vsum3. revert x. induction w as [|a w IH]; intros [|p x];
    try (destruct F as [-> | [-> | ->]]; reflexivity).
  cbn [combine map fold_right sum3 fst snd]. rewrite <- IH. destruct F as [-> | [-> | ->]]; reflexivity.
Qed.
Lemma Rmax_r_eq a b : a <= b -> Rmax a b = b.
Proof. apply Rmax_right. Qed.
Lemma wmean_some eps w x : eps <= rsum w -> wmean eps (Some w) x = Ok (centre w x).
Proof.
  intros H. unfold wmean, centre, div3. rewrite Rmax_r_eq by exact H.
  rewrite (weigh_sum x3), (weigh_sum y3), (weigh_sum z3) by tauto. reflexivity.
Qed.
Lemma weigh_map w (g : vec3 -> vec3) x : weigh w (map g x) = map (fun p => scal3 (fst p) (g (snd p))) (combine w x).
Proof. unfold weigh. revert x. induction w as [|a w IH]; intros [|p x]; cbn; try reflexivity. rewrite IH. reflexivity. Qed.

Lemma gram_entries w x y cx cy :
  gram (weigh w (map (fun p => sub3 p cx) x)) (weigh w (map (fun p => sub3 p cy) y)) =
  let e (f g : vec3 -> R) := sum3 (fun a p q => a * f (sub3 p cx) * (a * g (sub3 q cy))) w x y in
  M3 (e x3 x3) (e x3 y3) (e x3 z3) (e y3 x3) (e y3 y3) (e y3 z3) (e z3 x3) (e z3 y3) (e z3 z3).
Proof.
  rewrite !weigh_map. unfold gram. revert x y. induction w as [|a w IH]; intros [|p x] [|q y]; try reflexivity.
  cbn [combine map fold_right]. rewrite IH. cbn [fst snd sum3 madd3 outer3 scal3 x3 y3 z3]. reflexivity.
Qed.
Lemma cov_moment w x y :
  mscal3 (/ rsum w) (gram (weigh w (map (fun p => sub3 p (centre w x)) x)) (weigh w (map (fun p => sub3 p (centre w y)) y)))
  = moment w x y.
Proof. rewrite gram_entries. unfold moment, mscal3. cbn [m00 m01 m02 m10 m11 m12 m20 m21 m22]. unfold Rdiv. apply M3_eq; apply Rmult_comm. Qed.
Lemma sum3_map (h : R -> R) f w x y : sum3 f (map h w) x y = sum3 (fun a p q => f (h a) p q) w x y.
Proof. revert x y. induction w as [|a w IH]; intros [|p x] [|q y]; cbn; try reflexivity. rewrite IH. reflexivity. Qed.
Lemma sq_sum w x cx : rsum (map (fun p => dot3 p p) (weigh w (map (fun p => sub3 p cx) x))) = inertia (map Rsqr w) x cx.
Proof.
  rewrite weigh_map. unfold inertia. rewrite sum3_map. revert x. induction w as [|a w IH]; intros [|p x]; try reflexivity.
  cbn [combine map sum3]. rewrite rsum_cons, IH. cbn [fst snd]. rewrite sqdist_sub.
  f_equal. unfold dot3, scal3, Rsqr. cbn [x3 y3 z3]. ring.
Qed.
Lemma moment_cross w x y : rsum w <> 0 ->
  cross_moment (map Rsqr w) x y (centre w x) (centre w y) = mscal3 (rsum w) (moment w x y).
Proof.
  intros W. unfold cross_moment, moment, mscal3. cbn [m00 m01 m02 m10 m11 m12 m20 m21 m22]. rewrite !sum3_map.
  assert (E : forall f g : vec3 -> R, sum3 (fun a p q => Rsqr a * f (sub3 p (centre w x)) * g (sub3 q (centre w y))) w x y
    = rsum w * (sum3 (fun a p q => a * f (sub3 p (centre w x)) * (a * g (sub3 q (centre w y)))) w x y / rsum w)).
  { intros f g. unfold Rdiv. rewrite (Rmult_comm (rsum w)), Rmult_assoc, Rinv_l, Rmult_1_r by exact W.
    apply sum3_ext. intros. unfold Rsqr. ring. }
  apply M3_eq; apply E.
Qed.
Lemma fro_scal q c m : fro q (mscal3 c m) = c * fro q m.
Proof. unfold fro, mscal3. cbn [m00 m01 m02 m10 m11 m12 m20 m21 m22]. ring. Qed.

Section One.
  Variable svd : mat3 -> mat3 * vec3 * mat3.

  (* what the code returns for given weights *)
  Lemma align_some es ar eps w num x y u s v :
    length x = length w -> length y = length w -> eps <= rsum w ->
    svd (moment w x y) = (u, s, v) ->
    align_one svd es ar eps (Some w) num x y = Ok (
      let c := if es then (x3 s + y3 s + sign_fix ar u v * z3 s)
                          / Rmax eps (inertia (map Rsqr w) x (centre w x) / rsum w) else 1 in
      Sim (rot_of ar u v) (sub3 (centre w y) (scal3 c (vmul3 (centre w x) (rot_of ar u v)))) c).
  Proof.
    intros Hx Hy W E. unfold align_one. rewrite !wmean_some by exact W. cbn [rbind].
    rewrite (Rmax_r_eq eps (rsum w) W), cov_moment, E.
    assert (D : (if ar then id3 else M3 1 0 0 0 1 0 0 0 (det3 (mul3 u (tr3 v)))) = diag (V3 1 1 (sign_fix ar u v))).
    { destruct ar; unfold diag, sign_fix, id3; reflexivity. }
    rewrite D, sq_sum. fold (rot_of ar u v).
    destruct es.
    - cbn [m00 m11 m22 diag x3 y3 z3]. rewrite !Rmult_1_l. reflexivity.
    - do 2 f_equal. f_equal. destruct (vmul3 (centre w x) (rot_of ar u v)). unfold scal3. cbn. f_equal; ring.
  Qed.

  (* the rotation and the scale minimise the error with squared weights about the two centres *)
  Lemma align_dev es ar eps w num x y :
    length x = length w -> length y = length w -> 0 < eps <= rsum w ->
    svd_of (moment w x y) (svd (moment w x y)) ->
    (es = true -> eps <= inertia (map Rsqr w) x (centre w x) / rsum w) ->
    exists t, align_one svd es ar eps (Some w) num x y = Ok t /\ allowed es ar t /\
      image t (centre w x) = centre w y /\
      forall t', allowed es ar t' ->
        dev (map Rsqr w) x y (centre w x) (centre w y) (rot t) (scale t)
        <= dev (map Rsqr w) x y (centre w x) (centre w y) (rot t') (scale t').
  Proof.
    intros Hx Hy W Hs Hv. destruct (svd (moment w x y)) as [[u s] v] eqn:E.
    destruct Hs as (U & V & S1 & S2 & M).
    eexists. split; [exact (align_some es ar eps w num x y u s v Hx Hy (proj2 W) E)|]. cbv zeta.
    set (c := if es then _ else 1). set (r := rot_of ar u v).
    assert (Tau : 0 <= x3 s + y3 s + sign_fix ar u v * z3 s).
    { destruct (sign_fix_cases ar u v U V) as [-> | ->]; lra. }
    split; [|split].
    - split; cbn [rot scale]; [apply rot_of_ok; assumption|]. unfold c. destruct es; [|reflexivity].
      apply Rmult_le_pos; [exact Tau|]. apply Rlt_le, Rinv_0_lt_compat.
      apply Rlt_le_trans with eps; [lra|apply Rmax_l].
    - unfold image. cbn [rot scale shift]. destruct (scal3 c (vmul3 (centre w x) r)), (centre w y). unfold add3, sub3. cbn. f_equal; ring.
    - intros t' [A' C']. cbn [rot scale].
      assert (O : orthogonal r) by (pose proof (rot_of_ok ar u v U V) as P; fold r in P; destruct ar; [exact P|exact (proj1 P)]).
      assert (O' : orthogonal (rot t')) by (destruct ar; [exact A'|exact (proj1 A')]).
      rewrite !dev_expand by (rewrite ?map_length; assumption).
      rewrite moment_cross, !fro_scal by lra.
      rewrite M. unfold r. rewrite (fro_rot_of ar u s v U V).
      pose proof (fro_bound ar (rot t') u s v U V S1 S2 A') as B.
      set (tau := x3 s + y3 s + sign_fix ar u v * z3 s) in *.
      set (tau' := fro (rot t') _) in *.
      assert (WT : rsum w * tau' <= rsum w * tau) by (apply Rmult_le_compat_l; lra).
      unfold c. clear c. destruct es.
      + specialize (Hv eq_refl). rewrite (Rmax_r_eq _ _ Hv).
        assert (0 < inertia (map Rsqr w) x (centre w x)).
        { assert (0 < inertia (map Rsqr w) x (centre w x) / rsum w) by lra.
          replace (inertia (map Rsqr w) x (centre w x)) with (inertia (map Rsqr w) x (centre w x) / rsum w * rsum w) by (field; lra).
          apply Rmult_lt_0_compat; lra. }
        pose proof (scale_best (inertia (map Rsqr w) x (centre w x)) tau tau' (rsum w) (scale t') H ltac:(lra) Tau B C') as Q.
        cbv zeta in Q. lra.
      + rewrite C'. lra.
  Qed.

  (* no weights are uniform weights *)
  Lemma weigh_ones x : weigh (repeat 1 (length x)) x = x.
  Proof.
    unfold weigh. induction x as [|[a b c] x IH]; [reflexivity|]. cbn [length repeat combine map fst snd]. rewrite IH.
    f_equal. unfold scal3. cbn [x3 y3 z3]. f_equal; ring.
  Qed.
  Lemma rsum_ones n : rsum (repeat 1 n) = INR n.
  Proof. induction n as [|n IH]; [reflexivity|]. cbn [repeat]. rewrite rsum_cons, IH, S_INR. lra. Qed.
  Lemma INR_ge1 n : (1 <= n)%nat -> 1 <= INR n.
  Proof. intros H. apply (le_INR 1 n) in H. exact H. Qed.
  Lemma align_none es ar eps x y : (1 <= length x)%nat -> length y = length x -> eps <= 1 ->
    align_one svd es ar eps None (length x) x y = align_one svd es ar eps (Some (repeat 1 (length x))) (length x) x y.
  Proof.
    intros N Hy He. unfold align_one. pose proof (INR_ge1 _ N) as N1.
    assert (E : forall z, length z = length x -> wmean eps None z = wmean eps (Some (repeat 1 (length x))) z).
    { intros z Hz. unfold wmean. rewrite rsum_ones, (Rmax_r_eq eps) by lra. rewrite <- Hz. rewrite weigh_ones.
      destruct z; [cbn in *; lia|reflexivity]. }
    rewrite <- !E by (assumption || reflexivity). destruct (wmean eps None x) as [xmu|]; [|reflexivity]. destruct (wmean eps None y) as [ymu|]; [|reflexivity].
    cbn [rbind]. rewrite rsum_ones, (Rmax_r_eq eps (INR (length x)) ltac:(lra)). rewrite (Nat.max_l (length x) 1 N).
    assert (X : weigh (repeat 1 (length x)) (map (fun p => sub3 p xmu) x) = map (fun p => sub3 p xmu) x).
    { rewrite <- (map_length (fun p => sub3 p xmu) x) at 1. apply weigh_ones. }
    assert (Y : weigh (repeat 1 (length x)) (map (fun p => sub3 p ymu) y) = map (fun p => sub3 p ymu) y).
    { rewrite <- Hy, <- (map_length (fun p => sub3 p ymu) y) at 1. apply weigh_ones. }
    rewrite X, Y. reflexivity.
  Qed.
End One.

(* weights 0 and 1 are their own squares *)
Lemma binary_sqr w : Forall (fun a => a = 0 \/ a = 1) w -> map Rsqr w = w.
Proof. induction 1 as [|a w H _ IH]; [reflexivity|]. cbn. rewrite IH. f_equal. destruct H as [-> | ->]; unfold Rsqr; ring. Qed.

Lemma dev_misfit w x y cx cy q c :
  dev w x y cx cy q c = misfit w (map (fun p => sub3 p cx) x) (map (fun p => sub3 p cy) y) (Sim q (V3 0 0 0) c).
Proof.
  unfold dev, misfit. revert x y. induction w as [|a w IH]; intros [|p x] [|r y]; try reflexivity.
  cbn [map sum3]. rewrite IH. f_equal. f_equal. unfold image. cbn [rot scale shift].
  f_equal. destruct (scal3 c (vmul3 (sub3 p cx) q)). unfold add3. cbn. f_equal; ring.
Qed.
