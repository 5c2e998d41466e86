(* Consequences: exact fits, rejected arguments, and three shortcomings. *)
From Verif Require Import Base RBase Geom LinAlg TopK Knn.
From Verif Require Import Alignment AlignmentSpec AlignmentProofs AlignmentProofs2 AlignmentProofs3 AlignmentProofs4 AlignmentProofs5.
Local Open Scope R_scope.

(* ---- the whole batch ---- *)
Section All.
  Variable svd : mat3 -> mat3 * vec3 * mat3.
  Variables (x y : points) (w : weights_arg) (es ar : bool) (eps : R).
  Hypothesis Px : padded_batch x.
  Hypothesis Py : padded_batch y.
  Hypothesis S : same_sizes x y.
  Hypothesis Fw : weights_fit x w.
  Hypothesis W1 : (1 <= width x)%nat.
  Hypothesis He : 0 < eps <= 1.

  Lemma one_defined o k p q : o <> None \/ (p <> [] /\ q <> []) -> exists t, align_one svd es ar eps o k p q = Ok t.
  Proof.
    intros H. unfold align_one. assert (D : forall r, o <> None \/ r <> [] -> exists c, wmean eps o r = Ok c).
    { intros r [N|N]; unfold wmean; destruct o as [l|]; try congruence; try (eexists; reflexivity). destruct r; [congruence|eexists; reflexivity]. }
    destruct (D p ltac:(tauto)) as (a & ->), (D q ltac:(tauto)) as (c & ->). cbn [rbind].
    destruct (svd _) as [[u s] v]. destruct es; eexists; reflexivity.
  Qed.
  Definition row_fit i := align_one svd es ar eps (row_weights x w i) (nth i (nums x) 0%nat) (nth i (rows x) []) (nth i (rows y) []).
  Lemma row_fit_defined i : (i < length (rows x))%nat -> exists t, row_fit i = Ok t.
  Proof.
    intros I. apply one_defined. right.
    assert (A : length (nth i (rows x) []) = width x) by (destruct Px as (_ & Q & _); rewrite Forall_forall in Q; apply Q, nth_In, I).
    assert (B : length (nth i (rows y) []) = width y).
    { destruct Py as (_ & Q & _); rewrite Forall_forall in Q; apply Q, nth_In. rewrite <- (proj1 S). exact I. }
    destruct S as (_ & E & _). rewrite <- E in B. split; intros Z; [rewrite Z in A; cbn in A|rewrite Z in B; cbn in B]; lia.
  Qed.
  Lemma align_all : exists ts, corresponding_points_alignment svd x y w es ar eps = Ok ts /\ length ts = length (rows x) /\
    forall i t, nth_error ts i = Some t -> (i < length (rows x))%nat /\ row_fit i = Ok t.
  Proof.
    rewrite (align_rows svd x y w es ar eps Px Py S Fw). fold row_fit.
    set (f := fun i => match row_fit i with Ok t => t | Fail _ => Sim id3 (V3 0 0 0) 1 end).
    assert (E : rmap row_fit (seq 0 (length (rows x))) = Ok (map f (seq 0 (length (rows x))))).
    { apply rmap_ok. intros i Hi. apply in_seq in Hi. destruct (row_fit_defined i ltac:(lia)) as (t & T). unfold f. rewrite T. reflexivity. }
    exists (map f (seq 0 (length (rows x)))). split; [exact E|]. split; [rewrite map_length, seq_length; reflexivity|].
    intros i t H. assert (I : (i < length (rows x))%nat).
    { rewrite <- (seq_length (length (rows x)) 0), <- (map_length f). apply nth_error_Some. congruence. }
    split; [exact I|]. rewrite (map_nth_error f i (seq 0 _) (nth_error_seq_lt 0 _ i I)) in H. injection H as <-.
    destruct (row_fit_defined i I) as (t & T). unfold f. cbn [Nat.add]. rewrite T. reflexivity.
  Qed.

  Lemma row_data i : (i < length (rows x))%nat -> length (nth i (rows x) []) = width x /\ length (nth i (rows y) []) = width x /\
    firstn (nth i (nums x) 0%nat) (nth i (rows y) []) = cloud y i.
  Proof.
    intros I. destruct S as (Bs & Ws & Ns).
    split; [destruct Px as (_ & Q & _); rewrite Forall_forall in Q; apply Q, nth_In, I|].
    split; [rewrite Ws; destruct Py as (_ & Q & _); rewrite Forall_forall in Q; apply Q, nth_In; rewrite <- Bs; exact I|].
    unfold cloud. rewrite Ns. reflexivity.
  Qed.
  Lemma total_count i : (i < length (rows x))%nat -> 0 < rsum (given_weights x w i) -> (1 <= nth i (nums x) 0)%nat.
  Proof.
    intros I T. destruct (nth i (nums x) 0%nat) as [|k] eqn:E; [|lia]. exfalso.
    pose proof (given_length x w i Px Fw I) as L. rewrite E in L. destruct (given_weights x w i); [rewrite rsum_nil in T; lra|discriminate].
  Qed.

  Lemma fit_all i t : (i < length (rows x))%nat -> row_fit i = Ok t ->
    let wi := given_weights x w i in let xi := cloud x i in let yi := cloud y i in
    eps <= rsum wi -> svd_of (moment wi xi yi) (svd (moment wi xi yi)) ->
    (es = true -> eps <= inertia (map Rsqr wi) xi (centre wi xi) / rsum wi) ->
    allowed es ar t /\ image t (centre wi xi) = centre wi yi /\
    forall t', allowed es ar t' ->
      dev (map Rsqr wi) xi yi (centre wi xi) (centre wi yi) (rot t) (scale t)
      <= dev (map Rsqr wi) xi yi (centre wi xi) (centre wi yi) (rot t') (scale t').
  Proof.
    intros I F wi xi yi T V C. destruct (row_data i I) as (Lx & Ly & Cy).
    pose proof (total_count i I ltac:(fold wi; lra)) as K.
    unfold row_fit in F. rewrite (row_used svd x w i es ar eps (nth i (rows y) []) Px Fw I (proj2 He) K Ly) in F.
    pose proof (used_given x w i Px Fw I) as UG. fold wi in UG.
    destruct (fit_one svd es ar eps (nth i (nums x) 0%nat) (used x w i) (nth i (nums x) 0%nat) (nth i (rows x) []) (nth i (rows y) [])) as (t0 & E & Q).
    - rewrite (used_length x w i Px Fw I). exact Lx.
    - rewrite (used_length x w i Px Fw I). exact Ly.
    - intros j J. eapply used_zero; eassumption.
    - rewrite UG. lra.
    - rewrite UG, Cy. exact V.
    - rewrite UG. exact C.
    - rewrite UG, Cy in Q. fold (cloud x i) in Q. fold xi yi in Q. assert (t0 = t) by congruence. subst t0. exact Q.
  Qed.

  Lemma best_all i t : (i < length (rows x))%nat -> row_fit i = Ok t ->
    let wi := given_weights x w i in let xi := cloud x i in let yi := cloud y i in
    Forall (fun a => a = 0 \/ a = 1) wi -> 0 < rsum wi -> svd_of (moment wi xi yi) (svd (moment wi xi yi)) ->
    (es = true -> eps <= variance wi xi) -> best_fit es ar wi xi yi t.
  Proof.
    intros I F wi xi yi Bi T V C. destruct (row_data i I) as (Lx & Ly & Cy).
    pose proof (total_count i I T) as K. pose proof (binary_total _ Bi T) as T1.
    unfold row_fit in F. rewrite (row_used svd x w i es ar eps (nth i (rows y) []) Px Fw I (proj2 He) K Ly) in F.
    pose proof (used_given x w i Px Fw I) as UG. fold wi in UG.
    destruct (best_one svd es ar eps (nth i (nums x) 0%nat) (used x w i) (nth i (nums x) 0%nat) (nth i (rows x) []) (nth i (rows y) [])) as (t0 & E & Q).
    - rewrite (used_length x w i Px Fw I). exact Lx.
    - rewrite (used_length x w i Px Fw I). exact Ly.
    - intros j J. eapply used_zero; eassumption.
    - rewrite UG. exact Bi.
    - rewrite UG. lra.
    - rewrite UG, Cy. exact V.
    - rewrite UG. exact C.
    - rewrite UG, Cy in Q. fold (cloud x i) in Q. fold xi yi in Q. assert (t0 = t) by congruence. subst t0. exact Q.
  Qed.
End All.

(* ---- exact fits ---- *)
Lemma sqdist_zero p q : sqdist p q <= 0 -> p = q.
Proof.
  destruct p as [a b c], q as [d e f]. unfold sqdist. cbn. intros H.
  pose proof (pow2_ge_0 (a - d)). pose proof (pow2_ge_0 (b - e)). pose proof (pow2_ge_0 (c - f)). cbn in *.
  assert (forall u, u * (u * 1) <= 0 -> u = 0) by (intros; nra).
  f_equal; apply Rminus_diag_uniq; apply H3; lra.
Qed.
Lemma misfit_zero w x y t : Forall (fun a => a = 0 \/ a = 1) w -> length x = length w -> length y = length w ->
  misfit w x y t <= 0 ->
  forall j, (j < length w)%nat -> nth j w 0 = 1 -> image t (nth j x (V3 0 0 0)) = nth j y (V3 0 0 0).
Proof.
  intros B. unfold misfit. revert x y. induction B as [|a w Ha Hw IH]; intros [|p x] [|q y] Lx Ly H j J W; cbn in J; try lia; try discriminate.
  cbn [sum3] in H.
  assert (N : 0 <= sum3 (fun a p q => a * sqdist (image t p) q) w x y).
  { replace 0 with (sum3 (fun _ _ _ => 0) w x y).
    - apply sum3_le. intros c u v Hc. rewrite Forall_forall in Hw. pose proof (sqdist_nonneg (image t u) v).
      destruct (Hw c Hc) as [-> | ->]; lra.
    - clear. revert x y. induction w as [|c w IH]; intros [|u x] [|v y]; cbn; try reflexivity. rewrite IH. lra. }
  pose proof (sqdist_nonneg (image t p) q) as D.
  destruct j as [|j]; cbn [nth] in *.
  - subst a. apply sqdist_zero. lra.
  - apply (IH x y); [cbn in Lx; lia|cbn in Ly; lia| |lia|exact W]. destruct Ha as [-> | ->]; lra.
Qed.
Lemma misfit_image w x t : misfit w x (map (image t) x) t = 0.
Proof.
  unfold misfit. revert x. induction w as [|a w IH]; intros [|p x]; cbn [map sum3]; try reflexivity.
  rewrite IH. unfold sqdist. ring.
Qed.

(* ---- rejected arguments ---- *)
Lemma rejects_shapes svd x y w es ar eps : length (nums x) = length (rows x) -> length (nums y) = length (rows y) ->
  ~ same_sizes x y -> corresponding_points_alignment svd x y w es ar eps = Fail EValue.
Proof.
  intros Lx Ly H. unfold corresponding_points_alignment.
  destruct (Nat.eqb_spec (length (rows x)) (length (rows y))) as [E|]; [|reflexivity].
  destruct (Nat.eqb_spec (width x) (width y)) as [G|]; [|reflexivity]. cbn [andb negb orb].
  destruct (existsb _ (combine (nums x) (nums y))) eqn:X; [reflexivity|]. exfalso. apply H. split; [exact E|]. split; [exact G|].
  rewrite E, <- Ly in Lx. clear - X Lx. revert X Lx. generalize (nums x) as l, (nums y) as l'.
  induction l as [|a l IH]; intros [|c l'] X L; try discriminate; [reflexivity|]. cbn in X. apply Bool.orb_false_iff in X. destruct X as [X1 X2].
  apply Bool.negb_false_iff, Nat.eqb_eq in X1. subst c. f_equal. apply IH; [exact X2|]. cbn in L. lia.
Qed.
Lemma rejects_weights svd x y w es ar eps : length (nums x) = length (rows x) -> length (nums y) = length (rows y) ->
  match w with
  | WNone => False
  | WTensor n l => length l <> length (rows x) \/ n <> width x
  | WList l => map (@length R) l <> nums x \/ max_nat (nums x) <> width x
  end -> corresponding_points_alignment svd x y w es ar eps = Fail EValue.
Proof.
  intros Lx Ly H. unfold corresponding_points_alignment. destruct (_ || _)%bool; [reflexivity|].
  assert (C : check_weights x w = Fail EValue); [|rewrite C; reflexivity].
  unfold check_weights. destruct w as [|n l|l]; [contradiction| |].
  - destruct (Nat.eqb_spec (length (rows x)) (length l)), (Nat.eqb_spec (width x) n); cbn; try reflexivity. exfalso. destruct H; congruence.
  - destruct (existsb _ _) eqn:X; [reflexivity|]. rewrite map_length.
    destruct (Nat.eqb_spec (length (rows x)) (length l)) as [E|]; [|reflexivity].
    assert (M : map (@length R) l = nums x).
    { rewrite <- Lx in E. clear - X E. revert X E. generalize (nums x) as k. induction l as [|a l IH]; intros [|c k] X E; try discriminate; [reflexivity|].
      cbn in X. apply Bool.orb_false_iff in X. destruct X as [X1 X2]. apply Bool.negb_false_iff, Nat.eqb_eq in X1. cbn. f_equal; [congruence|]. apply IH; [exact X2|cbn in E; lia]. }
    destruct (Nat.eqb_spec (width x) (max_nat (map (@length R) l))) as [G|]; [|reflexivity]. exfalso. rewrite M in *. destruct H; congruence.
Qed.

(* ---- aligning a cloud with itself ---- *)
Lemma identity_image p : image (Sim id3 (V3 0 0 0) 1) p = p.
Proof. destruct p. unfold image. cbn [rot scale shift]. unfold vmul3, scal3, add3, id3. cbn. f_equal; ring. Qed.
Lemma identity_allowed es ar : allowed es ar (Sim id3 (V3 0 0 0) 1).
Proof.
  assert (O : orthogonal id3) by (unfold orthogonal; rewrite tr3_id; apply mul3_1_l).
  split; cbn [rot scale]; [destruct ar; [exact O|split; [exact O|apply det3_id]]|destruct es; lra].
Qed.
Lemma self_neighbours ys l nn : Forall2 (fun p q => nearest_in ys (image (Sim id3 (V3 0 0 0) 1) p) q) l nn ->
  (forall p, In p l -> In p ys) -> nn = l.
Proof.
  induction 1 as [|p q l l' [H N] F IH]; intros I; [reflexivity|].
  assert (p = q). { rewrite identity_image in N. apply sqdist_zero. apply Rle_trans with (sqdist p p); [apply N, I; left; reflexivity|unfold sqdist; lra]. }
  subst q. rewrite IH by (intros; apply I; right; assumption). reflexivity.
Qed.
Lemma self_first es ar xs t e : iterates es ar xs xs (Sim id3 (V3 0 0 0) 1) t e -> e = 0.
Proof.
  intros (nn & F & (A & B) & ->). rewrite (self_neighbours xs xs nn F) in * by tauto.
  specialize (B _ (identity_allowed es ar)).
  assert (Z : misfit (ones xs) xs xs (Sim id3 (V3 0 0 0) 1) = 0).
  { pose proof (misfit_image (ones xs) xs (Sim id3 (V3 0 0 0) 1)) as M.
    assert (I : map (image (Sim id3 (V3 0 0 0) 1)) xs = xs) by (rewrite <- (map_id xs) at 2; apply map_ext, identity_image).
    rewrite I in M. exact M. }
  rewrite Z in B. destruct (Nat.eq_dec (length xs) 0) as [E|E].
  - destruct xs; [|discriminate]. cbn. unfold Rdiv. rewrite Rmult_0_l. apply sqrt_0.
  - assert (0 < INR (length xs)) by (apply (lt_INR 0); lia).
    assert (misfit (ones xs) xs xs t / INR (length xs) <= 0).
    { apply Rmult_le_reg_r with (INR (length xs)); [lra|]. unfold Rdiv. rewrite Rmult_assoc, Rinv_l by lra. lra. }
    apply sqrt_neg_0. lra.
Qed.
Lemma self_never svd sort es ar thr x m : (forall m, svd_of m (svd m)) -> sorts sort -> padded_batch x -> rows x <> [] ->
  Forall (fun k => k = width x) (nums x) -> (1 <= width x)%nat -> thr < 1 ->
  (es = true -> forall i, (i < length (rows x))%nat -> icp_eps <= variance (ones (cloud x i)) (cloud x i)) ->
  exists sol, iterative_closest_point svd sort x x None m thr es ar = Ok sol /\ converged sol = false /\
    (forall e, rmse sol = Some e -> length e = length (rows x) /\ forall i, (i < length (rows x))%nat -> nth i e 0 = 0) /\
    ((1 <= m)%nat -> rmse sol <> None).
Proof.
  intros Hs Ho P B F W T V.
  assert (N : Forall (fun k => (1 <= k)%nat) (nums x)) by (eapply Forall_impl; [|exact F]; cbv beta; intros; lia).
  assert (Ip : ignores_padding x x) by (right; exact F).
  destruct (icp_runs svd sort Hs Ho es ar thr x x None P P eq_refl B N N Ip V Logic.I m) as (sol & errs & E & R).
  exists sol. split; [exact E|].
  assert (Z : forall n i, (n < length errs)%nat -> (i < length (rows x))%nat -> error_at errs n i = 0).
  { intros n i Hn Hi. assert (Z0 : error_at errs 0 i = 0).
    { apply (self_first es ar (cloud x i) (transform_at x None (history sol) 1 i)).
      apply (run_iterates _ _ _ _ _ _ _ _ _ R 0%nat i); [lia|exact Hi]. }
    pose proof (run_lower_trans es ar thr x x None P eq_refl N V m sol errs R 0%nat n i Hn Hi) as L. cbn in L.
    pose proof (step_nonneg es ar _ _ _ _ _ (run_iterates _ _ _ _ _ _ _ _ _ R n i Hn Hi)). lra. }
  assert (B0 : (0 < length (rows x))%nat) by (destruct (rows x); [congruence|cbn; lia]).
  split; [|split].
  - destruct (converged sol) eqn:C; [|reflexivity]. exfalso. destruct (run_stopped _ _ _ _ _ _ _ _ _ R C) as (n & L & S).
    specialize (S 0%nat B0). destruct n as [|n]; cbn in S; [lra|]. rewrite Z in S by (lia || exact B0). tauto.
  - intros e He. rewrite (run_rmse _ _ _ _ _ _ _ _ _ R) in He. destruct (length errs) as [|n] eqn:L; [discriminate|]. injection He as <-.
    split; [apply (run_rows _ _ _ _ _ _ _ _ _ R); lia|]. intros i Hi. apply (Z n i); [lia|exact Hi].
  - intros Hm He. rewrite (run_rmse _ _ _ _ _ _ _ _ _ R) in He. destruct (length errs) as [|n] eqn:L; [|discriminate].
    destruct (converged sol) eqn:C.
    + destruct (run_stopped _ _ _ _ _ _ _ _ _ R C) as (n & L' & _). lia.
    + pose proof (proj1 (run_exhausted _ _ _ _ _ _ _ _ _ R C)). lia.
Qed.
