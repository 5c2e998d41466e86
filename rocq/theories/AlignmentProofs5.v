(* The loop of iterative_closest_point. *)
From Verif Require Import Base RBase Geom LinAlg TopK Knn.
From Verif Require Import Alignment AlignmentSpec AlignmentProofs AlignmentProofs2 AlignmentProofs3 AlignmentProofs4.
Local Open Scope R_scope.

Section Loop.
  Variable svd : mat3 -> mat3 * vec3 * mat3.
  Variable sort : list ext -> list nat.
  Hypothesis Hsvd : forall m, svd_of m (svd m).
  Hypothesis Hsort : sorts sort.
  Variables (es ar : bool) (thr : R) (x y : points) (init : option (list similarity)).
  Hypothesis Px : padded_batch x.
  Hypothesis Py : padded_batch y.
  Hypothesis Hb : length (rows x) = length (rows y).
  Hypothesis B1 : rows x <> [].
  Hypothesis Nx : Forall (fun k => (1 <= k)%nat) (nums x).
  Hypothesis Ny : Forall (fun k => (1 <= k)%nat) (nums y).
  Hypothesis Ip : ignores_padding x y.
  Hypothesis Hv : es = true -> forall i, (i < length (rows x))%nat -> icp_eps <= variance (ones (cloud x i)) (cloud x i).
  Let b := length (rows x).
  Let o : similarity := Sim id3 (V3 0 0 0) 1.
  Let mask := icp_mask x y.

  Record inv (xt : list (list vec3)) (prev : option (list R)) (ts : list similarity)
      (hist : list (list similarity)) (errs : list (list R)) : Prop := {
    i_moved : moved_by x xt ts;
    i_len : length hist = length errs;
    i_rows : forall n, (n < length errs)%nat -> length (nth n errs []) = b;
    i_steps : forall n i, (n < length errs)%nat -> (i < b)%nat ->
      iterates es ar (cloud x i) (cloud y i) (transform_at x init hist n i) (transform_at x init hist (S n) i) (error_at errs n i);
    i_going : forall n, (n < length errs)%nat -> ~ stops_at thr b errs n;
    i_prev : prev = match length errs with O => None | S n => Some (nth n errs []) end;
    i_ts : forall i, (i < b)%nat -> nth i ts o = transform_at x init hist (length errs) i }.

  Lemma nth_app_last {A} (d : A) l a : nth (length l) (l ++ [a]) d = a.
  Proof. rewrite app_nth2, Nat.sub_diag by lia. reflexivity. Qed.
  Lemma transform_app hist ts n i : (n <= length hist)%nat ->
    transform_at x init (hist ++ [ts]) n i = transform_at x init hist n i.
  Proof. intros H. unfold transform_at. destruct n as [|n]; [reflexivity|]. rewrite app_nth1 by lia. reflexivity. Qed.
  Lemma error_app errs e n i : (n < length errs)%nat -> error_at (errs ++ [e]) n i = error_at errs n i.
  Proof. intros H. unfold error_at. rewrite app_nth1 by lia. reflexivity. Qed.
  Lemma stops_app errs e n : (n < length errs)%nat -> stops_at thr b (errs ++ [e]) n <-> stops_at thr b errs n.
  Proof.
    intros H. unfold stops_at. split; intros S i Hi; specialize (S i Hi).
    - rewrite error_app in S by exact H. destruct n as [|n]; [exact S|]. cbn [error_before] in *. rewrite error_app in S by lia. exact S.
    - rewrite error_app by exact H. destruct n as [|n]; [exact S|]. cbn [error_before] in *. rewrite error_app by lia. exact S.
  Qed.

  (* errors do not grow along a run *)
  Lemma inv_lower hist errs : 
    (forall n i, (n < length errs)%nat -> (i < b)%nat ->
      iterates es ar (cloud x i) (cloud y i) (transform_at x init hist n i) (transform_at x init hist (S n) i) (error_at errs n i)) ->
    forall n i, (S n < length errs)%nat -> (i < b)%nat -> error_at errs (S n) i <= error_at errs n i.
  Proof.
    intros H n i Hn Hi. eapply (step_lower es ar x y Px Hb Nx Hv i); [exact Hi| |].
    - apply (H n i); [lia|exact Hi].
    - apply (H (S n) i); assumption.
  Qed.

  Lemma stop_test (errs : list (list R)) (err : list R) (prev : option (list R)) hist :
    length err = b -> prev = match length errs with O => None | S n => Some (nth n errs []) end ->
    (forall n, (n < length errs)%nat -> length (nth n errs []) = b) ->
    (forall n i, (n < length (errs ++ [err]))%nat -> (i < b)%nat ->
      iterates es ar (cloud x i) (cloud y i) (transform_at x init hist n i) (transform_at x init hist (S n) i) (error_at (errs ++ [err]) n i)) ->
    forallb (fun i => match nth_error err i with
                      | Some e => small_change thr match prev with None => None | Some p => nth_error p i end e
                      | None => true end) (seq 0 (length err)) = true
    <-> stops_at thr b (errs ++ [err]) (length errs).
  Proof.
    intros Le Hp Hr It. rewrite forallb_forall.
    assert (E : forall i, (i < b)%nat ->
      (match nth_error err i with
       | Some e => small_change thr match prev with None => None | Some p => nth_error p i end e
       | None => true end = true <-> slow thr (error_before (errs ++ [err]) (length errs) i) (error_at (errs ++ [err]) (length errs) i))).
    { intros i Hi. rewrite (nth_error_nth' err 0) by lia. unfold error_at. rewrite nth_app_last.
      destruct (length errs) as [|n] eqn:L.
      - subst prev. cbn. destruct (Rleb_spec 1 thr); split; intros; try lra; try reflexivity; discriminate.
      - subst prev. cbn [error_before]. rewrite error_app by lia. unfold error_at.
        rewrite (nth_error_nth' (nth n errs []) 0) by (rewrite Hr by lia; exact Hi).
        assert (Lw : nth i err 0 <= nth i (nth n errs []) 0).
        { pose proof (inv_lower hist (errs ++ [err]) It n i) as Q. rewrite app_length in Q. cbn in Q. specialize (Q ltac:(lia) Hi).
          rewrite (error_app errs err n) in Q by lia. unfold error_at in Q. rewrite <- L, nth_app_last in Q. exact Q. }
        assert (N0 : 0 <= nth i err 0).
        { specialize (It (length errs) i). rewrite app_length in It. cbn in It. specialize (It ltac:(lia) Hi). unfold error_at in It. rewrite nth_app_last in It.
          exact (step_nonneg es ar _ _ _ _ _ It). }
        unfold small_change, slow. destruct (Reqb_spec (nth i (nth n errs []) 0) 0) as [Z|Z].
        + rewrite Z in Lw. destruct (Reqb_spec (nth i err 0) 0); [|lra]. cbn. split; [discriminate|tauto].
        + destruct (Rleb_spec ((nth i (nth n errs []) 0 - nth i err 0) / nth i (nth n errs []) 0) thr); split; try tauto; try discriminate. }
    split.
    - intros H i Hi. apply E; [exact Hi|]. apply H. apply in_seq. lia.
    - intros H i Hi. apply in_seq in Hi. apply E; [lia|]. apply H. lia.
  Qed.

  Lemma loop_ok fuel : forall xt prev ts hist errs, inv xt prev ts hist errs ->
    exists sol more, icp_loop svd sort fuel es ar thr x y mask xt prev ts hist = Ok sol /\
      icp_run es ar thr x y init (length errs + fuel) sol (errs ++ more) /\
      (converged sol = false -> inv (moved sol) (rmse sol) (rts sol) (history sol) (errs ++ more)).
  Proof.
    assert (Mv : forall xt ts, moved_by x xt ts -> forall i, (i < b)%nat ->
      firstn (nth i (nums x) 0%nat) (nth i xt []) = map (image (nth i ts o)) (cloud x i)).
    { intros xt ts (_ & _ & M) i Hi. rewrite M by exact Hi. rewrite firstn_map. reflexivity. }
    induction fuel as [|fuel IH]; intros xt prev ts hist errs I.
    - exists (Sol false prev xt ts hist), []. rewrite app_nil_r. split; [reflexivity|]. split; [|intros _; exact I].
      rewrite Nat.add_0_r. constructor; cbn [converged rmse moved rts history].
      + apply (i_len _ _ _ _ _ I). + lia. + apply (i_rows _ _ _ _ _ I). + apply (i_steps _ _ _ _ _ I).
      + intros n Hn. apply (i_going _ _ _ _ _ I). lia.
      + discriminate.
      + intros _. split; [reflexivity|]. apply (i_going _ _ _ _ _ I).
      + apply (i_prev _ _ _ _ _ I).
      + split; [apply (i_moved _ _ _ _ _ I)|apply (i_ts _ _ _ _ _ I)].
      + apply Mv, (i_moved _ _ _ _ _ I).
    - cbn [icp_loop].
      destruct (step_ok svd sort Hsvd Hsort es ar x y Px Py Hb B1 Nx Ny Ip Hv xt ts (i_moved _ _ _ _ _ I)) as (nn & ts' & xt' & err & E & M' & Le & St).
      fold mask in E. rewrite E. cbn [rbind].
      assert (It : forall n i, (n < length (errs ++ [err]))%nat -> (i < b)%nat ->
        iterates es ar (cloud x i) (cloud y i) (transform_at x init (hist ++ [ts']) n i) (transform_at x init (hist ++ [ts']) (S n) i) (error_at (errs ++ [err]) n i)).
      { intros n i Hn Hi. rewrite app_length in Hn. cbn in Hn. pose proof (i_len _ _ _ _ _ I) as L.
        destruct (Nat.eq_dec n (length errs)) as [->|Ne].
        - rewrite transform_app by lia. rewrite <- (i_ts _ _ _ _ _ I) by exact Hi.
          unfold error_at. rewrite nth_app_last. unfold transform_at. rewrite <- L, nth_app_last. apply St, Hi.
        - rewrite !transform_app by lia. rewrite error_app by lia. apply (i_steps _ _ _ _ _ I); [lia|exact Hi]. }
      pose proof (stop_test errs err prev (hist ++ [ts']) Le (i_prev _ _ _ _ _ I) (i_rows _ _ _ _ _ I) It) as T.
      assert (Rw : forall n, (n < length (errs ++ [err]))%nat -> length (nth n (errs ++ [err]) []) = b).
      { intros n Hn. rewrite app_length in Hn. cbn in Hn. destruct (Nat.eq_dec n (length errs)) as [->|Ne].
        - rewrite nth_app_last. exact Le.
        - rewrite app_nth1 by lia. apply (i_rows _ _ _ _ _ I). lia. }
      assert (Ts : forall i, (i < b)%nat -> nth i ts' o = transform_at x init (hist ++ [ts']) (length (errs ++ [err])) i).
      { intros i Hi. rewrite app_length. cbn. rewrite Nat.add_1_r. unfold transform_at. rewrite <- (i_len _ _ _ _ _ I), nth_app_last. reflexivity. }
      assert (LA : length (errs ++ [err]) = S (length errs)) by (rewrite app_length; cbn; lia).
      destruct (forallb _ (seq 0 (length err))) eqn:F.
      + exists (Sol true (Some err) xt' ts' (hist ++ [ts'])), [err]. split; [reflexivity|]. split; [|discriminate].
        constructor; cbn [converged rmse moved rts history].
        * rewrite LA, app_length, (i_len _ _ _ _ _ I). cbn. lia.
        * lia.
        * exact Rw.
        * exact It.
        * intros n Hn. rewrite LA in Hn. fold b. rewrite stops_app by lia. apply (i_going _ _ _ _ _ I). lia.
        * intros _. exists (length errs). split; [exact LA|]. apply T. reflexivity.
        * discriminate.
        * rewrite LA, nth_app_last. reflexivity.
        * split; [apply M'|exact Ts].
        * apply Mv, M'.
      + assert (I' : inv xt' (Some err) ts' (hist ++ [ts']) (errs ++ [err])).
        { constructor; try assumption.
          - rewrite LA, app_length, (i_len _ _ _ _ _ I). cbn. lia.
          - intros n Hn. rewrite LA in Hn. destruct (Nat.eq_dec n (length errs)) as [->|Ne].
            + intros S. apply T in S. discriminate.
            + rewrite stops_app by lia. apply (i_going _ _ _ _ _ I). lia.
          - rewrite LA, nth_app_last. reflexivity. }
        destruct (IH _ _ _ _ _ I') as (sol & more & E' & R & C). exists sol, (err :: more).
        rewrite <- app_assoc in R, C. cbn [app] in R, C. split; [exact E'|]. split; [|exact C].
        rewrite LA in R. replace (length errs + S fuel)%nat with (S (length errs) + fuel)%nat by lia. exact R.
  Qed.

  (* running longer continues from where the shorter run ended *)
  Lemma loop_more f : forall g xt prev ts hist sol,
    icp_loop svd sort f es ar thr x y mask xt prev ts hist = Ok sol ->
    icp_loop svd sort (f + g) es ar thr x y mask xt prev ts hist =
    if converged sol then Ok sol else icp_loop svd sort g es ar thr x y mask (moved sol) (rmse sol) (rts sol) (history sol).
  Proof.
    induction f as [|f IH]; intros g xt prev ts hist sol H; cbn [icp_loop Nat.add] in *.
    - injection H as <-. reflexivity.
    - destruct (icp_step svd sort es ar x y mask xt) as [[[[nn ts'] xt'] err]|]; [|discriminate]. cbn [rbind] in *.
      destruct (forallb _ _); [injection H as <-; reflexivity|]. apply IH, H.
  Qed.

  Hypothesis Hi : match init with None => True | Some ts => length ts = b end.
  Definition initial : list (list vec3) * list similarity :=
    match init with
    | None => (rows x, repeat o b)
    | Some ts => (map (fun i => map (apply_similarity (nth i ts o)) (nth i (rows x) [])) (seq 0 b), ts)
    end.
  Lemma icp_start m : iterative_closest_point svd sort x y init m thr es ar =
    icp_loop svd sort m es ar thr x y mask (fst initial) None (snd initial) [].
  Proof.
    unfold iterative_closest_point, initial. rewrite <- Hb, Nat.eqb_refl. cbn [negb].
    destruct init as [ts|]; [|reflexivity]. rewrite Hi. fold b. rewrite Nat.eqb_refl. cbn [rbind fst snd].
    rewrite (rmap_ok _ (fun i => map (apply_similarity (nth i ts o)) (nth i (rows x) []))); [reflexivity|].
    intros i I. apply in_seq in I. rewrite (rget_nth ts i o), (rget_nth (rows x) i []) by (fold b; lia). reflexivity.
  Qed.
  Lemma inv_start : inv (fst initial) None (snd initial) [] [].
  Proof.
    unfold initial. constructor; cbn [length]; try (intros; lia); try reflexivity.
    - destruct init as [ts|]; cbn [fst snd]; (split; [|split]).
      + rewrite map_length, seq_length. reflexivity.
      + exact Hi.
      + intros i I. fold b in I. rewrite (nth_map_lt _ _ _ 0%nat) by (rewrite seq_length; exact I). rewrite seq_nth by exact I. reflexivity.
      + reflexivity.
      + apply repeat_length.
      + intros i I. fold o. rewrite nth_repeat. rewrite <- (map_id (nth i (rows x) [])) at 1. apply map_ext. intros [p q r].
        unfold image, o. cbn [rot scale shift]. unfold vmul3, scal3, add3, id3. cbn. f_equal; ring.
    - intros i I. unfold transform_at, start_of. destruct init as [ts|]; cbn [snd]; [reflexivity|]. fold o. apply nth_repeat.
  Qed.

  Lemma icp_runs m : exists sol errs, iterative_closest_point svd sort x y init m thr es ar = Ok sol /\
    icp_run es ar thr x y init m sol errs.
  Proof.
    rewrite icp_start. destruct (loop_ok m _ _ _ _ _ inv_start) as (sol & errs & E & R & _). exists sol, errs. split; assumption.
  Qed.
  Lemma run_lower m sol errs : icp_run es ar thr x y init m sol errs ->
    forall n i, (S n < length errs)%nat -> (i < b)%nat -> error_at errs (S n) i <= error_at errs n i.
  Proof. intros R. apply (inv_lower (history sol)). apply (run_iterates _ _ _ _ _ _ _ _ _ R). Qed.
  Lemma run_lower_trans m sol errs : icp_run es ar thr x y init m sol errs ->
    forall n k i, (n + k < length errs)%nat -> (i < b)%nat -> error_at errs (n + k) i <= error_at errs n i.
  Proof.
    intros R n k i. induction k as [|k IH]; intros H I; [rewrite Nat.add_0_r; lra|].
    rewrite Nat.add_succ_r in *. apply Rle_trans with (error_at errs (n + k) i); [|apply IH; [lia|exact I]].
    apply (run_lower m sol errs R); assumption.
  Qed.

  Lemma icp_longer m m' sol sol' : (m <= m')%nat ->
    iterative_closest_point svd sort x y init m thr es ar = Ok sol ->
    iterative_closest_point svd sort x y init m' thr es ar = Ok sol' ->
    (converged sol = true -> sol' = sol) /\
    (exists tail, history sol' = history sol ++ tail) /\
    forall e e' i, rmse sol = Some e -> rmse sol' = Some e' -> (i < b)%nat -> nth i e' 0 <= nth i e 0.
  Proof.
    intros Lm H H'. rewrite icp_start in H, H'.
    destruct (loop_ok m _ _ _ _ _ inv_start) as (s & errs & E & R & C). cbn [app length Nat.add] in *.
    assert (s = sol) by congruence. subst s. clear E.
    replace m' with (m + (m' - m))%nat in H' by lia. rewrite (loop_more m _ _ _ _ _ _ H) in H'.
    destruct (converged sol) eqn:Cv.
    - injection H' as <-. split; [reflexivity|]. split; [exists []; rewrite app_nil_r; reflexivity|].
      intros e e' i A A' _. assert (e = e') by congruence. subst. lra.
    - split; [discriminate|]. destruct (loop_ok (m' - m) _ _ _ _ _ (C eq_refl)) as (s & more & E' & R' & _).
      assert (s = sol') by congruence. subst s. split.
      + clear - H'. revert H'. generalize (moved sol), (rmse sol), (rts sol), (history sol), (m' - m)%nat. intros xt pr ts hi f. revert xt pr ts hi.
        induction f as [|f IH]; intros xt pr ts hi H'; cbn [icp_loop] in H'.
        * injection H' as <-. exists []. cbn. rewrite app_nil_r. reflexivity.
        * destruct (icp_step svd sort es ar x y mask xt) as [[[[nn ts'] xt'] err]|]; [|discriminate]. cbn [rbind] in *.
          destruct (forallb _ _); [injection H' as <-; exists [ts']; reflexivity|]. destruct (IH _ _ _ _ H') as (tl & ->).
          exists (ts' :: tl). rewrite <- app_assoc. reflexivity.
      + intros e e' i A A' Hib. rewrite (run_rmse _ _ _ _ _ _ _ _ _ R) in A. rewrite (run_rmse _ _ _ _ _ _ _ _ _ R') in A'.
        destruct (length errs) as [|n] eqn:Ln; [discriminate|]. injection A as <-.
        rewrite app_length, Ln in A'. cbn [Nat.add] in A'. injection A' as <-.
        pose proof (run_lower_trans _ _ _ R' n (length more) i) as Q. rewrite app_length in Q. specialize (Q ltac:(lia) Hib).
        unfold error_at in Q. assert (Ln' : (n < length errs)%nat) by lia. rewrite (app_nth1 errs more [] Ln') in Q. exact Q.
  Qed.
End Loop.
