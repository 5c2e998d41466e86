(* One iteration of iterative_closest_point. *)
From Verif Require Import Base RBase Geom LinAlg TopK Knn KnnSpec KnnProofs KnnProps.
From Verif Require Import Alignment AlignmentSpec AlignmentProofs AlignmentProofs2 AlignmentProofs3.
Local Open Scope R_scope.

Lemma dist_coords p q : dist_L2sq (coords p) (coords q) = sqdist p q.
Proof. unfold coords, dist_L2sq, sqdist. ring. Qed.
Lemma rmap_nth {A B} (f : A -> result B) l (g : A -> B) d :
  (forall i, (i < length l)%nat -> f (nth i l d) = Ok (g (nth i l d))) -> rmap f l = Ok (map g l).
Proof.
  intros H. apply rmap_ok. intros a Ha. apply (In_nth l a d) in Ha. destruct Ha as (i & L & <-). apply H, L.
Qed.

Lemma nearest_points_ok sort least x y kx ky : sorts sort ->
  (kx <= length x)%nat -> (1 <= ky <= length y)%nat -> (least <= ky)%nat ->
  exists nn, nearest_points sort least x y kx ky = Ok nn /\ length nn = length x /\
    forall j, (j < length x)%nat ->
      if (j <? kx)%nat then nearest_in (firstn ky y) (nth j x (V3 0 0 0)) (nth j nn (V3 0 0 0))
      else nth j nn (V3 0 0 0) = nth 0 y (V3 0 0 0).
Proof.
  intros Hs Hx Hy Hl. unfold nearest_points.
  destruct (knn_points_are_nearest sort 2 1 true least (map coords x) (map coords y) kx ky Hs) as (rw & E & L & F);
    [right; reflexivity|lia|rewrite map_length; lia|rewrite map_length; lia|lia|].
  rewrite E. cbn [rbind]. rewrite map_length in L, F. cbn [Nat.eqb] in F.
  set (z := V3 0 0 0) in *.
  assert (G : forall j, (j < length x)%nat -> exists q,
    (g <- knn_gather z least 1 ky y (snd (nth j rw ([], []))) ;; rget g 0) = Ok q /\
    if (j <? kx)%nat then nearest_in (firstn ky y) (nth j x z) q else q = nth 0 y z).
  { intros j J. destruct (F j J) as (ds & js & R & K). rewrite (nth_error_nth _ _ _ R). cbn [snd].
    assert (KG : forall i, js = [i] -> (i < length y)%nat ->
      (g <- knn_gather z least 1 ky y js ;; rget g 0) = Ok (nth i y z)).
    { intros i -> Hi. unfold knn_gather. cbn [rmap]. rewrite (nth_error_nth' y z Hi). cbn [rbind].
      destruct (least <? 1)%nat; [|reflexivity]. cbn [seq map]. destruct (Nat.leb_spec ky 0); [lia|]. reflexivity. }
    destruct (j <? kx)%nat.
    - destruct K as [K1 K2 K3 K4 K5 K6 K7].
      destruct js as [|i [|? ?]]; try discriminate K2. destruct ds as [|d [|? ?]]; try discriminate K1.
      rewrite Nat.min_l in * by lia. destruct (K4 0%nat ltac:(lia)) as [V D]. cbn [nth] in V, D.
      exists (nth i y z). split; [apply KG; [reflexivity|lia]|].
      rewrite (nth_map_lt coords x j z) in D by exact J. rewrite (nth_map_lt coords y i z), dist_coords in D by lia.
      split.
      + rewrite <- (nth_firstn_lt z y ky i V). apply nth_In. rewrite firstn_length. lia.
      + intros q' Q. apply (In_nth _ _ z) in Q. destruct Q as (i' & Hi' & <-). rewrite firstn_length in Hi'.
        rewrite nth_firstn_lt by lia. rewrite <- D.
        destruct (Nat.eq_dec i' i) as [->|Ne]; [rewrite D; lra|].
        specialize (K6 i' ltac:(lia)). cbn [firstn] in K6. specialize (K6 ltac:(intros [?|[]]; congruence) 0%nat ltac:(lia)).
        cbn [nth] in K6. rewrite (nth_map_lt coords x j z), (nth_map_lt coords y i' z), dist_coords in K6 by lia. exact K6.
    - destruct K as [-> ->]. exists (nth 0 y z). split; [apply KG; [reflexivity|lia]|reflexivity]. }
  set (val := fun r : list ext * list nat => match (g <- knn_gather z least 1 ky y (snd r) ;; rget g 0) with Ok q => q | Fail _ => z end).
  assert (M : rmap (fun r => g <- knn_gather z least 1 ky y (snd r) ;; rget g 0) rw = Ok (map val rw)).
  { apply (rmap_nth _ _ _ ([], [])). intros i Hi. rewrite L in Hi. destruct (G i Hi) as (q & Q & _). unfold val. rewrite Q. reflexivity. }
  exists (map val rw). split; [exact M|]. split; [rewrite map_length; exact L|].
  intros j J. rewrite (nth_map_lt _ _ _ ([], [])) by lia. destruct (G j J) as (q & Q & P). unfold val. rewrite Q. exact P.
Qed.

(* ---- errors ---- *)
Lemma firstn_mask n k : (k <= n)%nat -> firstn k (mask n k) = repeat 1 k.
Proof.
  intros H. apply (list_nth_eq 0); [rewrite firstn_length, mask_length, repeat_length; lia|].
  intros j J. rewrite firstn_length, mask_length in J. rewrite nth_firstn_lt, nth_mask by lia.
  destruct (Nat.ltb_spec j n), (Nat.ltb_spec j k); try lia. cbn. rewrite (nth_indep _ 0 1) by (rewrite repeat_length; lia).
  symmetry. apply nth_repeat.
Qed.
Lemma mask_zero n k i : (k <= i)%nat -> nth i (mask n k) 0 = 0.
Proof. intros H. rewrite nth_mask. destruct (Nat.ltb_spec i k); [lia|]. rewrite Bool.andb_false_r. reflexivity. Qed.

Lemma err_sum w x t nn : length x = length w -> length nn = length w ->
  rsum (map (fun p => fst p * snd p) (combine w (map (fun c => let d := sub3 (fst c) (snd c) in dot3 d d)
    (combine (map (apply_similarity t) x) nn)))) = misfit w x nn t.
Proof.
  unfold misfit. revert x nn. induction w as [|a w IH]; intros [|p x] [|q nn] H K; try discriminate; [reflexivity|].
  cbn [map combine sum3 fst snd]. rewrite rsum_cons, IH by (cbn in *; lia). cbn [fst snd]. rewrite sqdist_sub. reflexivity.
Qed.
Lemma misfit_mask k w x y t : (forall i, (k <= i)%nat -> nth i w 0 = 0) ->
  misfit w x y t = misfit (firstn k w) (firstn k x) (firstn k y) t.
Proof. intros Z. unfold misfit. apply sum3_mask; [intros; ring|exact Z]. Qed.

Lemma icp_eps_bounds : 0 < icp_eps <= 1.
Proof. unfold icp_eps. split; [apply Rinv_0_lt_compat; lra|]. rewrite <- Rinv_1. apply Rinv_le_contravar; lra. Qed.

Section Step.
  Variable svd : mat3 -> mat3 * vec3 * mat3.
  Variable sort : list ext -> list nat.
  Hypothesis Hsvd : forall m, svd_of m (svd m).
  Hypothesis Hsort : sorts sort.
  Variables (es ar : bool) (x y : points).
  Hypothesis Px : padded_batch x.
  Hypothesis Py : padded_batch y.
  Hypothesis Hb : length (rows x) = length (rows y).
  Hypothesis B1 : rows x <> [].
  Hypothesis Nx : Forall (fun k => (1 <= k)%nat) (nums x).
  Hypothesis Ny : Forall (fun k => (1 <= k)%nat) (nums y).
  Hypothesis Ip : ignores_padding x y.
  Hypothesis Hv : es = true -> forall i, (i < length (rows x))%nat -> icp_eps <= variance (ones (cloud x i)) (cloud x i).
  Let b := length (rows x).
  Let o : similarity := Sim id3 (V3 0 0 0) 1.

  Lemma cloud_length i : (i < b)%nat -> length (cloud x i) = nth i (nums x) 0%nat.
  Proof.
    intros H. unfold cloud. rewrite firstn_length. pose proof (count_le x i Px H).
    destruct Px as (_ & Q & _). rewrite Forall_forall in Q. rewrite (Q (nth i (rows x) [])) by (apply nth_In, H). lia.
  Qed.
  Lemma row_length i : (i < b)%nat -> length (nth i (rows x) []) = width x.
  Proof. intros H. destruct Px as (_ & Q & _). rewrite Forall_forall in Q. apply Q, nth_In, H. Qed.
  Lemma count_pos i : (i < b)%nat -> (1 <= nth i (nums x) 0)%nat.
  Proof. intros H. pose proof Nx as N. rewrite Forall_forall in N. apply N, nth_In. rewrite (proj1 Px). exact H. Qed.

  Lemma mask_used i : (i < b)%nat -> nth i (icp_mask x y) [] = mask (width x) (nth i (nums x) 0%nat).
  Proof.
    intros H. unfold icp_mask.
    assert (Full : Forall (fun k => k = width x) (nums x) -> nth i (map (fun _ : list vec3 => repeat 1 (width x)) (rows x)) [] = mask (width x) (nth i (nums x) 0%nat)).
    { intros F. rewrite (nth_map_lt _ _ _ []) by exact H. rewrite Forall_forall in F.
      rewrite (F (nth i (nums x) 0%nat)) by (apply nth_In; rewrite (proj1 Px); exact H).
      rewrite <- (firstn_mask (width x) (width x)) by lia. apply firstn_all2. rewrite mask_length. lia. }
    destruct ((_ || _) && _)%bool eqn:E.
    - rewrite (nth_map_lt _ _ _ 0%nat) by (rewrite (proj1 Px); exact H). reflexivity.
    - apply Full. apply Bool.andb_false_iff in E. destruct E as [E|E].
      + apply Bool.orb_false_iff in E. destruct E as [_ E]. apply Forall_forall. intros k K.
        destruct Px as (_ & _ & Q). rewrite Forall_forall in Q. specialize (Q k K).
        destruct (Nat.lt_ge_cases k (width x)) as [L|L]; [|lia].
        assert (existsb (fun k => (k <? width x)%nat) (nums x) = true); [|congruence].
        apply existsb_exists. exists k. split; [exact K|apply Nat.ltb_lt, L].
      + destruct Ip as [N|N]; [|exact N]. exfalso. apply N.
        assert (Len : length (nums x) = length (nums y)) by (rewrite (proj1 Px), (proj1 Py); exact Hb).
        clear - E Len. revert E Len. generalize (nums x) as l, (nums y) as l'. induction l as [|a l IH]; intros [|c l'] E Len; try discriminate; [reflexivity|].
        cbn in E. apply Bool.orb_false_iff in E. destruct E as [E1 E2]. apply Bool.negb_false_iff, Nat.eqb_eq in E1. subst c.
        f_equal. apply IH; [exact E2|]. cbn in Len. lia.
  Qed.
  Lemma mask_count : length (icp_mask x y) = b.
  Proof. unfold icp_mask. destruct (_ && _)%bool; rewrite map_length; [apply (proj1 Px)|reflexivity]. Qed.

  (* the state between iterations: points moved by the transforms ts *)
  Definition moved_by (xt : list (list vec3)) (ts : list similarity) : Prop :=
    length xt = b /\ length ts = b /\
    forall i, (i < b)%nat -> nth i xt [] = map (image (nth i ts o)) (nth i (rows x) []).

  Lemma step_ok xt ts : moved_by xt ts ->
    exists nn ts' xt' err, icp_step svd sort es ar x y (icp_mask x y) xt = Ok (nn, ts', xt', err) /\
      moved_by xt' ts' /\ length err = b /\
      forall i, (i < b)%nat -> iterates es ar (cloud x i) (cloud y i) (nth i ts o) (nth i ts' o) (nth i err 0).
  Proof.
    intros (Lx & Lt & Mv). unfold icp_step.
    assert (NE : nums y <> []).
    { intros E. apply B1. destruct Py as (Q & _). rewrite E, <- Hb in Q. destruct (rows x); [reflexivity|discriminate Q]. }
    destruct (nums y) as [|k0 l0] eqn:En; [contradiction|]. cbn [rbind].
    set (least := fold_left Nat.min l0 k0).
    assert (Least : forall i, (i < b)%nat -> (least <= nth i (nums y) 0)%nat).
    { intros i Hi. assert (I : In (nth i (nums y) 0%nat) (k0 :: l0)).
      { rewrite <- En. apply nth_In. rewrite (proj1 Py), <- Hb. exact Hi. }
      unfold least. revert I. generalize (nth i (nums y) 0%nat) as k. clear.
      assert (D : forall l a, (fold_left Nat.min l a <= a)%nat).
      { induction l as [|c l IH]; intros a; cbn; [lia|]. specialize (IH (Nat.min a c)). lia. }
      assert (G : forall l a k, In k (a :: l) -> (fold_left Nat.min l a <= k)%nat).
      { induction l as [|c l IH]; intros a k [<-|I]; cbn; try contradiction.
        - lia.
        - pose proof (D l (Nat.min a c)). lia.
        - destruct I as [<-|I]; [pose proof (D l (Nat.min a c)); lia|]. apply IH. right. exact I. }
      intros k. apply G. }
    rewrite <- En in *.
    assert (NN : forall i, (i < b)%nat -> exists nn,
      nearest_points sort least (nth i xt []) (nth i (rows y) []) (nth i (nums x) 0%nat) (nth i (nums y) 0%nat) = Ok nn /\
      length nn = width x /\
      Forall2 (fun p q => nearest_in (cloud y i) (image (nth i ts o) p) q) (cloud x i) (firstn (nth i (nums x) 0%nat) nn)).
    { intros i Hi. pose proof (count_le x i Px Hi) as C. pose proof (row_length i Hi) as RL.
      assert (Cy : (1 <= nth i (nums y) 0 <= length (nth i (rows y) []))%nat).
      { split.
        - pose proof Ny as N. rewrite Forall_forall in N. apply N, nth_In. rewrite (proj1 Py), <- Hb. exact Hi.
        - assert (Hi' : (i < length (rows y))%nat) by (rewrite <- Hb; exact Hi).
          pose proof (count_le y i Py Hi'). destruct Py as (_ & Q & _). rewrite Forall_forall in Q.
          rewrite (Q (nth i (rows y) [])) by (apply nth_In, Hi'). assumption. }
      assert (LX : length (nth i xt []) = width x) by (rewrite Mv, map_length by exact Hi; exact RL).
      destruct (nearest_points_ok sort least (nth i xt []) (nth i (rows y) []) (nth i (nums x) 0%nat) (nth i (nums y) 0%nat) Hsort) as (nn & E & Ln & F);
        [lia|exact Cy|apply Least, Hi|].
      exists nn. split; [exact E|]. split; [lia|].
      rewrite LX in Ln, F. pose proof (cloud_length i Hi) as CL. fold (cloud y i) in F.
      assert (G : forall (P : vec3 -> vec3 -> Prop) l l', length l = length l' ->
        (forall j, (j < length l)%nat -> P (nth j l (V3 0 0 0)) (nth j l' (V3 0 0 0))) -> Forall2 P l l').
      { clear. intros P. induction l as [|a l IH]; intros [|c l'] L H; try discriminate; constructor.
        - apply (H 0%nat). cbn. lia.
        - apply IH; [cbn in L; lia|]. intros j J. apply (H (S j)). cbn. lia. }
      apply G; [rewrite firstn_length; lia|]. intros j J. rewrite CL in J. specialize (F j ltac:(lia)).
      destruct (Nat.ltb_spec j (nth i (nums x) 0%nat)); [|lia].
      rewrite nth_firstn_lt by lia. unfold cloud at 2. rewrite nth_firstn_lt by lia.
      rewrite Mv in F by exact Hi. rewrite (nth_map_lt _ _ _ (V3 0 0 0)) in F by lia. exact F. }
    set (nnf := fun i => match nearest_points sort least (nth i xt []) (nth i (rows y) []) (nth i (nums x) 0%nat) (nth i (nums y) 0%nat) with Ok nn => nn | Fail _ => [] end).
    assert (E1 : rmap (fun i => p <- rget xt i ;; q <- rget (rows y) i ;; kx <- rget (nums x) i ;; ky <- rget (nums y) i ;;
                         nearest_points sort least p q kx ky) (seq 0 b) = Ok (map nnf (seq 0 b))).
    { apply rmap_ok. intros i Hi. apply in_seq in Hi.
      rewrite (rget_nth xt i []), (rget_nth (rows y) i []), (rget_nth (nums x) i 0%nat), (rget_nth (nums y) i 0%nat)
        by (rewrite ?(proj1 Px), ?(proj1 Py), <- ?Hb; fold b; lia).
      cbn [rbind]. destruct (NN i ltac:(lia)) as (nn & E & _). unfold nnf. rewrite E. reflexivity. }
    fold b. rewrite E1. cbn [rbind]. set (nn := map nnf (seq 0 b)).
    assert (NNi : forall i, (i < b)%nat -> nth i nn [] = nnf i).
    { intros i Hi. unfold nn. rewrite (nth_map_lt _ _ _ 0%nat) by (rewrite seq_length; exact Hi). rewrite seq_nth by exact Hi. reflexivity. }
    assert (NP : forall i, (i < b)%nat -> length (nth i nn []) = width x /\
      Forall2 (fun p q => nearest_in (cloud y i) (image (nth i ts o) p) q) (cloud x i) (firstn (nth i (nums x) 0%nat) (nth i nn []))).
    { intros i Hi. rewrite NNi by exact Hi. destruct (NN i Hi) as (v & E & Ln & F). unfold nnf. rewrite E. split; assumption. }
    set (X := of_tensor (width x) (rows x)). set (Y := of_tensor (width x) nn).
    assert (LN : length nn = b) by (unfold nn; rewrite map_length, seq_length; reflexivity).
    assert (PX : padded_batch X).
    { split; [cbn; apply repeat_length|]. split; [exact (proj1 (proj2 Px))|]. cbn. apply Forall_forall. intros k K. apply repeat_spec in K. lia. }
    assert (PY : padded_batch Y).
    { split; [cbn; apply repeat_length|]. split.
      - apply Forall_forall. intros r Hr. apply (In_nth _ _ []) in Hr. destruct Hr as (i & Hi & <-). cbn in *. apply NP. lia.
      - cbn. apply Forall_forall. intros k K. apply repeat_spec in K. lia. }
    assert (SS : same_sizes X Y) by (split; [cbn; lia|split; [reflexivity|cbn; rewrite LN; reflexivity]]).
    assert (WF : weights_fit X (WTensor (width x) (icp_mask x y))).
    { split; [cbn; apply mask_count|]. split; [reflexivity|]. apply Forall_forall. intros r Hr. apply (In_nth _ _ []) in Hr.
      destruct Hr as (i & Hi & <-). rewrite mask_count in Hi. rewrite mask_used by exact Hi. apply mask_length. }
    rewrite (align_rows svd X Y (WTensor (width x) (icp_mask x y)) es ar icp_eps PX PY SS WF).
    pose proof icp_eps_bounds as EB.
    assert (AL : forall i, (i < b)%nat -> exists t,
      align_one svd es ar icp_eps (row_weights X (WTensor (width x) (icp_mask x y)) i) (nth i (nums X) 0%nat) (nth i (rows X) []) (nth i (rows Y) []) = Ok t /\
      best_fit es ar (ones (cloud x i)) (cloud x i) (firstn (nth i (nums x) 0%nat) (nth i nn [])) t).
    { intros i Hi. pose proof (count_pos i Hi) as CP. pose proof (count_le x i Px Hi) as C.
      assert (NI : nth i (nums X) 0%nat = width x).
      { cbn. rewrite (nth_indep _ 0%nat (width x)) by (rewrite repeat_length; exact Hi). apply nth_repeat. }
      rewrite row_used; [|exact PX|exact WF|exact Hi|lra|rewrite NI; lia|cbn; apply NP; exact Hi].
      assert (US : used X (WTensor (width x) (icp_mask x y)) i = mask (width x) (nth i (nums x) 0%nat)).
      { unfold used. rewrite NI. cbn [width of_tensor X]. rewrite mask_used by exact Hi.
        apply (list_nth_eq 0); [rewrite times_length, !mask_length; rewrite ?mask_length; reflexivity|].
        intros j J. rewrite times_length, mask_length in J by (rewrite !mask_length; reflexivity).
        rewrite nth_times, !nth_mask. destruct (Nat.ltb_spec j (width x)); [|lia]. cbn [andb].
        destruct (j <? nth i (nums x) 0)%nat; ring. }
      rewrite US.
      assert (W1 : firstn (nth i (nums x) 0%nat) (mask (width x) (nth i (nums x) 0%nat)) = ones (cloud x i)).
      { rewrite firstn_mask by exact C. unfold ones. rewrite cloud_length by exact Hi. reflexivity. }
      destruct (best_one svd es ar icp_eps (nth i (nums x) 0%nat) (mask (width x) (nth i (nums x) 0%nat)) (nth i (nums X) 0%nat)
                  (nth i (rows X) []) (nth i (rows Y) [])) as (t & E & BF).
      - rewrite mask_length. cbn. apply row_length, Hi.
      - rewrite mask_length. cbn. apply NP, Hi.
      - apply mask_zero.
      - rewrite W1. apply Forall_forall. intros a Ha. apply repeat_spec in Ha. right. exact Ha.
      - rewrite W1. unfold ones. rewrite rsum_ones, cloud_length by exact Hi. pose proof (INR_ge1 _ CP). lra.
      - apply Hsvd.
      - rewrite W1. intros T. exact (Hv T i Hi).
      - exists t. split; [exact E|]. rewrite W1 in BF. exact BF. }
    set (tf := fun i => match align_one svd es ar icp_eps (row_weights X (WTensor (width x) (icp_mask x y)) i) (nth i (nums X) 0%nat) (nth i (rows X) []) (nth i (rows Y) []) with Ok t => t | Fail _ => o end).
    assert (E2 : rmap (fun i => align_one svd es ar icp_eps (row_weights X (WTensor (width x) (icp_mask x y)) i) (nth i (nums X) 0%nat) (nth i (rows X) []) (nth i (rows Y) []))
       (seq 0 (length (rows X))) = Ok (map tf (seq 0 b))).
    { apply rmap_ok. intros i Hi. apply in_seq in Hi. cbn in Hi. destruct (AL i ltac:(lia)) as (t & E & _). unfold tf. rewrite E. reflexivity. }
    rewrite E2. cbn [rbind]. set (ts' := map tf (seq 0 b)).
    assert (TI : forall i, (i < b)%nat -> nth i ts' o = tf i).
    { intros i Hi. unfold ts'. rewrite (nth_map_lt _ _ _ 0%nat) by (rewrite seq_length; exact Hi). rewrite seq_nth by exact Hi. reflexivity. }
    assert (LT : length ts' = b) by (unfold ts'; rewrite map_length, seq_length; reflexivity).
    assert (BF : forall i, (i < b)%nat -> best_fit es ar (ones (cloud x i)) (cloud x i) (firstn (nth i (nums x) 0%nat) (nth i nn [])) (nth i ts' o)).
    { intros i Hi. rewrite TI by exact Hi. destruct (AL i Hi) as (t & E & Q). unfold tf. rewrite E. exact Q. }
    set (xf := fun i => map (apply_similarity (nth i ts' o)) (nth i (rows x) [])).
    assert (E3 : rmap (fun i => t <- rget ts' i ;; p <- rget (rows x) i ;; Ok (map (apply_similarity t) p)) (seq 0 b) = Ok (map xf (seq 0 b))).
    { apply rmap_ok. intros i Hi. apply in_seq in Hi. rewrite (rget_nth ts' i o), (rget_nth (rows x) i []) by (fold b; lia). reflexivity. }
    rewrite E3. cbn [rbind]. set (xt' := map xf (seq 0 b)).
    assert (XI : forall i, (i < b)%nat -> nth i xt' [] = xf i).
    { intros i Hi. unfold xt'. rewrite (nth_map_lt _ _ _ 0%nat) by (rewrite seq_length; exact Hi). rewrite seq_nth by exact Hi. reflexivity. }
    assert (LX' : length xt' = b) by (unfold xt'; rewrite map_length, seq_length; reflexivity).
    set (ef := fun i => sqrt (misfit (ones (cloud x i)) (cloud x i) (firstn (nth i (nums x) 0%nat) (nth i nn [])) (nth i ts' o) / INR (length (cloud x i)))).
    assert (E4 : rmap (fun i => p <- rget xt' i ;; q <- rget nn i ;; w <- rget (icp_mask x y) i ;;
                   let sq := map (fun c => let d := sub3 (fst c) (snd c) in dot3 d d) (combine p q) in
                   Ok (sqrt (wmean1 icp_eps w sq))) (seq 0 b) = Ok (map ef (seq 0 b))).
    { apply rmap_ok. intros i Hi. apply in_seq in Hi. assert (Hi' : (i < b)%nat) by lia.
      rewrite (rget_nth xt' i []), (rget_nth nn i []), (rget_nth (icp_mask x y) i []) by (rewrite ?mask_count; lia).
      cbn [rbind]. cbv zeta. do 2 f_equal. unfold wmean1. rewrite mask_used by exact Hi'. rewrite XI by exact Hi'. unfold xf.
      pose proof (count_pos i Hi') as CP. pose proof (count_le x i Px Hi') as C.
      rewrite err_sum by (rewrite mask_length; [apply row_length, Hi'|apply NP, Hi'] || (rewrite mask_length; apply NP, Hi') || (rewrite mask_length; apply row_length, Hi')).
      rewrite (misfit_mask (nth i (nums x) 0%nat)) by apply mask_zero.
      rewrite (rsum_mask (nth i (nums x) 0%nat) (mask _ _)) by apply mask_zero.
      rewrite firstn_mask, rsum_ones by exact C. rewrite Rmax_r_eq by (pose proof (INR_ge1 _ CP); lra).
      unfold ef, ones. rewrite cloud_length by exact Hi'. reflexivity. }
    cbv beta zeta in E4 |- *. rewrite E4. cbn [rbind]. exists nn, ts', xt', (map ef (seq 0 b)). split; [reflexivity|].
    split; [split; [exact LX'|split; [exact LT|]]|split].
    - intros i Hi. rewrite XI by exact Hi. reflexivity.
    - rewrite map_length, seq_length. reflexivity.
    - intros i Hi. rewrite (nth_map_lt _ _ _ 0%nat) by (rewrite seq_length; exact Hi). rewrite seq_nth by exact Hi.
      exists (firstn (nth i (nums x) 0%nat) (nth i nn [])). split; [apply NP, Hi|]. split; [apply BF, Hi|]. reflexivity.
  Qed.

  (* a step does not raise the error *)
  Lemma step_lower i t0 t1 t2 e1 e2 : (i < b)%nat -> iterates es ar (cloud x i) (cloud y i) t0 t1 e1 ->
    iterates es ar (cloud x i) (cloud y i) t1 t2 e2 -> e2 <= e1.
  Proof.
    intros Hi (n1 & F1 & (A1 & _) & ->) (n2 & F2 & (_ & B2) & ->).
    apply sqrt_le_1_alt. apply Rmult_le_compat_r.
    - apply Rlt_le, Rinv_0_lt_compat. rewrite cloud_length by exact Hi. pose proof (INR_ge1 _ (count_pos i Hi)). lra.
    - apply Rle_trans with (misfit (ones (cloud x i)) (cloud x i) n2 t1); [apply B2, A1|].
      unfold misfit, ones. clear - F1 F2. revert n1 n2 F1 F2. generalize (cloud x i) as l.
      induction l as [|p l IH]; intros n1 n2 F1 F2; [cbn; lra|].
      inversion F1 as [|? q1 ? l1 Q1 F1']; subst. inversion F2 as [|? q2 ? l2 Q2 F2']; subst. cbn [length repeat sum3].
      specialize (IH l1 l2 F1' F2'). destruct Q1 as [I1 _], Q2 as [_ N2]. specialize (N2 q1 I1). lra.
  Qed.
  Lemma step_nonneg xs ys t t' e : iterates es ar xs ys t t' e -> 0 <= e.
  Proof. intros (n & _ & _ & ->). apply sqrt_pos. Qed.
End Step.
