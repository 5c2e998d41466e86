(* Properties C12 (ball_query), C13 (sample_farthest_points), C56 (grid-stride kernels), C57 (point helpers). *)
From Verif Require Import Base RBase KnnSpec Sampling SamplingSpec SamplingProofs SamplingProofs2 SamplingProofs3.
Local Open Scope R_scope.

(* ---- C12 *)
Theorem ball_query_first_hits : forall skip radius K l1 l2 D p1 p2, 0 <= radius ->
  match l2 with None => True | Some l => (l <= length p2)%nat end -> p2 <> [] ->
  ball_query skip radius K l1 l2 D D p1 p2 = Ok (map (fun i =>
    let n1 := match l1 with None => length p1 | Some l => l end in
    let n2 := match l2 with None => length p2 | Some l => l end in
    let hits := if (i <? n1)%nat then firstn K (ball_hits (fun j => dist_L2sq (pt p1 i) (pt p2 j)) (radius * radius) n2) else [] in
    (padded_row K hits, map (fun h => dist_L2sq (pt p1 i) (pt p2 h)) hits ++ repeat 0 (K - length hits),
     map (fun h => nth h p2 (repeat 0 D)) hits ++ repeat (repeat 0 D) (K - length hits))) (seq 0 (length p1))).
Proof.
  intros skip r K l1 l2 D p1 p2 Hr H2 Hn. unfold ball_query. rewrite Nat.eqb_refl. cbn [negb].
  rewrite bq_cloud_eq by (try assumption; destruct l2; lia). cbn [rbind]. set (n1 := match l1 with None => _ | _ => _ end). set (n2 := match l2 with None => _ | _ => _ end).
  generalize (seq 0 (length p1)). induction l as [|i l IH]; [reflexivity|]. cbn [map rmap fst snd].
  rewrite masked_gather_padded; [cbn [rbind]; rewrite IH; reflexivity| |exact Hn].
  intros h Hh. destruct (i <? n1)%nat; [|contradiction].
  assert (Hin : In h (ball_hits (fun j => dist_L2sq (pt p1 i) (pt p2 j)) (r * r) n2)) by (rewrite <- (firstn_skipn K (ball_hits _ _ _)); apply in_or_app; left; exact Hh).
  unfold ball_hits in Hin. apply filter_In in Hin as [Hin _]. apply in_seq in Hin. unfold n2 in Hin. destruct l2; lia.
Qed.
Print Assumptions ball_query_first_hits.
(* the cube test never changes the result *)
Theorem ball_query_skip_irrelevant : forall radius K l1 l2 p1 p2, 0 <= radius -> (l2 <= length p2)%nat ->
  bq_cloud true radius K l1 l2 p1 p2 = bq_cloud false radius K l1 l2 p1 p2.
Proof. intros. rewrite !bq_cloud_eq by assumption. reflexivity. Qed.
Print Assumptions ball_query_skip_irrelevant.
(* what the list of hits contains *)
Theorem ball_hits_meaning : forall dist r2 n j, In j (ball_hits dist r2 n) <-> (j < n)%nat /\ dist j < r2.
Proof. intros. unfold ball_hits. rewrite filter_In, in_seq, Rltb_true. split; [intros [H1 H2]|intros [H1 H2]]; split; try assumption; lia. Qed.
Print Assumptions ball_hits_meaning.
Example ball_query_ex : exists rows, ball_query true 2 2 None None 1 1 [[0]] [[1]; [5]; [-1]; [0]] = Ok rows /\ map (fun r => fst (fst r)) rows = [[0; 2]%Z].
Proof.
  eexists. split; [apply ball_query_first_hits; [lra|exact I|discriminate]|]. cbn [length seq map fst snd]. cbn [Nat.ltb Nat.leb]. unfold ball_hits. cbn [seq filter].
  unfold pt. cbn [nth dist_L2sq].
  destruct (Rltb_spec ((0 - 1) ^ 2 + 0) (2 * 2)); [|lra]. destruct (Rltb_spec ((0 - 5) ^ 2 + 0) (2 * 2)); [lra|].
  destruct (Rltb_spec ((0 - -1) ^ 2 + 0) (2 * 2)); [|lra]. destruct (Rltb_spec ((0 - 0) ^ 2 + 0) (2 * 2)); [|lra]. reflexivity.
Qed.
(* with a negative radius (whose square is positive) the cube test does change the result *)
Theorem ball_query_negative_radius_refuted : ~ (forall radius K l1 l2 p1 p2, (l2 <= length p2)%nat ->
  bq_cloud true radius K l1 l2 p1 p2 = bq_cloud false radius K l1 l2 p1 p2).
Proof.
  intros H. specialize (H (-1) 1%nat 1%nat 1%nat [[0]] [[0]] ltac:(cbn; lia)).
  unfold bq_cloud, bq_row in H. cbn in H. destruct (Rleb_spec (Rabs (0 - 0)) (-1)) as [L|L]; [assert (P := Rabs_pos (0 - 0)); lra|]. cbn in H.
  unfold sqdist in H. cbn in H. destruct (Rltb_spec (0 + (0 - 0) * (0 - 0)) (-1 * -1)) as [L2|L2]; [|apply L2; lra]. cbn in H. injection H as H _. discriminate.
Qed.
Print Assumptions ball_query_negative_radius_refuted.

(* ---- C13 *)
Theorem sample_farthest_points_greedy : forall D P clouds, clouds <> [] -> (forall c, In c clouds -> cloud_ok P c) ->
  exists sels, sample_farthest_points D P clouds =
    Ok (map (fun cs => let mk := max_nat (map fi_K clouds) in let sel := snd cs in
              (padded_row mk sel, map (fun i => nth i (fi_pts (fst cs)) (repeat 0 D)) sel ++ repeat (repeat 0 D) (mk - length sel))) (combine clouds sels)) /\
    Forall2 (fun c sel => is_fps (cdist c) (fi_len c) (fi_K c) (fi_start c) sel /\ fps_first (cdist c) sel) clouds sels.
Proof. exact sample_fps_ok. Qed.
Print Assumptions sample_farthest_points_greedy.
Example sample_farthest_points_ex : forall c, In c [FI [[0]; [1]; [5]] 3 2 0; FI [[0]; [1]; [5]] 2 1 1] -> cloud_ok 3 c.
Proof. intros c [<-|[<-|[]]]; repeat split; cbn; lia. Qed.
(* the greedy choice with smallest-index ties is unique, so all implementations agree *)
Theorem farthest_points_unique : forall dist len K start a b, is_fps dist len K start a -> is_fps dist len K start b ->
  fps_first dist a -> fps_first dist b -> a = b.
Proof. exact fps_unique. Qed.
Print Assumptions farthest_points_unique.
(* distinct points are never returned twice *)
Theorem farthest_points_distinct : forall dist len K start sel, is_fps dist len K start sel ->
  (forall i, dist i i = 0) -> (forall i j, (i < len)%nat -> (j < len)%nat -> i <> j -> 0 < dist i j) -> NoDup sel.
Proof. exact fps_nodup. Qed.
Print Assumptions farthest_points_distinct.
Theorem distance_separates_points : forall pts len i j, (forall p, In p pts -> length p = length (pt pts i)) -> NoDup pts -> (len <= length pts)%nat ->
  (i < len)%nat -> (j < len)%nat -> i <> j -> 0 < dist_L2sq (pt pts i) (pt pts j).
Proof.
  intros pts len i j HL ND Hl Hi Hj Hij. assert (N := d2_nonneg (pt pts i) (pt pts j)).
  destruct (Req_dec (dist_L2sq (pt pts i) (pt pts j)) 0) as [E|E]; [|lra]. exfalso. apply d2_zero in E.
  - apply Hij. apply (proj1 (NoDup_nth pts []) ND); [lia|lia|exact E].
  - symmetry. apply HL. apply nth_In. lia.
Qed.
Print Assumptions distance_separates_points.
(* clouds with coincident points can return an index twice *)
Theorem farthest_points_distinct_refuted : ~ (forall D P c sel, cloud_ok P c ->
  sample_farthest_points D P [c] = Ok [(map Z.of_nat sel, map (fun i => nth i (fi_pts c) (repeat 0 D)) sel)] -> NoDup sel).
Proof.
  intros H. set (c := FI [[0]; [0]] 2 2 0).
  assert (C : cloud_ok 2 c) by (repeat split; cbn; lia).
  destruct (sample_fps_ok 1 2 [c] ltac:(discriminate) ltac:(intros x [<-|[]]; exact C)) as [sels [E F]].
  inversion F as [|? sel ? ss [G1 G2] F' E1 E2]; subst. inversion F'; subst. cbn [combine map] in E. cbv zeta in E. cbn [fst snd] in E.
  assert (L := fps_len _ _ _ _ _ G1). cbn in L. unfold padded_row in E. rewrite L in E. cbn [map fi_K max_nat fold_right Nat.max Nat.sub c repeat] in E. rewrite !app_nil_r in E.
  assert (N := H 1%nat 2%nat c sel C E). assert (S0 := fps_start _ _ _ _ _ G1). cbn in S0. assert (RG := fps_range _ _ _ _ _ G1).
  destruct sel as [|a [|b [|]]]; try discriminate. cbn in S0. subst a.
  assert (b = 1%nat). { assert (b < 2)%nat by (apply RG; right; left; reflexivity). inversion N as [|? ? N1 _]; subst. destruct b as [|[|]]; [exfalso; apply N1; left; reflexivity|reflexivity|lia]. }
  subst b. destruct (G2 1%nat 0%nat ltac:(cbn; lia) ltac:(cbn; lia)) as [s [[<-|[]] S1]]. specialize (S1 0%nat (or_introl eq_refl)).
  unfold cdist, pt in S1. cbn in S1. lra.
Qed.
Print Assumptions farthest_points_distinct_refuted.
(* asking for zero points of one cloud of a batch still returns its start point *)
Theorem farthest_points_zero_K_refuted : ~ (forall max_K pts len K start mask dists row mask' dists', (start < len <= length pts)%nat ->
  fps_cloud max_K pts len K start mask dists = Ok (row, mask', dists') -> forall k, (Nat.min len K <= k)%nat -> (k < max_K)%nat -> nth k row 0%Z = (-1)%Z).
Proof.
  intros H. specialize (H 1%nat [[0]] 1%nat 0%nat 0%nat [] []).
  specialize (H _ _ _ ltac:(cbn; lia) eq_refl 0%nat ltac:(cbn; lia) ltac:(lia)). discriminate.
Qed.
Print Assumptions farthest_points_zero_K_refuted.
(* an empty cloud in the batch makes the CPU kernel write outside of its mask *)
Theorem farthest_points_empty_cloud_fails : forall max_K pts K start mask dists, (0 < max_K)%nat ->
  fps_cloud max_K pts 0 K start mask dists = Fail EOutOfBounds.
Proof. intros max_K pts K start mask dists H. unfold fps_cloud, resize. destruct max_K as [|m]; [lia|]. cbn. destruct (length mask); reflexivity. Qed.
Print Assumptions farthest_points_empty_cloud_fails.
Theorem farthest_points_naive_greedy : forall argmax pts len max_K K start, argmax_ok argmax -> (start < len <= length pts)%nat -> (0 < K <= max_K)%nat ->
  exists sel, fps_naive argmax max_K pts len K start = Ok (padded_row max_K sel) /\
    is_fps (fun i j => dist_L2sq (pt pts i) (pt pts j)) len K start sel.
Proof. intros argmax pts len max_K K start HA Hs HK. apply (fps_naive_ok pts len); try assumption; lia. Qed.
Print Assumptions farthest_points_naive_greedy.
Example argmax_ok_ex : argmax_ok max_element.
Proof. intros l Hn. destruct (max_element_ok l Hn) as [H1 [H2 _]]. split; assumption. Qed.
(* the CUDA kernel, for any block size and any order of the block reduction *)
Theorem farthest_points_cuda_greedy : forall B order pts len max_K K start, (start < len <= length pts)%nat -> (0 < B)%nat ->
  (forall k t, (t < B)%nat -> In t (order k)) -> (0 < K <= max_K)%nat ->
  (forall i j, (i < len)%nat -> (j < len)%nat -> dist_L2sq (pt pts i) (pt pts j) <= 10000000000) ->
  exists sel, fps_cuda B order max_K pts len K start = Ok (padded_row max_K sel) /\
    is_fps (fun i j => dist_L2sq (pt pts i) (pt pts j)) len K start sel /\ fps_first (fun i j => dist_L2sq (pt pts i) (pt pts j)) sel.
Proof. intros. apply fps_cuda_ok; try assumption; lia. Qed.
Print Assumptions farthest_points_cuda_greedy.
(* beyond a squared distance of 1e10 the CUDA kernel does not find the farthest point *)
Theorem farthest_points_cuda_far_refuted : ~ (forall B order pts len max_K K start sel, (start < len <= length pts)%nat -> (0 < B)%nat ->
  (forall k t, (t < B)%nat -> In t (order k)) -> (0 < K <= max_K)%nat ->
  fps_cuda B order max_K pts len K start = Ok (padded_row max_K sel) -> length sel = Nat.min len K ->
    is_fps (fun i j => dist_L2sq (pt pts i) (pt pts j)) len K start sel).
Proof.
  intros H. set (pts := [[0]; [200000]; [300000]]). set (order := fun _ : nat => [0%nat]).
  assert (Ho : forall k t, (t < 1)%nat -> In t (order k)) by (intros k t Ht; left; lia).
  set (dl := [Rmin (dist_L2sq [0] [0]) 10000000000; Rmin (dist_L2sq [0] [200000]) 10000000000; Rmin (dist_L2sq [0] [300000]) 10000000000]).
  assert (E0 : Rmin (dist_L2sq [0] [0]) 10000000000 = 0) by (rewrite Rmin_left; cbn [dist_L2sq]; lra).
  assert (E1 : Rmin (dist_L2sq [0] [200000]) 10000000000 = 10000000000) by (rewrite Rmin_right; cbn [dist_L2sq]; lra).
  assert (E2 : Rmin (dist_L2sq [0] [300000]) 10000000000 = 10000000000) by (rewrite Rmin_right; cbn [dist_L2sq]; lra).
  assert (Q : block_argmax dl 1 [0%nat] = 1%nat).
  { destruct (block_argmax_ok dl 1 ltac:(lia)) with (order := [0%nat]) as [Q1 [Q2 Q3]].
    - intros p Hp. unfold dl. rewrite E0, E1, E2. destruct p as [|[|[|p]]]; cbn [nth]; try lra; cbn in Hp; lia.
    - intros t Ht. left. lia.
    - discriminate.
    - set (q := block_argmax dl 1 [0%nat]) in *. unfold dl in Q1, Q2, Q3. rewrite E0, E1, E2 in Q2, Q3.
      destruct q as [|[|[|q]]]; [specialize (Q2 1%nat ltac:(cbn; lia)); cbn [nth] in Q2; lra|reflexivity|specialize (Q3 1%nat ltac:(lia)); cbn [nth] in Q3; lra|cbn in Q1; lia]. }
  assert (E : fps_cuda 1 order 2 pts 3 2 0 = Ok (padded_row 2 [0%nat; 1%nat])).
  { unfold fps_cuda. cbn [upd repeat rbind Nat.min Nat.sub seq rfold]. unfold fps_cuda_iter. cbn [rget nth_error pts rbind rmap seq repeat]. rewrite !sqdist_spec. cbn [rbind].
    fold dl. unfold order. rewrite Q. reflexivity. }
  assert (G := H 1%nat order pts 3%nat 2%nat 2%nat 0%nat [0%nat; 1%nat] ltac:(cbn; lia) ltac:(lia) Ho ltac:(lia) E eq_refl).
  destruct (fps_far _ _ _ _ _ G 1%nat 2%nat ltac:(cbn; lia) ltac:(lia)) as [s [[<-|[]] S1]]. specialize (S1 0%nat (or_introl eq_refl)). cbn in S1. lra.
Qed.
Print Assumptions farthest_points_cuda_far_refuted.

(* ---- C56: chunked grid-stride kernels visit every valid (cloud, point) exactly once *)
Theorem grid_stride_visits_once : forall N P gridDim blockDim length1, (0 < gridDim)%nat -> (0 < blockDim)%nat ->
  (forall n, (n < N)%nat -> (length1 n <= P)%nat) ->
  NoDup (kernel_items N P gridDim blockDim length1) /\
  forall n i, In (n, i) (kernel_items N P gridDim blockDim length1) <-> (n < N)%nat /\ (i < length1 n)%nat.
Proof. exact kernel_items_perm. Qed.
Print Assumptions grid_stride_visits_once.
Example grid_stride_ex : kernel_items 2 3 1 2 (fun n => if (n =? 0)%nat then 3 else 1)%nat = [(0, 0); (0, 2); (1, 0); (0, 1)]%nat.
Proof. reflexivity. Qed.

(* ---- C57: masked_gather, wmean, local covariances *)
Theorem masked_gather_pads_with_zero : forall (pts : list (list R)) D K sel, (forall i, In i sel -> (i < length pts)%nat) -> pts <> [] ->
  masked_gather (repeat 0 D) pts (padded_row K sel) = Ok (map (fun i => nth i pts (repeat 0 D)) sel ++ repeat (repeat 0 D) (K - length sel)).
Proof. intros. apply masked_gather_padded; assumption. Qed.
Print Assumptions masked_gather_pads_with_zero.
(* on an empty cloud the gather fails even if every index is padding *)
Theorem masked_gather_empty_refuted : ~ (forall (pts : list (list R)) idx, (forall i, In i idx -> i = (-1)%Z) ->
  exists r, masked_gather [] pts idx = Ok r).
Proof. intros H. destruct (H [] [-1]%Z) as [r E]; [intros i [<-|[]]; reflexivity|]. discriminate. Qed.
Print Assumptions masked_gather_empty_refuted.
Theorem wmean_is_mean : forall eps x w lo hi, 0 < eps -> (forall v, In v w -> 0 <= v) -> eps <= rsum w -> length w = length x ->
  (forall v, In v x -> lo <= v <= hi) -> exists m, wmean eps x (Some w) = Ok m /\ m * rsum w = rsum (map (fun p => fst p * snd p) (combine x w)) /\ lo <= m <= hi.
Proof. exact wmean_range. Qed.
Print Assumptions wmean_is_mean.
Theorem point_covariance_symmetric_psd : forall nn D (x : nat -> R), nn <> [] ->
  (forall a b, point_cov nn a b = point_cov nn b a) /\ 0 <= sumf D (fun a => sumf D (fun b => x a * point_cov nn a b * x b)).
Proof.
  intros nn D x Hn. split.
  - intros a b. unfold point_cov. f_equal. apply rsum_map_ext. intros q _. ring.
  - rewrite cov_quad. assert (0 < INR (length nn)) by (apply lt_0_INR; destruct nn; [contradiction|cbn; lia]).
    apply Rmult_le_pos; [|left; apply Rinv_0_lt_compat; assumption]. apply rsum_nonneg, Forall_forall. intros v Hv. apply in_map_iff in Hv as [q [<- _]]. apply pow2_ge_0.
Qed.
Print Assumptions point_covariance_symmetric_psd.
