From Verif Require Import Base RBase KnnSpec Sampling SamplingSpec SamplingProofs SamplingProofs2.
Local Open Scope R_scope.

Lemma fps_batch_ok P clouds : (forall c, In c clouds -> cloud_ok P c) ->
  exists sels, fps_batch P clouds = Ok (map (padded_row (max_nat (map fi_K clouds))) sels) /\
    Forall2 (fun c sel => is_fps (cdist c) (fi_len c) (fi_K c) (fi_start c) sel /\ fps_first (cdist c) sel) clouds sels.
Proof.
  intros H. unfold fps_batch. cbv zeta. set (mk := max_nat (map fi_K clouds)).
  assert (HK : forall c, In c clouds -> (fi_K c <= mk)%nat) by (intros c Hc; apply max_nat_ge, in_map, Hc).
  assert (G : forall cs rows mask dists, (forall c, In c cs -> cloud_ok P c /\ (fi_K c <= mk)%nat) ->
    exists sels mask' dists', rfold (fun (st : list (list Z) * list bool * list (option R)) c => let '(rows, mask, dists) := st in
               o <- fps_cloud mk (fi_pts c) (fi_len c) (fi_K c) (fi_start c) mask dists ;;
               let '(row, mask, dists) := o in Ok (rows ++ [row], mask, dists)) cs (rows, mask, dists)
      = Ok (rows ++ map (padded_row mk) sels, mask', dists') /\
    Forall2 (fun c sel => is_fps (cdist c) (fi_len c) (fi_K c) (fi_start c) sel /\ fps_first (cdist c) sel) cs sels).
  { induction cs as [|c cs IH]; intros rows mask dists Hc.
    - exists [], mask, dists. cbn. rewrite app_nil_r. split; [reflexivity|constructor].
    - destruct (Hc c (or_introl eq_refl)) as [[C1 [C2 [C3 C4]]] C5].
      destruct (fps_cloud_ok (fi_pts c) (fi_len c) ltac:(lia) mk (fi_K c) (fi_start c) mask dists C3 ltac:(lia)) as [sel [m' [d' [E [I1 I2]]]]].
      cbn [rfold]. rewrite E. cbn [rbind].
      destruct (IH (rows ++ [padded_row mk sel]) m' d') as [sels [m2 [d2 [E2 F]]]]; [intros; apply Hc; right; assumption|].
      exists (sel :: sels), m2, d2. rewrite E2. split; [cbn [map]; rewrite <- app_assoc; reflexivity|]. constructor; [|exact F].
      split; [exact I1|exact I2]. }
  destruct (G clouds [] (repeat false P) (repeat None P)) as [sels [m' [d' [E F]]]]; [intros c Hc; split; [apply H|apply HK]; exact Hc|].
  exists sels. rewrite E. cbn [rbind fst app]. split; [reflexivity|exact F].
Qed.
Lemma sample_fps_ok D P clouds : clouds <> [] -> (forall c, In c clouds -> cloud_ok P c) ->
  exists sels, sample_farthest_points D P clouds =
    Ok (map (fun cs => let mk := max_nat (map fi_K clouds) in let sel := snd cs in
              (padded_row mk sel, map (fun i => nth i (fi_pts (fst cs)) (repeat 0 D)) sel ++ repeat (repeat 0 D) (mk - length sel))) (combine clouds sels)) /\
    Forall2 (fun c sel => is_fps (cdist c) (fi_len c) (fi_K c) (fi_start c) sel /\ fps_first (cdist c) sel) clouds sels.
Proof.
  intros Hn H. destruct (fps_batch_ok P clouds H) as [sels [E F]]. exists sels. split; [|exact F].
  unfold sample_farthest_points. destruct clouds as [|c0 cs] eqn:Ec; [contradiction|]. rewrite <- Ec in *.
  assert (X : existsb (fun c => P <? fi_len c)%nat clouds = false).
  { apply Bool.not_true_iff_false. rewrite existsb_exists. intros [c [Hc L]]. apply Nat.ltb_lt in L. destruct (H c Hc) as [_ [L2 _]]. lia. }
  rewrite X, E. cbn [rbind]. set (mk := max_nat (map fi_K clouds)). clearbody mk. clear E X Ec c0 cs Hn.
  induction F as [|c sel cs ss [F1 F2] F IH]; [reflexivity|]. cbn [map combine rmap fst snd].
  destruct (H c (or_introl eq_refl)) as [C1 [C2 [C3 C4]]].
  rewrite masked_gather_padded.
  - cbn [rbind]. rewrite IH; [reflexivity|]. intros; apply H; right; assumption.
  - intros i Hi. apply (fps_range _ _ _ _ _ F1) in Hi. lia.
  - intros E. rewrite E in C1. cbn in C1. lia.
Qed.

(* ---- the CUDA block reduction *)
Section Block.
  Variables (dists : list R) (B : nat).
  Hypothesis HB : (0 < B)%nat.
  Hypothesis Hd : forall p, (p < length dists)%nat -> 0 <= nth p dists 0.
  Let v p := nth p dists 0.
  Let mine (t : nat) (p : nat) := (p mod B =? t)%nat.
  Lemma thread_loop t n : (n <= length dists)%nat ->
    let ps := filter (mine t) (seq 0 n) in
    let r := fold_left (fun m p => if Rltb (snd m) (nth p dists 0) then (p, nth p dists 0) else m) ps (0%nat, -1) in
    (ps = [] /\ r = (0%nat, -1)) \/
    (In (fst r) ps /\ snd r = v (fst r) /\ (forall p, In p ps -> v p <= snd r) /\ (forall p, In p ps -> v p = snd r -> (fst r <= p)%nat)).
  Proof.
    induction n as [|n IH]; intros Hn; [left; split; reflexivity|]. specialize (IH ltac:(lia)). cbv zeta in *.
    rewrite seq_S, filter_app. cbn [filter Nat.add]. destruct (mine t n); [|rewrite app_nil_r; exact IH].
    rewrite fold_left_app. cbn [fold_left]. set (ps := filter (mine t) (seq 0 n)) in *. set (r := fold_left _ ps _) in *.
    assert (Hlt : forall p, In p ps -> (p < n)%nat) by (intros p Hp; apply filter_In in Hp as [Hp _]; apply in_seq in Hp; lia).
    assert (Vn := Hd n ltac:(lia)). right. destruct (Rltb_spec (snd r) (nth n dists 0)) as [L|L].
    - cbn [fst snd]. split; [apply in_or_app; right; left; reflexivity|]. split; [reflexivity|]. destruct IH as [[E ->]|[I1 [I2 [I3 I4]]]].
      + rewrite E. cbn [app]. split; intros p [<-|[]]; intros; [unfold v; lra|lia].
      + split; intros p Hp; apply in_app_or in Hp as [Hp|[<-|[]]]; intros.
        * specialize (I3 p Hp). lra.
        * unfold v. lra.
        * specialize (I3 p Hp). lra.
        * lia.
    - destruct IH as [[E Er]|[I1 [I2 [I3 I4]]]]; [rewrite Er in L; cbn in L; lra|]. split; [apply in_or_app; left; exact I1|]. split; [exact I2|].
      split; intros p Hp; apply in_app_or in Hp as [Hp|[<-|[]]]; intros; [apply I3, Hp|unfold v; lra|apply I4; assumption|]. specialize (Hlt _ I1). lia.
  Qed.
  (* cub::ArgMax picks a maximum of a total order *)
  Definition ge (a b : nat * R) : Prop := snd b < snd a \/ (snd b = snd a /\ (fst a <= fst b)%nat).
  Lemma ge_trans a b c : ge a b -> ge b c -> ge a c.
  Proof. unfold ge. intros [H1|[H1 H1']] [H2|[H2 H2']]; [left; lra|left; lra|left; lra|right; split; [lra|lia]]. Qed.
  Lemma arg_max_ge a b : ge (arg_max a b) a /\ ge (arg_max a b) b /\ (arg_max a b = a \/ arg_max a b = b).
  Proof.
    unfold arg_max, ge. destruct (Rltb_spec (snd a) (snd b)) as [L|L]; cbn [orb]; [repeat split; [left; lra|right; split; [reflexivity|lia]|right; reflexivity]|].
    destruct (Reqb_spec (snd a) (snd b)) as [E|E]; cbn [andb].
    - destruct (Nat.ltb_spec (fst b) (fst a)); repeat split; try (right; split; [lra|lia]); [right; reflexivity|left; reflexivity].
    - repeat split; [right; split; [reflexivity|lia]|left; lra|left; reflexivity].
  Qed.
  Lemma fold_argmax l : forall m, let r := fold_left arg_max l m in ge r m /\ (forall x, In x l -> ge r x) /\ (r = m \/ In r l).
  Proof.
    induction l as [|a l IH]; intros m; cbn [fold_left]; cbv zeta.
    - split; [right; split; [reflexivity|lia]|]. split; [intros x []|left; reflexivity].
    - destruct (IH (arg_max m a)) as [H1 [H2 H3]]. destruct (arg_max_ge m a) as [A1 [A2 A3]]. set (r := fold_left arg_max l _) in *. split; [|split].
      + apply (ge_trans _ _ _ H1 A1).
      + intros x [<-|Hx]; [apply (ge_trans _ _ _ H1 A2)|apply H2, Hx].
      + destruct H3 as [->|H3]; [|right; right; exact H3]. destruct A3 as [->| ->]; [left; reflexivity|right; left; reflexivity].
  Qed.
  Lemma block_argmax_ok order : (forall t, (t < B)%nat -> In t order) -> dists <> [] ->
    let q := block_argmax dists B order in (q < length dists)%nat /\ (forall p, (p < length dists)%nat -> v p <= v q) /\ (forall p, (p < q)%nat -> v p < v q).
  Proof.
    intros Ho Hn q. assert (L0 : (0 < length dists)%nat) by (destruct dists; [contradiction|cbn; lia]).
    assert (R : exists r, q = fst r /\ (forall t, In t order -> ge r (thread_max dists B t)) /\ exists t, r = thread_max dists B t).
    { unfold q, block_argmax. destruct order as [|t0 ts]; [destruct (Ho 0%nat HB)|]. cbn [map].
      destruct (fold_argmax (map (thread_max dists B) ts) (thread_max dists B t0)) as [H1 [H2 H3]]. eexists. split; [reflexivity|]. split.
      - intros t [<-|Ht]; [exact H1|apply H2, in_map, Ht].
      - destruct H3 as [->|H3]; [exists t0; reflexivity|]. apply in_map_iff in H3 as [t [<- _]]. exists t. reflexivity. }
    destruct R as [r [Eq [R1 [tr R2]]]].
    assert (T : forall p, (p < length dists)%nat -> exists x, ge r x /\ v p <= snd x /\ (v p = snd x -> (fst x <= p)%nat)).
    { intros p Hp. assert (M := Nat.mod_upper_bound p B ltac:(lia)). exists (thread_max dists B (p mod B)). split; [apply R1, Ho, M|].
      assert (Ip : In p (filter (mine (p mod B)) (seq 0 (length dists)))) by (apply filter_In; split; [apply in_seq; lia|apply Nat.eqb_refl]).
      destruct (thread_loop (p mod B) (length dists) (Nat.le_refl _)) as [[E _]|[I1 [I2 [I3 I4]]]]; [rewrite E in Ip; contradiction|].
      split; [apply I3, Ip|apply I4, Ip]. }
    assert (S0 : 0 <= snd r). { destruct (T 0%nat L0) as [x [G [G1 _]]]. assert (N := Hd 0%nat L0). unfold ge, v in *. destruct G as [G|[G _]]; lra. }
    assert (RR : (q < length dists)%nat /\ snd r = v q).
    { rewrite Eq. clear T. subst r. destruct (thread_loop tr (length dists) (Nat.le_refl _)) as [[_ E]|[I1 [I2 _]]].
      - exfalso. change (thread_max dists B tr = (0%nat, -1)) in E. rewrite E in S0. cbn in S0. lra.
      - split; [|exact I2]. apply filter_In in I1 as [I1 _]. apply in_seq in I1. exact (proj2 I1). }
    destruct RR as [Q1 Q2]. split; [exact Q1|]. split.
    - intros p Hp. destruct (T p Hp) as [x [G [G1 _]]]. rewrite <- Q2. destruct G as [G|[G _]]; lra.
    - intros p Hp. destruct (T p ltac:(lia)) as [x [G [G1 G2]]]. rewrite <- Q2. destruct G as [G|[G G']]; [lra|].
      destruct (Rlt_dec (v p) (snd r)) as [|NL]; [assumption|]. assert (v p = snd x) by lra. specialize (G2 H). rewrite <- Eq in G'. lia.
  Qed.
End Block.

Lemma fps_cuda_ok B order pts len max_K K start : (len <= length pts)%nat -> (0 < B)%nat ->
  (forall k t, (t < B)%nat -> In t (order k)) -> (start < len)%nat -> (0 < K <= max_K)%nat ->
  (forall i j, (i < len)%nat -> (j < len)%nat -> dist_L2sq (pt pts i) (pt pts j) <= 10000000000) ->
  exists sel, fps_cuda B order max_K pts len K start = Ok (padded_row max_K sel) /\
    is_fps (fun i j => dist_L2sq (pt pts i) (pt pts j)) len K start sel /\ fps_first (fun i j => dist_L2sq (pt pts i) (pt pts j)) sel.
Proof.
  intros Hlen HB Ho Hs HK Hbig. unfold fps_cuda. rewrite (row_start pts len Hlen) by lia. cbn [rbind].
  set (cm := fun (sel : list nat) (p : nat) => match mind pts sel p with None => 10000000000 | Some m => m end).
  destruct (rfold_seq_inv (fps_cuda_iter B order pts len)
      (fun k s => exists sel0, let sel := sel0 ++ [snd (fst s)] in length sel = k /\ fst (fst s) = padded_row max_K sel /\
         snd s = map (cm sel0) (seq 0 len) /\ (forall q, In q sel -> (q < len)%nat) /\ nth 0 sel 0%nat = start /\ greedy pts len sel /\
         fps_first (fun i j => dist_L2sq (pt pts i) (pt pts j)) sel)
      (Nat.min K len - 1) 1 (padded_row max_K [start], start, repeat 10000000000 len)) as [s [E [sel0 [I1 [I2 [I3 [I4 [I5 [I6 I7]]]]]]]]].
  - exists []. cbn [fst snd app]. repeat split; try reflexivity; [|intros q [<-|[]]; exact Hs|apply (greedy_single pts len Hlen)|apply (first_single pts len Hlen)].
    apply (nth_ext _ _ 10000000000 10000000000); rewrite ?map_length, ?seq_length, repeat_length; [reflexivity|]. intros i Hi.
    rewrite nth_map_seq' by exact Hi. rewrite nth_repeat. reflexivity.
  - intros k [[row last] closest] Hk [sel0 [I1 [I2 [I3 [I4 [I5 [I6 I7]]]]]]]. cbn [fst snd] in *. set (sel := sel0 ++ [last]) in *.
    assert (Hl : (last < len)%nat) by (apply I4; unfold sel; apply in_or_app; right; left; reflexivity).
    assert (N : sel <> []) by (unfold sel; destruct sel0; discriminate).
    unfold fps_cuda_iter. rewrite (rget_nth pts last []) by lia. cbn [rbind].
    rewrite (rmap_ok _ (cm sel)).
    2:{ intros p Hp. apply in_seq in Hp. rewrite (rget_nth pts p []) by lia. cbn [rbind]. rewrite I3. rewrite (rget_nth _ p 0) by (rewrite map_length, seq_length; lia).
        cbn [rbind]. rewrite nth_map_seq' by lia. rewrite sqdist_spec. unfold sel, cm. rewrite mind_snoc. f_equal. fold (pt pts last). fold (pt pts p).
        destruct (mind pts sel0 p); cbn [mstep]; [reflexivity|]. apply Rmin_left. apply Hbig; lia. }
    cbn [rbind]. set (q := block_argmax (map (cm sel) (seq 0 len)) B (order k)).
    assert (LL : length (map (cm sel) (seq 0 len)) = len) by (rewrite map_length, seq_length; reflexivity).
    assert (CM : forall p, exists m, mind pts sel p = Some m /\ cm sel p = m /\ 0 <= m).
    { intros p. destruct (mind_some pts sel p N) as [m [Em [[s [_ D]] _]]]. exists m. unfold cm. rewrite Em. repeat split. rewrite <- D. apply d2_nonneg. }
    destruct (block_argmax_ok (map (cm sel) (seq 0 len)) B HB) with (order := order k) as [Q1 [Q2 Q3]].
    { intros p Hp. rewrite LL in Hp. rewrite nth_map_seq' by exact Hp. destruct (CM p) as [m [_ [-> Hm]]]. exact Hm. }
    { apply Ho. }
    { intros E. rewrite E in LL. cbn in LL. lia. }
    fold q in Q1, Q2, Q3. rewrite LL in Q1, Q2. rewrite I2. rewrite <- I1. rewrite (row_upd pts len Hlen) by lia. cbn [rbind].
    eexists. split; [reflexivity|]. exists sel. cbn [fst snd]. split; [rewrite app_length; cbn; lia|]. split; [reflexivity|]. split; [reflexivity|]. split; [|split; [|split]].
    + intros x Hx. apply in_app_or in Hx as [Hx|[<-|[]]]; [apply I4, Hx|exact Q1].
    + rewrite app_nth1; [exact I5|]. destruct sel; [contradiction|cbn; lia].
    + apply (greedy_snoc pts len Hlen); try assumption. intros p m mq Hp E1 E2. specialize (Q2 p Hp). rewrite !nth_map_seq' in Q2 by lia. unfold cm in Q2. rewrite E1, E2 in Q2. exact Q2.
    + apply (first_snoc pts len Hlen); try assumption. intros p m mq Hp E1 E2. specialize (Q3 p Hp). rewrite !nth_map_seq' in Q3 by lia. unfold cm in Q3. rewrite E1, E2 in Q3. exact Q3.
  - rewrite E. cbn [rbind]. cbv zeta in *. exists (sel0 ++ [snd (fst s)]). rewrite I2. split; [reflexivity|]. split; [|exact I7]. constructor; try assumption. rewrite I1. lia.
Qed.

(* ---- helpers of ops/utils.py *)
Lemma rsum_sumf2 {A} D (F : A -> nat -> nat -> R) nn :
  rsum (map (fun q => sumf D (fun a => sumf D (fun b => F q a b))) nn) = sumf D (fun a => sumf D (fun b => rsum (map (fun q => F q a b) nn))).
Proof.
  induction nn as [|q nn IH]; cbn [map].
  - rewrite rsum_nil. symmetry. apply sumf_zero. intros; apply sumf_zero. intros; apply rsum_nil.
  - rewrite rsum_cons, IH. rewrite <- sumf_plus. apply sumf_ext. intros a _. rewrite <- sumf_plus. apply sumf_ext. intros b _. symmetry. apply rsum_cons.
Qed.
Lemma cov_quad nn D (x : nat -> R) : sumf D (fun a => sumf D (fun b => x a * point_cov nn a b * x b)) =
  rsum (map (fun q => (sumf D (fun a => x a * (q a - nn_mean nn a))) ^ 2) nn) / INR (length nn).
Proof.
  set (c := fun q a => q a - nn_mean nn a : R).
  assert (S1 : forall q, (sumf D (fun a => x a * c q a)) ^ 2 = sumf D (fun a => sumf D (fun b => x a * c q a * (c q b * x b)))).
  { intros q. cbn [pow]. rewrite Rmult_1_r.
    replace (sumf D (fun a => x a * c q a) * sumf D (fun a => x a * c q a)) with (sumf D (fun a => sumf D (fun b => x b * c q b) * (x a * c q a))) by (rewrite sumf_scal; reflexivity).
    apply sumf_ext. intros a _. rewrite Rmult_comm, <- sumf_scal. apply sumf_ext. intros b _. ring. }
  unfold Rdiv. rewrite Rmult_comm.
  replace (rsum (map (fun q => sumf D (fun a => x a * (q a - nn_mean nn a)) ^ 2) nn)) with (sumf D (fun a => sumf D (fun b => rsum (map (fun q => x a * c q a * (c q b * x b)) nn)))).
  - rewrite <- sumf_scal. apply sumf_ext. intros a _. rewrite <- sumf_scal. apply sumf_ext. intros b _. unfold point_cov.
    replace (rsum (map (fun q => x a * c q a * (c q b * x b)) nn)) with ((x a * x b) * rsum (map (fun q => (q a - nn_mean nn a) * (q b - nn_mean nn b)) nn)); [unfold Rdiv; ring|].
    rewrite <- rsum_map_scal. apply rsum_map_ext. intros q _. unfold c. ring.
  - rewrite (rsum_map_ext (fun q => sumf D (fun a => x a * (q a - nn_mean nn a)) ^ 2) (fun q => sumf D (fun a => sumf D (fun b => x a * c q a * (c q b * x b))))) by (intros q _; apply S1).
    symmetry. apply (rsum_sumf2 D (fun q a b => x a * c q a * (c q b * x b))).
Qed.
Lemma wmean_range eps x w lo hi : 0 < eps -> (forall v, In v w -> 0 <= v) -> eps <= rsum w -> length w = length x ->
  (forall v, In v x -> lo <= v <= hi) -> exists m, wmean eps x (Some w) = Ok m /\ m * rsum w = rsum (map (fun p => fst p * snd p) (combine x w)) /\ lo <= m <= hi.
Proof.
  intros He Hw Hs HL Hx. unfold wmean. rewrite HL, Nat.eqb_refl. eexists. split; [reflexivity|]. rewrite Rmax_left by lra.
  set (S := rsum w) in *. set (T := rsum (map _ _)).
  assert (B : lo * S <= T <= hi * S).
  { unfold S, T. clear He Hs S T. revert w HL Hw. induction x as [|a x IH]; intros [|b w] HL Hw; cbn in HL; try lia.
    - cbn [combine map]. rewrite rsum_nil. lra.
    - cbn [combine map fst snd]. rewrite !rsum_cons. assert (0 <= b) by (apply Hw; left; reflexivity). assert (lo <= a <= hi) by (apply Hx; left; reflexivity).
      destruct (IH (fun v H => Hx v (or_intror H)) w ltac:(lia) (fun v H => Hw v (or_intror H))). nra. }
  split; [field; lra|]. split; [apply (Rmult_le_reg_r S)|apply (Rmult_le_reg_r S)]; try lra; unfold Rdiv; rewrite Rmult_assoc, Rinv_l by lra; lra.
Qed.
