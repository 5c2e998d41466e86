From Coq Require Import Reals Bool Lia Lra Permutation.
From Verif Require Import Base RBase Knn KnnSpec KnnProofs Chamfer ChamferSpec.
Local Open Scope R_scope.

(* ---- smallest and largest elements ---- *)
Lemma fold_min_spec l : forall a, (In (fold_left Rmin l a) (a :: l)) /\ (forall x, In x (a :: l) -> fold_left Rmin l a <= x).
Proof.
  induction l as [|b l IH]; intros a; cbn [fold_left]; [split; [left; reflexivity|intros x [->|[]]; lra]|]. destruct (IH (Rmin a b)) as (H1 & H2). split.
  - destruct H1 as [H1|H1]; [|right; right; exact H1]. rewrite <- H1. unfold Rmin. destruct (Rle_dec a b); [left|right; left]; reflexivity.
  - intros x [->|[->|H]].
    + eapply Rle_trans; [apply H2; left; reflexivity|apply Rmin_l].
    + eapply Rle_trans; [apply H2; left; reflexivity|apply Rmin_r].
    + apply H2. right. exact H.
Qed.
Lemma fold_max_spec l : forall a, (In (fold_left Rmax l a) (a :: l)) /\ (forall x, In x (a :: l) -> x <= fold_left Rmax l a).
Proof.
  induction l as [|b l IH]; intros a; cbn [fold_left]; [split; [left; reflexivity|intros x [->|[]]; lra]|]. destruct (IH (Rmax a b)) as (H1 & H2). split.
  - destruct H1 as [H1|H1]; [|right; right; exact H1]. rewrite <- H1. unfold Rmax. destruct (Rle_dec a b); [right; left|left]; reflexivity.
  - intros x [->|[->|H]].
    + eapply Rle_trans; [apply Rmax_l|apply H2; left; reflexivity].
    + eapply Rle_trans; [apply Rmax_r|apply H2; left; reflexivity].
    + apply H2. right. exact H.
Qed.
Lemma max_unique l a m : In m (a :: l) -> (forall x, In x (a :: l) -> x <= m) -> fold_left Rmax l a = m.
Proof. intros H1 H2. destruct (fold_max_spec l a) as (H3 & H4). apply Rle_antisym; [apply H2; exact H3|apply H4; exact H1]. Qed.
Lemma nearest_spec norm c p : c <> [] -> (exists q, In q c /\ nearest norm c p = distance norm p q) /\ (forall q, In q c -> nearest norm c p <= distance norm p q).
Proof.
  intros H. unfold nearest. destruct c as [|q0 c]; [congruence|]. cbn [map]. destruct (fold_min_spec (map (distance norm p) c) (distance norm p q0)) as (H1 & H2). split.
  - change (In (fold_left Rmin (map (distance norm p) c) (distance norm p q0)) (map (distance norm p) (q0 :: c))) in H1. apply in_map_iff in H1. destruct H1 as (q & E & I). exists q. split; [exact I|symmetry; exact E].
  - intros q Hq. apply H2. change (In (distance norm p q) (map (distance norm p) (q0 :: c))). apply in_map. exact Hq.
Qed.
Lemma nearest_is norm c p d : c <> [] -> (exists q, In q c /\ d = distance norm p q) -> (forall q, In q c -> d <= distance norm p q) -> nearest norm c p = d.
Proof.
  intros H (q & I & ->) HM. destruct (nearest_spec norm c p H) as ((q' & I' & E') & HL). apply Rle_antisym; [apply HL; exact I|rewrite E'; apply HM; exact I'].
Qed.
Lemma dist_nonneg norm p q : 0 <= distance norm p q.
Proof.
  unfold distance. destruct (norm =? 1)%nat; revert q; induction p as [|x p IH]; intros [|y q]; cbn; try lra; specialize (IH q).
  - pose proof (Rabs_pos (x - y)). lra.
  - pose proof (pow2_ge_0 (x - y)). cbn in *. lra.
Qed.
Lemma nearest_nonneg norm c p : 0 <= nearest norm c p.
Proof. destruct c as [|q c]; [unfold nearest; cbn; lra|]. destruct (nearest_spec norm (q :: c) p) as ((q' & _ & ->) & _); [discriminate|]. apply dist_nonneg. Qed.

(* ---- one cloud ---- *)
Lemma dist_eq norm p q : the_dist norm p q = distance norm p q.
Proof. unfold the_dist, distance. destruct (norm =? 1)%nat; reflexivity. Qed.
Lemma sort_unused sort norm rs m p1 p2 l1 l2 : knn_points sort norm 1 rs m p1 p2 l1 l2 = knn_points argsort norm 1 rs m p1 p2 l1 l2.
Proof. unfold knn_points. destruct (negb _); [reflexivity|]. destruct (knn_cloud _ _ _ _ _ _); [|reflexivity]. reflexivity. Qed.
Lemma min_in l : l <> [] -> In (min_of l) l.
Proof.
  destruct l as [|a l]; [congruence|]. intros _. unfold min_of. revert a. induction l as [|b l IH]; intros a; cbn [fold_left]; [left; reflexivity|]. destruct (IH (Nat.min a b)) as [E|I]; [|right; right; exact I]. rewrite <- E. destruct (Nat.min_spec a b) as [(_ & ->)|(_ & ->)]; [left|right; left]; reflexivity.
Qed.
Lemma min_le l x : In x l -> (min_of l <= x)%nat.
Proof.
  assert (B : forall l a, (fold_left Nat.min l a <= a)%nat) by (clear; induction l as [|b l IH]; intros a; cbn [fold_left]; [lia|]; specialize (IH (Nat.min a b)); lia).
  destruct l as [|a l]; [intros []|]. unfold min_of. revert a. induction l as [|b l IH]; intros a H; cbn [fold_left]; [destruct H as [->|[]]; lia|].
  pose proof (B l (Nat.min a b)) as BB. destruct H as [->|[->|H]]; [lia|lia|]. apply IH. right. exact H.
Qed.
Lemma firstn_in {A} n (l : list A) j d : (j < n)%nat -> (n <= length l)%nat -> In (nth j l d) (firstn n l).
Proof. intros H1 H2. apply nth_error_In with (n := j). rewrite nth_error_firstn. destruct (Nat.ltb_spec j n); [|lia]. apply nth_error_nth'. lia. Qed.
Lemma in_firstn {A} n (l : list A) x d : In x (firstn n l) -> exists j, (j < n)%nat /\ nth j l d = x.
Proof. intros H. apply In_nth_error in H. destruct H as (j & H). rewrite nth_error_firstn in H. destruct (Nat.ltb_spec j n) as [L|L]; [|discriminate]. exists j. split; [exact L|]. apply nth_error_nth. exact H. Qed.
Definition near_row (norm : nat) (x y : list (list R)) (xl yl i : nat) (r : R * nat) : Prop :=
  if (i <? xl)%nat then fst r = nearest norm (firstn yl y) (nth i x []) /\
     ((0 < yl)%nat -> (snd r < yl)%nat /\ distance norm (nth i x []) (nth (snd r) y []) = nearest norm (firstn yl y) (nth i x [])) /\ (yl = 0%nat -> snd r = 0%nat)
  else r = (0, 0%nat).
Lemma nearest_rows_ok sort norm x y xl yl m : norm = 1%nat \/ norm = 2%nat -> (xl <= length x)%nat -> (yl <= length y)%nat -> (m <= yl)%nat ->
  exists rows, nearest_rows sort norm x y xl yl m = Ok rows /\ length rows = length x /\ forall i r, nth_error rows i = Some r -> near_row norm x y xl yl i r.
Proof.
  intros Hn Hx Hy Hm. unfold nearest_rows. rewrite sort_unused. destruct (knn_points_correct argsort norm 1 true m x y xl yl argsort_sorts Hn ltac:(lia) Hx Hy Hm) as (rows & E & L & H). rewrite E. cbn [rbind].
  assert (K : forall i, (i < length x)%nat -> exists d j, nth_error rows i = Some ([Fin d], [j]) /\ near_row norm x y xl yl i (d, j)).
  { intros i Hi. destruct (H i Hi) as (ds & js & Er & Hr). unfold near_row. cbn [fst snd]. destruct (i <? xl)%nat.
    - pose proof (knn_len_d _ _ _ _ _ Hr) as Ld. pose proof (knn_len_i _ _ _ _ _ Hr) as Lj. destruct ds as [|d [|]]; cbn in Ld; try lia. destruct js as [|j [|]]; cbn in Lj; try lia. exists d, j. split; [exact Er|].
      destruct (Nat.eq_dec yl 0) as [->|Ny].
      + pose proof (knn_padding _ _ _ _ _ Hr 0%nat ltac:(cbn; lia)) as (P1 & P2). cbn in P1, P2. subst. cbn. split; [reflexivity|]. split; [lia|reflexivity].
      + pose proof (knn_valid _ _ _ _ _ Hr 0%nat) as HV. rewrite Nat.min_l in HV by lia. destruct (HV ltac:(lia)) as (V1 & V2). cbn in V1, V2. rewrite dist_eq in V2.
        assert (EN : nearest norm (firstn yl y) (nth i x []) = d).
        { apply nearest_is.
          - intros C. apply (f_equal (@length _)) in C. rewrite firstn_length in C. cbn in C. lia.
          - exists (nth j y []). split; [apply firstn_in; lia|]. rewrite V2. reflexivity.
          - intros q Hq. apply (in_firstn _ _ _ []) in Hq. destruct Hq as (j' & Lj' & <-). destruct (Nat.eq_dec j' j) as [->|Nj]; [rewrite V2; lra|].
            pose proof (knn_nearest _ _ _ _ _ Hr j' Lj') as HN. rewrite Nat.min_l in HN by lia. cbn [firstn] in HN. specialize (HN ltac:(intros [C|[]]; congruence) 0%nat ltac:(lia)). cbn in HN. rewrite dist_eq in HN. exact HN. }
        split; [symmetry; exact EN|]. split; [intros _; split; [exact V1|]; rewrite EN, V2; reflexivity|lia].
    - destruct Hr as (-> & ->). exists 0, 0%nat. split; [exact Er|reflexivity]. }
  assert (R : exists out, rmap (fun r : list ext * list nat => match r with ([Fin d], [j]) => Ok (d, j) | _ => Fail ERuntime end) rows = Ok out /\ length out = length rows /\ forall i r, nth_error out i = Some r -> nth_error rows i = Some ([Fin (fst r)], [snd r])).
  { assert (HF : forall i r, nth_error rows i = Some r -> exists d j, r = ([Fin d], [j])). { intros i r Er. assert (Li : (i < length x)%nat) by (rewrite <- L; apply nth_error_Some; congruence). destruct (K i Li) as (d & j & E' & _). exists d, j. congruence. }
    clear -HF. induction rows as [|r rows IH]; [exists []; split; [reflexivity|]; split; [reflexivity|]; intros [|] ? ?; discriminate|]. destruct (HF 0%nat r eq_refl) as (d & j & ->). destruct IH as (out & E & L & HO); [intros i r Er; apply (HF (S i) r Er)|]. cbn [rmap]. cbn [rbind]. rewrite E. cbn [rbind]. exists ((d, j) :: out). split; [reflexivity|]. split; [cbn; lia|]. intros [|i] r Er; cbn in *; [injection Er as <-; reflexivity|apply HO; exact Er]. }
  destruct R as (out & E2 & L2 & HO). exists out. split; [exact E2|]. split; [lia|]. intros i (d, j) Er. pose proof (HO i _ Er) as E3. cbn in E3. assert (Li : (i < length x)%nat) by (rewrite <- L; apply nth_error_Some; congruence). destruct (K i Li) as (d' & j' & E' & HN). rewrite E3 in E'. injection E' as <- <-. exact HN.
Qed.
(* distances of one cloud, with zeros for the padding *)
Definition dist_row (norm : nat) (x y : list (list R)) (xl yl : nat) : list R :=
  map (nearest norm (firstn yl y)) (firstn xl x) ++ repeat 0 (length x - xl).
Lemma rows_dists norm x y xl yl rows : (xl <= length x)%nat -> length rows = length x -> (forall i r, nth_error rows i = Some r -> near_row norm x y xl yl i r) ->
  map fst rows = dist_row norm x y xl yl.
Proof.
  intros Hx L H. apply nth_error_ext. intros i. unfold dist_row. rewrite nth_error_map. destruct (nth_error rows i) as [r|] eqn:E.
  - pose proof (H i r E) as HN. assert (Li : (i < length x)%nat) by (rewrite <- L; apply nth_error_Some; congruence). unfold near_row in HN. cbn [option_map]. destruct (Nat.ltb_spec i xl) as [Lt|Ge].
    + rewrite nth_error_app1 by (rewrite map_length, firstn_length; lia). rewrite nth_error_map, nth_error_firstn. destruct (Nat.ltb_spec i xl); [|lia]. rewrite (nth_error_nth' x [] Li). cbn. f_equal. apply HN.
    + rewrite nth_error_app2 by (rewrite map_length, firstn_length; lia). rewrite map_length, firstn_length, Nat.min_l by lia. rewrite nth_error_repeat by lia. subst r. reflexivity.
  - apply nth_error_None in E. cbn. symmetry. apply nth_error_None. rewrite app_length, map_length, firstn_length, repeat_length. lia.
Qed.
Lemma mask_app l n k : length l = n -> mask_row n (l ++ repeat 0 k) = l ++ repeat 0 k.
Proof.
  intros Hl. unfold mask_row. apply nth_error_ext. intros i. rewrite nth_error_map.
  assert (NC : forall (r : list R), nth_error (combine (seq 0 (length r)) r) i = option_map (fun x => (i, x)) (nth_error r i)).
  { assert (G : forall (r : list R) s i, nth_error (combine (seq s (length r)) r) i = option_map (fun x => (s + i, x)%nat) (nth_error r i)).
    { induction r as [|a r IH]; intros s [|j]; cbn; try reflexivity; [do 2 f_equal; lia|]. rewrite IH. destruct (nth_error r j); cbn; [do 2 f_equal; lia|reflexivity]. }
    intros r. apply (G r 0%nat i). }
  rewrite NC. destruct (nth_error (l ++ repeat 0 k) i) as [a|] eqn:E; [|reflexivity]. cbn. destruct (Nat.leb_spec n i) as [L|L]; [|reflexivity]. rewrite nth_error_app2 in E by lia. f_equal. apply nth_error_In in E. apply repeat_spec in E. symmetry. exact E.
Qed.
Lemma mask_dists norm x y xl yl : (xl <= length x)%nat -> mask_row xl (dist_row norm x y xl yl) = dist_row norm x y xl yl.
Proof. intros H. apply mask_app. rewrite map_length, firstn_length. lia. Qed.
Lemma dists_sum norm x y xl yl : rsum (dist_row norm x y xl yl) = one_way PSum norm (firstn xl x) (firstn yl y).
Proof. unfold dist_row, one_way. rewrite rsum_app. assert (Z : forall k, rsum (repeat 0 k) = 0) by (induction k; [apply rsum_nil|]; cbn [repeat]; rewrite rsum_cons; lra). rewrite Z. lra. Qed.
Lemma dists_max norm x y xl yl a w : (xl <= length x)%nat -> (0 < length x)%nat -> 0 <= w -> row_max (map (fun d => d * w) (dist_row norm x y xl yl)) = Ok a -> a = w * one_way PMax norm (firstn xl x) (firstn yl y).
Proof.
  intros Hx Hl Hw. unfold one_way. set (D := map (nearest norm (firstn yl y)) (firstn xl x)). assert (DP : forall d, In d D -> 0 <= d) by (intros d Hd; apply in_map_iff in Hd; destruct Hd as (p & <- & _); apply nearest_nonneg).
  unfold dist_row. fold D. intros E. destruct (fold_max_spec D 0) as (M1 & M2). set (m := fold_left Rmax D 0) in *.
  assert (HM : In (m * w) (map (fun d => d * w) (D ++ repeat 0 (length x - xl))) /\ forall z, In z (map (fun d => d * w) (D ++ repeat 0 (length x - xl))) -> z <= m * w).
  { split.
    - destruct M1 as [M1|M1].
      + (* m = 0: some entry is zero or there are none *)
        destruct (Nat.lt_ge_cases xl (length x)) as [L|L].
        * replace m with 0. apply in_map_iff. exists 0. split; [reflexivity|]. apply in_or_app. right. destruct (length x - xl)%nat eqn:EK; [lia|]. left. reflexivity.
        * destruct D as [|d D'] eqn:ED; [exfalso; apply (f_equal (@length R)) in ED; unfold D in ED; rewrite map_length, firstn_length in ED; cbn in ED; lia|].
          assert (d = 0). { apply Rle_antisym; [rewrite M1; apply M2; right; left; reflexivity|apply DP; left; reflexivity]. } apply in_map_iff. exists d. split; [rewrite <- M1; subst d; reflexivity|]. apply in_or_app. left. left. reflexivity.
      + apply in_map_iff. exists m. split; [reflexivity|]. apply in_or_app. left. exact M1.
    - intros z Hz. apply in_map_iff in Hz. destruct Hz as (d & <- & Hd). apply Rmult_le_compat_r; [exact Hw|]. apply in_app_or in Hd. destruct Hd as [Hd|Hd]; [apply M2; right; exact Hd|]. apply repeat_spec in Hd. subst. apply M2. left. reflexivity. }
  destruct (map (fun d => d * w) (D ++ repeat 0 (length x - xl))) as [|b l]; [discriminate|]. cbn [row_max] in E. injection E as <-. rewrite (max_unique l b (m * w)); [lra|apply HM|apply HM].
Qed.
