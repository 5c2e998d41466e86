From Coq Require Import Reals List Permutation Sorted Lra Lia Bool.
From Verif Require Import Base RBase Geom Implicit ImplicitSpec ImplicitProofs ImplicitProofs2 ImplicitProofs3 ImplicitProps
  Frustum FrustumProofs2 Refiner RefinerSpec.
Import ListNotations.
Local Open Scope R_scope.

Lemma put_perm x l : Permutation (put x l) (x :: l).
Proof.
  induction l as [|y r IH]; cbn [put]; [apply Permutation_refl|].
  destruct (Rleb x y); [apply Permutation_refl|].
  apply perm_trans with (y :: x :: r); [apply perm_skip, IH|apply perm_swap].
Qed.
Lemma tsort_perm l : Permutation (tsort l) l.
Proof.
  induction l as [|x l IH]; [apply Permutation_refl|]. unfold tsort in *. cbn [fold_right].
  apply perm_trans with (x :: fold_right put [] l); [apply put_perm|apply perm_skip, IH].
Qed.
Lemma put_sorted x l : StronglySorted Rle l -> StronglySorted Rle (put x l).
Proof.
  induction 1 as [|y r S IH F]; cbn [put]; [repeat constructor|].
  destruct (Rleb_spec x y) as [L|L].
  - constructor; [constructor; assumption|]. constructor; [exact L|].
    apply (List.Forall_impl _ (P := Rle y)); [intros a A; lra|exact F].
  - constructor; [exact IH|]. apply List.Forall_forall. intros a A.
    apply (Permutation_in _ (put_perm x r)) in A. destruct A as [<-|A]; [lra|].
    rewrite List.Forall_forall in F. exact (F a A).
Qed.
Lemma tsort_sorted l : StronglySorted Rle (tsort l).
Proof. induction l as [|x l IH]; [constructor|]. apply put_sorted, IH. Qed.
Lemma strong_nondecreasing l : StronglySorted Rle l -> nondecreasing l.
Proof.
  induction 1 as [|x l S IH F]; intros i j I J; [cbn in J; lia|].
  destruct i as [|i], j as [|j]; [lra| |lia|].
  - cbn [nth]. rewrite List.Forall_forall in F. apply F, nth_In. cbn in J. lia.
  - cbn [nth]. apply IH; [lia|cbn in J; lia].
Qed.
Lemma tsort_nondecreasing l : nondecreasing (tsort l).
Proof. apply strong_nondecreasing, tsort_sorted. Qed.

Lemma last_nth (l : list R) : last l 0 = nth (length l - 1) l 0.
Proof.
  induction l as [|a l IH]; [reflexivity|]. destruct l as [|b l]; [reflexivity|].
  change (last (a :: b :: l) 0) with (last (b :: l) 0). rewrite IH.
  replace (length (a :: b :: l) - 1)%nat with (S (length (b :: l) - 1)) by (cbn; lia). reflexivity.
Qed.
Lemma sorted_in l : nondecreasing l -> all_in (nth 0 l 0) (last l 0) l.
Proof.
  intros N x X. apply (In_nth _ _ 0) in X. destruct X as (k & K & <-). rewrite last_nth. split; apply N; lia.
Qed.

(* middles of neighbouring depths *)
Definition mids (z : list R) : list R := map (fun p => lerp_half (snd p) (fst p)) (bin_pairs z).
Lemma mids_length z : length (mids z) = (length z - 1)%nat.
Proof. unfold mids. rewrite map_length. apply pairs_length. Qed.
Lemma mids_nth z k : (S k < length z)%nat -> nth k (mids z) 0 = (nth k z 0 + nth (S k) z 0) / 2.
Proof.
  intros K. apply nth_error_nth. unfold mids. rewrite nth_error_map, (pairs_nth z k K). cbn [option_map fst snd].
  f_equal. unfold lerp_half. field.
Qed.
Lemma mids_sorted z : nondecreasing z -> nondecreasing (mids z).
Proof.
  intros N i j I J. rewrite mids_length in J. rewrite !mids_nth by lia.
  assert (nth i z 0 <= nth j z 0) by (apply N; lia). assert (nth (S i) z 0 <= nth (S j) z 0) by (apply N; lia). lra.
Qed.
Lemma mids_range z : nondecreasing z -> (2 <= length z)%nat ->
  nth 0 z 0 <= nth 0 (mids z) 0 /\ last (mids z) 0 <= last z 0.
Proof.
  intros N L. rewrite (last_nth (mids z)), (last_nth z), mids_length, !mids_nth by lia. split.
  - assert (nth 0 z 0 <= nth 1 z 0) by (apply N; lia). lra.
  - replace (S (length z - 1 - 1)) with (length z - 1)%nat by lia.
    assert (nth (length z - 1 - 1) z 0 <= nth (length z - 1) z 0) by (apply N; lia). lra.
Qed.
Lemma inner_length l : length (inner_entries l) = (length l - 2)%nat.
Proof.
  unfold inner_entries. rewrite removelast_firstn_len, firstn_length. destruct l as [|a l]; cbn [tl length]; lia.
Qed.
Lemma in_removelast (l : list R) x : In x (removelast l) -> In x l.
Proof. intros X. rewrite removelast_firstn_len in X. rewrite <- (firstn_skipn (pred (length l)) l). apply in_or_app. left. exact X. Qed.
Lemma inner_in l x : In x (inner_entries l) -> In x l.
Proof.
  unfold inner_entries. intros X. apply in_removelast in X. destruct l as [|a l]; [exact X|right; exact X].
Qed.

(* the blurred weights *)
Lemma pad_nth w j : w <> [] -> (j < length w + 2)%nat ->
  nth j (nth 0 w 0 :: w ++ [last w 0]) 0 = nth (Nat.min (j - 1) (length w - 1)) w 0.
Proof.
  intros N J. destruct w as [|a l] eqn:E; [contradiction|]. rewrite <- E in *.
  assert (L : (1 <= length w)%nat) by (rewrite E; cbn; lia).
  destruct j as [|j]; [cbn; reflexivity|]. cbn [nth]. replace (S j - 1)%nat with j by lia.
  destruct (Nat.lt_ge_cases j (length w)) as [K|K].
  - rewrite app_nth1 by exact K. f_equal. lia.
  - rewrite app_nth2 by exact K. replace (j - length w)%nat with 0%nat by lia. cbn [nth]. rewrite last_nth. f_equal. lia.
Qed.
Lemma blur_spec w v : blurpool w = Ok v -> length v = length w /\
  forall k, (k < length w)%nat -> nth k v 0 =
    (Rmax (nth (k - 1) w 0) (nth k w 0) + Rmax (nth k w 0) (nth (Nat.min (k + 1) (length w - 1)) w 0)) / 2.
Proof.
  destruct w as [|a l] eqn:E; [discriminate|]. unfold blurpool. rewrite <- E. intros V.
  apply (f_equal (fun r => match r with Ok x => x | Fail _ => v end)) in V. cbn beta iota zeta in V.
  assert (N : w <> []) by (rewrite E; discriminate).
  replace a with (nth 0 w 0) in V by (rewrite E; reflexivity).
  set (pad := nth 0 w 0 :: w ++ [last w 0]) in *.
  assert (PL : length pad = (length w + 2)%nat) by (unfold pad; cbn; rewrite app_length; cbn; lia).
  set (top := map _ (bin_pairs pad)) in *.
  assert (TL : length top = (length w + 1)%nat) by (unfold top; rewrite map_length, pairs_length; lia).
  assert (TN : forall k, (k < length w + 1)%nat -> nth k top 0 = Rmax (nth k pad 0) (nth (S k) pad 0)).
  { intros k K. apply nth_error_nth. unfold top. rewrite nth_error_map, pairs_nth by lia. reflexivity. }
  rewrite <- V. split; [rewrite map_length, pairs_length; lia|].
  intros k K. apply nth_error_nth. rewrite nth_error_map, pairs_nth by lia. cbn [option_map fst snd]. f_equal.
  rewrite !TN by lia. unfold pad. rewrite !(pad_nth w) by (assumption || lia).
  replace (Nat.min (k - 1) (length w - 1)) with (k - 1)%nat by lia.
  replace (Nat.min (S k - 1) (length w - 1)) with k by lia.
  replace (Nat.min (S (S k) - 1) (length w - 1)) with (Nat.min (k + 1) (length w - 1)) by lia.
  unfold lerp_half. field.
Qed.
Lemma blur_total w : w <> [] -> exists v, blurpool w = Ok v.
Proof. intros N. destruct w; [contradiction|]. eexists. reflexivity. Qed.
Lemma blur_nonneg w v : nonneg w -> blurpool w = Ok v -> nonneg v.
Proof.
  intros N E. destruct (blur_spec w v E) as [L S]. intros x X. apply (In_nth _ _ 0) in X. destruct X as (k & K & <-).
  rewrite L in K. rewrite (S k K).
  assert (A : 0 <= nth k w 0) by (apply N, nth_In; lia).
  pose proof (Rmax_r (nth (k - 1) w 0) (nth k w 0)).
  pose proof (Rmax_l (nth k w 0) (nth (Nat.min (k + 1) (length w - 1)) w 0)). lra.
Qed.

Lemma quantiles_ok c draws n : (forall k, 0 <= draws k) ->
  let q := if random_sampling c then map draws (seq 0 n) else linspace 0 1 n in nonneg q /\ length q = n.
Proof.
  intros D. cbv zeta. destruct (random_sampling c).
  - split; [|rewrite map_length, seq_length; reflexivity].
    intros x X. apply in_map_iff in X. destruct X as (k & <- & _). apply D.
  - unfold linspace. split; [|rewrite map_length, seq_length; reflexivity].
    intros x X. apply in_map_iff in X. destruct X as (k & <- & K). apply in_seq in K.
    assert (0 <= INR k * ((1 - 0) / INR (n - 1))); [|lra].
    apply Rmult_le_pos; [apply pos_INR|].
    destruct (Nat.eq_dec (n - 1) 0) as [Z|Z].
    + rewrite Z. unfold Rdiv. cbn. rewrite Rinv_0. lra.
    + apply Rmult_le_pos; [lra|]. apply Rlt_le, Rinv_0_lt_compat. apply lt_0_INR. lia.
Qed.

Section one.
Variables (c : refiner) (draws : nat -> R) (b : bundle) (w : list R) (ba : bool) (pa : R).
Hypotheses (He : 0 < pdf_eps c) (Hd : forall k, 0 <= draws k) (Hb : refinable b) (Hw : nonneg w)
  (Hl : length w = points b).

Lemma refine_main : exists b' samples, refine c draws b w ba pa = Ok b' /\ same_ray b b' /\
  length samples = extra c b /\ nondecreasing (depths b') /\
  Permutation (depths b') (if add_input c then depths b ++ samples else samples) /\
  all_in (nth 0 (depths b) 0) (last (depths b) 0) samples /\
  (uses_bins b = false -> all_in (nth 0 (mids (depths b)) 0) (last (mids (depths b)) 0) samples).
Proof.
  destruct Hb as [N L]. unfold points in Hl.
  assert (W : exists w', (if blur c then blurpool w else Ok w) = Ok w' /\ nonneg w' /\ length w' = length w).
  { destruct (blur c).
    - destruct (blur_total w) as [v V]; [intros Z; rewrite Z in Hl; cbn in Hl; destruct (uses_bins b); lia|].
      exists v. split; [exact V|]. split; [exact (blur_nonneg w v Hw V)|]. exact (proj1 (blur_spec w v V)).
    - exists w. repeat split. exact Hw. }
  destruct W as (w' & W1 & W2 & W3).
  unfold refine. rewrite W1. cbn [rbind]. unfold uses_bins, depths in *.
  unfold extra, same_ray, uses_bins.
  destruct (b_bins b) as [z|] eqn:B.
  - destruct (quantiles_ok c draws (n_pts c + 1) Hd) as [Q1 Q2]. cbv zeta in Q1, Q2.
    set (q := if random_sampling c then _ else _) in *.
    assert (WN : w' <> []) by (intros Z; rewrite Z in W3; cbn in W3; lia).
    assert (WL : length z = (length w' + 1)%nat) by lia.
    destruct (sample_pdf_total (pdf_eps c) z w' q He W2 WN WL N Q1) as (vs & V1 & V2).
    rewrite V1. cbn [rbind]. eexists. exists vs. split; [reflexivity|]. cbn [b_bins b_origin b_direction b_radius].
    split; [repeat split|]. split; [lia|]. split; [apply tsort_nondecreasing|]. split; [apply tsort_perm|].
    split; [exact (sample_pdf_inside (pdf_eps c) z w' q vs He W2 WN WL N Q1 V1)|discriminate].
  - destruct (b_own b) as [z|] eqn:OW; [|cbn in L; lia].
    destruct (quantiles_ok c draws (n_pts c) Hd) as [Q1 Q2]. cbv zeta in Q1, Q2.
    set (q := if random_sampling c then _ else _) in *. fold (mids z).
    set (wi := inner_entries w').
    assert (WL : length (mids z) = (length wi + 1)%nat) by (unfold wi; rewrite mids_length, inner_length; lia).
    assert (WN : wi <> []) by (intros Z; rewrite Z in WL; rewrite mids_length in WL; cbn in WL; lia).
    assert (W2' : nonneg wi) by (intros x X; apply W2, inner_in, X).
    pose proof (mids_sorted z N) as MS.
    destruct (sample_pdf_total (pdf_eps c) (mids z) wi q He W2' WN WL MS Q1) as (vs & V1 & V2).
    rewrite V1. cbn [rbind]. unfold set_lengths. rewrite B. eexists. exists vs. split; [reflexivity|].
    cbn [b_bins b_own b_origin b_direction b_radius].
    split; [repeat split|]. split; [lia|]. split; [apply tsort_nondecreasing|]. split; [apply tsort_perm|].
    pose proof (sample_pdf_inside (pdf_eps c) (mids z) wi q vs He W2' WN WL MS Q1 V1) as IN.
    split; [|intros _; exact IN].
    destruct (mids_range z N ltac:(lia)) as [A1 A2]. intros x X. specialize (IN x X). lra.
Qed.
End one.
