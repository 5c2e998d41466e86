(* corresponding_points_alignment on a batch. *)
From Verif Require Import Base RBase Geom LinAlg.
From Verif Require Import Alignment AlignmentSpec AlignmentProofs AlignmentProofs2.
Local Open Scope R_scope.

Lemma sqdist_nonneg p q : 0 <= sqdist p q.
Proof.
  unfold sqdist. pose proof (pow2_ge_0 (x3 p - x3 q)). pose proof (pow2_ge_0 (y3 p - y3 q)). pose proof (pow2_ge_0 (z3 p - z3 q)). lra.
Qed.

Section Firstn.
  Variables (k : nat) (w : list R) (x y : list vec3).
  Hypothesis Z : forall i, (k <= i)%nat -> nth i w 0 = 0.
  Let w' := firstn k w. Let x' := firstn k x. Let y' := firstn k y.
  Lemma centre_mask (z : list vec3) : centre w z = centre w' (firstn k z).
  Proof.
    unfold centre, w'. rewrite (rsum_mask k w Z), !(sum3_mask _ k w z z) by (assumption || (intros; ring)). reflexivity.
  Qed.
  Lemma moment_mask : moment w x y = moment w' x' y'.
  Proof.
    unfold moment. rewrite (centre_mask x), (centre_mask y), (rsum_mask k w Z).
    rewrite !(sum3_mask _ k w x y) by (assumption || (intros; ring)). reflexivity.
  Qed.
  Lemma zero_sqr : forall i, (k <= i)%nat -> nth i (map Rsqr w) 0 = 0.
  Proof. intros i Hi. rewrite <- Rsqr_0 at 1. rewrite map_nth, (Z i Hi). apply Rsqr_0. Qed.
  Lemma dev_mask cx cy q c : dev (map Rsqr w) x y cx cy q c = dev (map Rsqr w') x' y' cx cy q c.
  Proof.
    unfold dev. rewrite (sum3_mask _ k _ x y) by (apply zero_sqr || (intros; ring)). unfold w'. rewrite firstn_map. reflexivity.
  Qed.
  Lemma inertia_mask c : inertia (map Rsqr w) x c = inertia (map Rsqr w') x' c.
  Proof.
    unfold inertia. rewrite (sum3_mask _ k _ x x) by (apply zero_sqr || (intros; ring)). unfold w'. rewrite firstn_map. reflexivity.
  Qed.
End Firstn.

Section Batch.
  Variable svd : mat3 -> mat3 * vec3 * mat3.

  (* any weights: optimal for the squared weights about the centres *)
  Lemma fit_one es ar eps k w num x y :
    length x = length w -> length y = length w -> (forall i, (k <= i)%nat -> nth i w 0 = 0) ->
    let w' := firstn k w in let x' := firstn k x in let y' := firstn k y in
    0 < eps <= rsum w' -> svd_of (moment w' x' y') (svd (moment w' x' y')) ->
    (es = true -> eps <= inertia (map Rsqr w') x' (centre w' x') / rsum w') ->
    exists t, align_one svd es ar eps (Some w) num x y = Ok t /\ allowed es ar t /\
      image t (centre w' x') = centre w' y' /\
      forall t', allowed es ar t' ->
        dev (map Rsqr w') x' y' (centre w' x') (centre w' y') (rot t) (scale t)
        <= dev (map Rsqr w') x' y' (centre w' x') (centre w' y') (rot t') (scale t').
  Proof.
    intros Hx Hy Z w' x' y' W S V.
    destruct (align_dev svd es ar eps w num x y Hx Hy) as (t & E & A & I & B).
    - rewrite (rsum_mask k w Z). exact W.
    - rewrite (moment_mask k w x y Z). exact S.
    - intros T. rewrite (rsum_mask k w Z), (centre_mask k w Z x), (inertia_mask k w x Z). apply V, T.
    - exists t. split; [exact E|]. split; [exact A|]. rewrite (centre_mask k w Z x), (centre_mask k w Z y) in *. split; [exact I|].
      intros t' A'. specialize (B t' A'). rewrite !(dev_mask k w x y Z) in B. exact B.
  Qed.

  Lemma best_one es ar eps k w num x y :
    length x = length w -> length y = length w -> (forall i, (k <= i)%nat -> nth i w 0 = 0) ->
    let w' := firstn k w in let x' := firstn k x in let y' := firstn k y in
    Forall (fun a => a = 0 \/ a = 1) w' ->
    0 < eps <= rsum w' -> svd_of (moment w' x' y') (svd (moment w' x' y')) ->
    (es = true -> eps <= variance w' x') ->
    exists t, align_one svd es ar eps (Some w) num x y = Ok t /\ best_fit es ar w' x' y' t.
  Proof.
    intros Hx Hy Z w' x' y' B W S V.
    destruct (fit_one es ar eps k w num x y Hx Hy Z W S) as (t & E & A & I & D).
    - fold w' x'. rewrite (binary_sqr w' B). exact V.
    - fold w' x' y' in I, D. rewrite (binary_sqr w' B) in D. exists t. split; [exact E|]. split; [exact A|].
      intros t' A'. assert (Lx : length x' = length w') by (unfold x', w'; rewrite !firstn_length, Hx; reflexivity).
      assert (Ly : length y' = length w') by (unfold y', w'; rewrite !firstn_length, Hy; reflexivity).
      rewrite !misfit_split by (assumption || lra). rewrite I.
      replace (sqdist (centre w' y') (centre w' y')) with 0 by (unfold sqdist; ring).
      specialize (D t' A'). assert (0 <= rsum w' * sqdist (image t' (centre w' x')) (centre w' y')).
      { apply Rmult_le_pos; [lra|]. apply sqdist_nonneg. }
      lra.
  Qed.
End Batch.

(* ---- the weights the code uses ---- *)
Definition used (x : points) (w : weights_arg) (i : nat) : list R :=
  let k := nth i (nums x) 0%nat in
  match w with
  | WNone => mask (width x) k
  | WTensor _ l => times (mask (width x) k) (nth i l [])
  | WList l => times (mask (width x) k) (pad_weights (width x) (nth i l []))
  end.

Lemma mask_length n k : length (mask n k) = n.
Proof. unfold mask. rewrite map_length, seq_length. reflexivity. Qed.
Lemma nth_mask n k i : nth i (mask n k) 0 = if (i <? n)%nat && (i <? k)%nat then 1 else 0.
Proof.
  unfold mask. destruct (Nat.ltb_spec i n) as [L|L].
  - rewrite (nth_map_lt _ _ _ 0%nat) by (rewrite seq_length; exact L). rewrite seq_nth by exact L. reflexivity.
  - rewrite nth_overflow by (rewrite map_length, seq_length; exact L). reflexivity.
Qed.
Lemma nth_times a b i : nth i (times a b) 0 = nth i a 0 * nth i b 0.
Proof.
  unfold times. revert b i. induction a as [|u a IH]; intros [|v b] [|i]; cbn; try ring. apply IH.
Qed.
Lemma times_length a b : length b = length a -> length (times a b) = length a.
Proof. intros H. unfold times. rewrite map_length, combine_length, H. apply Nat.min_id. Qed.
Lemma pad_weights_length n w : (length w <= n)%nat -> length (pad_weights n w) = n.
Proof. intros H. unfold pad_weights. rewrite app_length, repeat_length. lia. Qed.
Lemma nth_pad n w i : nth i (pad_weights n w) 0 = nth i w 0.
Proof.
  unfold pad_weights. destruct (Nat.lt_ge_cases i (length w)) as [L|L]; [apply app_nth1, L|].
  rewrite app_nth2 by exact L. rewrite (nth_overflow w) by exact L. apply nth_repeat.
Qed.
Lemma list_nth_eq {A} (d : A) l l' : length l = length l' -> (forall i, (i < length l)%nat -> nth i l d = nth i l' d) -> l = l'.
Proof. intros L H. apply (nth_ext l l' d d L). exact H. Qed.

Section Used.
  Variables (x : points) (w : weights_arg) (i : nat).
  Hypothesis P : padded_batch x.
  Hypothesis Fw : weights_fit x w.
  Hypothesis I : (i < length (rows x))%nat.
  Let k := nth i (nums x) 0%nat.
  Lemma count_le : (k <= width x)%nat.
  Proof.
    destruct P as (L & _ & N). unfold k. assert (Q : In (nth i (nums x) 0%nat) (nums x)) by (apply nth_In; lia).
    rewrite Forall_forall in N. apply N, Q.
  Qed.
  Lemma weight_row : match w with
    | WNone => True
    | WTensor _ l => length (nth i l []) = width x
    | WList l => length (nth i l []) = k
    end.
  Proof.
    destruct w as [|n l|l]; [exact Logic.I| |].
    - destruct Fw as (A & -> & B). rewrite Forall_forall in B. apply B, nth_In. lia.
    - destruct Fw as (A & _). unfold k. rewrite <- A. symmetry.
      assert (i < length l)%nat by (rewrite <- (map_length (@length R) l), A, (proj1 P); exact I).
      rewrite (nth_map_lt _ _ _ []) by assumption. reflexivity.
  Qed.
  Lemma used_length : length (used x w i) = width x.
  Proof.
    pose proof weight_row as H. unfold used. destruct w as [|n l|l].
    - apply mask_length.
    - rewrite times_length; rewrite mask_length; [reflexivity|exact H].
    - rewrite times_length; rewrite mask_length; [reflexivity|]. apply pad_weights_length. rewrite H. apply count_le.
  Qed.
  Lemma used_zero j : (k <= j)%nat -> nth j (used x w i) 0 = 0.
  Proof.
    intros H. assert (M : nth j (mask (width x) k) 0 = 0).
    { rewrite nth_mask. destruct (Nat.ltb_spec j k); [lia|]. rewrite Bool.andb_false_r. reflexivity. }
    unfold used. fold k. destruct w; [exact M| |]; rewrite nth_times, M; ring.
  Qed.
  Lemma used_given : firstn k (used x w i) = given_weights x w i.
  Proof.
    pose proof weight_row as H. pose proof count_le as C. unfold given_weights. fold k.
    assert (M : forall j, (j < k)%nat -> nth j (mask (width x) k) 0 = 1).
    { intros j J. rewrite nth_mask. destruct (Nat.ltb_spec j k), (Nat.ltb_spec j (width x)); try lia. reflexivity. }
    apply (list_nth_eq 0).
    - rewrite firstn_length, used_length. destruct w; rewrite ?repeat_length, ?firstn_length; lia.
    - intros j J. rewrite firstn_length, used_length in J. rewrite nth_firstn_lt by lia.
      unfold used. fold k. destruct w as [|n l|l].
      + rewrite M by lia. symmetry. rewrite (nth_indep _ 0 1) by (rewrite repeat_length; lia). apply nth_repeat.
      + rewrite nth_times, M, nth_firstn_lt by lia. ring.
      + rewrite nth_times, M, nth_pad, nth_firstn_lt by lia. ring.
  Qed.
End Used.

Section Batch2.
  Variable svd : mat3 -> mat3 * vec3 * mat3.

  Definition row_weights (x : points) (w : weights_arg) (i : nat) : option (list R) :=
    let wi := match w with
              | WNone => None
              | WTensor _ l => Some (nth i l [])
              | WList l => Some (pad_weights (max_nat (map (@length R) l)) (nth i l []))
              end in
    if existsb (fun k => (k <? width x)%nat) (nums x)
    then Some (match wi with None => mask (width x) (nth i (nums x) 0%nat)
                           | Some l => times (mask (width x) (nth i (nums x) 0%nat)) l end)
    else wi.

  Lemma rmap_seq_ok {B} (f : nat -> result B) (g : nat -> result B) n :
    (forall i, (i < n)%nat -> f i = g i) -> rmap f (seq 0 n) = rmap g (seq 0 n).
  Proof.
    intros H. assert (G : forall l, (forall i, In i l -> f i = g i) -> rmap f l = rmap g l).
    { induction l as [|a l IH]; intros Q; [reflexivity|]. cbn. rewrite (Q a) by (left; reflexivity).
      rewrite IH by (intros; apply Q; right; assumption). reflexivity. }
    apply G. intros i Hi. apply H. apply in_seq in Hi. lia.
  Qed.
  Lemma existsb_false {A} (f : A -> bool) l : (forall a, In a l -> f a = false) -> existsb f l = false.
  Proof. induction l as [|a l IH]; intros H; [reflexivity|]. cbn. rewrite (H a) by (left; reflexivity). apply IH. intros; apply H; right; assumption. Qed.
  Lemma combine_same {A} (l : list A) a b : In (a, b) (combine l l) -> a = b.
  Proof. induction l as [|c l IH]; cbn; [contradiction|]. intros [E|E]; [congruence|auto]. Qed.

  Lemma align_rows x y w es ar eps : padded_batch x -> padded_batch y -> same_sizes x y -> weights_fit x w ->
    corresponding_points_alignment svd x y w es ar eps =
    rmap (fun i => align_one svd es ar eps (row_weights x w i) (nth i (nums x) 0%nat) (nth i (rows x) []) (nth i (rows y) []))
         (seq 0 (length (rows x))).
  Proof.
    intros Px Py (B & Wd & Nm) Fw. unfold corresponding_points_alignment.
    rewrite B, Wd, Nm, !Nat.eqb_refl. cbn [andb negb orb].
    rewrite existsb_false by (intros [a b] H; cbn; rewrite (combine_same _ _ _ H), Nat.eqb_refl; reflexivity).
    rewrite <- B, <- Wd.
    assert (C : check_weights x w = Ok (match w with WNone => None | WTensor _ l => Some l
      | WList l => Some (map (pad_weights (max_nat (map (@length R) l))) l) end)).
    { unfold check_weights. destruct w as [|n l|l]; [reflexivity| |].
      - destruct Fw as (-> & -> & _). rewrite !Nat.eqb_refl. reflexivity.
      - destruct Fw as (L & M). rewrite <- L.
        rewrite existsb_false.
        + rewrite map_length, L, M. replace (length l) with (length (rows x)) by (rewrite <- (proj1 Px), <- L, map_length; reflexivity).
          rewrite !Nat.eqb_refl. reflexivity.
        + clear. induction l as [|r l IH]; cbn; [contradiction|]. intros [a b] [E|E]; [injection E as <- <-; cbn; rewrite Nat.eqb_refl; reflexivity|]. apply IH, E. }
    rewrite C. cbn [rbind]. rewrite <- Nm. apply rmap_seq_ok. intros i Hi.
    rewrite (rget_nth (rows x) i []) by exact Hi. cbn [rbind]. rewrite (rget_nth (rows y) i []) by lia. cbn [rbind].
    rewrite (rget_nth (nums x) i 0%nat) by (rewrite (proj1 Px); exact Hi). cbn [rbind].
    unfold row_weights. destruct w as [|n l|l]; cbn [rbind]; [reflexivity| |].
    - rewrite (rget_nth l i []) by (destruct Fw as (-> & _); exact Hi). reflexivity.
    - assert (i < length l)%nat by (rewrite <- (map_length (@length R) l), (proj1 Fw), (proj1 Px); exact Hi).
      rewrite (rget_nth _ i []) by (rewrite map_length; assumption). cbn [rbind].
      rewrite (nth_map_lt _ _ _ []) by assumption. reflexivity.
  Qed.

  Lemma row_used x w i es ar eps y : padded_batch x -> weights_fit x w -> (i < length (rows x))%nat ->
    eps <= 1 -> (1 <= nth i (nums x) 0)%nat -> length y = width x ->
    align_one svd es ar eps (row_weights x w i) (nth i (nums x) 0%nat) (nth i (rows x) []) y =
    align_one svd es ar eps (Some (used x w i)) (nth i (nums x) 0%nat) (nth i (rows x) []) y.
  Proof.
    intros P Fw I He K Ly. pose proof (count_le x i P I) as C. pose proof (weight_row x w i P Fw I) as WR.
    assert (Lx : length (nth i (rows x) []) = width x).
    { destruct P as (_ & Q & _). rewrite Forall_forall in Q. apply Q, nth_In, I. }
    unfold row_weights. destruct (existsb _ (nums x)) eqn:E.
    - do 2 f_equal. unfold used. destruct w as [|n l|l]; try reflexivity.
      destruct Fw as (L & M). rewrite <- M, <- L. reflexivity.
    - assert (Full : nth i (nums x) 0%nat = width x).
      { assert (In (nth i (nums x) 0%nat) (nums x)) by (apply nth_In; rewrite (proj1 P); exact I).
        destruct (Nat.lt_ge_cases (nth i (nums x) 0%nat) (width x)) as [L|L]; [|lia].
        assert (existsb (fun k => (k <? width x)%nat) (nums x) = true); [|congruence].
        apply existsb_exists. exists (nth i (nums x) 0%nat). split; [assumption|]. apply Nat.ltb_lt, L. }
      assert (Ones : mask (width x) (width x) = repeat 1 (width x)).
      { apply (list_nth_eq 0); [rewrite mask_length, repeat_length; reflexivity|]. intros j J. rewrite mask_length in J.
        rewrite nth_mask. destruct (Nat.ltb_spec j (width x)); [|lia]. cbn.
        rewrite (nth_indep _ 0 1) by (rewrite repeat_length; lia). symmetry. apply nth_repeat. }
      assert (TO : forall l, length l = width x -> times (mask (width x) (width x)) l = l).
      { intros l Hl. apply (list_nth_eq 0); [rewrite times_length; rewrite mask_length; congruence|].
        intros j J. rewrite times_length, mask_length in J by (rewrite mask_length; exact Hl). rewrite nth_times, nth_mask.
        destruct (Nat.ltb_spec j (width x)); [|lia]. cbn. ring. }
      unfold used. rewrite Full. destruct w as [|n l|l].
      + rewrite Ones, <- Lx. apply align_none; [lia|congruence|exact He].
      + rewrite TO by exact WR. reflexivity.
      + rewrite TO by (apply pad_weights_length; rewrite WR; exact C). destruct Fw as (L & M). rewrite L, M. reflexivity.
  Qed.
  Lemma binary_total w : Forall (fun a => a = 0 \/ a = 1) w -> 0 < rsum w -> 1 <= rsum w.
  Proof.
    intros H. assert (0 <= rsum w) by (apply rsum_nonneg; eapply Forall_impl; [|exact H]; cbn; intros; lra).
    induction H as [|a w Ha Hw IH]; rewrite ?rsum_nil, ?rsum_cons in *; [lra|]. intros L.
    assert (0 <= rsum w) by (apply rsum_nonneg; eapply Forall_impl; [|exact Hw]; cbn; intros; lra).
    destruct Ha as [-> | ->]; [|lra]. assert (1 <= rsum w) by (apply IH; lra). lra.
  Qed.
  Lemma given_length x w i : padded_batch x -> weights_fit x w -> (i < length (rows x))%nat ->
    length (given_weights x w i) = nth i (nums x) 0%nat.
  Proof.
    intros P Fw I. rewrite <- (used_given x w i P Fw I), firstn_length, (used_length x w i P Fw I).
    apply Nat.min_l, count_le; assumption.
  Qed.
End Batch2.
