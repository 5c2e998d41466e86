(* Boxes of masks. *)
From Verif Require Import Base RBase Geom LinAlg Transform Camera CameraSpec Crop CropSpec CropProofs CropProofs2.
From Coq Require Import R_Ifp Sorted.
Local Open Scope R_scope.

Definition bit (t x : R) : R := if Rltb t x then 1 else 0.
Lemma bit_01 t x : (bit t x = 1 /\ t < x) \/ (bit t x = 0 /\ ~ t < x).
Proof. unfold bit. destruct (Rltb_spec t x); auto. Qed.
Lemma bits_count t l : rsum (map (bit t) l) = INR (length (filter (Rltb t) l)).
Proof.
  induction l as [|x l IH]; [reflexivity|]. cbn [map filter]. rewrite rsum_cons, IH. unfold bit. destruct (Rltb t x); cbn [length]; [rewrite S_INR; lra|lra].
Qed.
Lemma above_count t m : rsum (row_sums (above t m)) = INR (length (filter (Rltb t) (concat m))).
Proof.
  induction m as [|row m IH]; [reflexivity|]. unfold row_sums, above in *. cbn [map concat]. rewrite rsum_cons, IH, filter_app, app_length, plus_INR. f_equal. apply bits_count.
Qed.
Lemma loop_ok fuel mask q m : forall thr, box_loop fuel mask thr q = Ok m ->
  exists k, m = above (thr - INR k * q) mask /\ two_above (thr - INR k * q) mask /\ forall k', (k' < k)%nat -> ~ two_above (thr - INR k' * q) mask.
Proof.
  induction fuel as [|fuel IH]; intros thr H; [discriminate|]. cbn [box_loop] in H. rewrite above_count in H.
  destruct (Rleb_spec (INR (length (filter (Rltb thr) (concat mask)))) 1) as [L|L].
  - destruct (IH _ H) as (k & E1 & E2 & E3). exists (S k). replace (thr - INR (S k) * q) with (thr - q - INR k * q) by (rewrite S_INR; ring).
    split; [exact E1|]. split; [exact E2|]. intros [|k'] Hk.
    + cbn [INR]. rewrite Rmult_0_l, Rminus_0_r. unfold two_above. apply (INR_le _ 1) in L. lia.
    + replace (thr - INR (S k') * q) with (thr - q - INR k' * q) by (rewrite S_INR; ring). apply E3. lia.
  - injection H as <-. exists 0%nat. cbn [INR]. rewrite Rmult_0_l, Rminus_0_r. split; [reflexivity|]. split; [|intros k' Hk; lia].
    unfold two_above. apply Rnot_le_lt in L. apply (INR_lt 1) in L. lia.
Qed.
Lemma loop_stops mask q : 0 < q -> Forall (fun x => 0 <= x) (concat mask) -> (2 <= length (concat mask))%nat ->
  forall thr, exists n, forall fuel, (n <= fuel)%nat -> exists m, box_loop fuel mask thr q = Ok m.
Proof.
  intros Hq F L thr. destruct (archimed (Rmax 0 (thr / q))) as (A & _). set (z := up (Rmax 0 (thr / q))) in *.
  assert (Z0 : (0 < z)%Z). { apply lt_IZR. pose proof (Rmax_l 0 (thr / q)). lra. }
  assert (T : thr < INR (Z.to_nat z) * q).
  { rewrite INR_IZR_INZ, Z2Nat.id by lia. pose proof (Rmax_r 0 (thr / q)). replace thr with (thr / q * q) by (field; lra). apply Rmult_lt_compat_r; lra. }
  exists (S (Z.to_nat z)). revert T. generalize (Z.to_nat z). clear z A Z0. intros n T.
  revert thr T. induction n as [|n IH]; intros thr T fuel Hf.
  - cbn [INR] in T. rewrite Rmult_0_l in T. destruct fuel as [|fuel]; [lia|]. cbn [box_loop]. rewrite above_count.
    assert (E : filter (Rltb thr) (concat mask) = concat mask).
    { clear L. induction F as [|x l Hx F IH]; [reflexivity|]. cbn [filter]. destruct (Rltb_spec thr x); [rewrite IH; reflexivity|lra]. }
    rewrite E. destruct (Rleb_spec (INR (length (concat mask))) 1) as [K|K]; [|eexists; reflexivity]. apply (INR_le _ 1) in K. lia.
  - destruct fuel as [|fuel]; [lia|]. cbn [box_loop]. destruct (Rleb (rsum (row_sums (above thr mask))) 1); [|eexists; reflexivity].
    apply IH; [rewrite S_INR in T; lra|lia].
Qed.
(* a single pixel is never enough *)
Lemma loop_single fuel x q : forall thr, box_loop fuel [[x]] thr q = Fail EFuel.
Proof.
  induction fuel as [|fuel IH]; intros thr; [reflexivity|]. cbn [box_loop]. rewrite above_count. cbn [concat app filter].
  destruct (Rltb thr x); cbn [length INR]; destruct (Rleb_spec 1 1), (Rleb_spec 0 1); try lra; apply IH.
Qed.

(* ---- bounds ---- *)
Lemma combine_filter l : forall a, map fst (filter (fun p => Rltb 0 (snd p) || Rltb (snd p) 0)%bool (combine (seq a (length l)) l)) =
  filter (fun i => Rltb 0 (nth (i - a) l 0) || Rltb (nth (i - a) l 0) 0)%bool (seq a (length l)).
Proof.
  induction l as [|x l IH]; intros a; [reflexivity|]. cbn [length seq combine filter fst snd]. rewrite Nat.sub_diag. change (nth 0 (x :: l) 0) with x.
  assert (E : filter (fun i => Rltb 0 (nth (i - a) (x :: l) 0) || Rltb (nth (i - a) (x :: l) 0) 0)%bool (seq (S a) (length l)) =
              filter (fun i => Rltb 0 (nth (i - S a) l 0) || Rltb (nth (i - S a) l 0) 0)%bool (seq (S a) (length l))).
  { apply filter_ext_in. intros i Hi. apply in_seq in Hi. replace (i - a)%nat with (S (i - S a)) by lia. reflexivity. }
  destruct (Rltb 0 x || Rltb x 0)%bool; cbn [map fst]; rewrite IH, E; reflexivity.
Qed.
Lemma positive_entries_filter l : positive_entries l = filter (fun i => Rltb 0 (nth i l 0) || Rltb (nth i l 0) 0)%bool (seq 0 (length l)).
Proof. unfold positive_entries. rewrite combine_filter. apply filter_ext. intros i. rewrite Nat.sub_0_r. reflexivity. Qed.
Lemma seq_sorted n : forall a, StronglySorted lt (seq a n).
Proof. induction n as [|n IH]; intros a; constructor; [apply IH|]. apply Forall_forall. intros x Hx. apply in_seq in Hx. lia. Qed.
Lemma filter_sorted {A} (R0 : A -> A -> Prop) f l : StronglySorted R0 l -> StronglySorted R0 (filter f l).
Proof.
  induction 1 as [|x l S0 IH F]; [constructor|]. cbn. destruct (f x); [|exact IH]. constructor; [exact IH|]. apply Forall_forall. intros y Hy. apply filter_In in Hy as (Hy & _). rewrite Forall_forall in F. auto.
Qed.
Lemma last_max l : forall i, StronglySorted lt (i :: l) -> In (last l i) (i :: l) /\ forall j, In j (i :: l) -> (i <= j <= last l i)%nat.
Proof.
  induction l as [|a l IH]; intros i S0.
  - cbn. split; [left; reflexivity|]. intros j [<-|[]]. lia.
  - inversion S0 as [|? ? S1 F]; subst. destruct (IH a S1) as (I1 & I2). replace (last (a :: l) i) with (last l a).
    + split; [right; exact I1|]. rewrite Forall_forall in F. intros j [<-|Hj].
      * specialize (I2 a (or_introl eq_refl)). specialize (F a (or_introl eq_refl)). lia.
      * specialize (I2 j Hj). specialize (F j Hj). lia.
    + clear. revert a i. induction l as [|b l IH]; intros a i; [reflexivity|]. change (last (b :: l) a = last (b :: l) i). rewrite <- (IH b a), <- (IH b i). reflexivity.
Qed.
Lemma bounds_ok l a b : bounds_1d l = Ok (a, b) ->
  (a < b)%nat /\ (a < length l)%nat /\ (b <= length l)%nat /\ nth a l 0 <> 0 /\ nth (b - 1) l 0 <> 0 /\ forall j, (j < length l)%nat -> nth j l 0 <> 0 -> (a <= j < b)%nat.
Proof.
  unfold bounds_1d. destruct (positive_entries l) as [|i is_] eqn:E; [discriminate|]. intros H. injection H as <- <-.
  rewrite positive_entries_filter in E.
  assert (So : StronglySorted lt (i :: is_)) by (rewrite <- E; apply filter_sorted, seq_sorted).
  destruct (last_max is_ i So) as (L1 & L2).
  assert (Mem : forall j, In j (i :: is_) <-> (j < length l)%nat /\ nth j l 0 <> 0).
  { intros j. rewrite <- E, filter_In, in_seq. destruct (Rltb_spec 0 (nth j l 0)), (Rltb_spec (nth j l 0) 0); cbn [orb]; split; intros (H1 & H2); try discriminate; try (split; [lia|lra]); try (split; [lia|reflexivity]). }
  destruct (proj1 (Mem i) (or_introl eq_refl)) as (A1 & A2). destruct (proj1 (Mem _) L1) as (B1 & B2).
  split; [specialize (L2 i (or_introl eq_refl)); lia|]. split; [exact A1|]. split; [lia|]. split; [exact A2|].
  replace (S (last is_ i) - 1)%nat with (last is_ i) by lia. split; [exact B2|]. intros j Hj Hn. specialize (L2 j (proj2 (Mem j) (conj Hj Hn))). lia.
Qed.
Lemma bounds_defined l j : (j < length l)%nat -> nth j l 0 <> 0 -> exists a b, bounds_1d l = Ok (a, b).
Proof.
  intros Hj Hn. unfold bounds_1d. destruct (positive_entries l) as [|i is_] eqn:E; [|eauto]. exfalso.
  assert (In j (positive_entries l)). { rewrite positive_entries_filter, filter_In, in_seq. split; [lia|]. destruct (Rltb_spec 0 (nth j l 0)), (Rltb_spec (nth j l 0) 0); try reflexivity. exfalso. apply Hn. lra. }
  rewrite E in H. destruct H.
Qed.
Lemma bits_sum_nonzero l : (forall x, In x l -> x = 0 \/ x = 1) -> (rsum l <> 0 <-> In 1 l).
Proof.
  intros H. assert (P : 0 <= rsum l /\ (rsum l = 0 \/ In 1 l)).
  { induction l as [|x l IH]; [cbn; split; [lra|left; reflexivity]|]. destruct IH as (I1 & I2); [intros y Hy; apply H; right; exact Hy|]. rewrite rsum_cons.
    destruct (H x (or_introl eq_refl)) as [-> | ->]; split; try lra; [destruct I2; [left; lra|right; right; assumption]|right; left; reflexivity]. }
  destruct P as (P1 & P2). split; [intros N; destruct P2; [contradiction|assumption]|].
  intros Hin. assert (1 <= rsum l); [|lra]. clear P1 P2. induction l as [|x l IH]; [destruct Hin|]. rewrite rsum_cons.
  assert (N : 0 <= rsum l). { assert (H' : forall y, In y l -> y = 0 \/ y = 1) by (intros y Hy; apply H; right; exact Hy). clear - H'. induction l as [|y l IH]; [cbn; lra|]. rewrite rsum_cons. assert (0 <= rsum l) by (apply IH; intros z Hz; apply H'; right; exact Hz). destruct (H' y (or_introl eq_refl)); lra. }
  destruct Hin as [-> | Hin]; [lra|]. assert (1 <= rsum l) by (apply IH; [intros y Hy; apply H; right; exact Hy|exact Hin]). destruct (H x (or_introl eq_refl)); lra.
Qed.
Lemma mask_width m h w : is_mask m h w -> (0 < h)%nat -> width m = w.
Proof. intros (H1 & H2) H. destruct m as [|row m]; cbn in *; [lia|]. inversion H2; auto. Qed.
Lemma above_mask t m h w : is_mask m h w -> is_mask (above t m) h w.
Proof.
  intros (H1 & H2). split; [unfold above; rewrite map_length; exact H1|]. unfold above. apply Forall_forall. intros row Hr. apply in_map_iff in Hr as (r & <- & Hr). rewrite map_length.
  rewrite Forall_forall in H2. auto.
Qed.
Lemma above_row (t : R) m h w i : is_mask m h w -> (i < h)%nat -> exists row, nth_error m i = Some row /\ length row = w /\ nth i m [] = row.
Proof.
  intros (H1 & H2) Hi. destruct (nth_error m i) as [row|] eqn:E; [|apply nth_error_None in E; lia]. exists row. split; [reflexivity|]. split; [rewrite Forall_forall in H2; apply H2; eapply nth_error_In; exact E|].
  apply nth_error_nth. exact E.
Qed.
Lemma row_sum_marked t m h w i : is_mask m h w -> (i < h)%nat -> (nth i (row_sums (above t m)) 0 <> 0 <-> exists j, marked t m h w i j).
Proof.
  intros I Hi. destruct (above_row t m h w i I Hi) as (row & E & L & N). unfold row_sums, above. rewrite map_map.
  rewrite (nth_map_lt (fun x => rsum (map (fun x => if Rltb t x then 1 else 0) x)) m i []) by (destruct I as (I1 & _); lia). rewrite N.
  rewrite bits_sum_nonzero.
  2:{ intros x Hx. apply in_map_iff in Hx as (y & <- & _). destruct (Rltb t y); auto. }
  rewrite in_map_iff. split.
  - intros (x & E1 & Hx). apply In_nth_error in Hx as (j & Hj). exists j. assert (j < length row)%nat by (apply nth_error_Some; congruence).
    split; [exact Hi|]. split; [lia|]. unfold mask_at. rewrite N, (nth_error_nth _ _ _ Hj). destruct (Rltb_spec t x); [assumption|lra].
  - intros (j & _ & Hj & Hm). unfold mask_at in Hm. rewrite N in Hm. exists (nth j row 0). split; [destruct (Rltb_spec t (nth j row 0)); [reflexivity|contradiction]|]. apply nth_In. lia.
Qed.
Lemma column_sum_marked t m h w j : is_mask m h w -> (0 < h)%nat -> (j < w)%nat -> (nth j (column_sums (above t m)) 0 <> 0 <-> exists i, marked t m h w i j).
Proof.
  intros I Hh Hj. unfold column_sums. rewrite (mask_width _ h w (above_mask t m h w I) Hh).
  rewrite (nth_map_lt _ (seq 0 w) j 0%nat) by (rewrite seq_length; exact Hj). rewrite seq_nth by exact Hj. cbn [Nat.add].
  assert (Cell : forall row, In row m -> nth j (map (fun x => if Rltb t x then 1 else 0) row) 0 = bit t (nth j row 0)).
  { intros row Hr. destruct I as (_ & I2). rewrite Forall_forall in I2. rewrite (nth_map_lt _ row j 0) by (rewrite (I2 row Hr); exact Hj). reflexivity. }
  unfold above. rewrite map_map. rewrite (map_ext_in _ (fun row => bit t (nth j row 0)) m Cell). rewrite bits_sum_nonzero.
  2:{ intros x Hx. apply in_map_iff in Hx as (y & <- & _). unfold bit. destruct (Rltb t _); auto. }
  rewrite in_map_iff. split.
  - intros (row & E1 & Hr). apply In_nth_error in Hr as (i & Hi). exists i. assert (i < length m)%nat by (apply nth_error_Some; congruence). destruct I as (I1 & I2).
    split; [lia|]. split; [exact Hj|]. unfold mask_at. rewrite (nth_error_nth _ _ _ Hi). unfold bit in E1. destruct (Rltb_spec t (nth j row 0)); [assumption|lra].
  - intros (i & Hi & _ & Hm). destruct (above_row t m h w i I Hi) as (row & E & L & N). unfold mask_at in Hm. rewrite N in Hm.
    exists row. split; [unfold bit; destruct (Rltb_spec t (nth j row 0)); [reflexivity|contradiction]|]. eapply nth_error_In; exact E.
Qed.
Lemma concat_len m h w : is_mask m h w -> length (concat m) = (h * w)%nat.
Proof. intros (<- & F). induction F as [|row m E F IH]; [reflexivity|]. cbn [concat length]. rewrite app_length, IH, E. reflexivity. Qed.
Lemma some_marked t m h w : is_mask m h w -> two_above t m -> exists i j, marked t m h w i j.
Proof.
  intros I H. unfold two_above in H. destruct (filter (Rltb t) (concat m)) as [|x l] eqn:E; [cbn in H; lia|].
  assert (Hx : In x (filter (Rltb t) (concat m))) by (rewrite E; left; reflexivity). apply filter_In in Hx as (Hx & Hb).
  apply in_concat in Hx as (row & Hr & Hx). apply In_nth_error in Hr as (i & Hi). apply In_nth_error in Hx as (j & Hj).
  exists i, j. destruct I as (I1 & I2). assert (i < length m)%nat by (apply nth_error_Some; congruence). assert (j < length row)%nat by (apply nth_error_Some; congruence).
  rewrite Forall_forall in I2. assert (length row = w) by (apply I2; eapply nth_error_In; exact Hi). split; [lia|]. split; [lia|].
  unfold mask_at. rewrite (nth_error_nth _ _ _ Hi), (nth_error_nth _ _ _ Hj). destruct (Rltb_spec t x); [assumption|discriminate].
Qed.
Lemma above_tight t m h w : is_mask m h w -> (0 < h)%nat -> two_above t m ->
  exists x0 x1 y0 y1, bounds_1d (column_sums (above t m)) = Ok (x0, x1) /\ bounds_1d (row_sums (above t m)) = Ok (y0, y1) /\
    (x0 < x1 <= w)%nat /\ (y0 < y1 <= h)%nat /\ tight x0 y0 (x1 - x0) (y1 - y0) (marked t m h w).
Proof.
  intros I Hh T. destruct (some_marked t m h w I T) as (i & j & M). assert (Hi : (i < h)%nat) by apply M. assert (Hj : (j < w)%nat) by (destruct M as (_ & M & _); exact M).
  assert (Lc : length (column_sums (above t m)) = w) by (unfold column_sums; rewrite map_length, seq_length; apply (mask_width _ h w (above_mask t m h w I) Hh)).
  assert (Lr : length (row_sums (above t m)) = h) by (unfold row_sums, above; rewrite !map_length; apply I).
  destruct (bounds_defined (column_sums (above t m)) j ltac:(lia) (proj2 (column_sum_marked t m h w j I Hh Hj) (ex_intro _ i M))) as (x0 & x1 & Ex).
  destruct (bounds_defined (row_sums (above t m)) i ltac:(lia) (proj2 (row_sum_marked t m h w i I Hi) (ex_intro _ j M))) as (y0 & y1 & Ey).
  exists x0, x1, y0, y1. split; [exact Ex|]. split; [exact Ey|].
  destruct (bounds_ok _ _ _ Ex) as (A1 & A2 & A3 & A4 & A5 & A6). destruct (bounds_ok _ _ _ Ey) as (B1 & B2 & B3 & B4 & B5 & B6). rewrite Lc in *. rewrite Lr in *.
  split; [lia|]. split; [lia|]. split.
  - intros i' j' M'. assert (Hi' : (i' < h)%nat) by apply M'. assert (Hj' : (j' < w)%nat) by (destruct M' as (_ & M' & _); exact M').
    assert (y0 <= i' < y1)%nat by (apply B6; [exact Hi'|]; apply (row_sum_marked t m h w i' I Hi'); eauto).
    assert (x0 <= j' < x1)%nat by (apply A6; [exact Hj'|]; apply (column_sum_marked t m h w j' I Hh Hj'); eauto). lia.
  - replace (x0 + (x1 - x0) - 1)%nat with (x1 - 1)%nat by lia. replace (y0 + (y1 - y0) - 1)%nat with (y1 - 1)%nat by lia.
    split; [apply (column_sum_marked t m h w x0 I Hh ltac:(lia)); exact A4|]. split; [apply (column_sum_marked t m h w (x1 - 1) I Hh ltac:(lia)); exact A5|].
    split; [apply (row_sum_marked t m h w y0 I ltac:(lia)); exact B4|apply (row_sum_marked t m h w (y1 - 1) I ltac:(lia)); exact B5].
Qed.
Lemma nonneg_mask m : all_nonneg m = true -> Forall (fun x => 0 <= x) (concat m).
Proof.
  intros H. unfold all_nonneg in H. rewrite forallb_forall in H. apply Forall_forall. intros x Hx. apply in_concat in Hx as (row & Hr & Hx).
  specialize (H row Hr). rewrite forallb_forall in H. specialize (H x Hx). destruct (Rleb_spec 0 x); [assumption|discriminate].
Qed.
Lemma mask_box mask h w thr q : is_mask mask h w -> (2 <= h * w)%nat -> 0 < q -> all_nonneg mask = true ->
  exists n, forall fuel, (n <= fuel)%nat -> exists k x0 y0 bw bh, get_bbox_from_mask fuel mask thr q = Ok (x0, y0, bw, bh) /\
    two_above (thr - INR k * q) mask /\ (forall k', (k' < k)%nat -> ~ two_above (thr - INR k' * q) mask) /\
    (x0 + bw <= w)%nat /\ (y0 + bh <= h)%nat /\ tight x0 y0 bw bh (marked (thr - INR k * q) mask h w).
Proof.
  intros I Hs Hq Hn. assert (Hh : (0 < h)%nat) by (destruct h; cbn in Hs; lia).
  destruct (loop_stops mask q Hq (nonneg_mask _ Hn) ltac:(rewrite (concat_len _ _ _ I); lia) thr) as (n & Hn').
  exists n. intros fuel Hf. destruct (Hn' fuel Hf) as (m & Em). destruct (loop_ok _ _ _ _ _ Em) as (k & -> & T & Before).
  destruct (above_tight _ mask h w I Hh T) as (x0 & x1 & y0 & y1 & E1 & E2 & L1 & L2 & Ti).
  exists k, x0, y0, (x1 - x0)%nat, (y1 - y0)%nat. split.
  - unfold get_bbox_from_mask. rewrite (mask_width _ _ _ I Hh). destruct I as (I1 & _). rewrite I1. destruct (Nat.eqb_spec (h * w) 0); [lia|].
    rewrite Hn, Em. cbn [rbind]. rewrite E1. cbn [rbind]. rewrite E2. reflexivity.
  - split; [exact T|]. split; [exact Before|]. split; [lia|]. split; [lia|]. exact Ti.
Qed.
Lemma mask_box_single fuel x thr q : get_bbox_from_mask fuel [[x]] thr q = Fail EFuel.
Proof.
  unfold get_bbox_from_mask. cbn [length width Nat.mul Nat.eqb Nat.add]. destruct (all_nonneg [[x]]); cbn [map]; rewrite loop_single; reflexivity.
Qed.
