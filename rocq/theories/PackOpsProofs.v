From Coq Require Import Reals Lra.
From Verif Require Import Base Packing PackingSpec PackingProofs.
Local Open Scope nat_scope.

Lemma upd_mid {A} (pre : list A) a post v : upd (pre ++ a :: post) (length pre) v = Ok (pre ++ v :: post).
Proof. induction pre as [|b pre IH]; cbn; [reflexivity|]. rewrite IH. reflexivity. Qed.

Lemma rget_mid {A} (pre : list A) a post : rget (pre ++ a :: post) (length pre) = Ok a.
Proof. unfold rget. rewrite nth_error_app2 by lia. rewrite Nat.sub_diag. reflexivity. Qed.

Lemma rget_at {A} (l : list A) i a : nth_error l i = Some a -> rget l i = Ok a.
Proof. unfold rget; intros ->; reflexivity. Qed.

(* inner loop of PackedToPaddedCpu *)
Lemma fill_row {A} (packed : list A) start (zero : A) maxs b (pre post : list (list A)) e2 :
  length pre = b ->
  forall e1, length e1 + length e2 <= maxs ->
  (forall i, i < length e2 -> nth_error packed (start + (length e1 + i)) = nth_error e2 i) ->
  rfold (fun padded i =>
          v <- rget packed (start + i) ;;
          row <- rget padded b ;;
          row' <- upd row i v ;;
          upd padded b row') (seq (length e1) (length e2))
        (pre ++ (e1 ++ repeat zero (maxs - length e1)) :: post)
  = Ok (pre ++ (e1 ++ e2 ++ repeat zero (maxs - length e1 - length e2)) :: post).
Proof.
  intros Hb. subst b. induction e2 as [|v e2 IH]; intros e1 Hl Hn.
  - cbn. rewrite Nat.sub_0_r. reflexivity.
  - cbn [length seq rfold]. cbn in Hl.
    rewrite (rget_at packed _ v).
    2:{ specialize (Hn 0). cbn in Hn. rewrite Nat.add_0_r in Hn. apply Hn; lia. }
    cbn [rbind]. rewrite rget_mid. cbn [rbind].
    replace (maxs - length e1) with (S (maxs - length e1 - 1)) by lia.
    cbn [repeat]. rewrite upd_mid. cbn [rbind]. rewrite upd_mid. cbn [rbind].
    specialize (IH (e1 ++ [v])). rewrite app_length in IH. cbn [length] in IH.
    replace (S (length e1)) with (length e1 + 1) by lia.
    rewrite <- app_assoc in IH. cbn [app] in IH.
    replace (maxs - (length e1 + 1)) with (maxs - length e1 - 1) in IH by lia.
    rewrite IH.
    + f_equal. f_equal. f_equal. rewrite <- app_assoc. cbn [app]. repeat f_equal; lia.
    + lia.
    + intros i Hi. replace (start + (length e1 + 1 + i)) with (start + (length e1 + S i)) by lia.
      apply (Hn (S i)). cbn; lia.
Qed.

Lemma firsts_app acc l1 l2 : firsts acc (l1 ++ l2) = firsts acc l1 ++ firsts (acc + sum_nat l1) l2.
Proof.
  revert acc; induction l1 as [|a l1 IH]; intros acc; cbn.
  - unfold sum_nat; cbn. rewrite Nat.add_0_r. reflexivity.
  - rewrite IH. unfold sum_nat; cbn. rewrite Nat.add_assoc. reflexivity.
Qed.

(* the half-open range of an element, given the split of the batch around it *)
Lemma elem_range_at {A} (ys : list (list A)) e zs :
  elem_range (firsts 0 (map (@length A) (ys ++ e :: zs))) (length (ys ++ e :: zs))
             (length (concat (ys ++ e :: zs))) (length ys)
  = Ok (Z.of_nat (length (concat ys)), Z.of_nat (length (concat ys) + length e)).
Proof.
  unfold elem_range. rewrite map_app, firsts_app. cbn [map].
  rewrite Nat.add_0_l, <- length_concat_sum.
  assert (H0 : rget (firsts 0 (map (@length A) ys) ++
     firsts (length (concat ys)) (length e :: map (@length A) zs)) (length ys) = Ok (length (concat ys))).
  { apply rget_at. rewrite nth_error_app2 by (rewrite firsts_length, map_length; lia).
    rewrite firsts_length, map_length, Nat.sub_diag. reflexivity. }
  rewrite H0. cbn [rbind].
  destruct zs as [|z zs].
  - rewrite app_length. cbn [length]. rewrite Nat.ltb_irrefl. cbn [rbind].
    rewrite concat_app, app_length. cbn [concat]. rewrite app_nil_r. reflexivity.
  - rewrite app_length. cbn [length].
    destruct (length ys + 1 <? length ys + S (S (length zs))) eqn:E; [|lia].
    rewrite (rget_at _ _ (length (concat ys) + length e)); [reflexivity|].
    rewrite nth_error_app2 by (rewrite firsts_length, map_length; lia).
    rewrite firsts_length, map_length. replace (length ys + 1 - length ys) with 1 by lia. reflexivity.
Qed.

Definition pad_all {A} (zero : A) M (xs : list (list A)) := map (pad_rows zero M) xs.

Lemma packed_to_padded_cpu_spec {A} (zero : A) M (xs : list (list A)) :
  Forall (fun e => length e <= M) xs ->
  packed_to_padded_cpu zero (concat xs) (firsts 0 (map (@length A) xs)) M = Ok (pad_all zero M xs).
Proof.
  intros HM. unfold packed_to_padded_cpu. cbv zeta. rewrite firsts_length, map_length.
  assert (G : forall zs ys, xs = ys ++ zs ->
    rfold (fun padded b =>
      rng <- elem_range (firsts 0 (map (@length A) xs)) (length xs) (length (concat xs)) b ;;
      rfold (fun padded i =>
          v <- rget (concat xs) (Z.to_nat (fst rng) + i) ;;
          row <- rget padded b ;;
          row' <- upd row i v ;;
          upd padded b row') (seq 0 (Z.to_nat (snd rng - fst rng))) padded)
    (seq (length ys) (length zs)) (pad_all zero M ys ++ repeat (repeat zero M) (length zs))
    = Ok (pad_all zero M xs)).
  { induction zs as [|e zs IH]; intros ys E.
    - cbn. rewrite app_nil_r in *. subst. reflexivity.
    - cbn [length seq rfold repeat].
      rewrite E. rewrite elem_range_at. rewrite <- E. cbn [rbind fst snd].
      rewrite Nat2Z.id.
      replace (Z.to_nat (Z.of_nat (length (concat ys) + length e) - Z.of_nat (length (concat ys))))
        with (length e) by lia.
      assert (He : length e <= M).
      { rewrite Forall_forall in HM. apply HM. rewrite E. apply in_or_app; right; left; reflexivity. }
      assert (F := fill_row (concat xs) (length (concat ys)) zero M (length ys)
                     (pad_all zero M ys) (repeat (repeat zero M) (length zs)) e).
      specialize (F (map_length _ _) []). cbn [length app] in F.
      rewrite Nat.sub_0_r in F. rewrite F.
      + cbn [rbind]. specialize (IH (ys ++ [e])).
        rewrite app_length in IH. cbn [length] in IH. rewrite Nat.add_1_r in IH.
        rewrite <- IH by (rewrite <- app_assoc; assumption).
        unfold pad_all. rewrite map_app. cbn [map]. rewrite <- app_assoc. cbn [app]. reflexivity.
      + lia.
      + intros i Hi. rewrite E, concat_app, Nat.add_0_l, nth_error_app_r. cbn [concat].
        apply nth_error_app_l; assumption. }
  specialize (G xs [] eq_refl). cbn [length pad_all map app] in G. exact G.
Qed.

(* inner loop of PaddedToPackedCpu *)
Lemma fill_packed {A} (padded : list (list A)) b row (zero : A) (done rest : list A) :
  rget padded b = Ok row ->
  forall n k, (forall i, i < n -> exists v, nth_error row (k + i) = Some v) ->
  n <= length rest ->
  rfold (fun packed i =>
          row <- rget padded b ;;
          v <- rget row i ;;
          upd packed (length done + i) v) (seq k n)
        (done ++ firstn k row ++ rest) = Ok (done ++ firstn (k + n) row ++ skipn n rest).
Proof.
  intros Hr n. revert rest. induction n as [|n IH]; intros rest k Hv Hn.
  - cbn. rewrite Nat.add_0_r. reflexivity.
  - cbn [seq rfold]. rewrite Hr. cbn [rbind].
    destruct (Hv 0) as [v Ev]; [lia|]. rewrite Nat.add_0_r in Ev.
    rewrite (rget_at _ _ _ Ev). cbn [rbind].
    destruct rest as [|r0 rest]; [cbn in Hn; lia|].
    assert (Hk : length (firstn k row) = k).
    { rewrite firstn_length. assert (k < length row) by (apply nth_error_Some; congruence). lia. }
    assert (HS : firstn (S k) row = firstn k row ++ [v]).
    { clear -Ev. revert k Ev. induction row as [|a row IH]; intros [|k] Ev; cbn in *; try discriminate.
      - injection Ev as ->. reflexivity.
      - f_equal. apply IH; assumption. }
    rewrite app_assoc.
    replace (length done + k) with (length (done ++ firstn k row)) by (rewrite app_length; lia).
    rewrite upd_mid. cbn [rbind skipn].
    specialize (IH rest (S k)). rewrite Hr in IH. cbn [rbind] in IH.
    replace (k + S n) with (S k + n) by lia. rewrite <- IH.
    + rewrite HS, <- !app_assoc. reflexivity.
    + intros i Hi. destruct (Hv (S i)) as [w Ew]; [lia|]. exists w. rewrite <- Ew. f_equal. lia.
    + cbn in Hn; lia.
Qed.

Lemma padded_to_packed_cpu_spec {A} (zero : A) (P : list (list A)) (sizes : list nat) :
  Forall2 (fun s row => s <= length row) sizes P ->
  padded_to_packed_cpu zero P (firsts 0 sizes) (sum_nat sizes)
  = Ok (concat (map (fun p => firstn (fst p) (snd p)) (combine sizes P))).
Proof.
  intros HF. unfold padded_to_packed_cpu. cbv zeta.
  set (xs := map (fun p => firstn (fst p) (snd p)) (combine sizes P)).
  assert (Hlen : length sizes = length P) by (eapply Forall2_length; eauto).
  assert (Hs : sizes = map (@length A) xs).
  { unfold xs. clear Hlen xs. induction HF; cbn; [reflexivity|]. rewrite firstn_length. f_equal; [lia|assumption]. }
  assert (HP : length P = length xs).
  { unfold xs. rewrite map_length, combine_length. lia. }
  assert (Hrow : forall ys e zs, xs = ys ++ e :: zs -> exists row, rget P (length ys) = Ok row /\ firstn (length e) row = e).
  { intros ys e zs E. assert (nth_error xs (length ys) = Some e).
    { rewrite E, nth_error_app2 by lia. rewrite Nat.sub_diag. reflexivity. }
    unfold xs in H. rewrite nth_error_map_iff in H.
    destruct (nth_error (combine sizes P) (length ys)) as [[s row]|] eqn:Ec; cbn in H; [|discriminate].
    injection H as H.
    assert (nth_error P (length ys) = Some row /\ s <= length row).
    { clear -HF Ec. revert Ec; generalize (length ys). induction HF; intros [|k] Ec; cbn in *; try discriminate.
      - injection Ec as -> ->. auto.
      - auto. }
    destruct H0 as [H0 H1]. exists row. split; [apply rget_at; assumption|].
    rewrite <- H at 1. rewrite firstn_length, Nat.min_l by assumption. assumption. }
  rewrite Hs, HP, <- length_concat_sum.
  assert (G : forall zs ys, xs = ys ++ zs ->
    rfold (fun packed b =>
      rng <- elem_range (firsts 0 (map (@length A) xs)) (length xs) (length (concat xs)) b ;;
      rfold (fun packed i =>
          row <- rget P b ;;
          v <- rget row i ;;
          upd packed (Z.to_nat (fst rng) + i) v) (seq 0 (Z.to_nat (snd rng - fst rng))) packed)
    (seq (length ys) (length zs)) (concat ys ++ repeat zero (length (concat zs))) = Ok (concat xs)).
  { induction zs as [|e zs IH]; intros ys E.
    - cbn. rewrite app_nil_r in *. subst xs. rewrite E. reflexivity.
    - cbn [length seq rfold]. rewrite E at 1 2 3. rewrite elem_range_at. cbn [rbind fst snd].
      rewrite Nat2Z.id.
      replace (Z.to_nat (Z.of_nat (length (concat ys) + length e) - Z.of_nat (length (concat ys))))
        with (length e) by lia.
      destruct (Hrow ys e zs E) as (row & Hr & Hf).
      assert (F := fill_packed P (length ys) row zero (concat ys) (repeat zero (length (concat (e :: zs)))) Hr (length e) 0).
      cbn [firstn app] in F. rewrite F.
      + cbn [rbind Nat.add]. rewrite Hf.
        specialize (IH (ys ++ [e])). rewrite app_length in IH. cbn [length] in IH. rewrite Nat.add_1_r in IH.
        rewrite <- IH by (rewrite <- app_assoc; assumption).
        f_equal. rewrite concat_app. cbn [concat]. rewrite app_nil_r, <- app_assoc. f_equal. f_equal.
        rewrite app_length. rewrite repeat_app, skipn_app, skipn_all2 by (rewrite repeat_length; lia).
        rewrite repeat_length, Nat.sub_diag. reflexivity.
      + intros i Hi. assert (i < length row) by (rewrite <- Hf in Hi; rewrite firstn_length in Hi; lia).
        destruct (nth_error row (0 + i)) eqn:En; [eauto|]. apply nth_error_None in En; lia.
      + rewrite repeat_length. cbn [concat]. rewrite app_length. lia. }
  specialize (G xs [] eq_refl). cbn [length concat app] in G. exact G.
Qed.

Lemma ops_roundtrip {A} (zero : A) M (xs : list (list A)) :
  Forall (fun e => length e <= M) xs ->
  exists P, packed_to_padded_cpu zero (concat xs) (firsts 0 (map (@length A) xs)) M = Ok P /\
    padded_to_packed_cpu zero P (firsts 0 (map (@length A) xs)) (length (concat xs)) = Ok (concat xs).
Proof.
  intros HM. exists (pad_all zero M xs). split; [apply packed_to_padded_cpu_spec; assumption|].
  rewrite length_concat_sum, padded_to_packed_cpu_spec.
  - f_equal. f_equal. unfold pad_all. rewrite combine_map2, map_map. cbn [fst snd].
    rewrite <- (map_id xs) at 2. apply map_ext. intros e. unfold pad_rows.
    rewrite firstn_app, firstn_all2 by lia. rewrite Nat.sub_diag. cbn. apply app_nil_r.
  - clear HM. induction xs; cbn; constructor; auto. unfold pad_rows; rewrite app_length; lia.
Qed.

(* ---- adjoint ---- *)
Local Open Scope R_scope.

Lemma rsum_app l m : rsum (l ++ m) = rsum l + rsum m.
Proof. induction l as [|a l IH]; cbn; unfold rsum in *; [lra|]. cbn. rewrite IH. lra. Qed.

Lemma inner_zeros D (l : list R) : inner (repeat 0 D) l = 0.
Proof.
  revert l. induction D as [|D IH]; intros [|a l]; try reflexivity.
  unfold inner in *; cbn. unfold rsum in *; cbn. rewrite IH. lra.
Qed.

Lemma combine_app_l {A B} (l1 l2 : list A) (m : list B) : (length l1 <= length m)%nat ->
  combine (l1 ++ l2) m = combine l1 (firstn (length l1) m) ++ combine l2 (skipn (length l1) m).
Proof.
  revert m; induction l1 as [|a l1 IH]; intros m H; cbn; [reflexivity|].
  destruct m as [|b m]; cbn in *; [lia|]. rewrite IH by lia. reflexivity.
Qed.

Lemma inner2_pad D M e g : (length e <= M)%nat -> length g = M ->
  inner2 (pad_rows (repeat 0 D) M e) g = inner2 e (firstn (length e) g).
Proof.
  intros H HG. unfold inner2, pad_rows. rewrite combine_app_l by lia.
  rewrite map_app, rsum_app.
  replace (rsum (map _ (combine (repeat _ _) _))) with 0; [lra|].
  generalize (skipn (length e) g). generalize (M - length e)%nat. intros n.
  induction n as [|n IH]; intros l; [reflexivity|]. destruct l as [|a l]; [reflexivity|].
  cbn [repeat combine map]. unfold rsum in *; cbn [fold_right fst snd]. rewrite <- IH, inner_zeros. lra.
Qed.

Lemma inner2_app a b c d : length a = length c -> inner2 (a ++ b) (c ++ d) = inner2 a c + inner2 b d.
Proof.
  intros H. unfold inner2. rewrite combine_app_l by (rewrite app_length; lia).
  rewrite firstn_app, skipn_app, H, firstn_all, skipn_all, Nat.sub_diag. cbn [firstn skipn].
  rewrite app_nil_r. cbn [app]. rewrite map_app, rsum_app. reflexivity.
Qed.

Lemma ops_adjoint D M (xs g : list (list (list R))) :
  Forall (fun e => (length e <= M)%nat) xs -> length g = length xs ->
  Forall (fun row => length row = M) g ->
  exists P gx,
    packed_to_padded_cpu (repeat 0 D) (concat xs) (firsts 0 (map (@length (list R)) xs)) M = Ok P /\
    padded_to_packed_cpu (repeat 0 D) g (firsts 0 (map (@length (list R)) xs)) (length (concat xs)) = Ok gx /\
    inner3 P g = inner2 (concat xs) gx.
Proof.
  intros HM HL HG. do 2 eexists. split; [apply packed_to_padded_cpu_spec; assumption|].
  split.
  { rewrite length_concat_sum. apply padded_to_packed_cpu_spec.
    clear D. revert g HL HG. induction HM as [|e xs He HM IH]; intros [|r g] HL HG; cbn in *; try lia; constructor.
    - inversion HG; subst. lia.
    - apply IH; [lia|]. inversion HG; assumption. }
  revert g HL HG. induction HM as [|e xs He HM IH]; intros [|r g] HL HG; cbn in HL; try lia.
  - reflexivity.
  - inversion HG; subst. cbn [map pad_all combine concat fst snd].
    unfold inner3 in *. cbn [combine map]. unfold rsum at 1. cbn [fold_right fst snd].
    rewrite inner2_pad by auto. rewrite inner2_app by (rewrite firstn_length; lia).
    fold (rsum (map (fun p => inner2 (fst p) (snd p)) (combine (map (pad_rows (repeat 0 D) (length r)) xs) g))).
    f_equal. apply IH; [lia|assumption].
Qed.

Local Close Scope R_scope.
Lemma firsts_starts sizes :
  firsts 0 sizes = map (fun j => sum_nat (firstn j sizes)) (seq 0 (length sizes)).
Proof.
  apply nth_error_ext_len.
  - rewrite firsts_length, map_length, seq_length. reflexivity.
  - intros i Hi. rewrite firsts_length in Hi. rewrite firsts_nth by assumption.
    rewrite nth_error_map_iff, nth_error_seq_lt by assumption. reflexivity.
Qed.

Lemma list_to_padded_full {A} n (xs : list (tensor A)) (v : A) : batch_of n xs ->
  exists p dims, list_to_padded xs None v false = Ok p /\ shape p = length xs :: dims /\
    length dims = n /\ largest_dims xs dims /\
    forall i y idx, nth_error xs i = Some y -> Forall2 lt idx dims ->
      get (data p) (i :: idx) = Some (match get (data y) idx with Some a => a | None => v end).
Proof.
  intros (Hn & Hw & Hd & Hne).
  exists (mk (length xs :: pad_dims n xs) (Dm (map (pad_row n xs v) xs))), (pad_dims n xs).
  split; [apply list_to_padded_eq; assumption|]. split; [reflexivity|].
  split; [unfold pad_dims, pad_dims_of; rewrite map_length, seq_length; reflexivity|].
  split.
  - intros k d Hk. unfold pad_dims, pad_dims_of in Hk. rewrite nth_error_map_iff in Hk.
    destruct (nth_error (seq 0 n) k) as [k'|] eqn:Ek; cbn in Hk; [|discriminate]. injection Hk as <-.
    assert (k < n) by (rewrite <- (seq_length n 0); apply nth_error_Some; congruence).
    rewrite nth_error_seq_lt in Ek by assumption. injection Ek as <-. cbn [Nat.add].
    split.
    + intros y Hy Hl. apply max_nat_ge. apply in_map_iff. exists y; split; [reflexivity|].
      apply filter_In; split; [assumption|]. destruct (len0 y); [lia|reflexivity].
    + destruct Hne as [y0 [Hy0 Hl0]].
      assert (Hi : In y0 (filter (fun y => negb (len0 y =? 0)) xs)).
      { apply filter_In; split; [assumption|]. destruct (len0 y0); [lia|reflexivity]. }
      assert (N : map (fun y => nth k (shape y) 0) (filter (fun y => negb (len0 y =? 0)) xs) <> []).
      { destruct (filter _ xs); [destruct Hi|discriminate]. }
      apply max_nat_in in N. apply in_map_iff in N as [y [E Hy]]. apply filter_In in Hy as [Hy Hl].
      exists y. split; [assumption|]. split; [lia|assumption].
  - intros i y idx Hi Hx. cbn [get data]. rewrite nth_error_map_iff, Hi. cbn [option_map].
    apply pad_row_get; auto. eapply nth_error_In; eauto.
Qed.

Lemma packed_to_list_sound {A} (x : list A) ss r : packed_to_list x ss = Ok r ->
  concat r = x /\ map (@length A) r = ss.
Proof.
  unfold packed_to_list. destruct (sum_nat ss =? length x) eqn:E; [|discriminate].
  intros H; injection H as <-. apply concat_split_sizes; lia.
Qed.

Lemma starts_firsts {A} (xs : list (list A)) : starts xs = firsts 0 (map (@length A) xs).
Proof. unfold starts. rewrite firsts_starts, map_length. reflexivity. Qed.

Lemma packed_to_padded_op {A} (zero : A) M (xs : list (list A)) :
  Forall (fun e => length e <= M) xs ->
  packed_to_padded_cpu zero (concat xs) (starts xs) M
  = Ok (map (fun e => e ++ repeat zero (M - length e)) xs).
Proof. rewrite starts_firsts. apply packed_to_padded_cpu_spec. Qed.

Lemma ops_roundtrip_starts {A} (zero : A) M (xs : list (list A)) :
  Forall (fun e => length e <= M) xs ->
  exists P, packed_to_padded_cpu zero (concat xs) (starts xs) M = Ok P /\
    padded_to_packed_cpu zero P (starts xs) (length (concat xs)) = Ok (concat xs).
Proof. rewrite starts_firsts. apply ops_roundtrip. Qed.

Lemma ops_adjoint_starts D M (xs g : list (list (list R))) :
  Forall (fun e => length e <= M) xs -> length g = length xs ->
  Forall (fun row => length row = M) g ->
  exists P gx,
    packed_to_padded_cpu (repeat 0%R D) (concat xs) (starts xs) M = Ok P /\
    padded_to_packed_cpu (repeat 0%R D) g (starts xs) (length (concat xs)) = Ok gx /\
    inner3 P g = inner2 (concat xs) gx.
Proof. rewrite starts_firsts. apply ops_adjoint. Qed.

