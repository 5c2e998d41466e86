From Verif Require Import Base BitMask BitMaskSpec.

Lemma clear_loop_in i0 step total fuel : forall i, In i (clear_loop i0 step total fuel) -> i < total.
Proof.
  revert i0; induction fuel as [|f IH]; intros i0 i H; [destruct H|]. cbn [clear_loop] in H.
  destruct (Nat.ltb_spec i0 total); [|destruct H]. destruct H as [<-|H]; [assumption|]. eapply IH; eauto.
Qed.
Lemma clear_loop_hits step total (Hs : 1 <= step) fuel : forall i0 q, i0 + q * step < total -> q < fuel ->
  In (i0 + q * step) (clear_loop i0 step total fuel).
Proof.
  induction fuel as [|f IH]; intros i0 q H Hq; [lia|]. cbn [clear_loop].
  destruct (Nat.ltb_spec i0 total); [|nia]. destruct q as [|q]; [left; lia|right].
  replace (i0 + S q * step) with (i0 + step + q * step) by lia. apply IH; [|lia]. cbn in H. lia.
Qed.
Lemma clear_covers nt total i : 1 <= nt -> i < total -> In i (clear_trace nt total).
Proof.
  intros Hn Hi. unfold clear_trace. apply in_concat. exists (clear_cells (i mod nt) nt total). split.
  - apply in_map_iff. exists (i mod nt). split; [reflexivity|]. apply in_seq. assert (i mod nt < nt) by (apply Nat.mod_upper_bound; lia). lia.
  - unfold clear_cells. assert (E := Nat.div_mod i nt ltac:(lia)).
    replace i with (i mod nt + i / nt * nt) at 1 by lia. apply clear_loop_hits; [assumption|lia|].
    assert (i / nt <= i) by (apply Nat.div_le_upper_bound; nia). lia.
Qed.
Lemma clear_bounded nt total i : In i (clear_trace nt total) -> i < total.
Proof.
  unfold clear_trace. intros H. apply in_concat in H. destruct H as [l [H1 H2]]. apply in_map_iff in H1.
  destruct H1 as [t [<- _]]. eapply clear_loop_in; eauto.
Qed.

Lemma run_clear_ok trace : forall data, (forall i, In i trace -> i < length data) ->
  exists d0, run_clear trace data = Ok d0 /\ length d0 = length data /\
    (forall i, In i trace -> nth_error d0 i = Some 0%N) /\
    (forall i, ~ In i trace -> nth_error d0 i = nth_error data i).
Proof.
  induction trace as [|i tr IH]; intros data Hb.
  - exists data. cbn. repeat split; auto. intros i [].
  - destruct (upd_ok data i 0%N) as [d1 E1]; [apply Hb; left; reflexivity|].
    assert (L1 := upd_length _ _ _ _ E1).
    destruct (IH d1) as [d0 [E0 [L0 [Z0 U0]]]]. { intros j Hj. rewrite L1. apply Hb. right; assumption. }
    exists d0. unfold run_clear in *. cbn [rfold]. rewrite E1. cbn [rbind]. rewrite E0. split; [reflexivity|].
    split; [lia|]. split.
    + intros j Hj. destruct (in_dec Nat.eq_dec j tr) as [I|NI]; [auto|]. destruct Hj as [<-|Hj]; [|contradiction].
      rewrite U0 by assumption. eapply upd_same; eauto.
    + intros j Hj. rewrite U0 by (intros X; apply Hj; right; assumption).
      apply (upd_other _ _ _ _ _ E1). intros ->. apply Hj. left; reflexivity.
Qed.

Section M.
Variables (H W N : nat).
Hypothesis HN : N mod B = 0.
Let D := words N.
Lemma ND : N = D * B.
Proof. unfold D, words. assert (E := Nat.div_mod N B ltac:(unfold B; lia)). lia. Qed.
Lemma d_word d : d < N -> d / B < D.
Proof. intros Hd. apply Nat.div_lt_upper_bound; [unfold B; lia|]. rewrite ND in Hd. lia. Qed.
Lemma elem_lt y x d : y < H -> x < W -> d < N -> elem_idx W D y x d < H * W * D.
Proof.
  intros Hy Hx Hd. assert (Hq := d_word d Hd). unfold elem_idx.
  assert (y * W + x + 1 <= H * W) by nia. nia.
Qed.
Lemma pair_inj a b q r D' : q < D' -> r < D' -> a * D' + q = b * D' + r -> a = b /\ q = r.
Proof. intros Hq Hr E. assert (a = b) by nia. subst. split; [reflexivity|lia]. Qed.
Lemma elem_inj y x d y' x' d' : x < W -> x' < W -> d < N -> d' < N ->
  elem_idx W D y x d = elem_idx W D y' x' d' -> y = y' /\ x = x' /\ d / B = d' / B.
Proof.
  intros Hx Hx' Hd Hd' E. unfold elem_idx in E.
  assert (E' : (y * W + x) * D + d / B = (y' * W + x') * D + d' / B) by lia.
  apply pair_inj in E'; try (apply d_word; assumption). destruct E' as [E1 E2].
  apply pair_inj in E1; try assumption. tauto.
Qed.

(* data represents the bit function f *)
Definition reps (data : list BinNums.N) (f : nat -> nat -> nat -> bool) : Prop :=
  H * W * D <= length data /\
  forall y x d, y < H -> x < W -> d < N ->
    exists w, nth_error data (elem_idx W D y x d) = Some w /\ N.testbit w (bit_idx d) = f y x d.

Lemma bit_lt d : (bit_idx d < 32)%N.
Proof. unfold bit_idx. assert (d mod B < 32) by (apply Nat.mod_upper_bound; unfold B; lia). lia. Qed.
Lemma bit_inj d d' : d / B = d' / B -> bit_idx d = bit_idx d' -> d = d'.
Proof.
  unfold bit_idx. intros E1 E2. assert (E3 : d mod B = d' mod B) by lia.
  rewrite (Nat.div_mod d B), (Nat.div_mod d' B) by (unfold B; lia). rewrite E1, E3. reflexivity.
Qed.

Lemma testbit_1 b i : N.testbit (N.shiftl 1 b) i = (b =? i)%N.
Proof. rewrite N.shiftl_1_l. apply N.pow2_bits_eqb. Qed.

Definition step_bit (f : nat -> nat -> nat -> bool) (o : bop) : nat -> nat -> nat -> bool :=
  fun y x d => match o with
    | BSet y' x' d' => if touches y x d y' x' d' then true else f y x d
    | BUnset y' x' d' => if touches y x d y' x' d' then false else f y x d
    end.

Lemma touches_refl y x d : touches y x d y x d = true.
Proof. unfold touches. rewrite !Nat.eqb_refl. reflexivity. Qed.
Lemma touches_neq y x d y' x' d' : ~ (y = y' /\ x = x' /\ d = d') -> touches y x d y' x' d' = false.
Proof. unfold touches. destruct (Nat.eqb_spec y y'), (Nat.eqb_spec x x'), (Nat.eqb_spec d d'); cbn; tauto. Qed.

Lemma op_ok data f o : reps data f -> in_mask H W N o ->
  exists data', bm_op W D data o = Ok data' /\ reps data' (step_bit f o) /\ length data' = length data /\
    (forall j, H * W * D <= j -> nth_error data' j = nth_error data j).
Proof.
  intros [HL HR] HI.
  assert (G : forall y x d (g : BinNums.N -> BinNums.N) v, y < H -> x < W -> d < N ->
     (forall w, N.testbit (g w) (bit_idx d) = v) ->
     (forall w i, (i < 32)%N -> i <> bit_idx d -> N.testbit (g w) i = N.testbit w i) ->
     exists data', (w <- rget data (elem_idx W D y x d) ;; upd data (elem_idx W D y x d) (g w)) = Ok data' /\
       reps data' (fun y' x' d' => if touches y' x' d' y x d then v else f y' x' d') /\ length data' = length data /\
    (forall j, H * W * D <= j -> nth_error data' j = nth_error data j)).
  { intros y x d g v Hy Hx Hd Hg1 Hg2. destruct (HR y x d Hy Hx Hd) as [w [Ew _]].
    unfold rget. rewrite Ew. cbn [rbind]. assert (Le := elem_lt y x d Hy Hx Hd).
    destruct (upd_ok data (elem_idx W D y x d) (g w)) as [data' E']; [lia|].
    exists data'. assert (L' := upd_length _ _ _ _ E'). split; [assumption|]. split; [|split; [assumption|]].
    2:{ intros j Hj. apply (upd_other _ _ _ _ _ E'). lia. }
    split; [lia|]. intros y' x' d' Hy' Hx' Hd'.
    destruct (Nat.eq_dec (elem_idx W D y x d) (elem_idx W D y' x' d')) as [E|NE].
    - exists (g w). split; [rewrite <- E; eapply upd_same; eauto|].
      apply elem_inj in E; try assumption. destruct E as [<- [<- Eq]].
      destruct (N.eq_dec (bit_idx d') (bit_idx d)) as [Eb|Nb].
      + assert (d' = d) by (apply bit_inj; congruence). subst d'. rewrite Hg1, touches_refl. reflexivity.
      + rewrite touches_neq by (intros [_ [_ ->]]; congruence).
        rewrite Hg2 by (try apply bit_lt; assumption).
        destruct (HR y x d' Hy Hx Hd') as [w' [Ew' <-]].
        replace (elem_idx W D y x d') with (elem_idx W D y x d) in Ew' by (unfold elem_idx; rewrite Eq; reflexivity).
        rewrite Ew in Ew'. injection Ew' as ->. reflexivity.
    - rewrite (upd_other _ _ _ _ _ E' NE), touches_neq by (intros [-> [-> ->]]; congruence). apply HR; assumption. }
  destruct o as [y x d|y x d]; cbn [in_mask] in HI; destruct HI as [Hy [Hx Hd]]; cbn [bm_op step_bit].
  - apply G; auto.
    + intros w. rewrite N.lor_spec, testbit_1, N.eqb_refl. apply orb_true_r.
    + intros w i Hi Hne. rewrite N.lor_spec, testbit_1. destruct (N.eqb_spec (bit_idx d) i); [congruence|]. apply orb_false_r.
  - apply G; auto.
    + intros w. rewrite N.land_spec, N.lnot_spec_low by apply bit_lt. rewrite testbit_1, N.eqb_refl. apply andb_false_r.
    + intros w i Hi Hne. rewrite N.land_spec, N.lnot_spec_low by assumption. rewrite testbit_1.
      destruct (N.eqb_spec (bit_idx d) i); [congruence|]. apply andb_true_r.
Qed.

Lemma reps_ext data f g : (forall y x d, f y x d = g y x d) -> reps data f -> reps data g.
Proof. intros E [HL HR]. split; [assumption|]. intros y x d Hy Hx Hd. rewrite <- E. auto. Qed.

Lemma run_ok ops : forall data f, reps data f -> Forall (in_mask H W N) ops ->
  exists data', bm_run W D data ops = Ok data' /\
    reps data' (fun y x d => fold_left (fun b o => step_bit (fun _ _ _ => b) o y x d) ops (f y x d)) /\
    (forall j, H * W * D <= j -> nth_error data' j = nth_error data j).
Proof.
  induction ops as [|o ops IH]; intros data f HR HF.
  - exists data. cbn. auto.
  - inversion HF as [|? ? Ho HF']; subst. destruct (op_ok data f o HR Ho) as [d1 [E1 [R1 [L1 U1]]]].
    destruct (IH d1 _ R1 HF') as [d2 [E2 [R2 U2]]]. exists d2. unfold bm_run in *. cbn [rfold]. rewrite E1. cbn [rbind].
    split; [assumption|]. split.
    + eapply reps_ext; [|exact R2]. intros y x d. cbn [fold_left]. f_equal.
    + intros j Hj. rewrite U2, U1 by assumption. reflexivity.
Qed.

Lemma get_ok data f y x d : reps data f -> y < H -> x < W -> d < N -> bm_get W D data y x d = Ok (f y x d).
Proof.
  intros [_ HR] Hy Hx Hd. destruct (HR y x d Hy Hx Hd) as [w [Ew <-]]. unfold bm_get, rget. rewrite Ew. cbn [rbind].
  rewrite N.land_spec, N.shiftr_spec by apply N.le_0_l. rewrite N.add_0_l. cbn. rewrite andb_true_r. reflexivity.
Qed.

Lemma count_if_app {A} (p : A -> bool) l m : count_if p (l ++ m) = count_if p l + count_if p m.
Proof. unfold count_if. rewrite filter_app, app_length. reflexivity. Qed.
Lemma count_if_map {A C} (g : A -> C) p l : count_if p (map g l) = count_if (fun a => p (g a)) l.
Proof. induction l as [|a l IH]; [reflexivity|]. unfold count_if in *. cbn. destruct (p (g a)); cbn; rewrite IH; reflexivity. Qed.
Lemma count_if_ext {A} (p q : A -> bool) l : (forall a, In a l -> p a = q a) -> count_if p l = count_if q l.
Proof.
  intros E. induction l as [|a l IH]; [reflexivity|]. unfold count_if in *. cbn. rewrite E by (left; reflexivity).
  destruct (q a); cbn; rewrite IH by (intros; apply E; right; assumption); reflexivity.
Qed.

Lemma count_ok data f y x : reps data f -> y < H -> x < W -> bm_count W D data y x = Ok (count_if (f y x) (seq 0 N)).
Proof.
  intros [HL HR] Hy Hx. unfold bm_count.
  destruct (rfold_seq_inv (fun total i => w <- rget data (y * W * D + x * D + i) ;; Ok (total + popc w))
    (fun k total => total = count_if (f y x) (seq 0 (k * B))) D 0 0) as [t [E I]].
  - reflexivity.
  - intros k t Hk It.
    assert (HdB : forall i, i < B -> k * B + i < N) by (intros; rewrite ND; nia).
    assert (Hk32 : forall i, i < B -> (k * B + i) / B = k).
    { intros i Hi. rewrite Nat.add_comm, Nat.div_add by (unfold B; lia). rewrite Nat.div_small by assumption. reflexivity. }
    assert (Hm32 : forall i, i < B -> (k * B + i) mod B = i).
    { intros i Hi. rewrite Nat.add_comm, Nat.mod_add by (unfold B; lia). apply Nat.mod_small; assumption. }
    assert (HW0 : exists w, nth_error data (y * W * D + x * D + k) = Some w /\
       forall i, i < B -> N.testbit w (N.of_nat i) = f y x (k * B + i)).
    { destruct (HR y x (k * B + 0) Hy Hx (HdB 0 ltac:(unfold B; lia))) as [w [Ew _]].
      unfold elem_idx in Ew. rewrite Hk32 in Ew by (unfold B; lia).
      exists w. split; [assumption|]. intros i Hi.
      destruct (HR y x (k * B + i) Hy Hx (HdB i Hi)) as [w' [Ew' <-]].
      unfold elem_idx in Ew'. rewrite Hk32 in Ew' by assumption. rewrite Ew in Ew'. injection Ew' as ->.
      unfold bit_idx. rewrite Hm32 by assumption. reflexivity. }
    destruct HW0 as [w [Ew Hw]]. unfold rget. rewrite Ew. cbn [rbind]. eexists. split; [reflexivity|].
    rewrite It. replace (S k * B) with (k * B + B) by lia. rewrite seq_app, count_if_app. f_equal.
    unfold popc. change 32 with B.
    replace (seq (0 + k * B) B) with (map (fun i => k * B + i) (seq 0 B)).
    + rewrite count_if_map. apply count_if_ext. intros i Hi. apply in_seq in Hi. apply Hw. lia.
    + assert (G : forall b n a, map (fun i => b + i) (seq a n) = seq (b + a) n).
      { clear. intros b n. induction n as [|n IH]; intros a; cbn; [reflexivity|]. f_equal. rewrite IH. f_equal. lia. }
      rewrite G. f_equal. lia.
  - cbn [Nat.add] in I. rewrite E, I, <- ND. reflexivity.
Qed.

Lemma bitmask_correct nthreads data trace ops :
  1 <= nthreads -> H * W * D <= length data -> Permutation trace (clear_trace nthreads (H * W * D)) ->
  Forall (in_mask H W N) ops ->
  exists d0 d1, run_clear trace data = Ok d0 /\ bm_run W D d0 ops = Ok d1 /\
    (forall y x d, y < H -> x < W -> d < N -> bm_get W D d1 y x d = Ok (bit_after ops y x d)) /\
    (forall y x, y < H -> x < W -> bm_count W D d1 y x = Ok (count_if (bit_after ops y x) (seq 0 N))) /\
    (forall j, H * W * D <= j -> nth_error d1 j = nth_error data j).
Proof.
  intros Hn HL HP HF.
  assert (TB : forall i, In i trace <-> i < H * W * D).
  { intros i. split; intros X.
    - apply (Permutation_in _ HP) in X. eapply clear_bounded; eauto.
    - apply (Permutation_in _ (Permutation_sym HP)). apply clear_covers; assumption. }
  destruct (run_clear_ok trace data) as [d0 [E0 [L0 [Z0 U0]]]]. { intros i Hi. apply TB in Hi. lia. }
  assert (R0 : reps d0 (fun _ _ _ => false)).
  { split; [lia|]. intros y x d Hy Hx Hd. exists 0%N. split; [|apply N.bits_0]. apply Z0, TB, elem_lt; assumption. }
  destruct (run_ok ops d0 _ R0 HF) as [d1 [E1 [R1 U1]]].
  exists d0, d1. split; [assumption|]. split; [assumption|].
  assert (R2 : reps d1 (bit_after ops)).
  { eapply reps_ext; [|exact R1]. intros y x d. reflexivity. }
  split; [intros; apply get_ok; assumption|]. split; [intros; apply count_ok; assumption|].
  intros j Hj. rewrite U1 by assumption. apply U0. rewrite TB. lia.
Qed.
End M.
