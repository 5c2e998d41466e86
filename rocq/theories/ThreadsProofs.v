From Verif Require Import Base Threads PackOpsProofs.
Local Open Scope Z_scope.

Lemma interleaving_perm {A} (ws : list (list A)) t :
  interleaving ws t -> Permutation t (concat ws).
Proof.
  induction 1 as [ws H|ws1 a w ws2 t H IH].
  - induction H as [|w ws Hw H IH]; cbn; [constructor|]. subst w. exact IH.
  - rewrite concat_app in *. cbn [concat app] in *.
    apply perm_trans with (a :: (concat ws1 ++ w ++ concat ws2)).
    + constructor. exact IH.
    + apply Permutation_middle.
Qed.

(* cells as naturals *)
Definition cells (n : nat) : list Z := map Z.of_nat (seq 0 n).

Lemma mapi_nth {A} (f : Z -> A -> A) l k i :
  nth_error (mapi_from k f l) i = option_map (f (Z.of_nat (k + i))) (nth_error l i).
Proof.
  revert k i; induction l as [|a l IH]; intros k [|i]; cbn; try reflexivity.
  - do 2 f_equal. lia.
  - rewrite IH. do 2 f_equal. lia.
Qed.

Lemma mapi_length {A} (f : Z -> A -> A) l k : length (mapi_from k f l) = length l.
Proof. revert k; induction l; intros; cbn; auto. Qed.

Lemma run_trace_spec {A} (f : Z -> A -> A) trace :
  forall mem, NoDup trace -> (forall k, In k trace -> 0 <= k < Z.of_nat (length mem)) ->
  exists mem', run_trace f trace mem = Ok mem' /\ length mem' = length mem /\
    forall i, nth_error mem' i =
      if in_dec Z.eq_dec (Z.of_nat i) trace then option_map (f (Z.of_nat i)) (nth_error mem i)
      else nth_error mem i.
Proof.
  unfold run_trace. induction trace as [|k t IH]; intros mem ND HB.
  - exists mem. repeat split.
  - inversion ND as [|x l Hk Ht]; subst. cbn [rfold].
    assert (Hk0 : 0 <= k < Z.of_nat (length mem)) by (apply HB; left; reflexivity).
    unfold step_cell at 1. destruct (k <? 0) eqn:E; [lia|].
    destruct (nth_error mem (Z.to_nat k)) as [a|] eqn:Ea.
    2:{ apply nth_error_None in Ea; lia. }
    rewrite (rget_at _ _ _ Ea). cbn [rbind].
    destruct (upd_ok mem (Z.to_nat k) (f k a)) as [m1 E1]; [lia|]. rewrite E1. cbn [rbind].
    assert (L1 := upd_length _ _ _ _ E1).
    destruct (IH m1 Ht) as (m2 & E2 & L2 & N2).
    { intros j Hj. rewrite L1. apply HB; right; assumption. }
    exists m2. split; [exact E2|]. split; [lia|]. intros i. rewrite N2.
    destruct (Z.eq_dec (Z.of_nat i) k) as [Ei|Ei].
    + destruct (in_dec Z.eq_dec (Z.of_nat i) t) as [Hi|Hi]; [congruence|].
      destruct (in_dec Z.eq_dec (Z.of_nat i) (k :: t)) as [Hj|Hj]; [|exfalso; apply Hj; left; auto].
      replace i with (Z.to_nat k) at 1 by lia. rewrite (upd_same _ _ _ _ E1).
      replace i with (Z.to_nat k) by lia. rewrite Ea. cbn. do 2 f_equal. lia.
    + assert (Ho : nth_error m1 i = nth_error mem i) by (eapply upd_other; [eassumption|lia]).
      rewrite Ho.
      destruct (in_dec Z.eq_dec (Z.of_nat i) t) as [Hi|Hi];
      destruct (in_dec Z.eq_dec (Z.of_nat i) (k :: t)) as [Hj|Hj]; try reflexivity.
      * exfalso; apply Hj; right; assumption.
      * exfalso; destruct Hj; [congruence|contradiction].
Qed.

Lemma cells_in n k : In k (cells n) <-> 0 <= k < Z.of_nat n.
Proof.
  unfold cells. rewrite in_map_iff. split.
  - intros [x [<- Hx]]. apply in_seq in Hx. lia.
  - intros H. exists (Z.to_nat k). split; [lia|]. apply in_seq. lia.
Qed.

Lemma cells_nodup n : NoDup (cells n).
Proof.
  unfold cells. apply FinFun.Injective_map_NoDup; [|apply seq_NoDup].
  intros a b; lia.
Qed.

Lemma run_trace_all {A} (f : Z -> A -> A) trace mem :
  Permutation trace (cells (length mem)) -> run_trace f trace mem = Ok (mapi_from 0 f mem).
Proof.
  intros P.
  assert (ND : NoDup trace) by (eapply Permutation_NoDup; [symmetry; exact P|apply cells_nodup]).
  destruct (run_trace_spec f trace mem ND) as (m & E & L & N).
  { intros k Hk. apply cells_in. eapply Permutation_in; eassumption. }
  rewrite E. f_equal. apply nth_error_ext_len.
  - rewrite mapi_length. assumption.
  - intros i Hi. rewrite N, mapi_nth.
    destruct (in_dec Z.eq_dec (Z.of_nat i) trace) as [Hin|Hin].
    + rewrite Nat.add_0_l. reflexivity.
    + exfalso; apply Hin. eapply Permutation_in; [symmetry; exact P|]. apply cells_in. lia.
Qed.

(* ---- ranges ---- *)

(* consecutive ranges *)
Definition zseq (s : Z) (n : nat) : list Z := map (fun k => s + Z.of_nat k) (seq 0 n).

Lemma zseq_app s a b : zseq s (a + b)%nat = zseq s a ++ zseq (s + Z.of_nat a) b.
Proof.
  unfold zseq. rewrite seq_app, map_app. f_equal. cbn [Nat.add].
  apply nth_error_ext. intros i. rewrite !nth_error_map_iff.
  destruct (lt_dec i b) as [H|H].
  - rewrite !nth_error_seq_lt by assumption. cbn. f_equal. lia.
  - rewrite !(proj2 (nth_error_None _ _)) by (rewrite seq_length; lia). reflexivity.
Qed.

Lemma pdf_worker_cells_zseq n r :
  pdf_worker_cells n r = zseq (fst r * n) (Z.to_nat ((snd r - fst r) * n)).
Proof. reflexivity. Qed.

Lemma range_rows_zseq r : range_rows r = zseq (fst r) (Z.to_nat (snd r - fst r)).
Proof. reflexivity. Qed.

Lemma pdf_thread_ranges_cells n_samples per : 0 <= n_samples -> 0 <= per -> forall n start,
  concat (map (pdf_worker_cells n_samples) (fst (pdf_thread_ranges n start per)))
  = zseq (start * n_samples) (Z.to_nat (Z.of_nat n * per * n_samples))
  /\ snd (pdf_thread_ranges n start per) = start + Z.of_nat n * per.
Proof.
  intros Hs Hp. induction n as [|n IH]; intros start.
  - cbn. split; [reflexivity|lia].
  - cbn [pdf_thread_ranges fst snd map concat]. destruct (IH (start + per)) as [I1 I2].
    rewrite I1, I2. split; [|lia].
    rewrite pdf_worker_cells_zseq. cbn [fst snd].
    replace (start + per - start) with per by lia.
    replace (Z.to_nat (Z.of_nat (S n) * per * n_samples))
      with (Z.to_nat (per * n_samples) + Z.to_nat (Z.of_nat n * per * n_samples))%nat by nia.
    rewrite zseq_app. f_equal. f_equal. nia.
Qed.

Lemma zseq_cells n : zseq 0 n = cells n.
Proof. unfold zseq, cells. apply map_ext. intros; lia. Qed.

Definition pdf_fits (num_threads batch_size : Z) : Prop :=
  let n := pdf_n_threads num_threads batch_size in
  (n - 1) * (1 + Z.quot (batch_size - 1) n) <= batch_size.

Lemma pdf_partition_gen num_threads batch n_samples :
  1 <= num_threads -> 1 <= batch -> 0 <= n_samples -> pdf_fits num_threads batch ->
  concat (map (pdf_worker_cells n_samples) (pdf_ranges num_threads batch))
  = cells (Z.to_nat (batch * n_samples)).
Proof.
  intros Ht Hb Hs Hf. unfold pdf_ranges, pdf_fits in *.
  destruct (batch =? 0) eqn:E; [lia|].
  set (n := pdf_n_threads num_threads batch) in *.
  set (per := 1 + Z.quot (batch - 1) n) in *.
  assert (Hn : 1 <= n) by (unfold n, pdf_n_threads; lia).
  assert (Hq : 0 <= Z.quot (batch - 1) n) by (apply Z.quot_pos; lia).
  rewrite map_app, concat_app. cbn [map concat]. rewrite app_nil_r.
  assert (Hp0 : 0 <= (n - 1) * per) by (apply Z.mul_nonneg_nonneg; lia).
  destruct (pdf_thread_ranges_cells n_samples per Hs ltac:(lia) (Z.to_nat (n - 1)) 0) as [C1 C2].
  rewrite C1, C2. rewrite Z2Nat.id by lia. rewrite Z.add_0_l, Z.mul_0_l.
  rewrite pdf_worker_cells_zseq. cbn [fst snd].
  rewrite <- (zseq_cells (Z.to_nat (batch * n_samples))).
  replace (Z.to_nat (batch * n_samples))
    with (Z.to_nat ((n - 1) * per * n_samples) + Z.to_nat ((batch - (n - 1) * per) * n_samples))%nat.
  2:{ rewrite <- Z2Nat.inj_add by (apply Z.mul_nonneg_nonneg; lia). f_equal. ring. }
  rewrite zseq_app. f_equal. f_equal.
  rewrite Z2Nat.id by (apply Z.mul_nonneg_nonneg; lia). lia.
Qed.

Lemma pdf_fits_iff num_threads batch : 1 <= num_threads -> 1 <= batch ->
  pdf_fits num_threads batch <-> ~ (batch = 5 /\ 4 <= num_threads).
Proof.
  intros Ht Hb. unfold pdf_fits, pdf_n_threads. cbv zeta.
  rewrite Z.quot_div_nonneg by lia.
  destruct (Z.min_spec 4 num_threads) as [[? ->]|[? ->]];
  match goal with |- context[Z.min ?a batch] => destruct (Z.min_spec a batch) as [[? ->]|[? ->]] end.
  - (* 4 threads *)
    assert (D := Z.div_mod (batch - 1) 4 ltac:(lia)).
    assert (M := Z.mod_pos_bound (batch - 1) 4 ltac:(lia)). lia.
  - rewrite (Z.div_small (batch - 1) batch) by lia. lia.
  - assert (num_threads = 1 \/ num_threads = 2 \/ num_threads = 3 \/ num_threads = 4) as [->|[->|[->| ->]]] by lia;
    match goal with |- context[(batch - 1) / ?k] =>
      assert (D := Z.div_mod (batch - 1) k ltac:(lia));
      assert (M := Z.mod_pos_bound (batch - 1) k ltac:(lia)) end; lia.
  - rewrite (Z.div_small (batch - 1) batch) by lia. lia.
Qed.

Lemma pdf_schedule {A} (f : Z -> A -> A) num_threads batch n_samples (mem : list A) trace :
  1 <= num_threads -> 0 <= batch -> 0 <= n_samples ->
  ~ (batch = 5 /\ 4 <= num_threads) ->
  Z.of_nat (length mem) = batch * n_samples ->
  interleaving (map (pdf_worker_cells n_samples) (pdf_ranges num_threads batch)) trace ->
  run_trace f trace mem = Ok (mapi_from 0 f mem).
Proof.
  intros Ht Hb Hs Hx Hm HI. apply run_trace_all. apply interleaving_perm in HI.
  destruct (Z.eq_dec batch 0) as [->|Hb0].
  - destruct mem; [|cbn in Hm; lia]. exact HI.
  - rewrite pdf_partition_gen in HI; try lia.
    + replace (length mem) with (Z.to_nat (batch * n_samples)) by lia. assumption.
    + apply pdf_fits_iff; lia.
Qed.

Lemma pdf_bad_cell n_samples num_threads : 1 <= n_samples -> 4 <= num_threads ->
  exists w k, In w (map (pdf_worker_cells n_samples) (pdf_ranges num_threads 5)) /\ In k w /\
     k >= 5 * n_samples.
Proof.
  intros Hs Hn. unfold pdf_ranges, pdf_n_threads. replace (Z.min (Z.min 4 num_threads) 5) with 4 by lia.
  exists (pdf_worker_cells n_samples (4, 6)), (5 * n_samples).
  split; [apply in_map; vm_compute; tauto|]. split; [|lia]. unfold pdf_worker_cells; cbn [fst snd].
  apply in_map_iff. exists (Z.to_nat n_samples). split; [lia|]. apply in_seq. lia.
Qed.

Lemma interleaving_seq {A} (ws : list (list A)) : interleaving ws (concat ws).
Proof.
  assert (G : forall done todo, Forall (fun w : list A => w = []) done ->
            interleaving (done ++ todo) (concat todo)).
  { intros done todo; revert done. induction todo as [|w todo IH]; intros done Hd.
    - rewrite app_nil_r. constructor. assumption.
    - induction w as [|a w IHw].
      + cbn. specialize (IH (done ++ [[]])). rewrite <- app_assoc in IH. cbn in IH. apply IH.
        apply Forall_app; split; [assumption|repeat constructor].
      + cbn. constructor. exact IHw. }
  apply (G [] ws). constructor.
Qed.

Lemma run_trace_oob {A} (f : Z -> A -> A) trace (mem : list A) k :
  In k trace -> k >= Z.of_nat (length mem) -> run_trace f trace mem = Fail EOutOfBounds.
Proof.
  unfold run_trace. revert mem. induction trace as [|j t IH]; intros mem Hi Hk; [destruct Hi|].
  cbn [rfold]. unfold step_cell at 1. destruct (j <? 0) eqn:Ej; [reflexivity|].
  destruct (nth_error mem (Z.to_nat j)) as [a|] eqn:Ea.
  - rewrite (rget_at _ _ _ Ea). cbn [rbind].
    assert (Hj : (Z.to_nat j < length mem)%nat) by (apply nth_error_Some; congruence).
    destruct (upd_ok mem (Z.to_nat j) (f j a) Hj) as [m1 E1]. rewrite E1. cbn [rbind].
    assert (L1 := upd_length _ _ _ _ E1).
    destruct Hi as [->|Hi]; [lia|]. apply IH; [assumption|lia].
  - unfold rget. rewrite Ea. reflexivity.
Qed.

Lemma pdf_bad_schedule {A} (f : Z -> A -> A) num_threads n_samples (mem : list A) trace :
  4 <= num_threads -> 1 <= n_samples -> Z.of_nat (length mem) = 5 * n_samples ->
  interleaving (map (pdf_worker_cells n_samples) (pdf_ranges num_threads 5)) trace ->
  run_trace f trace mem = Fail EOutOfBounds.
Proof.
  intros Ht Hs Hm HI. destruct (pdf_bad_cell n_samples num_threads Hs Ht) as (w & k & Hw & Hk & Hge).
  apply run_trace_oob with (k := k); [|lia].
  apply interleaving_perm in HI. eapply Permutation_in; [symmetry; exact HI|].
  apply in_concat. exists w. split; assumption.
Qed.

(* ---- rasterizer ---- *)

Lemma raster_rows_from H chunk : 0 <= chunk -> forall n start, 0 <= start ->
  concat (map range_rows (raster_ranges_from n start chunk H))
  = zseq start (Z.to_nat (Z.min (start + Z.of_nat n * chunk) H - start)).
Proof.
  intros Hc. induction n as [|n IH]; intros start Hs.
  - cbn [raster_ranges_from map concat]. replace (Z.to_nat _) with 0%nat by lia. reflexivity.
  - cbn [raster_ranges_from map concat]. rewrite IH by lia. rewrite range_rows_zseq. cbn [fst snd].
    destruct (Z.le_gt_cases (start + chunk) H) as [L|L].
    + rewrite Z.min_l by assumption.
      replace (Z.to_nat (Z.min (start + Z.of_nat (S n) * chunk) H - start)) with
        (Z.to_nat (start + chunk - start) + Z.to_nat (Z.min (start + chunk + Z.of_nat n * chunk) H - (start + chunk)))%nat by nia.
      rewrite zseq_app. f_equal. f_equal. lia.
    + rewrite Z.min_r by lia.
      replace (Z.to_nat (Z.min (start + chunk + Z.of_nat n * chunk) H - (start + chunk))) with 0%nat by lia.
      replace (Z.min (start + Z.of_nat (S n) * chunk) H) with H by nia.
      cbn. apply app_nil_r.
Qed.

Lemma raster_partition num_threads H : 1 <= num_threads -> 0 <= H ->
  concat (map range_rows (raster_ranges num_threads H)) = cells (Z.to_nat H).
Proof.
  intros Ht HH. unfold raster_ranges.
  destruct (Z.eq_dec H 0) as [->|H0].
  - (* H - 1 = -1: C++ division truncates, the chunk size is 0 or 1 *)
    assert (0 <= 1 + Z.quot (0 - 1) num_threads).
    { change (0 - 1) with (- (1)). rewrite Z.quot_opp_l by lia.
      assert (Z.quot 1 num_threads <= 1) by (rewrite Z.quot_div_nonneg by lia; apply Z.div_le_upper_bound; lia).
      lia. }
    rewrite raster_rows_from by lia. rewrite <- (zseq_cells (Z.to_nat 0)). f_equal. nia.
  - assert (Hq : 0 <= Z.quot (H - 1) num_threads) by (apply Z.quot_pos; lia).
    rewrite raster_rows_from by lia. rewrite <- (zseq_cells (Z.to_nat H)). f_equal.
    rewrite Z2Nat.id by lia. rewrite Z.add_0_l, Z.sub_0_r. f_equal. apply Z.min_r.
    rewrite Z.quot_div_nonneg by lia.
    assert (D := Z.div_mod (H - 1) num_threads ltac:(lia)).
    assert (M := Z.mod_pos_bound (H - 1) num_threads ltac:(lia)). nia.
Qed.

Lemma raster_schedule {A} (f : Z -> A -> A) num_threads H (mem : list A) trace :
  1 <= num_threads -> Z.of_nat (length mem) = H ->
  interleaving (map range_rows (raster_ranges num_threads H)) trace ->
  run_trace f trace mem = Ok (mapi_from 0 f mem).
Proof.
  intros Ht Hm HI. apply run_trace_all. apply interleaving_perm in HI.
  rewrite raster_partition in HI by lia. replace (length mem) with (Z.to_nat H) by lia. assumption.
Qed.
