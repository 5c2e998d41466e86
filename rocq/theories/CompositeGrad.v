From Coquelicot Require Import Coquelicot.
From Verif Require Import Base RBase Composite CompositeSpec CompositeProofs.
Local Open Scope R_scope.

(* ------------------------------------------------------------------ alpha_composite *)
Lemma ac_fwd_ext f g row : (forall n, f n = g n) -> ac_fwd f row = ac_fwd g row.
Proof. intros H. rewrite !ac_fwd_over, (layers_ext f g); auto. Qed.
Lemma ac_feat_grad K P C idx al feat go ws c n : 
  Permutation ws (flat_map (ac_pair K idx al feat go) (list_prod (seq 0 P) (seq 0 C))) ->
  is_partial (fun feat => loss P C go (fun p c => ac_fwd (feat c) (row_of K idx al p))) feat c n (run ws (GF c n)).
Proof.
  intros HP. unfold is_partial.
  apply (backward_partial _ P C go (fun p c' t => ac_fwd (set2 feat c n t c') (row_of K idx al p))
    (fun p c' => if (c =? c')%nat then gcoef (row_of K idx al p) n else 0) _ _ _ _ HP); [| |reflexivity].
  - intros p c' _ _. unfold ac_pair. cbn [fst snd]. rewrite ac_writes_gf. destruct (c =? c')%nat; ring.
  - intros p c' _ _. destruct (Nat.eqb_spec c c') as [<-|Hc].
    + eapply deriv_ext; [|apply over_feat]. intros t. rewrite ac_fwd_over.
      f_equal. apply layers_ext. intros m. apply set2_same.
    + eapply deriv_ext; [|apply (deriv_const (ac_fwd (feat c') (row_of K idx al p)))]. intros t. apply ac_fwd_ext.
      intros m. apply set2_other. auto.
Qed.

Lemma dal_dtrue eps f row : forall k n a, nth_error row k = Some (n, a) -> (0 <= n)%Z -> 1 - a + eps <> 0 ->
  dal eps f row k = dtrue f row k + eps / (1 - a + eps) * (rprod (map (fun x => 1 - fst x) (layers f (firstn k row))) * over (behind f row k)).
Proof.
  induction row as [|[m b] row IH]; intros k n a E Hn He; [destruct k; discriminate|]. destruct k as [|k].
  - injection E as -> ->. cbn [dal dtrue firstn]. destruct (Z.ltb_spec n 0); [lia|]. unfold behind. cbn [skipn layers flat_map map rprod fold_right].
    fold (layers f row). field. exact He.
  - cbn [nth_error] in E. cbn [dal dtrue firstn]. rewrite (IH k n a E Hn He), layers_cons. unfold behind. cbn [skipn].
    unfold rprod. destruct (m <? 0)%Z; cbn [app map fold_right fst]; ring.
Qed.
Lemma dal_invalid eps f row : forall k, (forall n a, nth_error row k = Some (n, a) -> (n < 0)%Z) -> dal eps f row k = 0 /\ dtrue f row k = 0.
Proof.
  induction row as [|[m b] row IH]; intros k H; [destruct k; split; reflexivity|]. destruct k as [|k]; cbn [dal dtrue].
  - specialize (H m b eq_refl). destruct (Z.ltb_spec m 0); [|lia]. split; reflexivity.
  - destruct (IH k) as [E1 E2]; [intros n a E; apply (H n a E)|]. rewrite E1, E2. split; ring.
Qed.
Lemma ac_alpha_true K P C idx al feat go p k :
  is_partial (fun al => loss P C go (fun p c => ac_fwd (feat c) (row_of K idx al p))) al p k
    (sumf P (fun q => sumf C (fun c => go q c * (if (q =? p)%nat then dtrue (feat c) (row_of K idx al p) k else 0)))).
Proof.
  unfold is_partial.
  apply (deriv_loss P C go (fun q c t => ac_fwd (feat c) (row_of K idx (set2 al p k t) q))). intros q c _ _.
  destruct (Nat.eqb_spec q p) as [->|Hq].
  - eapply deriv_ext; [|apply over_alpha]. intros t. rewrite ac_fwd_over, row_same. reflexivity.
  - eapply deriv_ext; [|apply (deriv_const (ac_fwd (feat c) (row_of K idx al q)))]. intros t. cbv beta. rewrite row_other by exact Hq. reflexivity.
Qed.
Lemma sumf_pick P p v : (p < P)%nat -> sumf P (fun q => if (q =? p)%nat then v q else 0) = v p.
Proof.
  intros H. rewrite (sumf_ext _ _ (fun q => if (q =? p)%nat then v p else 0)); [apply sumf_single, H|].
  intros i _. destruct (Nat.eqb_spec i p) as [->|]; reflexivity.
Qed.
Lemma ac_alpha_run K P C idx al feat go ws p k : (p < P)%nat ->
  Permutation ws (flat_map (ac_pair K idx al feat go) (list_prod (seq 0 P) (seq 0 C))) ->
  run ws (GA p k) = sumf C (fun c => go p c * dal ac_eps (feat c) (row_of K idx al p) k).
Proof.
  intros Hp HP. rewrite (total_writes _ _ _ _ _ HP).
  rewrite <- (sumf_pick P p (fun q => sumf C (fun c => go q c * dal ac_eps (feat c) (row_of K idx al q) k)) Hp).
  apply sumf_ext. intros q _. destruct (Nat.eqb_spec q p) as [->|Hq].
  - apply sumf_ext. intros c _. unfold ac_pair. cbn [fst snd]. rewrite (ac_writes_ga ac_eps p c _ _ _ k 0 1 []); [ring|intros y []].
  - apply sumf_zero. intros c _. unfold ac_pair. cbn [fst snd].
    assert (G : forall row k' cum near, at_cell (GA p k) (ac_writes ac_eps q c (go q c) (feat c) row k' cum near) = 0).
    { induction row as [|[m a] row IH]; intros k' cum near; cbn [ac_writes]; [reflexivity|]. destruct (m <? 0)%Z; [apply IH|].
      rewrite !at_cell_cons, at_cell_app, at_map_ga, IH, rsum_map_zero; cbn [cell_eqb fst snd].
      - destruct (Nat.eqb_spec p q); [congruence|]. cbn [andb]. ring.
      - intros y _. destruct (Nat.eqb_spec p q); [congruence|]. reflexivity. }
    apply G.
Qed.
Lemma ac_alpha_grad K P C idx al feat go ws p k : (p < P)%nat -> (k < K)%nat -> (0 <= idx p k)%Z -> 1 - al p k + ac_eps <> 0 ->
  Permutation ws (flat_map (ac_pair K idx al feat go) (list_prod (seq 0 P) (seq 0 C))) ->
  is_partial (fun al => loss P C go (fun p c => ac_fwd (feat c) (row_of K idx al p))) al p k
    (run ws (GA p k) - ac_eps / (1 - al p k + ac_eps) *
      sumf C (fun c => go p c * (rprod (map (fun x => 1 - fst x) (layers (feat c) (firstn k (row_of K idx al p)))) *
                                 ac_fwd (feat c) (skipn (S k) (row_of K idx al p))))).
Proof.
  intros Hp Hk Hi He HP. eapply deriv_val; [|apply ac_alpha_true].
  rewrite (ac_alpha_run _ _ _ _ _ _ _ _ _ _ Hp HP).
  rewrite <- sumf_scal.
  match goal with |- _ = ?a - ?b => replace (a - b) with (a + -1 * b) by ring end. rewrite <- sumf_scal, <- sumf_plus.
  transitivity (sumf C (fun c => go p c * dtrue (feat c) (row_of K idx al p) k)).
  - rewrite <- (sumf_pick P p (fun q => sumf C (fun c => go q c * dtrue (feat c) (row_of K idx al p) k)) Hp).
    apply sumf_ext. intros q _. destruct (Nat.eqb_spec q p) as [->|Hq]; [reflexivity|apply sumf_zero; intros; ring].
  - apply sumf_ext. intros c _. rewrite (dal_dtrue ac_eps (feat c) _ k _ _ (row_at K idx al p k Hk) Hi He).
    rewrite (ac_fwd_over (feat c) (skipn (S k) _)). unfold behind. unfold Rdiv.
    generalize (over (layers (feat c) (skipn (S k) (row_of K idx al p)))). intros o. set (w := rprod _) in *. set (e := ac_eps * _). ring.
Qed.
Lemma ac_alpha_padding K P C idx al feat go ws p k : (p < P)%nat -> ((K <= k)%nat \/ (idx p k < 0)%Z) ->
  Permutation ws (flat_map (ac_pair K idx al feat go) (list_prod (seq 0 P) (seq 0 C))) ->
  run ws (GA p k) = 0 /\ is_partial (fun al => loss P C go (fun p c => ac_fwd (feat c) (row_of K idx al p))) al p k 0.
Proof.
  intros Hp Hk HP.
  assert (Hz : forall n a, nth_error (row_of K idx al p) k = Some (n, a) -> (n < 0)%Z).
  { intros n a E. destruct (Nat.lt_ge_cases k K) as [H|H].
    - rewrite row_at in E by exact H. injection E as <- <-. destruct Hk as [Hk|Hk]; [lia|exact Hk].
    - assert (nth_error (row_of K idx al p) k = None) as E0; [|congruence].
      apply nth_error_None. unfold row_of. rewrite map_length, seq_length. exact H. }
  split.
  - rewrite (ac_alpha_run _ _ _ _ _ _ _ _ _ _ Hp HP). apply sumf_zero. intros c _.
    rewrite (proj1 (dal_invalid _ _ _ _ Hz)). ring.
  - eapply deriv_val; [|apply ac_alpha_true]. apply sumf_zero. intros q _. apply sumf_zero. intros c _.
    rewrite (proj2 (dal_invalid 0 _ _ _ Hz)). destruct (q =? p)%nat; ring.
Qed.

(* ------------------------------------------------------------------ weighted sums *)
Definition wsum (L : list (R * R)) : R := rsum (map (fun x => fst x * snd x) L).
Lemma fold_valid (g : slot -> R) row : forall r,
  fold_left (fun r x => if (fst x <? 0)%Z then r else r + g x) row r =
  r + rsum (map (fun x => if (fst x <? 0)%Z then 0 else g x) row).
Proof.
  induction row as [|x row IH]; intros r; cbn [fold_left map]; [cbn; ring|]. rewrite rsum_cons, IH. destruct (fst x <? 0)%Z; ring.
Qed.
Lemma layers_sum f (g : R * R -> R) row :
  rsum (map g (layers f row)) = rsum (map (fun x => if (fst x <? 0)%Z then 0 else g (snd x, f (Z.to_nat (fst x)))) row).
Proof.
  induction row as [|[n a] row IH]; [reflexivity|]. rewrite layers_cons, map_app, rsum_app. cbn [map fst snd]. rewrite rsum_cons, IH.
  destruct (n <? 0)%Z; cbn; ring.
Qed.
Lemma ws_fwd_sum f row : ws_fwd f row = wsum (layers f row).
Proof. unfold ws_fwd, wsum. rewrite (fold_valid (fun x => snd x * f (Z.to_nat (fst x)))), layers_sum. cbn [fst snd]. ring. Qed.
Lemma nw_alphafs_sum f row : nw_alphafs f row = wsum (layers f row).
Proof. exact (ws_fwd_sum f row). Qed.
Lemma nw_total_sum f row : nw_total row = if Rltb (alpha_sum (layers f row)) nw_eps then nw_eps else alpha_sum (layers f row).
Proof.
  unfold nw_total, alpha_sum. rewrite (fold_valid (fun x => snd x)), layers_sum. cbn [fst snd]. rewrite Rplus_0_l. reflexivity.
Qed.
Lemma nw_fwd_sum f row : nw_fwd f row = wsum (layers f row) / nw_total row.
Proof.
  unfold nw_fwd, wsum. rewrite (fold_valid (fun x => snd x * f (Z.to_nat (fst x)) / nw_total row)), layers_sum. cbn [fst snd].
  unfold Rdiv at 2. rewrite (Rmult_comm _ (/ _)), <- rsum_map_scal, Rplus_0_l. apply rsum_map_ext. intros x _.
  destruct (fst x <? 0)%Z; unfold Rdiv; ring.
Qed.
Lemma alpha_sum_feat f g row : alpha_sum (layers f row) = alpha_sum (layers g row).
Proof. unfold alpha_sum. rewrite !layers_sum. reflexivity. Qed.

Fixpoint wcoef (row : list slot) (n : nat) : R :=
  match row with
  | [] => 0
  | (m, a) :: row' => if (m <? 0)%Z then wcoef row' n else a * (if (Z.to_nat m =? n)%nat then 1 else 0) + wcoef row' n
  end.
Lemma wsum_feat f n row : derivable_pt_lim (fun t => wsum (layers (fset f n t) row)) (f n) (wcoef row n).
Proof.
  induction row as [|[m a] row IH]; [exact (deriv_const 0 _)|]. cbn [wcoef].
  eapply deriv_ext; [intros t; rewrite layers_cons; reflexivity|]. destruct (m <? 0)%Z; [exact IH|].
  apply (deriv_plus (fun t => a * fset f n t (Z.to_nat m)) (fun t => wsum (layers (fset f n t) row))); [apply deriv_scal, fset_deriv|exact IH].
Qed.
(* the feature of slot k when it holds a point *)
Definition slot_feat (f : nat -> R) (row : list slot) (k : nat) : option R :=
  match nth_error row k with Some (n, _) => if (n <? 0)%Z then None else Some (f (Z.to_nat n)) | None => None end.
Lemma sums_alpha f row : forall k,
  exists a0 b0, forall t,
    alpha_sum (layers f (aset row k t)) = a0 + match slot_feat f row k with Some _ => t | None => 0 end /\
    wsum (layers f (aset row k t)) = b0 + match slot_feat f row k with Some v => t * v | None => 0 end.
Proof.
  induction row as [|[n a] row IH]; intros k.
  - exists 0, 0. intros t. destruct k; cbn; unfold alpha_sum, wsum; cbn; lra.
  - destruct k as [|k].
    + unfold slot_feat. cbn [nth_error aset]. exists (alpha_sum (layers f row)), (wsum (layers f row)). intros t. rewrite layers_cons.
      destruct (n <? 0)%Z; unfold alpha_sum, wsum; cbn [app map fst snd]; rewrite ?rsum_cons; lra.
    + destruct (IH k) as [a0 [b0 H]].
      exists (if (n <? 0)%Z then a0 else a + a0), (if (n <? 0)%Z then b0 else a * f (Z.to_nat n) + b0). intros t. cbn [aset].
      destruct (H t) as [H1 H2]. rewrite layers_cons. unfold slot_feat in *. cbn [nth_error].
      destruct (n <? 0)%Z; [exact (conj H1 H2)|]. unfold alpha_sum, wsum in *. cbn [app map fst snd]. rewrite !rsum_cons, H1, H2. split; ring.
Qed.
Lemma aset_same row k n a : nth_error row k = Some (n, a) -> aset row k a = row.
Proof.
  revert k. induction row as [|[m b] row IH]; intros [|k] H; try discriminate; cbn in *.
  - injection H as -> ->. reflexivity.
  - rewrite IH by exact H. reflexivity.
Qed.
Lemma ws_writes_gf p c go f row c' n : forall k, at_cell (GF c' n) (ws_writes p c go f row k) = if (c' =? c)%nat then go * wcoef row n else 0.
Proof.
  induction row as [|[m a] row IH]; intros k; cbn [ws_writes wcoef].
  - unfold at_cell. cbn. destruct (c' =? c)%nat; ring.
  - destruct (m <? 0)%Z; [apply IH|]. rewrite !at_cell_cons, IH. cbn [cell_eqb fst snd].
    destruct (c' =? c)%nat; cbn [andb]; [|ring]. rewrite (Nat.eqb_sym n). destruct (Z.to_nat m =? n)%nat; ring.
Qed.
Lemma nw_writes_gf p c go f t fs row c' n : forall k, at_cell (GF c' n) (nw_writes p c go f t fs row k) = if (c' =? c)%nat then go * (wcoef row n / t) else 0.
Proof.
  induction row as [|[m a] row IH]; intros k; cbn [nw_writes wcoef].
  - unfold at_cell. cbn. destruct (c' =? c)%nat; unfold Rdiv; ring.
  - destruct (m <? 0)%Z; [apply IH|]. rewrite !at_cell_cons, IH. cbn [cell_eqb fst snd].
    destruct (c' =? c)%nat; cbn [andb]; [|ring]. rewrite (Nat.eqb_sym n). destruct (Z.to_nat m =? n)%nat; unfold Rdiv; ring.
Qed.
(* one write per valid slot, aimed at that slot *)
Lemma ga_one (W : list slot -> nat -> list (cell * R)) p q (v : nat -> R) t :
  (forall k, W [] k = []) ->
  (forall n a row k, at_cell (GA p t) (W ((n, a) :: row) k) =
     (if (n <? 0)%Z then 0 else if ((p =? q) && (t =? k))%nat then v (Z.to_nat n) else 0) + at_cell (GA p t) (W row (S k))) ->
  forall row k, at_cell (GA p t) (W row k) =
    if ((p =? q) && (k <=? t))%nat then match slot_feat v row (t - k) with Some x => x | None => 0 end else 0.
Proof.
  intros H0 H1 row. induction row as [|[n a] row IH]; intros k.
  - rewrite H0. unfold slot_feat. destruct (t - k)%nat; cbn; destruct ((p =? q) && (k <=? t))%nat; reflexivity.
  - rewrite H1, IH. destruct (Nat.eqb_spec p q) as [->|]; cbn [andb]; [|destruct (n <? 0)%Z; ring].
    destruct (Nat.leb_spec k t) as [L|L]; destruct (Nat.leb_spec (S k) t) as [L2|L2]; destruct (Nat.eqb_spec t k) as [E|E]; try lia.
    + replace (t - k)%nat with (S (t - S k)) by lia. unfold slot_feat. cbn [nth_error]. destruct (n <? 0)%Z; ring.
    + subst t. replace (k - k)%nat with 0%nat by lia. unfold slot_feat. cbn [nth_error]. destruct (n <? 0)%Z; ring.
    + destruct (n <? 0)%Z; ring.
Qed.
Definition ga_val (f : nat -> R) (g : R -> R) (row : list slot) (k : nat) : R :=
  match slot_feat f row k with Some v => g v | None => 0 end.
Lemma ws_writes_ga p q c go f row k : at_cell (GA p k) (ws_writes q c go f row 0) = if (p =? q)%nat then go * ga_val f (fun v => v) row k else 0.
Proof.
  rewrite (ga_one (ws_writes q c go f) p q (fun n => go * f n) k); [| reflexivity |].
  - cbn [Nat.leb]. rewrite Nat.sub_0_r, Bool.andb_true_r. unfold ga_val, slot_feat. destruct (p =? q)%nat; [|reflexivity].
    destruct (nth_error row k) as [[n a]|]; [|ring]. destruct (n <? 0)%Z; ring.
  - intros n a r j. cbn [ws_writes]. destruct (n <? 0)%Z; [ring|]. rewrite !at_cell_cons. cbn [cell_eqb fst snd]. ring.
Qed.
Lemma nw_writes_ga p q c go f t fs row k : at_cell (GA p k) (nw_writes q c go f t fs row 0) = if (p =? q)%nat then go * ga_val f (fun v => (v * t - fs) / (t * t)) row k else 0.
Proof.
  rewrite (ga_one (nw_writes q c go f t fs) p q (fun n => go * (f n * t - fs) / (t * t)) k); [| reflexivity |].
  - cbn [Nat.leb]. rewrite Nat.sub_0_r, Bool.andb_true_r. unfold ga_val, slot_feat. destruct (p =? q)%nat; [|reflexivity].
    destruct (nth_error row k) as [[n a]|]; [|ring]. destruct (n <? 0)%Z; unfold Rdiv; ring.
  - intros n a r j. cbn [nw_writes]. destruct (n <? 0)%Z; [ring|]. rewrite !at_cell_cons. cbn [cell_eqb fst snd]. ring.
Qed.

Lemma ws_feat_grad K P C idx al feat go ws c n :
  Permutation ws (flat_map (ws_pair K idx al feat go) (list_prod (seq 0 P) (seq 0 C))) ->
  is_partial (fun feat => loss P C go (fun p c => ws_fwd (feat c) (row_of K idx al p))) feat c n (run ws (GF c n)).
Proof.
  intros HP. unfold is_partial.
  apply (backward_partial _ P C go (fun p c' t => ws_fwd (set2 feat c n t c') (row_of K idx al p))
    (fun p c' => if (c =? c')%nat then wcoef (row_of K idx al p) n else 0) _ _ _ _ HP); [| |reflexivity].
  - intros p c' _ _. unfold ws_pair. cbn [fst snd]. rewrite ws_writes_gf. destruct (c =? c')%nat; ring.
  - intros p c' _ _. destruct (Nat.eqb_spec c c') as [<-|Hc].
    + eapply deriv_ext; [|apply wsum_feat]. intros t. rewrite ws_fwd_sum. f_equal. apply layers_ext. intros m. apply set2_same.
    + eapply deriv_ext; [|apply (deriv_const (ws_fwd (feat c') (row_of K idx al p)))]. intros t. rewrite !ws_fwd_sum. f_equal.
      apply layers_ext. intros m. apply set2_other. auto.
Qed.
Lemma nw_feat_grad K P C idx al feat go ws c n :
  Permutation ws (flat_map (nw_pair K idx al feat go) (list_prod (seq 0 P) (seq 0 C))) ->
  is_partial (fun feat => loss P C go (fun p c => nw_fwd (feat c) (row_of K idx al p))) feat c n (run ws (GF c n)).
Proof.
  intros HP. unfold is_partial.
  apply (backward_partial _ P C go (fun p c' t => nw_fwd (set2 feat c n t c') (row_of K idx al p))
    (fun p c' => if (c =? c')%nat then wcoef (row_of K idx al p) n / nw_total (row_of K idx al p) else 0) _ _ _ _ HP); [| |reflexivity].
  - intros p c' _ _. unfold nw_pair. cbn [fst snd]. rewrite nw_writes_gf. destruct (c =? c')%nat; ring.
  - intros p c' _ _. destruct (Nat.eqb_spec c c') as [<-|Hc].
    + eapply deriv_ext; [intros t; rewrite nw_fwd_sum; unfold Rdiv; rewrite Rmult_comm; reflexivity|].
      unfold Rdiv. rewrite Rmult_comm. apply deriv_scal.
      eapply deriv_ext; [|apply wsum_feat]. intros t. cbv beta. f_equal. apply layers_ext. intros m. apply set2_same.
    + eapply deriv_ext; [|apply (deriv_const (nw_fwd (feat c') (row_of K idx al p)))]. intros t. rewrite !nw_fwd_sum. do 2 f_equal.
      apply layers_ext. intros m. apply set2_other. auto.
Qed.
Lemma ws_alpha_grad K P C idx al feat go ws p k :
  Permutation ws (flat_map (ws_pair K idx al feat go) (list_prod (seq 0 P) (seq 0 C))) ->
  is_partial (fun al => loss P C go (fun p c => ws_fwd (feat c) (row_of K idx al p))) al p k (run ws (GA p k)).
Proof.
  intros HP. unfold is_partial.
  apply (backward_partial _ P C go (fun q c t => ws_fwd (feat c) (row_of K idx (set2 al p k t) q))
    (fun q c => if (p =? q)%nat then ga_val (feat c) (fun v => v) (row_of K idx al q) k else 0) _ _ _ _ HP); [| |reflexivity].
  - intros q c _ _. unfold ws_pair. cbn [fst snd]. rewrite ws_writes_ga. destruct (p =? q)%nat; ring.
  - intros q c _ _. destruct (Nat.eqb_spec p q) as [<-|Hc].
    + destruct (sums_alpha (feat c) (row_of K idx al p) k) as [a0 [b0 H]].
      apply (deriv_affine _ b0). intros t. rewrite ws_fwd_sum, row_same, (proj2 (H t)). unfold ga_val.
      destruct (slot_feat _ _ _); ring.
    + eapply deriv_ext; [|apply (deriv_const (ws_fwd (feat c) (row_of K idx al q)))]. intros t. cbv beta. rewrite row_other by auto. reflexivity.
Qed.
Lemma nw_quot a0 b0 v x : nw_eps < a0 + x ->
  derivable_pt_lim (fun t => (b0 + t * v) / (if Rltb (a0 + t) nw_eps then nw_eps else a0 + t)) x ((v * (a0 + x) - (b0 + x * v)) / ((a0 + x) * (a0 + x))).
Proof.
  intros H. assert (E0 : 0 < nw_eps) by (unfold nw_eps; apply Rinv_0_lt_compat; lra).
  apply is_derive_Reals. apply (is_derive_ext_loc (fun t => (b0 + t * v) / (a0 + t))).
  - exists (mkposreal (a0 + x - nw_eps) ltac:(lra)). intros t Ht. unfold ball in Ht. cbn in Ht. unfold AbsRing_ball, abs, minus, plus, opp in Ht. cbn in Ht.
    assert (H2 := Rabs_def2 _ _ Ht). destruct (Rltb_spec (a0 + t) nw_eps); [lra|reflexivity].
  - auto_derive; [lra|]. field. lra.
Qed.
Lemma nw_alpha_grad K P C idx al feat go ws p k : (k < K)%nat -> nw_eps < alpha_sum (layers (fun _ => 0) (row_of K idx al p)) ->
  Permutation ws (flat_map (nw_pair K idx al feat go) (list_prod (seq 0 P) (seq 0 C))) ->
  is_partial (fun al => loss P C go (fun p c => nw_fwd (feat c) (row_of K idx al p))) al p k (run ws (GA p k)).
Proof.
  intros Hk Ht HP. unfold is_partial.
  apply (backward_partial _ P C go (fun q c t => nw_fwd (feat c) (row_of K idx (set2 al p k t) q))
    (fun q c => if (p =? q)%nat then ga_val (feat c) (fun v => (v * nw_total (row_of K idx al q) - nw_alphafs (feat c) (row_of K idx al q)) / (nw_total (row_of K idx al q) * nw_total (row_of K idx al q))) (row_of K idx al q) k else 0) _ _ _ _ HP); [| |reflexivity].
  - intros q c _ _. unfold nw_pair. cbn [fst snd]. rewrite nw_writes_ga. destruct (p =? q)%nat; ring.
  - intros q c _ _. destruct (Nat.eqb_spec p q) as [<-|Hc].
    + destruct (sums_alpha (feat c) (row_of K idx al p) k) as [a0 [b0 H]].
      assert (H0 := H (al p k)). rewrite (aset_same _ _ _ _ (row_at K idx al p k Hk)) in H0. destruct H0 as [H1 H2].
      rewrite (alpha_sum_feat _ (feat c)) in Ht.
      rewrite nw_alphafs_sum, (nw_total_sum (feat c)).
      eapply deriv_ext.
      { intros t. rewrite nw_fwd_sum, row_same, (nw_total_sum (feat c)), (proj1 (H t)), (proj2 (H t)). reflexivity. }
      unfold ga_val. destruct (slot_feat (feat c) (row_of K idx al p) k) as [v|].
      * rewrite H1, H2 in *. destruct (Rltb_spec (a0 + al p k) nw_eps); [lra|]. apply nw_quot. exact Ht.
      * apply deriv_const.
    + eapply deriv_ext; [|apply (deriv_const (nw_fwd (feat c) (row_of K idx al q)))]. intros t. cbv beta. rewrite row_other by auto. reflexivity.
Qed.

(* a weighted mean lies between bounds of the features *)
Lemma wsum_range L lo hi : (forall x, In x L -> 0 <= fst x /\ lo <= snd x <= hi) -> lo * alpha_sum L <= wsum L <= hi * alpha_sum L.
Proof.
  induction L as [|[a f] L IH]; intros H; unfold alpha_sum, wsum in *; cbn [map fst snd] in *; [cbn; lra|].
  rewrite !rsum_cons. destruct (H (a, f) (or_introl eq_refl)) as [H1 H2]. cbn in H1, H2.
  specialize (IH (fun x Hx => H x (or_intror Hx))). nra.
Qed.
