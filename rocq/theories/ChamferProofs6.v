From Coq Require Import Reals Bool Lia Lra Permutation.
From Verif Require Import Base RBase Knn KnnSpec KnnProofs Chamfer ChamferSpec ChamferProofs ChamferProofs2 ChamferProofs3.
Local Open Scope R_scope.

Lemma swap_losses r norm w ab : pair_losses r norm false w (map (fun p => (snd p, fst p)) ab) = pair_losses r norm false w ab.
Proof.
  unfold pair_losses. destruct w as [w|].
  - rewrite combine_map_r, map_map. apply map_ext. intros (c, (a, b)). cbn [fst snd]. rewrite both_comm. reflexivity.
  - rewrite map_map. apply map_ext. intros (a, b). cbn [fst snd]. apply both_comm.
Qed.
Lemma combine_swap' {A B} (a : list A) (b : list B) : map (fun p => (snd p, fst p)) (combine a b) = combine b a.
Proof. revert b. induction a as [|x a IH]; intros [|y b]; cbn; try reflexivity. f_equal. apply IH. Qed.
Lemma perm_losses r norm s w : forall A A' B B', Forall2 (@Permutation (list R)) A A' -> Forall2 (@Permutation (list R)) B B' -> pair_losses r norm s w (combine A B) = pair_losses r norm s w (combine A' B').
Proof.
  assert (E : forall A A' B B', Forall2 (@Permutation (list R)) A A' -> Forall2 (@Permutation (list R)) B B' -> map (fun p => both_ways r norm s (fst p) (snd p)) (combine A B) = map (fun p => both_ways r norm s (fst p) (snd p)) (combine A' B')).
  { intros A A' B B' HA. revert B B'. induction HA as [|a a' A A' Ha HA IH]; intros B B' HB; [reflexivity|]. destruct HB as [|b b' B B' Hb HB]; [reflexivity|]. cbn. f_equal; [apply both_perm; assumption|apply IH; exact HB]. }
  intros A A' B B' HA HB. specialize (E A A' B B' HA HB). unfold pair_losses. destruct w as [w|]; [|exact E].
  assert (K : forall l : list (list (list R) * list (list R)), map (fun q => fst q * both_ways r norm s (fst (snd q)) (snd (snd q))) (combine w l) = map (fun q => fst q * snd q) (combine w (map (fun p => both_ways r norm s (fst p) (snd p)) l))) by (intros l; rewrite combine_map_r, map_map; reflexivity).
  rewrite !K, E. reflexivity.
Qed.
Lemma losses_nth r norm s w ab : (match w with None => True | Some w => length w = length ab end) ->
  length (pair_losses r norm s w ab) = length ab /\ forall n p, nth_error ab n = Some p -> nth_error (pair_losses r norm s w ab) n = Some (weight_of w n * both_ways r norm s (fst p) (snd p)).
Proof.
  intros HW. unfold pair_losses, weight_of. destruct w as [w|].
  - split; [rewrite map_length, combine_length; lia|]. intros n p Hp. rewrite nth_error_map. assert (Ln : (n < length ab)%nat) by (apply nth_error_Some; congruence).
    assert (E : nth_error (combine w ab) n = Some (nth n w 0, p)).
    { clear -Hp HW Ln. revert w ab HW Hp Ln. induction n as [|n IH]; intros [|c w] [|q ab] HW Hp Ln; cbn in *; try lia; [congruence|]. apply IH; [lia|exact Hp|lia]. }
    rewrite E. reflexivity.
  - split; [apply map_length|]. intros n p Hp. rewrite nth_error_map, Hp. cbn. f_equal. lra.
Qed.
Lemma nth_in_combine {A B} (a : list A) (b : list B) n x y : nth_error a n = Some x -> nth_error b n = Some y -> nth_error (combine a b) n = Some (x, y).
Proof. revert a b. induction n as [|n IH]; intros [|u a] [|v b] H1 H2; cbn in *; try discriminate; [congruence|]. apply IH; assumption. Qed.
Lemma nth_of_combine {A B} (a : list A) (b : list B) n p : nth_error (combine a b) n = Some p -> nth_error a n = Some (fst p) /\ nth_error b n = Some (snd p).
Proof. revert a b. induction n as [|n IH]; intros [|u a] [|v b] H; cbn in *; try discriminate; [injection H as <-; split; reflexivity|]. apply IH; exact H. Qed.
Lemma clouds_dim x xl c : well_shaped x xl -> In c (clouds x xl) -> forall p, In p c -> length p = t_dim x.
Proof.
  intros (_ & _ & W) Hc p Hp. unfold clouds in Hc. apply in_map_iff in Hc. destruct Hc as ((l, d) & <- & Hc). cbn in Hp. apply in_combine_r in Hc. rewrite Forall_forall in W. destruct (W d Hc) as (_ & WD). rewrite Forall_forall in WD. apply WD. rewrite <- (firstn_skipn l d). apply in_or_app. left. exact Hp.
Qed.
Lemma clouds_length x xl : well_shaped x xl -> length (clouds x xl) = length (t_data x).
Proof. intros (L & _). unfold clouds. rewrite map_length, combine_length. lia. Qed.
Theorem zero_value x y xl yl w b r norm single : well_shaped x xl -> well_shaped y yl -> matching x y -> fine_weights w (length (t_data x)) ->
  List.Forall (fun c => c <> []) (clouds y yl) -> (single = false -> List.Forall (fun c => c <> []) (clouds x xl)) ->
  exists v, reduced (Some b) w (pair_losses r norm single w (combine (clouds x xl) (clouds y yl))) = Scalar v /\ 0 <= v /\
  (v = 0 <-> forall n a c, nth_error (clouds x xl) n = Some a -> nth_error (clouds y yl) n = Some c -> 0 < weight_of w n -> incl a c /\ (single = false -> incl c a)).
Proof.
  intros WX WY MA HW NY NX. set (ab := combine (clouds x xl) (clouds y yl)). set (l := pair_losses r norm single w ab).
  assert (LA : length ab = length (t_data x)) by (unfold ab; rewrite combine_length, (clouds_length x xl WX), (clouds_length y yl WY); destruct MA; lia).
  assert (HWL : match w with None => True | Some w => length w = length ab end) by (destruct w; [rewrite LA; apply HW|exact I]).
  destruct (losses_nth r norm single w ab HWL) as (LL & LN). fold l in LL, LN.
  assert (WN : forall n, (n < length ab)%nat -> 0 <= weight_of w n). { intros n Hn. unfold weight_of. destruct w as [w|]; [|lra]. destruct HW as (L & P & _). rewrite Forall_forall in P. apply P. apply nth_In. lia. }
  assert (BP : forall p, 0 <= both_ways r norm single (fst p) (snd p)). { intros (a, c). cbn [fst snd]. unfold both_ways. pose proof (one_way_nonneg r norm a c). pose proof (one_way_nonneg r norm c a). destruct single; [assumption|]. destruct r; [lra|lra|]. eapply Rle_trans; [|apply Rmax_l]. assumption. }
  assert (LP : forall d, In d l -> 0 <= d).
  { intros d Hd. apply In_nth_error in Hd. destruct Hd as (n & Hn). assert (Ln : (n < length ab)%nat) by (rewrite <- LL; apply nth_error_Some; congruence). destruct (nth_error ab n) as [p|] eqn:Ep; [|apply nth_error_None in Ep; lia]. rewrite (LN n p Ep) in Hn. injection Hn as <-. apply Rmult_le_pos; [apply WN; exact Ln|apply BP]. }
  assert (ZE : rsum l = 0 <-> forall n a c, nth_error (clouds x xl) n = Some a -> nth_error (clouds y yl) n = Some c -> 0 < weight_of w n -> incl a c /\ (single = false -> incl c a)).
  { rewrite (sum_zero l LP). 
    assert (BZ : forall n a c, nth_error (clouds x xl) n = Some a -> nth_error (clouds y yl) n = Some c -> (both_ways r norm single a c = 0 <-> incl a c /\ (single = false -> incl c a))).
    { intros n a c Ha Hc. apply nth_error_In in Ha, Hc. apply both_zero with (D := t_dim x).
      - apply (clouds_dim x xl a WX Ha). - destruct MA as (_ & ->). apply (clouds_dim y yl c WY Hc). - rewrite Forall_forall in NY. apply NY. exact Hc. - intros E. specialize (NX E). rewrite Forall_forall in NX. apply NX. exact Ha. }
    split.
    - intros H n a c Ha Hc Hwn. apply (BZ n a c Ha Hc). pose proof (LN n (a, c) (nth_in_combine _ _ _ _ _ Ha Hc)) as E. apply nth_error_In in E. apply H in E. cbn [fst snd] in E. apply Rmult_integral in E. destruct E as [E|E]; [lra|exact E].
    - intros H d Hd. apply In_nth_error in Hd. destruct Hd as (n & Hn). assert (Ln : (n < length ab)%nat) by (rewrite <- LL; apply nth_error_Some; congruence). destruct (nth_error ab n) as [(a, c)|] eqn:Ep; [|apply nth_error_None in Ep; lia]. rewrite (LN n _ Ep) in Hn. injection Hn as <-. cbn [fst snd]. apply nth_of_combine in Ep. cbn [fst snd] in Ep. destruct Ep as (Ha & Hc).
      destruct (Rle_lt_or_eq_dec 0 (weight_of w n) (WN n Ln)) as [Lt|Eq]; [|rewrite <- Eq; ring]. rewrite (proj2 (BZ n a c Ha Hc) (H n a c Ha Hc Lt)). ring. }
  pose proof (sum_nonneg l LP) as SN. destruct b; cbn [reduced].
  - exists (rsum l). split; [reflexivity|]. split; [exact SN|exact ZE].
  - set (dv := match w with None => INR (Nat.max (length l) 1) | Some w => rsum w end).
    assert (DP : 0 < dv). { unfold dv. destruct w as [w|]; [|apply maxi_pos]. destruct HW as (_ & P & S0). assert (0 <= rsum w) by (apply sum_nonneg; rewrite Forall_forall in P; exact P). lra. }
    exists (rsum l / dv). split; [reflexivity|]. split; [apply Rmult_le_pos; [exact SN|]; left; apply Rinv_0_lt_compat; exact DP|]. rewrite <- ZE. split.
    + intros E. apply Rmult_integral in E. destruct E as [E|E]; [exact E|]. exfalso. revert E. apply Rinv_neq_0_compat. lra.
    + intros ->. unfold Rdiv. ring.
Qed.
Lemma q_dists_row norm q : fitting q -> q_dists norm q = point_row norm (length (qx q)) (firstn (ql q) (qx q)) (firstn (qm q) (qy q)).
Proof. intros (F1 & F2). unfold q_dists, dist_row, point_row. rewrite firstn_length, Nat.min_l by exact F1. reflexivity. Qed.
Lemma point_losses_eq norm w x y xl yl : well_shaped x xl -> well_shaped y yl -> matching x y -> scale_rows w (map (q_dists norm) (quads x y xl yl)) = point_losses norm (t_points x) w (combine (clouds x xl) (clouds y yl)).
Proof.
  intros WX WY MA. rewrite (q_clouds_x x y xl yl WX WY MA), (q_clouds_y x y xl yl WX WY MA), combine_map2. pose proof (q_fit x y xl yl WX WY MA) as HF. pose proof (q_points_x x y xl yl WX WY MA) as HP. rewrite Forall_forall in HF, HP.
  assert (E : map (q_dists norm) (quads x y xl yl) = map (fun q => point_row norm (t_points x) (firstn (ql q) (qx q)) (firstn (qm q) (qy q))) (quads x y xl yl)) by (apply map_ext_in; intros q Hq; rewrite q_dists_row by (apply HF; exact Hq); rewrite (HP q Hq); reflexivity). rewrite E.
  unfold scale_rows, point_losses. destruct w as [w|]; rewrite ?combine_map_r, ?map_map; reflexivity.
Qed.
Lemma rejects_arguments sort px py oxl oyl oxn oyn w b p norm single ab : (p = None /\ b <> None) \/ (norm <> 1%nat /\ norm <> 2%nat) \/ (p = Some PMax /\ (oxn <> None \/ oyn <> None)) ->
  chamfer_distance sort px py oxl oyl oxn oyn w b p norm single ab = Fail EValue.
Proof.
  intros H. unfold chamfer_distance. destruct (negb (valid_reductions b p)) eqn:E1; [reflexivity|]. destruct (negb ((norm =? 1)%nat || (norm =? 2)%nat)) eqn:E2; [reflexivity|]. destruct H as [(-> & H)|[(H1 & H2)|(-> & H)]].
  - destruct b; [discriminate|congruence].
  - destruct (Nat.eqb_spec norm 1), (Nat.eqb_spec norm 2); cbn in E2; congruence.
  - destruct oxn, oyn; try reflexivity. exfalso. destruct H; congruence.
Qed.
Lemma rejects_batches sort px py oxl oyl x y xl yl w b p norm single ab : shown px oxl x xl -> shown py oyl y yl -> well_shaped x xl -> well_shaped y yl ->
  ~ matching x y \/ (exists w', w = Some w' /\ (length w' <> length (t_data x) \/ exists a, In a w' /\ a < 0)) ->
  chamfer_distance sort px py oxl oyl None None w b p norm single ab = Fail EValue.
Proof.
  intros SX SY WX WY H. rewrite (chamfer_shown _ _ _ _ _ x y xl yl) by assumption. unfold chamfer_distance. destruct (negb (valid_reductions b p)); [reflexivity|]. destruct (negb _); [reflexivity|]. destruct (match p with Some PMax => _ | _ => _ end); [reflexivity|]. cbn [handle_input rbind].
  assert (E : single_direction sort x y xl yl None None w p norm ab = Fail EValue); [|rewrite E; reflexivity].
  unfold single_direction. destruct H as [H|(w' & -> & H)].
  - destruct (Nat.eqb_spec (length (t_data y)) (length (t_data x))) as [E1|E1]; [|reflexivity]. destruct (Nat.eqb_spec (t_dim y) (t_dim x)) as [E2|E2]; [|reflexivity]. exfalso. apply H. split; congruence.
  - destruct (negb _ || negb _); [reflexivity|]. destruct (Nat.eqb_spec (length w') (length (t_data x))) as [E1|E1]; [|reflexivity]. cbn [negb]. destruct H as [H|(a & Ha & Hn)]; [contradiction|]. destruct (forallb (fun a => Rleb 0 a) w') eqn:EF; [|reflexivity]. rewrite forallb_forall in EF. specialize (EF a Ha). destruct (Rleb_spec 0 a); [lra|discriminate].
Qed.
