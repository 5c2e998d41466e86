(* Properties C18, C19, C20: compositing of the points of a pixel and its gradients. *)
From Verif Require Import Base RBase Composite CompositeSpec CompositeProofs CompositeGrad CompositeRefute.
Local Open Scope R_scope.

(* C18: front-to-back compositing of the valid layers *)
Theorem alpha_composite_is_over : forall f row,
  ac_fwd f row = sumf (length (layers f row)) (fun k => over_weight (layers f row) k * feat_at (layers f row) k).
Proof. intros f row. rewrite ac_fwd_over. apply over_sum. Qed.
Print Assumptions alpha_composite_is_over.
Example alpha_composite_is_over_ex :
  ac_fwd INR [(0%Z, 1/2); ((-1)%Z, 1/3); (2%Z, 1/2); (4%Z, 1)] = 0 + 1/2 * (1/2 * 2) + 1/2 * 1/2 * 4.
Proof. rewrite ac_fwd_over. cbn. change (Pos.to_nat 2) with 2%nat. change (Pos.to_nat 4) with 4%nat. cbn. lra. Qed.
(* the weights are a sub-probability: non-negative, and what is left over is the transmitted part *)
Theorem alpha_composite_weights : forall f row, (forall n a, In (n, a) row -> 0 <= a <= 1) ->
  let L := layers f row in
  (forall k, 0 <= over_weight L k) /\ sumf (length L) (over_weight L) <= 1 /\
  sumf (length L) (over_weight L) = 1 - rprod (map (fun x => 1 - fst x) L).
Proof.
  intros f row H L. assert (HL : forall x, In x L -> 0 <= fst x <= 1).
  { intros [a v] Hx. apply in_flat_map in Hx as [[n b] [H1 H2]]. cbn in H2. destruct (n <? 0)%Z; [destruct H2|].
    destruct H2 as [[= <- <-]|[]]. cbn. apply (H n b H1). }
  assert (T := trans_sum L). split; [intros k; apply over_weight_nonneg, HL|]. split; [|lra].
  assert (U := rprod_unit (fun x => 1 - fst x) L). destruct U; [|lra]. intros x Hx. specialize (HL x Hx). lra.
Qed.
Print Assumptions alpha_composite_weights.
(* the feature gradient is the derivative of the loss, whatever the order of the (atomic) additions *)
Theorem alpha_composite_backward_features : forall K P C idx al feat go ws c n,
  Permutation ws (flat_map (ac_pair K idx al feat go) (list_prod (seq 0 P) (seq 0 C))) ->
  is_partial (fun feat => loss P C go (fun p c => ac_fwd (feat c) (row_of K idx al p))) feat c n (run ws (GF c n)).
Proof. exact ac_feat_grad. Qed.
Print Assumptions alpha_composite_backward_features.
(* the alpha gradient differs from the derivative by the stated term, of relative size 1e-9 / (1 - alpha + 1e-9) *)
Theorem alpha_composite_backward_alphas_partial : forall K P C idx al feat go ws p k,
  (p < P)%nat -> (k < K)%nat -> (0 <= idx p k)%Z -> 1 - al p k + ac_eps <> 0 ->
  Permutation ws (flat_map (ac_pair K idx al feat go) (list_prod (seq 0 P) (seq 0 C))) ->
  is_partial (fun al => loss P C go (fun p c => ac_fwd (feat c) (row_of K idx al p))) al p k
    (run ws (GA p k) - ac_eps / (1 - al p k + ac_eps) *
      sumf C (fun c => go p c * (rprod (map (fun x => 1 - fst x) (layers (feat c) (firstn k (row_of K idx al p)))) *
                                 ac_fwd (feat c) (skipn (S k) (row_of K idx al p))))).
Proof. exact ac_alpha_grad. Qed.
Print Assumptions alpha_composite_backward_alphas_partial.
Example alpha_composite_backward_alphas_ex : 1 - 1/2 + ac_eps <> 0.
Proof. assert (H := ac_eps_pos). lra. Qed.
(* full claim refuted: behind an opaque layer the returned alpha gradient is not the derivative *)
Theorem alpha_composite_backward_alphas_refuted : ~ (forall K P C idx al feat go p k, (p < P)%nat -> (k < K)%nat ->
  (forall p k, 0 <= al p k <= 1) ->
  is_partial (fun al => loss P C go (fun p c => ac_fwd (feat c) (row_of K idx al p))) al p k
    (run (flat_map (ac_pair K idx al feat go) (list_prod (seq 0 P) (seq 0 C))) (GA p k))).
Proof. exact ac_alpha_refuted. Qed.
Print Assumptions alpha_composite_backward_alphas_refuted.
Theorem alpha_composite_backward_padding : forall K P C idx al feat go ws p k,
  (p < P)%nat -> ((K <= k)%nat \/ (idx p k < 0)%Z) ->
  Permutation ws (flat_map (ac_pair K idx al feat go) (list_prod (seq 0 P) (seq 0 C))) ->
  run ws (GA p k) = 0 /\ is_partial (fun al => loss P C go (fun p c => ac_fwd (feat c) (row_of K idx al p))) al p k 0.
Proof. exact ac_alpha_padding. Qed.
Print Assumptions alpha_composite_backward_padding.
(* the CPU loops are one such order, so the three theorems above and below apply to them *)
Theorem compositing_cpu_order : forall pair B C S,
  Permutation (flat_map pair (cpu_pairs B C S)) (flat_map (pair : nat * nat -> list (cell * R)) (list_prod (seq 0 (B * S)) (seq 0 C))).
Proof. intros. apply flat_perm, cpu_pairs_perm. Qed.
Print Assumptions compositing_cpu_order.

(* C19 *)
Theorem norm_weighted_sum_is_mean : forall f row, nw_eps <= alpha_sum (layers f row) ->
  nw_fwd f row = rsum (map (fun x => fst x * snd x) (layers f row)) / alpha_sum (layers f row).
Proof.
  intros f row H. rewrite nw_fwd_sum, (nw_total_sum f). destruct (Rltb_spec (alpha_sum (layers f row)) nw_eps); [lra|reflexivity].
Qed.
Print Assumptions norm_weighted_sum_is_mean.
Theorem norm_weighted_sum_in_range : forall f row lo hi, nw_eps <= alpha_sum (layers f row) ->
  (forall n a, In (n, a) row -> (0 <= n)%Z -> 0 <= a /\ lo <= f (Z.to_nat n) <= hi) ->
  lo <= nw_fwd f row <= hi.
Proof.
  intros f row lo hi H Hr. rewrite norm_weighted_sum_is_mean by exact H.
  assert (W := wsum_range (layers f row) lo hi). destruct W as [W1 W2].
  { intros [a v] Hx. apply in_flat_map in Hx as [[n b] [H1 H2]]. cbn in H2. destruct (Z.ltb_spec n 0); [destruct H2|].
    destruct H2 as [[= <- <-]|[]]. cbn. apply (Hr n b H1). lia. }
  assert (P := nw_eps_pos). unfold wsum in *. split.
  - apply Rmult_le_reg_r with (alpha_sum (layers f row)); [lra|]. unfold Rdiv. rewrite Rmult_assoc, Rinv_l by lra. lra.
  - apply Rmult_le_reg_r with (alpha_sum (layers f row)); [lra|]. unfold Rdiv. rewrite Rmult_assoc, Rinv_l by lra. lra.
Qed.
Print Assumptions norm_weighted_sum_in_range.
Example norm_weighted_sum_ex : nw_eps <= alpha_sum (layers INR [(1%Z, 1/2); ((-1)%Z, 7); (3%Z, 1/4)]).
Proof. unfold alpha_sum, nw_eps. cbn. lra. Qed.
Theorem norm_weighted_sum_backward_features : forall K P C idx al feat go ws c n,
  Permutation ws (flat_map (nw_pair K idx al feat go) (list_prod (seq 0 P) (seq 0 C))) ->
  is_partial (fun feat => loss P C go (fun p c => nw_fwd (feat c) (row_of K idx al p))) feat c n (run ws (GF c n)).
Proof. exact nw_feat_grad. Qed.
Print Assumptions norm_weighted_sum_backward_features.
Theorem norm_weighted_sum_backward_alphas : forall K P C idx al feat go ws p k,
  (k < K)%nat -> nw_eps < alpha_sum (layers (fun _ => 0) (row_of K idx al p)) ->
  Permutation ws (flat_map (nw_pair K idx al feat go) (list_prod (seq 0 P) (seq 0 C))) ->
  is_partial (fun al => loss P C go (fun p c => nw_fwd (feat c) (row_of K idx al p))) al p k (run ws (GA p k)).
Proof. exact nw_alpha_grad. Qed.
Print Assumptions norm_weighted_sum_backward_alphas.
(* below the clamp the returned gradient is not the derivative of the clamped expression *)
Theorem norm_weighted_sum_backward_clamped_refuted : ~ (forall K P C idx al feat go p k, (p < P)%nat -> (k < K)%nat ->
  (forall p k, 0 <= al p k <= 1) ->
  is_partial (fun al => loss P C go (fun p c => nw_fwd (feat c) (row_of K idx al p))) al p k
    (run (flat_map (nw_pair K idx al feat go) (list_prod (seq 0 P) (seq 0 C))) (GA p k))).
Proof. exact nw_alpha_refuted. Qed.
Print Assumptions norm_weighted_sum_backward_clamped_refuted.

(* C20 *)
Theorem weighted_sum_is_sum : forall f row, ws_fwd f row = rsum (map (fun x => fst x * snd x) (layers f row)).
Proof. exact ws_fwd_sum. Qed.
Print Assumptions weighted_sum_is_sum.
Theorem weighted_sum_backward_features : forall K P C idx al feat go ws c n,
  Permutation ws (flat_map (ws_pair K idx al feat go) (list_prod (seq 0 P) (seq 0 C))) ->
  is_partial (fun feat => loss P C go (fun p c => ws_fwd (feat c) (row_of K idx al p))) feat c n (run ws (GF c n)).
Proof. exact ws_feat_grad. Qed.
Print Assumptions weighted_sum_backward_features.
Theorem weighted_sum_backward_alphas : forall K P C idx al feat go ws p k,
  Permutation ws (flat_map (ws_pair K idx al feat go) (list_prod (seq 0 P) (seq 0 C))) ->
  is_partial (fun al => loss P C go (fun p c => ws_fwd (feat c) (row_of K idx al p))) al p k (run ws (GA p k)).
Proof. exact ws_alpha_grad. Qed.
Print Assumptions weighted_sum_backward_alphas.

(* the background colour replaces exactly the pixels without a point; a colour that fits is accepted *)
Theorem background_only_on_empty : forall n a row img bg,
  (length bg = length img -> bg_pixel ((n, a) :: row) img bg = Ok (if (n <? 0)%Z then bg else img)) /\
  ((length bg + 1)%nat = length img -> bg_pixel ((n, a) :: row) img bg = Ok (if (n <? 0)%Z then bg ++ [1] else img)) /\
  (length bg <> length img -> (length bg + 1)%nat <> length img -> bg_pixel ((n, a) :: row) img bg = Fail EValue).
Proof.
  intros n a row img bg. unfold bg_pixel, bg_color. repeat split; intros H.
  - rewrite H. destruct (Nat.eqb_spec (length img + 1) (length img)); [lia|]. rewrite H, Nat.eqb_refl. reflexivity.
  - rewrite H, Nat.eqb_refl, app_length. cbn [length]. rewrite H, Nat.eqb_refl. reflexivity.
  - intros H2. destruct (Nat.eqb_spec (length bg + 1) (length img)); [lia|].
    destruct (Nat.eqb_spec (length img) (length bg)); [lia|]. reflexivity.
Qed.
Print Assumptions background_only_on_empty.
