(* C83: image and mask metrics; C84 is in BceProps.v. *)
From Coq Require Import Reals Arith Lra Lia Bool List.
From Verif Require Import Base RBase Metrics MetricsSpec MetricsProofs MetricsProofs2.
Import ListNotations.
Local Open Scope R_scope.

(* Entries where the mask is zero have no influence on the mean square error, *)
Theorem mse_masked {I} (ix : list I) (x x' y y' m : I -> R) :
  (forall p, In p ix -> m p <> 0 -> x p = x' p /\ y p = y' p) ->
  calc_mse ix x y (Some m) = calc_mse ix x' y' (Some m).
Proof. exact (mse_masked_ext ix x x' y y' m). Qed.
Print Assumptions mse_masked.
(* a mask of ones changes nothing, *)
Theorem mse_full_mask {I} (ix : list I) (x y : I -> R) : ix <> [] ->
  calc_mse ix x y (Some (fun _ => 1)) = calc_mse ix x y None.
Proof. exact (mse_ones ix x y). Qed.
Print Assumptions mse_full_mask.
(* and the error is zero exactly if the tensors agree under the mask. *)
Theorem mse_exact {I} (ix : list I) (x y m : I -> R) : (forall p, In p ix -> 0 <= m p) ->
  (calc_mse ix x y (Some m) = Some 0 <-> (forall p, In p ix -> m p <> 0 -> x p = y p)).
Proof. exact (mse_zero ix x y m). Qed.
Print Assumptions mse_exact.

(* The PSNR ranks predictions by their mean square error, and is at most 100, its value for
   identical tensors. *)
Theorem psnr_ranks {I} (ix : list I) (x y x' y' : I -> R) m m' e e' v v' :
  calc_mse ix x y m = Some e -> calc_mse ix x' y' m' = Some e' ->
  calc_psnr ix x y m = Some v -> calc_psnr ix x' y' m' = Some v' ->
  (e <= e' -> v' <= v) /\ (1 / 10 ^ 10 <= e < e' -> v' < v) /\ v <= 100 /\ (e = 0 -> v = 100).
Proof.
  intros A B C D. destruct (psnr_order ix x y x' y' m m' e e' v v' A B C D) as [P Q].
  split; [exact P|]. split; [exact Q|]. split; [exact (psnr_best ix x y m v C)|].
  intros Z. rewrite Z in A. apply psnr_exact in A. rewrite A in C. apply some_inj in C. symmetry. exact C.
Qed.
Print Assumptions psnr_ranks.
Example psnr_two : exists e e', calc_mse [0%nat; 1%nat] (fun _ => 0) (fun _ => 1) None = Some e /\
  calc_mse [0%nat; 1%nat] (fun _ => 0) (fun _ => 2) None = Some e' /\ 1 / 10 ^ 10 <= e < e'.
Proof. eexists. eexists. split; [reflexivity|]. split; [reflexivity|]. unfold mean, lsum. cbn. lra. Qed.

(* Without a mask rgb_l1 is the mean absolute error times the number of channels, *)
Theorem rgb_l1_is {I} (ix : list I) C (x y : I -> nat -> R) : ix <> [] -> (1 <= C)%nat ->
  rgb_l1 ix C x y None = INR C * mean_abs ix C x y.
Proof. exact (rgb_l1_mean ix C x y). Qed.
Print Assumptions rgb_l1_is.
Theorem rgb_l1_masked {I} (ix : list I) C (x x' y y' : I -> nat -> R) (m : I -> R) :
  (forall p c, In p ix -> m p <> 0 -> (c < C)%nat -> x p c = x' p c /\ y p c = y' p c) ->
  rgb_l1 ix C x y (Some m) = rgb_l1 ix C x' y' (Some m).
Proof. exact (rgb_l1_ext ix C x x' y y' m). Qed.
Print Assumptions rgb_l1_masked.
(* and not the mean absolute error that its documentation promises. *)
Theorem rgb_l1_mean_refuted :
  ~ (forall (ix : list nat) C x y, ix <> [] -> (1 <= C)%nat -> rgb_l1 ix C x y None = mean_abs ix C x y).
Proof.
  intros A. specialize (A [0%nat] 3%nat (fun _ _ => 1) (fun _ _ => 0) ltac:(discriminate) ltac:(lia)).
  rewrite rgb_l1_is in A by (discriminate || lia).
  unfold mean_abs, lsum, sumf in A. cbn in A. rewrite Rminus_0_r, Rabs_R1 in A. lra.
Qed.
Print Assumptions rgb_l1_mean_refuted.

(* The IoU of tensors with values in [0, 1] lies in [0, 1) and is symmetric. *)
Theorem iou_in_range {I} (ix : list I) N a b m v : (forall n, (n < N)%nat -> unit ix (a n) /\ unit ix (b n)) ->
  (forall k, m = Some k -> forall n, (n < N)%nat -> unit ix (k n)) ->
  iou ix N a b m = Some v -> 0 <= v < 1.
Proof. exact (iou_range ix N a b m v). Qed.
Print Assumptions iou_in_range.
Theorem iou_symmetric {I} (ix : list I) N a b m : iou ix N a b m = iou ix N b a m.
Proof. exact (iou_sym ix N a b m). Qed.
Print Assumptions iou_symmetric.
Theorem iou_masked {I} (ix : list I) N a a' b b' m :
  (forall n p, (n < N)%nat -> In p ix -> m n p <> 0 -> a n p = a' n p /\ b n p = b' n p) ->
  iou ix N a b (Some m) = iou ix N a' b' (Some m).
Proof. exact (iou_masked_ext ix N a a' b b' m). Qed.
Print Assumptions iou_masked.
(* For binary masks it is the average over the images of common over covered pixels, up to
   the constant in the divisor. *)
Theorem iou_of_masks {I} (ix : list I) N a b (A B : nat -> I -> bool) : (1 <= N)%nat ->
  (forall n p, (n < N)%nat -> In p ix -> a n p = (if A n p then 1 else 0) /\ b n p = if B n p then 1 else 0) ->
  iou ix N a b None = Some (sumf N (fun n =>
    INR (count ix (fun p => A n p && B n p)) / (INR (count ix (fun p => A n p || B n p)) + 1 / 10000)) / INR N).
Proof. exact (iou_binary ix N a b A B). Qed.
Print Assumptions iou_of_masks.
(* A prediction that equals a mask with at least one pixel has an IoU loss of less than 1/10000, *)
Theorem iou_loss_perfect {I} (ix : list I) a (A : I -> bool) v :
  (forall p, In p ix -> a p = if A p then 1 else 0) -> (1 <= count ix A)%nat ->
  neg_iou_loss ix 1 (fun _ => a) (fun _ => a) None = Some v -> 0 < v < 1 / 10000.
Proof.
  intros E C. unfold neg_iou_loss.
  rewrite (iou_of_masks ix 1 _ _ (fun _ => A) (fun _ => A)); [|lia|intros n p _ P; split; apply E, P].
  intros V. apply some_inj in V. rewrite <- V. unfold sumf. cbn [seq map].
  replace (count ix (fun p => A p && A p)%bool) with (count ix A)
    by (unfold count; f_equal; apply filter_ext; intros p; destruct (A p); reflexivity).
  replace (count ix (fun p => A p || A p)%bool) with (count ix A)
    by (unfold count; f_equal; apply filter_ext; intros p; destruct (A p); reflexivity).
  assert (K : 1 <= INR (count ix A)) by (replace 1 with (INR 1) by reflexivity; apply le_INR, C).
  set (k := INR (count ix A)) in *. cbn [rsum fold_right INR].
  replace (1 - (k / (k + 1 / 10000) + 0) / 1) with (1 / 10000 / (k + 1 / 10000)) by (field; lra).
  split; [apply Rdiv_lt_0_compat; lra|].
  apply (Rmult_lt_reg_r (k + 1 / 10000)); [lra|]. unfold Rdiv at 1. rewrite Rmult_assoc, Rinv_l by lra. lra.
Qed.
Print Assumptions iou_loss_perfect.
(* but for an empty mask the perfect prediction has the worst loss. *)
Theorem iou_loss_refuted :
  ~ (forall (ix : list nat) a (A : nat -> bool) v,
     (forall p, In p ix -> a p = if A p then 1 else 0) ->
     neg_iou_loss ix 1 (fun _ => a) (fun _ => a) None = Some v -> v < 1 / 10000).
Proof.
  intros B. specialize (B [0%nat] (fun _ => 0) (fun _ => false) _ ltac:(reflexivity) eq_refl).
  unfold sumf, lsum in B. cbn in B. lra.
Qed.
Print Assumptions iou_loss_refuted.

(* The Huber function grows with the error and stays below the distance, up to a constant, *)
Theorem huber_grows a b s : 0 < s -> a <= b -> huber a s <= huber b s.
Proof. exact (huber_mono a b s). Qed.
Print Assumptions huber_grows.
Theorem huber_below_distance d s : 0 < s -> 0 <= d -> huber (d ^ 2) s <= d + 6 / 100000 * s.
Proof. exact (huber_le_distance d s). Qed.
Print Assumptions huber_below_distance.
(* which it does not reach zero for. *)
Theorem huber_at_zero s : 0 < s -> 0 < huber 0 s <= 6 / 100000 * s.
Proof. exact (huber_zero s). Qed.
Print Assumptions huber_at_zero.
