(* C82: what eval_depth measures. *)
From Coq Require Import Reals Arith Lra Lia Bool List.
From Verif Require Import Base RBase Metrics MetricsSpec MetricsProofs MetricsProofs2.
Import ListNotations.
Local Open Scope R_scope.

(* Both errors are numbers that are not negative, and exist unless the disparity divides by zero. *)
Theorem depth_errors pred gt crop H W mask bs thr cl eps :
  exists mse abs, eval_depth pred gt crop H W mask bs thr cl false eps = Some (mse, abs) /\ 0 <= mse /\ 0 <= abs.
Proof.
  destruct bs; [rewrite eval_depth_scaled | rewrite eval_depth_plain]; eexists; eexists;
    (split; [reflexivity|]); apply err_nonneg.
Qed.
Print Assumptions depth_errors.

(* Without scaling, the square error vanishes exactly for a prediction that is right wherever
   the pixel counts. *)
Theorem depth_exact pred gt crop H W mask thr cl eps mse abs :
  eval_depth pred gt crop H W mask false thr cl false eps = Some (mse, abs) ->
  (mse = 0 <-> (forall p, inner crop H W p -> valid gt mask thr p -> pred p = gt p)) /\
  ((forall p, inner crop H W p -> valid gt mask thr p -> pred p = gt p) -> abs = 0).
Proof.
  rewrite eval_depth_plain. intros E. apply some_inj in E.
  assert (M : mse = err2 gt mask thr (window crop H W) pred) by exact (eq_sym (f_equal fst E)).
  assert (A : abs = err1 gt mask thr (window crop H W) pred) by exact (eq_sym (f_equal snd E)).
  rewrite M, A. split.
  - rewrite err_zero. split; intros X p P; apply X; apply window_in; exact P.
  - intros X. apply err1_zero. intros p P. apply X. apply window_in. exact P.
Qed.
Print Assumptions depth_exact.

(* Pixels near the border, outside of the mask or without true depth have no influence. *)
Theorem depth_only_valid pred pred' gt gt' mask mask' thr cl crop H W bs dp eps r r' :
  (forall p, inner crop H W p -> (valid gt mask thr p <-> valid gt' mask' thr p)) ->
  (forall p, inner crop H W p -> valid gt mask thr p -> pred p = pred' p /\ gt p = gt' p) ->
  eval_depth pred gt crop H W mask bs thr cl dp eps = Some r ->
  eval_depth pred' gt' crop H W mask' bs thr cl dp eps = Some r' -> r = r'.
Proof. exact (eval_depth_invalid pred pred' gt gt' mask mask' thr cl crop H W bs dp eps r r'). Qed.
Print Assumptions depth_only_valid.
Example invalid_pixels_differ :
  let gt := fun p : nat * nat => if Nat.eqb (fst p) 1 then 2 else 0 in
  (forall p, inner 1 4 5 p -> (valid gt None 0 p <-> valid (fun p => gt p - 1) None 0 p)) /\
  inner 1 4 5 (1, 1)%nat /\ valid gt None 0 (1, 1)%nat /\ ~ valid gt None 0 (2, 2)%nat.
Proof.
  cbv zeta. repeat split.
  - destruct H0 as [A _]. destruct (Nat.eqb (fst p) 1); lra.
  - destruct H0 as [A _]. destruct (Nat.eqb (fst p) 1); lra.
  - cbn. lia.
  - cbn. lia.
  - cbn. lia.
  - cbn. lia.
  - cbn. lra.
  - intros [A _]. cbn in A. lra.
Qed.

(* No factor gives a smaller square error than the one that is estimated, *)
Theorem depth_best_scale pred gt crop H W mask thr cl eps s mse abs mse' abs' :
  0 < cl -> cl <= energy pred gt mask thr crop H W ->
  eval_depth pred gt crop H W mask true thr cl false eps = Some (mse, abs) ->
  eval_depth (fun p => pred p * s) gt crop H W mask false thr cl false eps = Some (mse', abs') ->
  mse <= mse'.
Proof.
  intros C E. rewrite eval_depth_scaled, eval_depth_plain. intros A B.
  apply some_inj in A. apply some_inj in B.
  rewrite <- (f_equal fst A : _ = mse), <- (f_equal fst B : _ = mse'). cbn [fst].
  apply (best_scale_wins pred gt mask thr cl crop H W C E).
Qed.
Print Assumptions depth_best_scale.
Example energy_enough : energy (fun _ => 1) (fun _ => 2) None 0 1 5 5 = 1.
Proof. unfold energy, mean, lsum. cbn. destruct (Rltb_spec 0 2); [cbn|]; lra. Qed.

(* so the errors do not depend on the unit of the predicted depth. *)
Theorem depth_scale_invariant pred gt mask thr cl crop H W eps k : 0 < cl -> k <> 0 ->
  cl <= energy pred gt mask thr crop H W -> cl <= energy (fun p => pred p * k) gt mask thr crop H W ->
  eval_depth (fun p => pred p * k) gt crop H W mask true thr cl false eps =
  eval_depth pred gt crop H W mask true thr cl false eps.
Proof. exact (eval_scale_invariant pred gt mask thr cl crop H W eps k). Qed.
Print Assumptions depth_scale_invariant.

(* A prediction that is right up to a factor has no error. *)
Theorem depth_right_up_to_scale pred gt crop H W mask thr cl eps k mse abs :
  0 < cl -> cl <= energy pred gt mask thr crop H W -> k <> 0 ->
  (forall p, inner crop H W p -> valid gt mask thr p -> gt p = pred p * k) ->
  eval_depth pred gt crop H W mask true thr cl false eps = Some (mse, abs) -> mse = 0 /\ abs = 0.
Proof.
  intros C E K G. rewrite eval_depth_scaled. intros A. apply some_inj in A.
  assert (M : mse = 0).
  { apply Rle_antisym.
    - rewrite <- (f_equal fst A : _ = mse). cbn [fst].
      replace 0 with (err2 gt mask thr (window crop H W) (fun p => pred p * k)).
      + apply (best_scale_wins pred gt mask thr cl crop H W C E).
      + apply err_zero. intros p P V. symmetry. apply G; [apply window_in, P|exact V].
    - rewrite <- (f_equal fst A : _ = mse). apply err_nonneg. }
  split; [exact M|].
  rewrite <- (f_equal snd A : _ = abs). cbn [snd]. apply err1_zero. intros p P V.
  rewrite <- (f_equal fst A : _ = mse) in M. cbn [fst] in M.
  exact (proj1 (err_zero gt mask thr (window crop H W) _) M p P V).
Qed.
Print Assumptions depth_right_up_to_scale.

(* Without the condition on the size of the predicted depths this is false: the divisor of the
   estimate is clamped, so a prediction in large units is not brought to the right scale. *)
Theorem depth_best_scale_refuted :
  ~ (forall pred gt crop H W mask thr eps k mse abs, k <> 0 ->
     (forall p, inner crop H W p -> valid gt mask thr p -> gt p = pred p * k) ->
     eval_depth pred gt crop H W mask true thr (1 / 10000) false eps = Some (mse, abs) -> mse = 0).
Proof.
  intros A.
  specialize (A (fun _ => 1 / 1000) (fun _ => 1) 0%nat 1%nat 1%nat None (1 / 2) 0 1000 _ _ ltac:(lra)
    ltac:(intros; lra) (eval_depth_scaled _ _ _ _ _ _ _ _ _)).
  apply err_zero with (p := (0%nat, 0%nat)) in A.
  - unfold best, scale_factor, mean, dm, masked, lsum, window in A. cbn in A.
    unfold above in A. destruct (Rltb_spec 0 1); [|lra].
    rewrite Rmax_right in A by lra. lra.
  - left. reflexivity.
  - split; [lra|exact Logic.I].
Qed.
Print Assumptions depth_best_scale_refuted.
