(* C69: iterative_closest_point alternates nearest neighbours and best fits, and its error never grows. *)
From Verif Require Import Base RBase Geom LinAlg TopK Knn.
From Verif Require Import Alignment AlignmentSpec AlignmentProofs AlignmentProofs4 AlignmentProofs5 AlignmentProofs6 AlignmentProofs7.
Local Open Scope R_scope.

(* The run is the one of the algorithm: from the initial transform, every recorded transform fits
   the cloud best to the nearest neighbours of its previous image; rmse is the error of the last
   fit; it stops at the first iteration in which every error decreased by at most the threshold. *)
Theorem icp_runs_algorithm svd sort x y init m thr es ar :
  (forall a, svd_of a (svd a)) -> sorts sort ->
  padded_batch x -> padded_batch y -> length (rows x) = length (rows y) -> rows x <> [] ->
  Forall (fun k => (1 <= k)%nat) (nums x) -> Forall (fun k => (1 <= k)%nat) (nums y) -> ignores_padding x y ->
  (es = true -> forall i, (i < length (rows x))%nat -> icp_eps <= variance (ones (cloud x i)) (cloud x i)) ->
  match init with None => True | Some ts => length ts = length (rows x) end ->
  exists sol errs, iterative_closest_point svd sort x y init m thr es ar = Ok sol /\
    icp_run es ar thr x y init m sol errs.
Proof. intros. apply icp_runs; assumption. Qed.
Print Assumptions icp_runs_algorithm.

(* Along such a run no cloud's error grows ... *)
Theorem icp_errors_never_grow x y init m thr es ar sol errs n k i :
  padded_batch x -> length (rows x) = length (rows y) -> Forall (fun k => (1 <= k)%nat) (nums x) ->
  (es = true -> forall i, (i < length (rows x))%nat -> icp_eps <= variance (ones (cloud x i)) (cloud x i)) ->
  icp_run es ar thr x y init m sol errs ->
  (n + k < length errs)%nat -> (i < length (rows x))%nat -> error_at errs (n + k) i <= error_at errs n i.
Proof. intros P B N V R. exact (run_lower_trans es ar thr x y init P B N V m sol errs R n k i). Qed.
Print Assumptions icp_errors_never_grow.

(* ... so allowing more iterations never gives a larger rmse, and changes nothing once converged. *)
Theorem icp_more_iterations svd sort x y init m m' thr es ar sol sol' :
  (forall a, svd_of a (svd a)) -> sorts sort ->
  padded_batch x -> padded_batch y -> length (rows x) = length (rows y) -> rows x <> [] ->
  Forall (fun k => (1 <= k)%nat) (nums x) -> Forall (fun k => (1 <= k)%nat) (nums y) -> ignores_padding x y ->
  (es = true -> forall i, (i < length (rows x))%nat -> icp_eps <= variance (ones (cloud x i)) (cloud x i)) ->
  match init with None => True | Some ts => length ts = length (rows x) end -> (m <= m')%nat ->
  iterative_closest_point svd sort x y init m thr es ar = Ok sol ->
  iterative_closest_point svd sort x y init m' thr es ar = Ok sol' ->
  (converged sol = true -> sol' = sol) /\ (exists tail, history sol' = history sol ++ tail) /\
  forall e e' i, rmse sol = Some e -> rmse sol' = Some e' -> (i < length (rows x))%nat -> nth i e' 0 <= nth i e 0.
Proof.
  intros Hs Ho P Q B Ne N N' Ip V Hi. exact (icp_longer svd sort Hs Ho es ar thr x y init P Q B Ne N N' Ip V Hi m m' sol sol').
Qed.
Print Assumptions icp_more_iterations.

(* A perfect fit is never reported as converged: aligning clouds with themselves reaches error 0
   in the first iteration and then runs through all iterations. *)
Theorem icp_perfect_fit_converges_refuted svd sort x m thr es ar :
  (forall a, svd_of a (svd a)) -> sorts sort -> padded_batch x -> rows x <> [] ->
  Forall (fun k => k = width x) (nums x) -> (1 <= width x)%nat -> thr < 1 ->
  (es = true -> forall i, (i < length (rows x))%nat -> icp_eps <= variance (ones (cloud x i)) (cloud x i)) ->
  exists sol, iterative_closest_point svd sort x x None m thr es ar = Ok sol /\ converged sol = false /\
    (forall e, rmse sol = Some e -> length e = length (rows x) /\ forall i, (i < length (rows x))%nat -> nth i e 0 = 0) /\
    ((1 <= m)%nat -> rmse sol <> None).
Proof. intros. apply self_never; assumption. Qed.
Print Assumptions icp_perfect_fit_converges_refuted.

(* Padding is not always left out: with two pairs of equal clouds of 1 and 2 points the fit of the
   first pair is off by 1/2, although the two clouds are the same. *)
Theorem icp_padding_ignored_refuted : exists x,
  padded_batch x /\ (exists i, (i < length (nums x))%nat /\ (nth i (nums x) 0 < width x)%nat) /\
  forall svd sort thr, (forall a, svd_of a (svd a)) -> sorts sort ->
  exists sol, iterative_closest_point svd sort x x None 1 thr false false = Ok sol /\
    misfit (ones (cloud x 0)) (cloud x 0) (cloud x 0) (nth 0 (rts sol) (Sim id3 (V3 0 0 0) 1)) = / 4.
Proof.
  exists px. split; [exact px_padded|]. split; [exists 0%nat; cbn; lia|].
  intros svd sort thr Hs Ho. exact (padding_result svd sort Hs Ho thr).
Qed.
Print Assumptions icp_padding_ignored_refuted.

(* ValueError for different batch sizes and for an initial transform of the wrong batch size *)
Theorem icp_rejects svd sort x y init m thr es ar :
  length (rows x) <> length (rows y) \/ (exists ts, init = Some ts /\ length ts <> length (rows x)) ->
  iterative_closest_point svd sort x y init m thr es ar = Fail EValue.
Proof.
  intros H. unfold iterative_closest_point. destruct (Nat.eqb_spec (length (rows x)) (length (rows y))) as [E|]; [|reflexivity].
  destruct H as [H|(ts & -> & H)]; [contradiction|]. cbn [negb]. destruct (Nat.eqb_spec (length ts) (length (rows x))); [contradiction|reflexivity].
Qed.
Print Assumptions icp_rejects.

(* clouds of different sizes meet the hypotheses *)
Example icp_hypotheses :
  let x := PT 2 [[V3 1 0 0; V3 0 0 0]; [V3 1 0 0; V3 0 1 0]] [1%nat; 2%nat] in
  let y := PT 3 [[V3 1 0 0; V3 0 0 0; V3 0 0 1]; [V3 1 0 0; V3 0 1 0; V3 0 0 0]] [3%nat; 2%nat] in
  padded_batch x /\ padded_batch y /\ ignores_padding x y /\ Forall (fun k => (1 <= k)%nat) (nums x).
Proof.
  cbv zeta. split; [split; [reflexivity|split; repeat constructor]|]. split; [split; [reflexivity|split; repeat constructor]|].
  split; [left; discriminate|repeat constructor].
Qed.
