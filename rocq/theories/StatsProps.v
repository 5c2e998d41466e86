(* C51. Metric statistics are averages of exactly the logged values, whatever the history of calls. *)
From Coq Require Import ZArith Reals String Lra Lia.
From Verif Require Import Base RBase Stats StatsSpec StatsProofs.
Local Open Scope R_scope.
Local Open Scope list_scope.

(* A single meter, after any sequence of updates (with positive counts and epochs from 0) and resets:
   the history has the values of every epoch in order, and the running average is the weighted mean since the last reset. *)
Theorem average_meter_exact l : positive l ->
  (forall e, nth e (history (run_meter l)) [] = of_epoch e l) /\
  sum (run_meter l) = rsum (map (fun p => fst p * IZR (snd p)) (since_reset l)) /\
  IZR (count (run_meter l)) = rsum (map (fun p => IZR (snd p)) (since_reset l)) /\
  (since_reset l <> [] -> avg (run_meter l) = weighted_mean (since_reset l)).
Proof. intros H. destruct (meter_follows l H) as (A & B & C & _ & D). repeat split; auto. intros N. apply (D N). Qed.
Print Assumptions average_meter_exact.
Example meter_case : let l := [Updated 1 1 0; Updated 3 1 0; WasReset; Updated 5 2 2] in positive l /\ since_reset l = [(5, 2%Z)] /\ of_epoch 0 l = [1 / 1; 3 / 1] /\ of_epoch 1 l = [].
Proof. repeat split; repeat constructor; lia. Qed.

(* After any sensible history of calls the averages asked for an epoch are the means of the values logged in that
   epoch, for every stat set seen since the last hard reset and every variable with a value since the last reset;
   -1 stands for the list of all epochs before the current one. *)
Theorem stats_epoch_averages vars e0 cs e : NoDup vars -> (-1 <= e0)%Z -> sensible (start vars e0) cs ->
  let s := fold_left step cs (new_stats vars true e0) in let t := fold_left tstep cs (start vars e0) in
  (0 <= t_epoch t)%Z -> (e = -1 \/ 0 <= e <= t_epoch t)%Z ->
  exists out, get_epoch_averages s (Some e) = Ok out /\ forall set, match get set out with
    | None => ~ In set (t_sets t)
    | Some (i, rows) => In set (t_sets t) /\ i = Some (Z.of_nat (count_occ string_dec (t_iters t) set) - 1)%Z /\
        forall stat, get stat rows = match values set stat (t_recent t) with [] => None | _ =>
          Some (Some (if (e =? -1)%Z then Many (map (fun e => mean (values set stat (at_epoch (Z.of_nat e) (t_log t)))) (seq 0 (Z.to_nat (t_epoch t))))
                      else One (mean (values set stat (at_epoch e (t_log t)))))) end
    end.
Proof. intros ND He HS s t H0 H1. apply averages_ok; [apply run_follows; assumption|exact H0|exact H1]. Qed.
Print Assumptions stats_epoch_averages.

(* Without an epoch the current one is used. *)
Theorem stats_current_epoch vars e0 cs : NoDup vars -> (-1 <= e0)%Z -> sensible (start vars e0) cs ->
  let s := fold_left step cs (new_stats vars true e0) in let t := fold_left tstep cs (start vars e0) in
  get_epoch_averages s None = get_epoch_averages s (Some (t_epoch t)) /\ epoch s = t_epoch t.
Proof. intros ND He HS s t. pose proof (f_epoch _ _ (run_follows vars e0 cs ND He HS)) as E. fold s t in E. split; [unfold get_epoch_averages; rewrite E; reflexivity|exact E]. Qed.
Print Assumptions stats_current_epoch.

(* The running averages of the status line: the mean since the last reset; without explicit resets that is the mean
   of the current epoch. No call raises. *)
Theorem stats_running_average vars e0 cs set d stat m : NoDup vars -> (-1 <= e0)%Z -> sensible (start vars e0) cs ->
  let s := fold_left step cs (new_stats vars true e0) in let t := fold_left tstep cs (start vars e0) in
  get set (stats s) = Some d -> get stat d = Some m ->
  count m = Z.of_nat (length (values set stat (t_recent t))) /\
  (values set stat (t_recent t) <> [] -> mean (values set stat (t_recent t)) = Some (avg m)) /\
  (List.Forall no_reset cs -> t_recent t = at_epoch (t_epoch t) (t_log t)).
Proof.
  intros ND He HS s t Hd Hm. pose proof (run_follows vars e0 cs ND He HS) as F. fold s t in F. destruct (f_stats _ _ F set d Hd) as (_ & H). specialize (H stat). rewrite Hm in H. destruct H as (_ & _ & C & D & _). split; [exact C|]. split.
  - intros N. destruct (D N) as (_ & A). rewrite A. unfold mean. destruct (values set stat (t_recent t)); [congruence|reflexivity].
  - intros HF. apply (recent_current (start vars e0) cs); auto. cbn. split; [reflexivity|]. split; [intros x []|]. split; [exact He|reflexivity].
Qed.
Print Assumptions stats_running_average.
Theorem stats_update_succeeds vars e0 cs preds ts now f set : NoDup vars -> (-1 <= e0)%Z -> sensible (start vars e0) cs ->
  snd (update (fold_left step cs (new_stats vars true e0)) preds ts now f set) = Ok tt.
Proof. intros ND He HS. apply (update_follows _ _ preds ts now f set (run_follows vars e0 cs ND He HS)). Qed.
Print Assumptions stats_update_succeeds.

Example stats_case :
  let cs := [Update [("loss"%string, Num 1)] None 0 false "train"; Update [("loss"%string, Tensor [1; 2])] None 0 false "train";
             AddLogVars ["psnr"%string]; NewEpoch; Update [("loss"%string, Num 5); ("psnr"%string, Num 7)] None 0 false "train"; Update [("loss"%string, Num 9)] None 0 true "val"] in
  let t := fold_left tstep cs (start ["loss"%string] (-1)) in
  sensible (start ["loss"%string] (-1)) cs /\ t_epoch t = 1%Z /\ values "train" "loss" (at_epoch 0 (t_log t)) = [1; rsum [1; 2]] /\
  values "train" "loss" (t_recent t) = [5] /\ values "train" "psnr" (t_log t) = [7] /\ values "val" "loss" (t_log t) = [9] /\ count_occ string_dec (t_iters t) "val"%string = 0%nat.
Proof.
  cbv zeta. repeat split; try reflexivity.
  - repeat (apply NoDup_cons; [cbn; intuition discriminate|]). apply NoDup_nil.
  - cbn. intros x [<-|[]]. intuition discriminate.
Qed.

(* Findings. *)
(* With n other than 1 the running average and the average of the epoch disagree even for a single epoch:
   the history keeps val / n, the running sum val * n. *)
Theorem meter_average_is_epoch_average_refuted : ~ forall v n, (0 < n)%Z -> let m := fst (update_meter new_meter v n 0) in
  meter_averages m 0 = Ok (Some (One (Some (avg m)))).
Proof.
  intros H. specialize (H 2 2%Z ltac:(lia)). cbn in H. injection H as H. cbn in H. unfold rsum in H. cbn in H. lra.
Qed.
Print Assumptions meter_average_is_epoch_average_refuted.
(* Adding a variable that is already logged logs it twice: its values count double. *)
Theorem add_log_vars_keeps_counts_refuted : ~ forall vars x preds set, In x vars ->
  let s := fst (update (fst (add_log_vars (new_stats vars true 0) [x])) preds None 0 false set) in
  forall d m, get set (stats s) = Some d -> get x d = Some m -> (count m <= 1)%Z.
Proof.
  intros H. specialize (H ["loss"%string] "loss"%string [("loss"%string, Num 1)] "train"%string (or_introl eq_refl)). cbn -[Z.le Z.add] in H.
  specialize (H _ _ eq_refl eq_refl). cbn in H. lia.
Qed.
Print Assumptions add_log_vars_keeps_counts_refuted.
(* A variable named like a stat set is silently not added. *)
Theorem add_log_vars_adds_refuted : ~ forall s x, growable s = true -> In x (log_vars (fst (add_log_vars s [x]))).
Proof.
  intros H. specialize (H (fst (update (new_stats ["loss"%string] true 0) [] None 0 false "train")) "train"%string eq_refl). cbn in H. intuition discriminate.
Qed.
Print Assumptions add_log_vars_adds_refuted.
(* With a tuple of variables, as in the docstring, adding one raises. *)
Theorem add_log_vars_tuple_refuted : ~ forall vars x e, ~ In x vars -> snd (add_log_vars (new_stats vars false e) [x]) = Ok tt.
Proof. intros H. specialize (H [] "psnr"%string 0%Z (fun f => f)). discriminate H. Qed.
Print Assumptions add_log_vars_tuple_refuted.
(* Right after new_epoch the averages of the finished epoch are not reported. *)
Theorem finished_epoch_reported_refuted : ~ forall vars cs e set stat, NoDup vars ->
  let s := fold_left step cs (new_stats vars true (-1)) in let t := fold_left tstep cs (start vars (-1)) in
  sensible (start vars (-1)) cs -> values set stat (at_epoch e (t_log t)) <> [] ->
  forall out, get_epoch_averages s (Some e) = Ok out -> exists i rows, get set out = Some (i, rows) /\ get stat rows <> None.
Proof.
  intros H. specialize (H ["loss"%string] [Update [("loss"%string, Num 1)] None 0 false "train"%string; NewEpoch] 0%Z "train"%string "loss"%string).
  cbn in H. assert (ND : NoDup ["loss"%string]) by (constructor; [intros []|constructor]). specialize (H ND). cbv zeta in H. specialize (H ltac:(auto) ltac:(discriminate) _ eq_refl). destruct H as (i & rows & E & N). injection E as <- <-. apply N. reflexivity.
Qed.
Print Assumptions finished_epoch_reported_refuted.
