(* C84: cross entropies and the beta prior. *)
From Coq Require Import Reals Arith Lra Lia Bool List.
From Verif Require Import Base RBase Metrics MetricsSpec MetricsProofs MetricsProofs2 MetricsProofs3.
Import ListNotations.
Local Open Scope R_scope.

(* log_lerp is the logarithm from b on, at least the logarithm below, never decreases, and
   its slope never exceeds 1 / b. *)
Theorem log_lerp_laws x y b : 0 < b -> x <= y ->
  (b <= x -> log_lerp x b = ln x) /\ (0 < x -> ln x <= log_lerp x b) /\
  0 <= log_lerp y b - log_lerp x b <= (y - x) / b.
Proof.
  intros B L. split; [exact (log_lerp_exact x b)|]. split; [exact (log_lerp_above x b B)|].
  exact (log_lerp_slope x y b B L).
Qed.
Print Assumptions log_lerp_laws.

(* With equal_w the foreground and the background have the same total weight, whatever their
   sizes, and pixels outside of the mask have none. *)
Theorem bce_balanced {I} (ix : list I) gt mask : binary ix mask ->
  (exists p, In p ix /\ mask p = 1 /\ 1 / 2 < gt p) -> (exists p, In p ix /\ mask p = 1 /\ gt p <= 1 / 2) ->
  lsum ix (fun p => above (1 / 2) (gt p) * bce_weight ix gt true mask p) = INR (length ix) / 2 /\
  lsum ix (fun p => (1 - above (1 / 2) (gt p)) * bce_weight ix gt true mask p) = INR (length ix) / 2 /\
  (forall p, mask p = 0 -> bce_weight ix gt true mask p = 0).
Proof.
  intros B F G. destruct (weight_balanced ix gt mask B F G) as [X Y].
  split; [exact X|]. split; [exact Y|]. intros p Z. apply weight_masked, Z.
Qed.
Print Assumptions bce_balanced.
Example bce_balanced_case : let gt := fun p => if Nat.ltb p 3 then 1 else 0 in let ix := seq 0 10 in
  binary ix (fun _ => 1) /\ (exists p, In p ix /\ 1 = 1 /\ 1 / 2 < gt p) /\ (exists p, In p ix /\ 1 = 1 /\ gt p <= 1 / 2).
Proof.
  cbv zeta. split; [intros p _; right; reflexivity|]. split.
  - exists 0%nat. split; [cbn; tauto|]. split; [reflexivity|]. cbn. lra.
  - exists 5%nat. split; [cbn; tauto|]. split; [reflexivity|]. cbn. lra.
Qed.

(* The loss is never negative, *)
Theorem bce_nonneg {I} (ix : list I) pred gt ew e mask lerp logits v :
  unit ix gt -> (forall m, mask = Some m -> unit ix m) -> e <= 1 ->
  (forall b, lerp = Some b -> b <= 1) -> (e <= 0 -> logits = false -> lerp <> None -> unit ix pred) ->
  calc_bce ix pred gt ew e mask lerp logits = Ok (Some v) -> 0 <= v.
Proof. exact (calc_bce_nonneg ix pred gt ew e mask lerp logits v). Qed.
Print Assumptions bce_nonneg.
(* and predictions outside of the mask have no influence on it. *)
Theorem bce_masked {I} (ix : list I) pred pred' gt ew e m lerp logits v v' :
  (forall p, In p ix -> m p <> 0 -> pred p = pred' p) ->
  calc_bce ix pred gt ew e (Some m) lerp logits = Ok (Some v) ->
  calc_bce ix pred' gt ew e (Some m) lerp logits = Ok (Some v') -> v = v'.
Proof. exact (calc_bce_masked ix pred pred' gt ew e m lerp logits v v'). Qed.
Print Assumptions bce_masked.
(* The default clamp of the predictions makes every real prediction acceptable. *)
Theorem bce_defined {I} (ix : list I) pred gt ew e mask logits : ix <> [] -> 0 < e <= 1 ->
  exists v, calc_bce ix pred gt ew e mask None logits = Ok (Some v).
Proof.
  intros N [E L]. unfold calc_bce. destruct (Rltb_spec 0 e) as [P|P]; [|lra].
  destruct (negb logits && existsb _ ix)%bool eqn:X.
  - exfalso. apply andb_true_iff in X. destruct X as [_ X]. apply existsb_exists in X.
    destruct X as (p & _ & X). destruct (clamp_unit (pred p) e E L).
    destruct (Rltb_spec (Rmin (Rmax (pred p) e) (1 - e)) 0); [lra|].
    destruct (Rltb_spec 1 (Rmin (Rmax (pred p) e) (1 - e))); [lra|discriminate].
  - destruct ix as [|a l]; [contradiction|]. eexists. reflexivity.
Qed.
Print Assumptions bce_defined.

(* But the clamp is applied to logits too, so with the default pred_eps a more confident
   right logit is not better. *)
Theorem bce_logits_refuted :
  ~ (forall x x' v v', x < x' ->
     calc_bce [0%nat] (fun _ => x) (fun _ => 1) true (1 / 100) None None true = Ok (Some v) ->
     calc_bce [0%nat] (fun _ => x') (fun _ => 1) true (1 / 100) None None true = Ok (Some v') -> v' < v).
Proof.
  intros A.
  assert (E : calc_bce [0%nat] (fun _ => 1) (fun _ => 1) true (1 / 100) None None true =
              calc_bce [0%nat] (fun _ => 2) (fun _ => 1) true (1 / 100) None None true).
  { unfold calc_bce. destruct (Rltb_spec 0 (1 / 100)) as [P|P]; [|lra].
    rewrite !(Rmax_left _ (1 / 100)) by lra. rewrite !(Rmin_right _ (1 - 1 / 100)) by lra. reflexivity. }
  destruct (bce_defined [0%nat] (fun _ => 1) (fun _ => 1) true (1 / 100) None true ltac:(discriminate) ltac:(lra))
    as [v V].
  pose proof V as V'. rewrite E in V'.
  apply (Rlt_irrefl v). apply (A 1 2 v v); [lra|exact V|exact V'].
Qed.
Print Assumptions bce_logits_refuted.

(* The beta prior is never negative, and zero exactly for binary predictions. *)
Theorem beta_prior_binary {I} (ix : list I) pred c v : unit ix pred -> beta_prior ix pred c = Ok (Some v) ->
  0 <= v /\ (v = 0 <-> binary ix pred).
Proof. exact (beta_prior_range ix pred c v). Qed.
Print Assumptions beta_prior_binary.
Theorem beta_prior_cap {I} (ix : list I) pred c : ix <> [] ->
  (beta_prior ix pred c = Fail EValue <-> c <= 0).
Proof.
  intros N. unfold beta_prior. destruct (Rleb_spec c 0) as [L|L]; split; intros X; try reflexivity; try assumption.
  - discriminate.
  - contradiction.
Qed.
Print Assumptions beta_prior_cap.
