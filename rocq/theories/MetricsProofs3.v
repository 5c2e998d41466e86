From Coq Require Import Reals Arith Lra Lia Bool List.
From Verif Require Import Base RBase Metrics MetricsSpec MetricsProofs MetricsProofs2.
Import ListNotations.
Local Open Scope R_scope.

Lemma ln_le_line x : 0 < x -> ln x <= x - 1.
Proof.
  intros P. pose proof (exp_ineq1_le (ln x)) as E. rewrite exp_ln in E by exact P. lra.
Qed.
Lemma ln_diff x y : 0 < x -> 0 < y -> ln y - ln x <= (y - x) / x.
Proof.
  intros X Y. pose proof (ln_le_line (y / x) ltac:(apply Rdiv_lt_0_compat; assumption)) as L.
  unfold Rdiv in L. rewrite ln_mult in L; [|exact Y|apply Rinv_0_lt_compat, X]. rewrite ln_Rinv in L by exact X.
  replace ((y - x) / x) with (y * / x - 1) by (field; lra). lra.
Qed.
Lemma ln_mono x y : 0 < x -> x <= y -> ln x <= ln y.
Proof.
  intros X L. destruct (Rle_lt_or_eq_dec x y L) as [Q|Q]; [left; apply ln_increasing; assumption|rewrite Q; apply Rle_refl].
Qed.
Lemma ln_le_0 x : 0 < x -> x <= 1 -> ln x <= 0.
Proof. intros X L. rewrite <- ln_1. apply ln_mono; assumption. Qed.

Lemma log_lerp_exact x b : b <= x -> log_lerp x b = ln x.
Proof. intros L. unfold log_lerp. destruct (Rleb_spec b x); [reflexivity|lra]. Qed.
Lemma log_lerp_above x b : 0 < b -> 0 < x -> ln x <= log_lerp x b.
Proof.
  intros B X. unfold log_lerp. destruct (Rleb_spec b x); [apply Rle_refl|].
  pose proof (ln_diff b x B X). lra.
Qed.
Lemma log_lerp_slope x y b : 0 < b -> x <= y -> 0 <= log_lerp y b - log_lerp x b <= (y - x) / b.
Proof.
  intros B L. assert (IB : 0 < / b) by (apply Rinv_0_lt_compat, B).
  assert (Q : forall u, b <= u -> 0 <= ln u - ln b <= (u - b) / b).
  { intros u U. pose proof (ln_mono b u B U). pose proof (ln_diff b u B ltac:(lra)). lra. }
  assert (S : forall u v, (u - v) / b = (u - b) / b - (v - b) / b) by (intros; field; lra).
  unfold log_lerp. destruct (Rleb_spec b y) as [Y|Y]; destruct (Rleb_spec b x) as [X|X]; try lra.
  - pose proof (ln_mono x y ltac:(lra) L). pose proof (ln_diff x y ltac:(lra) ltac:(lra)) as D. split; [lra|].
    apply (Rle_trans _ _ _ D). unfold Rdiv. apply Rmult_le_compat_l; [lra|]. apply Rinv_le_contravar; lra.
  - destruct (Q y Y) as [Q1 Q2]. rewrite (S y x).
    assert ((x - b) / b <= 0).
    { assert (0 <= (b - x) * / b) by (apply Rmult_le_pos; lra). unfold Rdiv. lra. }
    split; lra.
  - assert (0 <= (y - x) * / b) by (apply Rmult_le_pos; lra). rewrite (S y x).
    assert ((y - b) / b - (x - b) / b = (y - x) * / b) by (unfold Rdiv; ring). split; lra.
Qed.
Lemma log_lerp_nonpos x b : 0 < b -> b <= 1 -> x <= 1 -> log_lerp x b <= 0.
Proof.
  intros B B1 X. destruct (log_lerp_slope x 1 b B X) as [L _].
  rewrite (log_lerp_exact 1 b B1), ln_1 in L. lra.
Qed.

Lemma log100_nonpos x : x <= 1 -> log100 x <= 0.
Proof.
  intros X. unfold log100. destruct (Rleb_spec x 0); [lra|]. apply Rmax_lub; [apply ln_le_0; lra|lra].
Qed.
Lemma bce_entry_nonneg p y : 0 <= p <= 1 -> 0 <= y <= 1 -> 0 <= bce_entry p y.
Proof.
  intros P Y. unfold bce_entry. pose proof (log100_nonpos p ltac:(lra)). pose proof (log100_nonpos (1 - p) ltac:(lra)).
  assert (0 <= y * - log100 p) by (apply Rmult_le_pos; lra).
  assert (0 <= (1 - y) * - log100 (1 - p)) by (apply Rmult_le_pos; lra). lra.
Qed.
Lemma bce_logit_nonneg x y : 0 <= y <= 1 -> 0 <= bce_logit_entry x y.
Proof.
  intros Y. unfold bce_logit_entry. pose proof (exp_pos (- x)) as E.
  assert (L : 0 <= ln (1 + exp (- x))) by (rewrite <- ln_1; apply ln_mono; lra).
  assert (M : - x <= ln (1 + exp (- x))).
  { rewrite <- (ln_exp (- x)) at 1. apply ln_mono; lra. }
  set (z := ln (1 + exp (- x))) in *. clearbody z.
  destruct (Rle_or_lt 0 x) as [X|X].
  - assert (0 <= (1 - y) * x) by (apply Rmult_le_pos; lra). lra.
  - assert (0 <= y * - x) by (apply Rmult_le_pos; lra). lra.
Qed.

Section Bce.
Context {I : Type} (ix : list I).

Section Weight.
Variables (gt mask : I -> R).
Definition fgw p := above (1 / 2) (gt p) * mask p.
Definition bgw p := (1 - fgw p) * mask p.
Definition raw p := fgw p / Rmax (lsum ix fgw) 1 + bgw p / Rmax (lsum ix bgw) 1.
Lemma weight_is : forall p, bce_weight ix gt true mask p = raw p * (INR (length ix) / Rmax (lsum ix raw) 1).
Proof. reflexivity. Qed.

Lemma max1_pos x : 0 < Rmax x 1.
Proof. pose proof (Rmax_r x 1). lra. Qed.

Lemma weight_nonneg ew : unit ix mask -> forall p, In p ix -> 0 <= bce_weight ix gt ew mask p.
Proof.
  intros U. assert (F : forall p, In p ix -> 0 <= fgw p <= 1).
  { intros p P. unfold fgw. destruct (U p P). destruct (above_cases (1 / 2) (gt p)) as [[-> _]|[-> _]]; lra. }
  assert (B : forall p, In p ix -> 0 <= bgw p).
  { intros p P. unfold bgw. destruct (F p P), (U p P). apply Rmult_le_pos; lra. }
  assert (R0 : forall p, In p ix -> 0 <= raw p).
  { intros p P. unfold raw. pose proof (div_nonneg (fgw p) _ (proj1 (F p P)) (max1_pos (lsum ix fgw))).
    pose proof (div_nonneg (bgw p) _ (B p P) (max1_pos (lsum ix bgw))). lra. }
  intros p P. destruct ew.
  - rewrite weight_is. apply Rmult_le_pos; [apply R0, P|]. apply div_nonneg; [apply pos_INR|apply max1_pos].
  - cbn. destruct (U p P). lra.
Qed.
Lemma weight_masked ew p : mask p = 0 -> bce_weight ix gt ew mask p = 0.
Proof.
  intros Z. destruct ew; [|cbn; rewrite Z; ring]. rewrite weight_is. unfold raw, bgw, fgw. rewrite Z.
  unfold Rdiv. ring.
Qed.

Lemma sum_ge_one (f : I -> R) a : In a ix -> (forall p, In p ix -> 0 <= f p) -> f a = 1 -> 1 <= lsum ix f.
Proof.
  intros A N E. induction ix as [|b l IH]; [contradiction|]. rewrite lsum_cons.
  assert (0 <= f b) by (apply N; left; reflexivity).
  assert (0 <= lsum l f) by (apply lsum_nonneg; intros; apply N; right; assumption).
  destruct A as [-> | A]; [lra|].
  assert (1 <= lsum l f) by (apply IH; [exact A | intros; apply N; right; assumption]). lra.
Qed.

Hypothesis Hbin : binary ix mask.
Hypothesis Hfg : exists p, In p ix /\ mask p = 1 /\ 1 / 2 < gt p.
Hypothesis Hbg : exists p, In p ix /\ mask p = 1 /\ gt p <= 1 / 2.

Lemma fg_cases p : In p ix ->
  (fgw p = 1 /\ bgw p = 0 /\ above (1 / 2) (gt p) = 1) \/
  (fgw p = 0 /\ bgw p = 1 /\ above (1 / 2) (gt p) = 0) \/ (fgw p = 0 /\ bgw p = 0).
Proof.
  intros P. unfold bgw, fgw.
  destruct (Hbin p P) as [M|M]; rewrite M; destruct (above_cases (1 / 2) (gt p)) as [[A _]|[A _]]; rewrite A.
  - right; right; split; ring.
  - right; right; split; ring.
  - left. repeat split; ring.
  - right; left. repeat split; ring.
Qed.
Lemma F_ge : 1 <= lsum ix fgw.
Proof.
  destruct Hfg as (p & P & M & G). apply (sum_ge_one _ p P).
  - intros q Q. destruct (fg_cases q Q) as [[-> _]|[[-> _]|[-> _]]]; lra.
  - unfold fgw. rewrite M. destruct (above_cases (1 / 2) (gt p)) as [[-> _]|[_ L]]; lra.
Qed.
Lemma G_ge : 1 <= lsum ix bgw.
Proof.
  destruct Hbg as (p & P & M & G). apply (sum_ge_one _ p P).
  - intros q Q. destruct (fg_cases q Q) as [[_ [-> _]]|[[_ [-> _]]|[_ ->]]]; lra.
  - unfold bgw, fgw. rewrite M. destruct (above_cases (1 / 2) (gt p)) as [[_ L]|[-> _]]; lra.
Qed.
Lemma raw_sum : lsum ix raw = 2.
Proof.
  pose proof F_ge as F. pose proof G_ge as G. unfold raw. rewrite lsum_plus. rewrite !Rmax_left by assumption.
  rewrite (lsum_ext ix (fun p => fgw p / lsum ix fgw) (fun p => / lsum ix fgw * fgw p)) by (intros; unfold Rdiv; ring).
  rewrite (lsum_ext ix (fun p => bgw p / lsum ix bgw) (fun p => / lsum ix bgw * bgw p)) by (intros; unfold Rdiv; ring).
  rewrite !lsum_scal. field. split; lra.
Qed.
Lemma weight_balanced :
  lsum ix (fun p => above (1 / 2) (gt p) * bce_weight ix gt true mask p) = INR (length ix) / 2 /\
  lsum ix (fun p => (1 - above (1 / 2) (gt p)) * bce_weight ix gt true mask p) = INR (length ix) / 2.
Proof.
  pose proof F_ge as F. pose proof G_ge as G.
  set (n := INR (length ix)).
  assert (WI : forall p, bce_weight ix gt true mask p = raw p * (n / 2)).
  { intros p. rewrite weight_is, raw_sum, Rmax_left by lra. reflexivity. }
  split.
  - rewrite (lsum_ext ix _ (fun p => n / 2 / lsum ix fgw * fgw p)).
    + rewrite lsum_scal. field. lra.
    + intros p P. rewrite WI. unfold raw. rewrite !Rmax_left by assumption.
      destruct (fg_cases p P) as [[-> [-> ->]]|[[-> [-> ->]]|[-> ->]]]; unfold Rdiv; ring.
  - rewrite (lsum_ext ix _ (fun p => n / 2 / lsum ix bgw * bgw p)).
    + rewrite lsum_scal. field. lra.
    + intros p P. rewrite WI. unfold raw. rewrite !Rmax_left by assumption.
      destruct (fg_cases p P) as [[-> [-> ->]]|[[-> [-> ->]]|[-> ->]]]; unfold Rdiv; ring.
Qed.
End Weight.

Lemma bce_lerp_nonneg pred gt w b v : unit ix pred -> unit ix gt -> (forall p, In p ix -> 0 <= w p) -> b <= 1 ->
  bce_lerp ix pred gt w b = Ok v -> 0 <= v.
Proof.
  intros P G W B1. unfold bce_lerp. destruct (Rleb_spec b 0) as [|B0]; [discriminate|]. intros E. assert (B : 0 < b) by lra.
  assert (V : v = - lsum ix (fun p => (log_lerp (1 - pred p) b * (1 - gt p) + log_lerp (pred p) b * gt p) * w p)
      / Rmax (lsum ix w) (1 / 10000)).
  { exact (eq_sym (f_equal (fun r => match r with Ok a => a | Fail _ => v end) E)). }
  rewrite V. pose proof (Rmax_r (lsum ix w) (1 / 10000)). apply div_nonneg; [|lra].
  rewrite <- (Rmult_1_l (lsum _ _)), <- Ropp_mult_distr_l_reverse, <- lsum_scal. apply lsum_nonneg. intros p Q.
  destruct (P p Q), (G p Q). specialize (W p Q).
  pose proof (log_lerp_nonpos (pred p) b B B1 ltac:(lra)). pose proof (log_lerp_nonpos (1 - pred p) b B B1 ltac:(lra)).
  assert (0 <= - log_lerp (1 - pred p) b * (1 - gt p)) by (apply Rmult_le_pos; lra).
  assert (0 <= - log_lerp (pred p) b * gt p) by (apply Rmult_le_pos; lra).
  replace (- (1) * ((log_lerp (1 - pred p) b * (1 - gt p) + log_lerp (pred p) b * gt p) * w p))
    with ((- log_lerp (1 - pred p) b * (1 - gt p) + - log_lerp (pred p) b * gt p) * w p) by ring.
  apply Rmult_le_pos; lra.
Qed.

Lemma clamp_unit x e : 0 < e -> e <= 1 -> 0 <= Rmin (Rmax x e) (1 - e) <= 1.
Proof.
  intros E L. pose proof (Rmin_r (Rmax x e) (1 - e)). split; [|lra].
  apply Rmin_glb; [pose proof (Rmax_r x e); lra|lra].
Qed.
Lemma sigmoid_unit x : 0 <= sigmoid x <= 1.
Proof.
  unfold sigmoid. pose proof (exp_pos (- x)). split; [apply div_nonneg; lra|].
  apply (Rmult_le_reg_r (1 + exp (- x))); [lra|]. unfold Rdiv. rewrite Rmult_assoc, Rinv_l by lra. lra.
Qed.

Lemma calc_bce_nonneg pred gt ew e mask lerp logits v :
  unit ix gt -> (forall m, mask = Some m -> unit ix m) -> e <= 1 ->
  (forall b, lerp = Some b -> b <= 1) -> (e <= 0 -> logits = false -> lerp <> None -> unit ix pred) ->
  calc_bce ix pred gt ew e mask lerp logits = Ok (Some v) -> 0 <= v.
Proof.
  intros G M E1 B U. unfold calc_bce.
  set (q := if Rltb 0 e then fun p => Rmin (Rmax (pred p) e) (1 - e) else pred).
  set (m := match mask with Some m => m | None => fun _ => 1 end).
  assert (UM : unit ix m).
  { unfold m. destruct mask as [k|]; [apply M; reflexivity|]. intros p _. lra. }
  pose proof (weight_nonneg gt m ew UM) as W.
  destruct lerp as [b|].
  - destruct (bce_lerp _ _ _ _ _) as [x|] eqn:X; [|discriminate]. cbn [rbind].
    intros E. assert (v = x) as ->.
    { exact (eq_sym (f_equal (fun r => match r with Ok (Some a) => a | _ => v end) E)). }
    apply (bce_lerp_nonneg _ gt _ b x) in X; try assumption; [|apply B; reflexivity].
    intros p P. destruct logits; [apply sigmoid_unit|]. unfold q. destruct (Rltb_spec 0 e).
    + apply clamp_unit; lra.
    + apply U; [lra|reflexivity|discriminate|exact P].
  - destruct (negb logits && existsb _ ix) eqn:X; [discriminate|].
    destruct ix as [|a l] eqn:IX; [discriminate|]. rewrite <- IX in *. intros E.
    assert (V : v = mean ix (fun p => (if logits then bce_logit_entry else bce_entry) (q p) (gt p) * bce_weight ix gt ew m p)).
    { exact (eq_sym (f_equal (fun r => match r with Ok (Some a) => a | _ => v end) E)). }
    rewrite V. unfold mean. apply div_nonneg; [|rewrite IX; apply lt_0_INR; cbn; lia].
    apply lsum_nonneg. intros p P. apply Rmult_le_pos; [|apply W, P]. destruct logits.
    + apply bce_logit_nonneg, G, P.
    + apply bce_entry_nonneg; [|apply G, P]. cbn [negb andb] in X.
      assert (N : (Rltb (q p) 0 || Rltb 1 (q p))%bool = false).
      { destruct (_ || _)%bool eqn:Y; [|reflexivity]. exfalso.
        assert (T : existsb (fun p => Rltb (q p) 0 || Rltb 1 (q p))%bool ix = true)
          by (apply existsb_exists; exists p; split; assumption).
        rewrite T in X. discriminate. }
      destruct (Rltb_spec (q p) 0); [discriminate|]. destruct (Rltb_spec 1 (q p)); [discriminate|]. lra.
Qed.

Lemma calc_bce_masked pred pred' gt ew e m lerp logits v v' :
  (forall p, In p ix -> m p <> 0 -> pred p = pred' p) ->
  calc_bce ix pred gt ew e (Some m) lerp logits = Ok (Some v) ->
  calc_bce ix pred' gt ew e (Some m) lerp logits = Ok (Some v') -> v = v'.
Proof.
  intros D. unfold calc_bce.
  set (q := if Rltb 0 e then fun p => Rmin (Rmax (pred p) e) (1 - e) else pred).
  set (q' := if Rltb 0 e then fun p => Rmin (Rmax (pred' p) e) (1 - e) else pred').
  assert (Q : forall p, In p ix -> m p <> 0 -> q p = q' p).
  { intros p P N. unfold q, q'. destruct (Rltb 0 e); [rewrite (D p P N); reflexivity|]. apply D; assumption. }
  set (w := bce_weight ix gt ew m).
  assert (W : forall p, m p = 0 -> w p = 0) by (intros p Z; apply weight_masked, Z).
  destruct lerp as [b|].
  - unfold bce_lerp. destruct (Rleb b 0); [discriminate|]. cbn [rbind]. intros E E'.
    assert (X : Ok (Some v) = Ok (Some v')); [|injection X as X; exact X].
    rewrite <- E, <- E'. f_equal. f_equal. f_equal. f_equal. apply lsum_ext. intros p P.
    destruct (Req_dec (m p) 0) as [Z|Z]; [rewrite (W p Z); ring|].
    destruct logits; rewrite (Q p P Z); reflexivity.
  - destruct (negb logits && existsb (fun p => Rltb (q p) 0 || Rltb 1 (q p)) ix)%bool; [discriminate|].
    destruct (negb logits && existsb (fun p => Rltb (q' p) 0 || Rltb 1 (q' p)) ix)%bool; [discriminate|].
    destruct ix as [|a l] eqn:IX; [discriminate|]. rewrite <- IX in *. intros E E'.
    assert (X : Ok (Some v) = Ok (Some v')); [|injection X as X; exact X].
    rewrite <- E, <- E'. f_equal. f_equal. unfold mean. f_equal. apply lsum_ext. intros p P.
    destruct (Req_dec (m p) 0) as [Z|Z]; [rewrite (W p Z); ring|]. rewrite (Q p P Z). reflexivity.
Qed.

(* beta_prior *)
Lemma beta_entry p c : 0 < c -> 0 <= p <= 1 ->
  ln c + ln (c + 1) <= ln (p + c) + ln (1 - p + c) /\
  (ln (p + c) + ln (1 - p + c) = ln c + ln (c + 1) <-> p = 0 \/ p = 1).
Proof.
  intros C P. rewrite <- !ln_mult by lra.
  assert (Q : 0 <= p * (1 - p)) by (apply Rmult_le_pos; lra).
  replace ((p + c) * (1 - p + c)) with (p * (1 - p) + c * (c + 1)) by ring.
  assert (CC : 0 < c * (c + 1)) by (apply Rmult_lt_0_compat; lra).
  split; [apply ln_mono; lra|]. split.
  - intros E. apply ln_inv in E; [|lra|lra].
    assert (Z : p * (1 - p) = 0) by lra. apply Rmult_integral in Z. destruct Z; [left|right]; lra.
  - intros [-> | ->]; f_equal; ring.
Qed.
Lemma beta_prior_range pred c v : unit ix pred -> beta_prior ix pred c = Ok (Some v) ->
  0 <= v /\ (v = 0 <-> binary ix pred).
Proof.
  intros U. unfold beta_prior. destruct (Rleb_spec c 0) as [|C0]; [discriminate|]. assert (C : 0 < c) by lra.
  destruct ix as [|a l] eqn:IX; [discriminate|]. rewrite <- IX in *. intros E.
  set (k := ln c + ln (c + 1)) in *.
  assert (N : 0 < INR (length ix)) by (rewrite IX; apply lt_0_INR; cbn; lia).
  assert (V : v = lsum ix (fun p => (ln (pred p + c) + ln (1 - pred p + c)) - k) / INR (length ix)).
  { transitivity (mean ix (fun p => ln (pred p + c) + ln (1 - pred p + c)) - k).
    - exact (eq_sym (f_equal (fun r => match r with Ok (Some a) => a | _ => v end) E)).
    - unfold mean.
      rewrite (lsum_ext ix (fun p => ln (pred p + c) + ln (1 - pred p + c) - k)
        (fun p => (ln (pred p + c) + ln (1 - pred p + c)) + (- k))) by (intros; ring).
      rewrite (lsum_plus ix (fun p => ln (pred p + c) + ln (1 - pred p + c)) (fun _ => - k)), lsum_const. field. lra. }
  assert (T : forall p, In p ix -> 0 <= (ln (pred p + c) + ln (1 - pred p + c)) - k).
  { intros p P. destruct (beta_entry (pred p) c C (U p P)) as [L _]. unfold k. lra. }
  rewrite V. split; [apply div_nonneg; [apply lsum_nonneg, T|exact N]|]. split.
  - intros Z p P. unfold Rdiv in Z. apply Rmult_integral in Z.
    destruct Z as [Z|Z]; [|pose proof (Rinv_0_lt_compat _ N); lra].
    pose proof (lsum_zero_inv ix _ T Z p P) as Y.
    apply (beta_entry (pred p) c C (U p P)). fold k. lra.
  - intros B. rewrite lsum_zero; [unfold Rdiv; ring|]. intros p P.
    destruct (beta_entry (pred p) c C (U p P)) as [_ [_ X]]. fold k in X. rewrite (X (B p P)). ring.
Qed.
End Bce.
