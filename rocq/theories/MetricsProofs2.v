From Coq Require Import Reals Arith Lra Lia Bool List.
From Verif Require Import Base RBase Metrics MetricsSpec MetricsProofs.
Import ListNotations.
Local Open Scope R_scope.

Lemma div_nonneg a b : 0 <= a -> 0 < b -> 0 <= a / b.
Proof. intros A B. unfold Rdiv. apply Rmult_le_pos; [exact A|]. left. apply Rinv_0_lt_compat, B. Qed.

Lemma some_inj {A} (a b : A) : Some a = Some b -> a = b.
Proof. intros E. injection E as E. exact E. Qed.

Section Mse.
Context {I : Type} (ix : list I).
Lemma mse_masked_ext (x x' y y' m : I -> R) :
  (forall p, In p ix -> m p <> 0 -> x p = x' p /\ y p = y' p) ->
  calc_mse ix x y (Some m) = calc_mse ix x' y' (Some m).
Proof.
  intros E. cbn [calc_mse]. f_equal. f_equal. apply lsum_ext. intros p P.
  destruct (Req_dec (m p) 0) as [Z|Z]; [rewrite Z; ring|]. destruct (E p P Z) as [-> ->]. reflexivity.
Qed.
Lemma mse_ones (x y : I -> R) : ix <> [] -> calc_mse ix x y (Some (fun _ => 1)) = calc_mse ix x y None.
Proof.
  intros N. cbn [calc_mse]. rewrite lsum_const.
  assert (L : 1 <= INR (length ix)).
  { replace 1 with (INR 1) by reflexivity. apply le_INR. destruct ix; [contradiction|cbn; lia]. }
  rewrite Rmax_left by lra. rewrite Rmult_1_r.
  rewrite (lsum_ext ix (fun p => (x p - y p) ^ 2 * 1) (fun p => (x p - y p) ^ 2)) by (intros; ring).
  destruct ix; [contradiction|reflexivity].
Qed.
Lemma mse_nonneg (x y : I -> R) m v : (forall k, m = Some k -> forall p, In p ix -> 0 <= k p) ->
  calc_mse ix x y m = Some v -> 0 <= v.
Proof.
  intros N. destruct m as [m|]; cbn [calc_mse].
  - intros E. apply some_inj in E. subst v. pose proof (Rmax_r (lsum ix m) (1 / 100000)).
    apply div_nonneg; [|lra]. apply lsum_nonneg. intros p P.
    apply Rmult_le_pos; [apply pow2_ge_0|]. apply (N m eq_refl p P).
  - destruct ix as [|a l] eqn:X; [discriminate|]. rewrite <- X in *. intros E. apply some_inj in E. subst v.
    unfold mean. apply div_nonneg; [apply lsum_nonneg; intros; apply pow2_ge_0|].
    rewrite X. apply lt_0_INR. cbn. lia.
Qed.
Lemma square_zero a : a ^ 2 = 0 -> a = 0.
Proof. intros Z. destruct (Req_dec a 0) as [X|X]; [exact X|]. exfalso. apply (pow_nonzero _ 2 X), Z. Qed.
Lemma mse_zero (x y m : I -> R) : (forall p, In p ix -> 0 <= m p) ->
  (calc_mse ix x y (Some m) = Some 0 <-> (forall p, In p ix -> m p <> 0 -> x p = y p)).
Proof.
  intros N. cbn [calc_mse]. pose proof (Rmax_r (lsum ix m) (1 / 100000)) as M.
  set (D := Rmax (lsum ix m) (1 / 100000)) in *. split.
  - intros E. assert (Z : lsum ix (fun p => (x p - y p) ^ 2 * m p) / D = 0)
      by exact (f_equal (fun o => match o with Some v => v | None => 0 end) E).
    unfold Rdiv in Z. apply Rmult_integral in Z.
    destruct Z as [Z|Z]; [|assert (P : 0 < / D) by (apply Rinv_0_lt_compat; lra); lra].
    intros p P Q.
    assert (T : (x p - y p) ^ 2 * m p = 0).
    { apply (lsum_zero_inv ix (fun p => (x p - y p) ^ 2 * m p)); [|exact Z|exact P].
      intros q Q'. apply Rmult_le_pos; [apply pow2_ge_0|apply N, Q']. }
    apply Rmult_integral in T. destruct T as [T|T]; [|contradiction].
    apply square_zero in T. lra.
  - intros E. rewrite lsum_zero; [f_equal; unfold Rdiv; ring|].
    intros p P. destruct (Req_dec (m p) 0) as [Z|Z]; [rewrite Z; ring|]. rewrite (E p P Z). ring.
Qed.

Lemma ln10_pos : 0 < ln 10.
Proof. rewrite <- ln_1. apply ln_increasing; lra. Qed.
Lemma log10_le a b : 0 < a -> a <= b -> log10 a <= log10 b.
Proof.
  intros A L. unfold log10. apply Rmult_le_compat_r; [left; apply Rinv_0_lt_compat, ln10_pos|].
  destruct (Rle_lt_or_eq_dec a b L) as [X|X]; [left; apply ln_increasing; assumption|rewrite X; apply Rle_refl].
Qed.
Lemma ln_tenth n : ln (1 / 10 ^ n) = - (INR n * ln 10).
Proof.
  induction n as [|n IH]; [cbn; replace (1 / 1) with 1 by lra; rewrite ln_1; ring|].
  replace (1 / 10 ^ S n) with (1 / 10 ^ n * / 10).
  2:{ cbn [pow]. field. apply pow_nonzero. lra. }
  rewrite ln_mult; [|apply Rdiv_lt_0_compat; [lra|apply pow_lt; lra]|lra].
  rewrite IH, ln_Rinv by lra. rewrite S_INR. ring.
Qed.
Lemma log10_floor : log10 (1 / 10 ^ 10) = -10.
Proof.
  unfold log10. rewrite ln_tenth. pose proof ln10_pos.
  replace (INR 10) with 10 by (cbn; lra). field. lra.
Qed.
Lemma floor_pos : 0 < 1 / 10 ^ 10.
Proof. apply Rdiv_lt_0_compat; [lra|apply pow_lt; lra]. Qed.

Lemma psnr_best (x y : I -> R) m v : calc_psnr ix x y m = Some v -> v <= 100.
Proof.
  unfold calc_psnr. destruct (calc_mse ix x y m) as [e|]; [|discriminate]. intros E. apply some_inj in E. subst v.
  pose proof (log10_le _ _ floor_pos (Rmax_r e (1 / 10 ^ 10))) as L. rewrite log10_floor in L.
  set (z := log10 (Rmax e (1 / 10 ^ 10))) in *. clearbody z. lra.
Qed.
Lemma psnr_order (x y x' y' : I -> R) m m' e e' v v' :
  calc_mse ix x y m = Some e -> calc_mse ix x' y' m' = Some e' ->
  calc_psnr ix x y m = Some v -> calc_psnr ix x' y' m' = Some v' ->
  (e <= e' -> v' <= v) /\ (1 / 10 ^ 10 <= e < e' -> v' < v).
Proof.
  unfold calc_psnr. intros -> -> E E'. apply some_inj in E. subst v. apply some_inj in E'. subst v'. split.
  - intros L. assert (P : 0 < Rmax e (1 / 10 ^ 10)).
    { pose proof (Rmax_r e (1 / 10 ^ 10)). pose proof floor_pos. lra. }
    pose proof (log10_le _ _ P (Rle_max_compat_r e e' (1 / 10 ^ 10) L)) as Q.
    set (z := log10 (Rmax e (1 / 10 ^ 10))) in *. set (z' := log10 (Rmax e' (1 / 10 ^ 10))) in *.
    clearbody z z'. lra.
  - intros [L U]. rewrite !Rmax_left by lra. pose proof floor_pos.
    assert (log10 e < log10 e'); [|lra].
    unfold log10. apply Rmult_lt_compat_r; [apply Rinv_0_lt_compat, ln10_pos|]. apply ln_increasing; lra.
Qed.
Lemma psnr_exact (x y : I -> R) m : calc_mse ix x y m = Some 0 -> calc_psnr ix x y m = Some 100.
Proof.
  unfold calc_psnr. intros ->. pose proof floor_pos. rewrite Rmax_right by lra. rewrite log10_floor. f_equal. lra.
Qed.

(* rgb_l1 *)
Lemma sumf_scal_r n k f : sumf n (fun i => f i * k) = sumf n f * k.
Proof. rewrite (sumf_ext n _ (fun i => k * f i)) by (intros; ring). rewrite sumf_scal. ring. Qed.
Lemma rgb_l1_ext C (x x' y y' : I -> nat -> R) (m : I -> R) :
  (forall p c, In p ix -> m p <> 0 -> (c < C)%nat -> x p c = x' p c /\ y p c = y' p c) ->
  rgb_l1 ix C x y (Some m) = rgb_l1 ix C x' y' (Some m).
Proof.
  intros E. unfold rgb_l1. f_equal. apply lsum_ext. intros p P.
  destruct (Req_dec (m p) 0) as [Z|Z]; [rewrite !sumf_scal_r, Z; ring|].
  apply sumf_ext. intros c L. destruct (E p c P Z L) as [-> ->]. reflexivity.
Qed.
Lemma rgb_l1_mean C (x y : I -> nat -> R) : ix <> [] -> (1 <= C)%nat ->
  rgb_l1 ix C x y None = INR C * mean_abs ix C x y.
Proof.
  intros N L. unfold rgb_l1, mean_abs. rewrite lsum_const, Rmult_1_r.
  assert (P : 1 <= INR (length ix)).
  { replace 1 with (INR 1) by reflexivity. apply le_INR. destruct ix; [contradiction|cbn; lia]. }
  rewrite Rmax_left by lra. rewrite mult_INR.
  assert (Q : 0 < INR C) by (apply lt_0_INR; lia).
  rewrite (lsum_ext ix _ (fun p => sumf C (fun c => Rabs (x p c - y p c)))).
  - field. split; lra.
  - intros p _. rewrite sumf_scal_r. ring.
Qed.
End Mse.

(* Intersection over union *)
Section Iou.
Context {I : Type} (ix : list I).
Definition inter (a b : I -> R) := lsum ix (fun p => a p * b p).
Definition union (a b : I -> R) := lsum ix (fun p => a p + b p - a p * b p).
Lemma inter_union a b : unit ix a -> unit ix b -> 0 <= inter a b <= union a b.
Proof.
  intros A B. split.
  - apply lsum_nonneg. intros p P. destruct (A p P), (B p P). apply Rmult_le_pos; lra.
  - apply lsum_le. intros p P. destruct (A p P) as [A0 A1], (B p P) as [B0 B1].
    assert (a p * b p <= a p * 1) by (apply Rmult_le_compat_l; lra).
    assert (a p * b p <= 1 * b p) by (apply Rmult_le_compat_r; lra). lra.
Qed.
Lemma ratio_range a b : unit ix a -> unit ix b -> 0 <= inter a b / (union a b + 1 / 10000) < 1.
Proof.
  intros A B. destruct (inter_union a b A B) as [L U]. split; [apply div_nonneg; lra|].
  apply (Rmult_lt_reg_r (union a b + 1 / 10000)); [lra|]. unfold Rdiv.
  rewrite Rmult_assoc, Rinv_l by lra. lra.
Qed.
Lemma average_range N (f : nat -> R) : (1 <= N)%nat -> (forall n, (n < N)%nat -> 0 <= f n < 1) ->
  0 <= sumf N f / INR N < 1.
Proof.
  intros L F. assert (P : 0 < INR N) by (apply lt_0_INR; lia). split.
  - apply div_nonneg; [|exact P]. apply sumf_nonneg. intros i Hi. apply F, Hi.
  - apply (Rmult_lt_reg_r (INR N)); [exact P|]. unfold Rdiv. rewrite Rmult_assoc, Rinv_l, Rmult_1_r, Rmult_1_l by lra.
    clear P. induction N as [|N IH]; [lia|]. rewrite sumf_S, S_INR.
    destruct (F N ltac:(lia)). destruct (Nat.eq_dec N 0) as [->|D]; [rewrite sumf_0; cbn; lra|].
    assert (sumf N f < INR N) by (apply IH; [lia|intros; apply F; lia]). lra.
Qed.
Definition under (m : option (nat -> I -> R)) (a : nat -> I -> R) : nat -> I -> R :=
  match m with Some m => fun n p => a n p * m n p | None => a end.
Lemma iou_is N a b m : iou ix N a b m = if Nat.eqb N 0 then None else
  Some (sumf N (fun n => inter (under m a n) (under m b n) / (union (under m a n) (under m b n) + 1 / 10000)) / INR N).
Proof. unfold iou. destruct m; reflexivity. Qed.
Lemma under_unit m a n : unit ix (a n) -> (forall k, m = Some k -> unit ix (k n)) -> unit ix (under m a n).
Proof.
  intros A M. destruct m as [k|]; [|exact A]. intros p P. specialize (M k eq_refl p P). destruct (A p P), M.
  cbn [under]. split; [apply Rmult_le_pos; lra|]. replace 1 with (1 * 1) by ring. apply Rmult_le_compat; lra.
Qed.
Lemma iou_range N a b m v : (forall n, (n < N)%nat -> unit ix (a n) /\ unit ix (b n)) ->
  (forall k, m = Some k -> forall n, (n < N)%nat -> unit ix (k n)) ->
  iou ix N a b m = Some v -> 0 <= v < 1.
Proof.
  intros A M. rewrite iou_is. destruct (Nat.eqb_spec N 0) as [|Z]; [discriminate|]. intros E. apply some_inj in E. subst v.
  apply average_range; [lia|]. intros n L. destruct (A n L) as [X Y].
  apply ratio_range; apply under_unit; try assumption; intros k K; apply (M k K n L).
Qed.
Lemma iou_sym N a b m : iou ix N a b m = iou ix N b a m.
Proof.
  rewrite !iou_is. destruct (Nat.eqb N 0); [reflexivity|]. f_equal. f_equal. apply sumf_ext. intros n _.
  unfold inter, union. f_equal; [apply lsum_ext; intros; ring|]. f_equal. apply lsum_ext. intros. ring.
Qed.
Lemma binary_count (f : I -> R) (P : I -> bool) : (forall p, In p ix -> f p = if P p then 1 else 0) ->
  lsum ix f = INR (count ix P).
Proof.
  unfold count. induction ix as [|a l IH]; intros E; [reflexivity|]. rewrite lsum_cons, IH, (E a (or_introl eq_refl)).
  - cbn [filter]. destruct (P a); [|lra]. change (length (a :: filter P l)) with (S (length (filter P l))). rewrite S_INR. lra.
  - intros p Q. apply E. right. exact Q.
Qed.
Lemma iou_binary N a b (A B : nat -> I -> bool) : (1 <= N)%nat ->
  (forall n p, (n < N)%nat -> In p ix -> a n p = (if A n p then 1 else 0) /\ b n p = if B n p then 1 else 0) ->
  iou ix N a b None = Some (sumf N (fun n =>
    INR (count ix (fun p => A n p && B n p)) / (INR (count ix (fun p => A n p || B n p)) + 1 / 10000)) / INR N).
Proof.
  intros L E. rewrite iou_is. destruct (Nat.eqb_spec N 0) as [|Z]; [lia|]. f_equal. f_equal. apply sumf_ext.
  intros n Ln. cbn [under]. unfold inter, union.
  rewrite (binary_count _ (fun p => A n p && B n p)).
  2:{ intros p P. destruct (E n p Ln P) as [-> ->]. destruct (A n p), (B n p); cbn; lra. }
  rewrite (binary_count _ (fun p => A n p || B n p)).
  2:{ intros p P. destruct (E n p Ln P) as [-> ->]. destruct (A n p), (B n p); cbn; lra. }
  reflexivity.
Qed.
Lemma iou_masked_ext N a a' b b' m : (forall n p, (n < N)%nat -> In p ix -> m n p <> 0 -> a n p = a' n p /\ b n p = b' n p) ->
  iou ix N a b (Some m) = iou ix N a' b' (Some m).
Proof.
  intros E. rewrite !iou_is. destruct (Nat.eqb N 0); [reflexivity|]. f_equal. f_equal. apply sumf_ext. intros n L.
  assert (X : forall p, In p ix -> a n p * m n p = a' n p * m n p /\ b n p * m n p = b' n p * m n p).
  { intros p P. destruct (Req_dec (m n p) 0) as [Z|Z]; [rewrite Z; split; ring|].
    destruct (E n p L P Z) as [-> ->]. split; reflexivity. }
  unfold inter, union. cbn [under]. f_equal.
  - apply lsum_ext. intros p P. destruct (X p P) as [-> ->]. reflexivity.
  - f_equal. apply lsum_ext. intros p P. destruct (X p P) as [-> ->]. reflexivity.
Qed.
End Iou.

(* Huber *)
Lemma huber_mono a b s : 0 < s -> a <= b -> huber a s <= huber b s.
Proof.
  intros S L. unfold huber, safe_sqrt. apply Rmult_le_compat_r; [lra|]. apply Rplus_le_compat_r.
  apply sqrt_le_1_alt. apply Rplus_le_compat_r. apply Rle_max_compat_r. apply Rplus_le_compat_l.
  apply Rmult_le_compat_r; [|exact L]. left. apply Rinv_0_lt_compat. apply Rmult_lt_0_compat; exact S.
Qed.
Lemma huber_zero s : 0 < s -> 0 < huber 0 s <= 6 / 100000 * s.
Proof.
  intros S. unfold huber, safe_sqrt.
  replace (1 + 0 / (s * s)) with 1 by (field; lra). rewrite Rmax_left by lra.
  assert (A : 1 < sqrt (1 + 1 / 10000)) by (rewrite <- sqrt_1 at 1; apply sqrt_lt_1; lra).
  assert (B : sqrt (1 + 1 / 10000) <= 1 + 6 / 100000).
  { rewrite <- (sqrt_pow2 (1 + 6 / 100000)) by lra. apply sqrt_le_1_alt. lra. }
  split; [apply Rmult_lt_0_compat; lra|]. apply Rmult_le_compat_r; lra.
Qed.
(* at most the distance itself, up to the small constant *)
Lemma huber_le_distance d s : 0 < s -> 0 <= d -> huber (d ^ 2) s <= d + 6 / 100000 * s.
Proof.
  intros S D. unfold huber, safe_sqrt.
  assert (Q : 0 <= d / s) by (apply div_nonneg; assumption).
  replace (1 + d ^ 2 / (s * s)) with (1 + (d / s) ^ 2) by (field; lra).
  pose proof (pow2_ge_0 (d / s)). rewrite Rmax_left by lra.
  assert (B : sqrt (1 + (d / s) ^ 2 + 1 / 10000) <= 1 + 6 / 100000 + d / s).
  { rewrite <- (sqrt_pow2 (1 + 6 / 100000 + d / s)) by lra. apply sqrt_le_1_alt.
    replace ((1 + 6 / 100000 + d / s) ^ 2) with ((1 + 6 / 100000) ^ 2 + 2 * (1 + 6 / 100000) * (d / s) + (d / s) ^ 2) by ring.
    assert (0 <= 2 * (1 + 6 / 100000) * (d / s)) by (apply Rmult_le_pos; lra). lra. }
  replace (d + 6 / 100000 * s) with ((6 / 100000 + d / s) * s) by (field; lra).
  apply Rmult_le_compat_r; lra.
Qed.
