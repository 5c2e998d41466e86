From Coq Require Import Reals List Bool Arith Lra Lia Psatz.
From Verif Require Import Base RBase FishEye FishEyeSpec.
Import ListNotations.
Local Open Scope R_scope.

Lemma epsilon_pos : 0 < epsilon < 1.
Proof. unfold epsilon. split; [apply Rinv_0_lt_compat, pow_lt; lra|]. rewrite <- Rinv_1. apply Rinv_lt_contravar; [|]; simpl; lra. Qed.
Lemma norm2_nonneg p : 0 <= norm2 p.
Proof. apply sqrt_pos. Qed.
Lemma norm2_scale s a b : norm2 (s * a, s * b) = Rabs s * norm2 (a, b).
Proof.
  unfold norm2. cbn [fst snd]. replace (s * a * (s * a) + s * b * (s * b)) with (s * s * (a * a + b * b)) by ring.
  rewrite sqrt_mult; [|nra|nra]. f_equal. fold (Rsqr s). apply sqrt_Rsqr_abs.
Qed.
Lemma square_pow th j : (th * th) ^ j = th ^ (2 * j).
Proof. rewrite pow_mult. f_equal. ring. Qed.
Lemma rsum_ext {A} (f g : A -> R) l : (forall i, In i l -> f i = g i) -> rsum (map f l) = rsum (map g l).
Proof. intros H. f_equal. apply map_ext_in, H. Qed.
Lemma rsum_map_scale {A} (f : A -> R) s l : rsum (map f l) * s = rsum (map (fun i => f i * s) l).
Proof. induction l as [|a l IH]; cbn [map]; [cbn; ring|]. rewrite !rsum_cons, <- IH. ring. Qed.
Lemma series_sum k : forall j t, series j k t = rsum (map (fun i => nth i k 0 * t ^ (j + i)) (seq 0 (length k))).
Proof.
  induction k as [|a k IH]; intros j t; [reflexivity|]. cbn [series length seq map]. rewrite rsum_cons. rewrite IH, <- seq_shift, map_map. cbn [nth].
  rewrite Nat.add_0_r. f_equal; [ring|]. apply rsum_ext. intros i _. f_equal. f_equal. lia.
Qed.
Lemma dseries_sum k : forall j t, (1 <= j)%nat -> dseries j k t = rsum (map (fun i => (2 * INR (j - 1 + i) + 3) * nth i k 0 * t ^ (j + i)) (seq 0 (length k))).
Proof.
  induction k as [|a k IH]; intros j t J; [reflexivity|]. cbn [dseries length seq map]. rewrite rsum_cons. rewrite IH, <- seq_shift, map_map by lia. cbn [nth].
  rewrite !Nat.add_0_r. f_equal. apply rsum_ext. intros i _. replace (S j - 1 + i)%nat with (j - 1 + S i)%nat by lia. replace (S j + i)%nat with (j + S i)%nat by lia. reflexivity.
Qed.
Lemma bent_code k th : (1 + series 1 k (th * th)) * th = bent k th.
Proof.
  unfold bent. rewrite series_sum. rewrite Rmult_plus_distr_r, Rmult_1_l, rsum_map_scale. f_equal. apply rsum_ext. intros i _.
  rewrite square_pow. replace (2 * i + 3)%nat with (S (2 * (1 + i))) by lia. cbn [pow]. ring.
Qed.
Lemma slope_code k th : 1 + dseries 1 k (th * th) = slope k th.
Proof.
  unfold slope. rewrite dseries_sum by lia. f_equal. apply rsum_ext. intros i _. rewrite square_pow. replace (1 - 1 + i)%nat with i by lia. do 2 f_equal. lia.
Qed.

(* ---- projection ---- *)
Lemma project_ray c s x y z : s <> 0 -> z <> 0 -> project c (s * x, s * y, s * z) = project c (x, y, z).
Proof.
  intros S0 Z. unfold project. destruct (Reqb_spec (s * z) 0) as [E|_]; [apply Rmult_integral in E; tauto|]. destruct (Reqb_spec z 0); [tauto|].
  replace (s * x / (s * z)) with (x / z) by (field; auto). replace (s * y / (s * z)) with (y / z) by (field; auto). reflexivity.
Qed.
Lemma project_image c x y z : length (radial c) = 6%nat -> z <> 0 -> epsilon <= norm2 (x / z, y / z) ->
  project c (x, y, z) = Ok (fst (image_of c (x / z) (y / z)), snd (image_of c (x / z) (y / z)), 1).
Proof.
  intros L Z E. unfold project. rewrite L. cbn [Nat.eqb negb]. destruct (Reqb_spec z 0); [tauto|]. pose proof epsilon_pos as P.
  cbv zeta. cbn [fst snd]. unfold image_of. cbv zeta. set (a := x / z) in *. set (b := y / z) in *. set (r := norm2 (a, b)) in *.
  rewrite Rabs_right by lra. destruct (Rltb_spec r epsilon); [lra|].
  assert (C : forall u, (1 + series 1 (radial c) (atan r * atan r)) * (atan r / r) * u = bent (radial c) (atan r) * (u / r)).
  { intros u. rewrite <- bent_code. field. lra. }
  rewrite !C. set (xr := (bent (radial c) (atan r) * (a / r), bent (radial c) (atan r) * (b / r))).
  unfold add_prism, add_tangential, when, tangential_term, prism_term. destruct (prism c) as [[[s0 s1] s2] s3].
  destruct (use_radial c), (use_tangential c), (use_prism c); cbn [fst snd]; cbv zeta; do 2 f_equal; [f_equal; ring|f_equal; ring|f_equal; ring|f_equal; ring|..]; try (f_equal; ring).
Qed.
Lemma project_centre c z : length (radial c) = 6%nat -> z <> 0 -> project c (0, 0, z) = Ok (fst (principal c), snd (principal c), 1).
Proof.
  intros L Z. unfold project. rewrite L. cbn [Nat.eqb negb]. destruct (Reqb_spec z 0); [tauto|]. cbv zeta. cbn [fst snd].
  replace (0 / z) with 0 by (field; exact Z). rewrite !Rmult_0_r. unfold add_prism, add_tangential. destruct (prism c) as [[[s0 s1] s2] s3].
  destruct (use_radial c), (use_tangential c), (use_prism c); cbn [fst snd]; do 2 f_equal; f_equal; ring.
Qed.

(* ---- the angle of a radius ---- *)
Definition positive (k : list R) : Prop := forall a, In a k -> 0 <= a.
Lemma nth_positive k i : positive k -> 0 <= nth i k 0.
Proof. intros P. destruct (le_lt_dec (length k) i) as [H|H]; [rewrite nth_overflow by exact H; lra|]. apply P, nth_In, H. Qed.
Lemma pow_slope a b m : 0 <= a <= b -> 0 <= b ^ S m - a ^ S m <= INR (S m) * b ^ m * (b - a).
Proof.
  intros H. split; [assert (a ^ S m <= b ^ S m) by (apply pow_incr; lra); lra|]. induction m as [|m IH].
  - simpl. lra.
  - assert (A : a ^ S m <= b ^ S m) by (apply pow_incr; lra).
    replace (b ^ S (S m) - a ^ S (S m)) with (b * (b ^ S m - a ^ S m) + a ^ S m * (b - a)) by (simpl; ring).
    replace (INR (S (S m)) * b ^ S m * (b - a)) with (b * (INR (S m) * b ^ m * (b - a)) + b ^ S m * (b - a)) by (rewrite (S_INR (S m)); simpl (b ^ S m); ring).
    apply Rplus_le_compat; [apply Rmult_le_compat_l; lra|apply Rmult_le_compat_r; lra].
Qed.
Lemma rsum_le_map {A} (f g : A -> R) l : (forall i, In i l -> f i <= g i) -> rsum (map f l) <= rsum (map g l).
Proof. induction l as [|a l IH]; intros H; cbn [map]; [cbn; lra|]. rewrite !rsum_cons. apply Rplus_le_compat; [apply H; now left|apply IH; intros i I; apply H; now right]. Qed.
Lemma rsum_map_minus {A} (f g : A -> R) l : rsum (map f l) - rsum (map g l) = rsum (map (fun i => f i - g i) l).
Proof. induction l as [|a l IH]; cbn [map]; [cbn; ring|]. rewrite !rsum_cons, <- IH. ring. Qed.
Lemma rsum_map_nonneg {A} (f : A -> R) l : (forall i, In i l -> 0 <= f i) -> 0 <= rsum (map f l).
Proof. induction l as [|a l IH]; intros H; cbn [map]; [cbn; lra|]. rewrite !rsum_cons. apply Rplus_le_le_0_compat; [apply H; now left|apply IH; intros i I; apply H; now right]. Qed.
Lemma bent_slope k a b : positive k -> 0 <= a <= b -> b - a <= bent k b - bent k a <= slope k b * (b - a).
Proof.
  intros P H. unfold bent, slope.
  replace (b + rsum (map (fun i => nth i k 0 * b ^ (2 * i + 3)) (seq 0 (length k))) - (a + rsum (map (fun i => nth i k 0 * a ^ (2 * i + 3)) (seq 0 (length k)))))
    with (b - a + (rsum (map (fun i => nth i k 0 * b ^ (2 * i + 3)) (seq 0 (length k))) - rsum (map (fun i => nth i k 0 * a ^ (2 * i + 3)) (seq 0 (length k))))) by ring.
  rewrite rsum_map_minus, Rmult_plus_distr_r, rsum_map_scale.
  assert (B : forall i, 0 <= nth i k 0 * b ^ (2 * i + 3) - nth i k 0 * a ^ (2 * i + 3) <= (2 * INR i + 3) * nth i k 0 * b ^ (2 * i + 2) * (b - a)).
  { intros i. pose proof (nth_positive k i P) as N. pose proof (pow_slope a b (2 * i + 2) H) as [Q1 Q2]. replace (S (2 * i + 2)) with (2 * i + 3)%nat in * by lia.
    replace (INR (2 * i + 3)) with (2 * INR i + 3) in Q2 by (rewrite plus_INR, mult_INR; cbn [INR]; ring).
    rewrite <- Rmult_minus_distr_l. split; [apply Rmult_le_pos; assumption|].
    replace ((2 * INR i + 3) * nth i k 0 * b ^ (2 * i + 2) * (b - a)) with (nth i k 0 * ((2 * INR i + 3) * b ^ (2 * i + 2) * (b - a))) by ring.
    apply Rmult_le_compat_l; assumption. }
  split.
  - assert (0 <= rsum (map (fun i => nth i k 0 * b ^ (2 * i + 3) - nth i k 0 * a ^ (2 * i + 3)) (seq 0 (length k)))) by (apply rsum_map_nonneg; intros i _; apply B). lra.
  - apply Rplus_le_compat; [lra|]. apply rsum_le_map. intros i _. apply B.
Qed.
Lemma slope_ge1 k b : positive k -> 0 <= b -> 1 <= slope k b.
Proof.
  intros P B. unfold slope. assert (0 <= rsum (map (fun i => (2 * INR i + 3) * nth i k 0 * b ^ (2 * i + 2)) (seq 0 (length k)))); [|lra].
  apply rsum_map_nonneg. intros i _. pose proof (nth_positive k i P). pose proof (pos_INR i). apply Rmult_le_pos; [apply Rmult_le_pos; lra|apply pow_le; exact B].
Qed.
Lemma slope_mono k a b : positive k -> 0 <= a <= b -> slope k a <= slope k b.
Proof.
  intros P H. unfold slope. apply Rplus_le_compat_l, rsum_le_map. intros i _. pose proof (nth_positive k i P). pose proof (pos_INR i).
  apply Rmult_le_compat_l; [apply Rmult_le_pos; lra|apply pow_incr; exact H].
Qed.
(* one step of Newton's method comes from above and stays above *)
Lemma theta_step_near k d a th : positive k -> 0 <= a <= 999 / 1000 * PI / 2 -> bent k a = d -> a <= th <= d ->
  exists th', theta_step k d th = Ok th' /\ a <= th' <= d /\ th' - a <= (1 - / slope k d) * (th - a).
Proof.
  intros P A D H. assert (PP := PI_RGT_0). pose proof epsilon_pos as EP.
  assert (Sth : 1 <= slope k th) by (apply slope_ge1; [exact P|lra]).
  assert (Sd : slope k th <= slope k d) by (apply slope_mono; [exact P|lra]).
  destruct (bent_slope k a th P ltac:(lra)) as [B1 B2].
  unfold theta_step. cbv zeta. rewrite bent_code, slope_code. destruct (Reqb_spec (slope k th) 0); [lra|].
  rewrite (Rabs_right (slope k th)) by lra. destruct (Rltb_spec epsilon (slope k th)); [|lra].
  set (q := (bent k th - d) / slope k th).
  assert (Q : (d - bent k th) / slope k th = - q) by (unfold q; field; lra). rewrite Q.
  assert (Q1 : q <= th - a).
  { unfold q. apply Rmult_le_reg_r with (slope k th); [lra|]. replace ((bent k th - d) / slope k th * slope k th) with (bent k th - bent k a) by (rewrite D; field; lra). lra. }
  assert (Q2 : (th - a) * / slope k d <= q).
  { unfold q. apply Rle_trans with ((th - a) * / slope k th).
    - apply Rmult_le_compat_l; [lra|]. apply Rinv_le_contravar; lra.
    - unfold Rdiv. apply Rmult_le_compat_r; [left; apply Rinv_0_lt_compat; lra|]. rewrite <- D. exact B1. }
  assert (Q3 : 0 <= (th - a) * / slope k d) by (apply Rmult_le_pos; [lra|left; apply Rinv_0_lt_compat; lra]).
  eexists. split; [reflexivity|]. rewrite (Rabs_right (th + - q)) by lra.
  destruct (Rleb_spec (PI / 2) (th + - q)) as [C|C]; split; lra.
Qed.
Lemma theta_iterates k d a n : positive k -> 0 <= a <= 999 / 1000 * PI / 2 -> bent k a = d -> forall th, a <= th <= d ->
  exists th', times n (theta_step k d) th = Ok th' /\ a <= th' <= d /\ th' - a <= (1 - / slope k d) ^ n * (th - a).
Proof.
  intros P A D. induction n as [|n IH]; intros th H.
  - exists th. split; [reflexivity|]. split; [exact H|]. simpl. lra.
  - destruct (theta_step_near k d a th P A D H) as (t1 & E1 & H1 & B1). destruct (IH t1 H1) as (t2 & E2 & H2 & B2).
    exists t2. cbn [times]. rewrite E1. cbn [rbind]. split; [exact E2|]. split; [exact H2|].
    assert (Sd : 1 <= slope k d) by (apply slope_ge1; [exact P|lra]).
    assert (F : 0 <= 1 - / slope k d) by (assert (/ slope k d <= / 1) by (apply Rinv_le_contravar; lra); rewrite Rinv_1 in *; lra).
    cbn [pow]. apply Rle_trans with ((1 - / slope k d) ^ n * (t1 - a)); [exact B2|].
    replace ((1 - / slope k d) * (1 - / slope k d) ^ n * (th - a)) with ((1 - / slope k d) ^ n * ((1 - / slope k d) * (th - a))) by ring.
    apply Rmult_le_compat_l; [apply pow_le, F|exact B1].
Qed.
Lemma bent_ge k a : positive k -> 0 <= a -> a <= bent k a.
Proof.
  intros P A. destruct (bent_slope k 0 a P ltac:(lra)) as [B _].
  assert (Z : bent k 0 = 0). { unfold bent. rewrite Rplus_0_l. apply rsum_map_zero.
    intros i _. rewrite pow_ne_zero by lia. ring. }
  lra.
Qed.
Lemma theta_near k a : positive k -> 0 <= a <= 999 / 1000 * PI / 2 -> exists th, theta_of k (bent k a) = Ok th /\ a <= th <= bent k a /\
  th - a <= (1 - / slope k (bent k a)) ^ distortion_iters * (bent k a - a).
Proof. intros P A. apply theta_iterates; [exact P|exact A|reflexivity|]. pose proof (bent_ge k a P ltac:(lra)). lra. Qed.
