From Coq Require Import Reals List Bool Arith Lra Lia Psatz.
From Verif Require Import Base RBase Geom RayTrace RayTraceSpec RayTraceProofs.
Import ListNotations.
Local Open Scope R_scope.

(* ---- the bounding sphere ---- *)
Lemma norm3_sq v : norm3 v ^ 2 = dot3 v v.
Proof. unfold norm3. rewrite <- Rsqr_pow2. apply Rsqr_sqrt. unfold dot3. pose proof (Rle_0_sqr (x3 v)). pose proof (Rle_0_sqr (y3 v)). pose proof (Rle_0_sqr (z3 v)). unfold Rsqr in *. lra. Qed.
Lemma length3_sq v : length3 v ^ 2 = dot3 v v.
Proof. exact (norm3_sq v). Qed.
Lemma length3_nonneg v : 0 <= length3 v.
Proof. apply sqrt_pos. Qed.
Lemma unit_dot r : unit_ray r -> dot3 (direction r) (direction r) = 1.
Proof. intros U. rewrite <- length3_sq, U. ring. Qed.
Lemma along_sq r t : unit_ray r -> length3 (along r t) ^ 2 = (t + dot3 (direction r) (origin r)) ^ 2 + norm3 (origin r) ^ 2 - dot3 (direction r) (origin r) ^ 2.
Proof.
  intros U. rewrite length3_sq, norm3_sq. pose proof (unit_dot r U) as D.
  transitivity (dot3 (origin r) (origin r) + 2 * t * dot3 (direction r) (origin r) + t ^ 2 * dot3 (direction r) (direction r)).
  - unfold along, dot3. cbn [x3 y3 z3]. ring.
  - rewrite D. ring.
Qed.
Lemma along_inside s r t : unit_ray r -> 0 <= s ->
  (length3 (along r t) <= s <-> (t + dot3 (direction r) (origin r)) ^ 2 <= under_sqrt s r) /\
  (length3 (along r t) < s <-> (t + dot3 (direction r) (origin r)) ^ 2 < under_sqrt s r).
Proof.
  intros U S0. pose proof (along_sq r t U) as E. unfold under_sqrt. pose proof (length3_nonneg (along r t)) as N.
  split; split; intros H; first [nra | apply Rnot_lt_le; intros H'; nra | apply Rnot_le_lt; intros H'; nra].
Qed.
Lemma meets_iff s r : unit_ray r -> 0 <= s -> (meets s r = true <-> exists t, length3 (along r t) < s).
Proof.
  intros U S0. unfold meets. rewrite Rltb_true. split.
  - intros H. exists (- dot3 (direction r) (origin r)). apply (along_inside s r _ U S0).
    replace ((_ + _) ^ 2) with 0 by ring. exact H.
  - intros (t & H). apply (along_inside s r _ U S0) in H. pose proof (pow2_ge_0 (t + dot3 (direction r) (origin r))). lra.
Qed.
Lemma sphere_segment s r t : unit_ray r -> 0 <= s -> meets s r = true ->
  (exists u, 0 <= u /\ length3 (along r u) <= s) ->
  (fst (sphere_intersection s r) <= t <= snd (sphere_intersection s r) <-> 0 <= t /\ length3 (along r t) <= s).
Proof.
  intros U S0 M (u & U0 & Hu). apply (along_inside s r u U S0) in Hu. rewrite (proj1 (along_inside s r t U S0)).
  unfold sphere_intersection. rewrite M. cbn [fst snd]. unfold meets in M. apply Rltb_true in M.
  set (q := under_sqrt s r) in *. set (b := dot3 (direction r) (origin r)) in *.
  pose proof (sqrt_lt_R0 q M) as Q. pose proof (sqrt_sqrt q (Rlt_le _ _ M)) as QQ. set (w := sqrt q) in *.
  assert (B : forall v, (v + b) ^ 2 <= q <-> - w - b <= v <= w - b).
  { intros v. rewrite <- QQ. split; intros H; [split; apply Rnot_lt_le; intros H'; nra|nra]. }
  rewrite B in Hu |- *. unfold Rmax. destruct (Rle_dec (w * -1 - b) 0), (Rle_dec (w * 1 - b) 0); lra.
Qed.
Lemma sphere_ordered s r : fst (sphere_intersection s r) <= snd (sphere_intersection s r) /\ 0 <= fst (sphere_intersection s r).
Proof.
  unfold sphere_intersection. destruct (meets s r); cbn [fst snd].
  - pose proof (sqrt_pos (under_sqrt s r)). unfold Rmax. destruct (Rle_dec (sqrt (under_sqrt s r) * -1 - dot3 (direction r) (origin r)) 0),
      (Rle_dec (sqrt (under_sqrt s r) * 1 - dot3 (direction r) (origin r)) 0); lra.
  - unfold Rmax. destruct (Rle_dec 0 0); lra.
Qed.
Lemma lipschitz_along sdf r s t : distance_like sdf -> unit_ray r -> Rabs (sdf (at_ r s) - sdf (at_ r t)) <= Rabs (s - t).
Proof.
  intros D U. eapply Rle_trans; [apply D|]. change (at_ r s) with (along r s). change (at_ r t) with (along r t). unfold length3, along. cbn [x3 y3 z3].
  match goal with |- sqrt ?e <= _ => replace e with (Rsqr (s - t)) end.
  - rewrite sqrt_Rsqr_abs. apply Rle_refl.
  - pose proof (unit_dot r U) as E. unfold dot3 in E. unfold Rsqr.
    transitivity ((s - t) * (s - t) * (x3 (direction r) * x3 (direction r) + y3 (direction r) * y3 (direction r) + z3 (direction r) * z3 (direction r))).
    + rewrite E. ring.
    + ring.
Qed.

(* ---- the secant method ---- *)
Section secant.
Variables (sdf : vec3 -> R) (r : ray).
Notation f t := (sdf (at_ r t)).
Lemma guess_between a b x y : 0 <= a -> b < 0 -> x <= y -> x <= secant_guess a b x y <= y.
Proof.
  intros A B L. unfold secant_guess.
  replace (- a * (y - x) / (b - a)) with (a / (a - b) * (y - x)) by (field; lra).
  assert (W : 0 <= a / (a - b) <= 1).
  { split; [apply Rmult_le_pos; [exact A|left; apply Rinv_0_lt_compat; lra]|].
    apply (Rmult_le_reg_r (a - b)); [lra|]. unfold Rdiv. rewrite Rmult_assoc, Rinv_l by lra. lra. }
  nra.
Qed.
Lemma secant_between n : forall x y, x <= y -> 0 <= f x -> f y < 0 ->
  x <= secant sdf n r (f x) (f y) x y <= y /\
  exists x' y', x <= x' /\ x' <= y' /\ y' <= y /\ 0 <= f x' /\ f y' < 0 /\ x' <= secant sdf n r (f x) (f y) x y <= y'.
Proof.
  induction n as [|n IH]; intros x y L A B.
  - cbn [secant]. pose proof (guess_between (f x) (f y) x y A B L) as G. split; [exact G|].
    exists x, y. repeat split; try assumption; try apply Rle_refl; apply G.
  - cbn [secant]. pose proof (guess_between (f x) (f y) x y A B L) as G. set (z := secant_guess _ _ _ _) in *.
    destruct (Rltb_spec 0 (f z)) as [P|P].
    + destruct (IH z y (proj2 G) (Rlt_le _ _ P) B) as (I & x' & y' & J). split; [lra|]. exists x', y'.
      destruct J as (J1 & J2 & J3 & J4). repeat split; try apply J4; try assumption; lra.
    + destruct (Rltb_spec (f z) 0) as [N|N].
      * destruct (IH x z (proj1 G) A N) as (I & x' & y' & J). split; [lra|]. exists x', y'.
        destruct J as (J1 & J2 & J3 & J4). repeat split; try apply J4; try assumption; lra.
      * apply IH; assumption.
Qed.
End secant.

(* ---- samples ---- *)
Lemma linspace_length n : length (linspace01 n) = n.
Proof. destruct n as [|[|n]]; [reflexivity|reflexivity|]. unfold linspace01. rewrite map_length, seq_length. reflexivity. Qed.
Lemma linspace_nth n k d : (k < n)%nat -> (2 <= n)%nat -> nth k (linspace01 n) d = INR k / INR (n - 1).
Proof.
  intros K N. destruct n as [|[|n]]; [lia|lia|]. unfold linspace01.
  rewrite (nth_indep _ d (INR 0 / INR (S (S n) - 1))) by (rewrite map_length, seq_length; exact K).
  rewrite (map_nth (fun i => INR i / INR (S (S n) - 1)) (seq 0 (S (S n))) 0%nat k), seq_nth by exact K. reflexivity.
Qed.
Lemma ranking_length l : length (ranking l) = length l.
Proof. unfold ranking. rewrite map_length, combine_length, seq_length. lia. Qed.
Lemma ranking_nth l k : (k < length l)%nat -> nth k (ranking l) 0 = sign (nth k l 0) * INR (length l - k).
Proof.
  intros K. unfold ranking.
  rewrite (nth_indep _ 0 (sign (snd (0%nat, 0)) * INR (length l - fst (0%nat, 0)))) by (rewrite map_length, combine_length, seq_length; lia).
  rewrite (map_nth (fun iv => sign (snd iv) * INR (length l - fst iv)) (combine (seq 0 (length l)) l) (0%nat, 0) k).
  rewrite combine_nth by apply seq_length. cbn [fst snd]. rewrite seq_nth by exact K. reflexivity.
Qed.
(* the ranked minimum is the first negative value if there is one *)
Lemma sign_neg x : sign x < 0 <-> x < 0.
Proof. unfold sign. destruct (Rltb_spec 0 x), (Rltb_spec x 0); lra. Qed.
Lemma sign_neg_is x : x < 0 -> sign x = -1.
Proof. unfold sign. destruct (Rltb_spec 0 x), (Rltb_spec x 0); lra. Qed.
Lemma sign_ge x : -1 <= sign x.
Proof. unfold sign. destruct (Rltb_spec 0 x), (Rltb_spec x 0); lra. Qed.
Lemma first_negative argmin l : picks_minimum argmin -> l <> [] -> let i := argmin (ranking l) in (i < length l)%nat /\
  ((exists x, In x l /\ x < 0) -> nth i l 0 < 0 /\ forall k, (k < i)%nat -> 0 <= nth k l 0).
Proof.
  intros A N. cbv zeta. destruct (A (ranking l)) as [B C].
  { intros E. apply N. destruct l; [reflexivity|]. apply (f_equal (@length R)) in E. rewrite ranking_length in E. discriminate. }
  rewrite ranking_length in B. set (i := argmin (ranking l)) in *. split; [exact B|].
  assert (C' : forall k, (k < length l)%nat -> sign (nth i l 0) * INR (length l - i) <= sign (nth k l 0) * INR (length l - k)).
  { intros k K. rewrite <- !ranking_nth by assumption. apply C, nth_In. rewrite ranking_length. exact K. }
  intros (x & X & Neg). apply (In_nth _ _ 0) in X. destruct X as (k & K & <-).
  assert (P : forall j, (j < length l)%nat -> 0 < INR (length l - j)) by (intros j J; apply lt_0_INR; lia).
  assert (Ni : nth i l 0 < 0).
  { apply sign_neg. pose proof (C' k K) as D. rewrite (sign_neg_is _ Neg) in D. pose proof (P k K). pose proof (P i B). nra. }
  split; [exact Ni|]. intros j J. apply Rnot_lt_le. intros Z. pose proof (C' j ltac:(lia)) as D.
  rewrite (sign_neg_is _ Z), (sign_neg_is _ Ni) in D. assert (INR (length l - i) < INR (length l - j)) by (apply lt_INR; lia). lra.
Qed.
