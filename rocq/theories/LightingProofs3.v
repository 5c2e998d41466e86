(* The laws of Lambert and Phong for one point. *)
From Coq Require Import Lra.
From Verif Require Import Base RBase Geom LinAlg Tens Lighting LightingSpec LightingProofs LightingProofs2.
Local Open Scope R_scope.

Lemma dot_nn v : 0 <= dot3 v v.
Proof. unfold dot3. pose proof (Rle_0_sqr (x3 v)). pose proof (Rle_0_sqr (y3 v)). pose proof (Rle_0_sqr (z3 v)). unfold Rsqr in *. lra. Qed.
Lemma nsq v : norm3 v * norm3 v = dot3 v v.
Proof. unfold norm3. apply sqrt_sqrt, dot_nn. Qed.
Lemma nnn v : 0 <= norm3 v.
Proof. apply sqrt_pos. Qed.
Lemma nuniq v k : 0 <= k -> k * k = dot3 v v -> norm3 v = k.
Proof. intros Hk E. unfold norm3. rewrite <- E. apply sqrt_square, Hk. Qed.
Lemma nzero v : norm3 v = 0 -> v = vzero.
Proof.
  intros H. assert (E : dot3 v v = 0) by (rewrite <- nsq, H; ring). destruct v as [a b c]. unfold dot3 in E. cbn in E.
  pose proof (Rle_0_sqr a). pose proof (Rle_0_sqr b). pose proof (Rle_0_sqr c). unfold Rsqr in *.
  unfold vzero. f_equal; apply Rsqr_0_uniq; unfold Rsqr; lra.
Qed.
Lemma npos v : v <> vzero -> 0 < norm3 v.
Proof. intros H. destruct (Rle_lt_or_eq_dec _ _ (nnn v)) as [P|E]; [exact P|]. exfalso. apply H, nzero. symmetry. exact E. Qed.
Lemma unit6_long v : / 1000000 <= norm3 v -> unit6 v = div3 v (norm3 v).
Proof. intros H. unfold unit6. rewrite Rmax_left by exact H. reflexivity. Qed.
Lemma unit6_zero : unit6 vzero = vzero.
Proof. unfold unit6, vzero, div3. cbn. f_equal; unfold Rdiv; ring. Qed.
Lemma dot_zero_l v : dot3 vzero v = 0.
Proof. unfold dot3, vzero. cbn. ring. Qed.
Lemma dot_zero_r v : dot3 v vzero = 0.
Proof. unfold dot3, vzero. cbn. ring. Qed.
Lemma dot_sym a b : dot3 a b = dot3 b a.
Proof. unfold dot3. ring. Qed.
Lemma dot_div a b p q : dot3 (div3 a p) (div3 b q) = dot3 a b / (p * q).
Proof. unfold dot3, div3, Rdiv. cbn. rewrite Rinv_mult. ring. Qed.
Lemma dot_scal_l c a b : dot3 (scal3 c a) b = c * dot3 a b.
Proof. unfold dot3, scal3. cbn. ring. Qed.
Lemma dot_scal_r c a b : dot3 a (scal3 c b) = c * dot3 a b.
Proof. unfold dot3, scal3. cbn. ring. Qed.
Lemma sized_cases v : sized v -> (unit6 v = div3 v (norm3 v) /\ 0 < norm3 v) \/ v = vzero.
Proof. intros [H| ->]; [left|right; reflexivity]. split; [apply unit6_long, H|lra]. Qed.
Lemma lit_lambert n l : sized n -> sized l -> lit n l = lambert n l.
Proof.
  intros Hn Hl. unfold lit, lambert, cosine. rewrite Rmax_comm. f_equal.
  destruct (sized_cases _ Hn) as [[En Pn]| ->]; [|rewrite unit6_zero, !dot_zero_l; unfold Rdiv; ring].
  destruct (sized_cases _ Hl) as [[El Pl]| ->]; [|rewrite unit6_zero, !dot_zero_r; unfold Rdiv; ring].
  rewrite En, El. apply dot_div.
Qed.
Lemma dot_mirror n l v : dot3 v (mirror n l) = 2 * (dot3 n l / dot3 n n) * dot3 v n - dot3 v l.
Proof. unfold mirror. generalize (2 * (dot3 n l / dot3 n n)). intros k. unfold dot3, sub3, scal3. cbn. ring. Qed.
Lemma mirror_norm n l : 0 < norm3 n -> norm3 (mirror n l) = norm3 l.
Proof.
  intros P. apply nuniq; [apply nnn|]. rewrite nsq. rewrite dot_mirror, (dot_sym (mirror n l) n), (dot_sym (mirror n l) l), !dot_mirror.
  rewrite (dot_sym l n). assert (D : dot3 n n <> 0) by (rewrite <- nsq; nra). field. exact D.
Qed.
Lemma tpow_power x s : 0 < s -> tpow x s = power x s.
Proof. intros Hs. unfold tpow, power. destruct (Reqb_spec s 0); [lra|]. reflexivity. Qed.
Lemma power_0 s : power 0 s = 0.
Proof. unfold power. destruct (Reqb_spec 0 0); [reflexivity|contradiction]. Qed.
Lemma Rmax00 : Rmax 0 0 = 0.
Proof. apply Rmax_left. lra. Qed.
Lemma shine_gloss n l v s : sized n -> sized l -> sized v -> 0 < s -> shine n l v s = gloss n l v s.
Proof.
  intros Hn Hl Hv Hs. unfold shine, gloss. cbv zeta. rewrite tpow_power by exact Hs.
  destruct (sized_cases _ Hn) as [[En Pn]| ->].
  2:{ rewrite unit6_zero, !dot_zero_l. destruct (Rltb_spec 0 0); [lra|]. rewrite Rmult_0_r. apply power_0. }
  destruct (sized_cases _ Hl) as [[El Pl]| ->].
  2:{ rewrite unit6_zero, !dot_zero_r. destruct (Rltb_spec 0 0); [lra|]. rewrite Rmult_0_r. apply power_0. }
  rewrite En, El, dot_div. assert (PP : 0 < norm3 n * norm3 l) by (apply Rmult_lt_0_compat; assumption).
  destruct (Rltb_spec 0 (dot3 n l)) as [G|G], (Rltb_spec 0 (dot3 n l / (norm3 n * norm3 l))) as [K|K].
  - rewrite Rmult_1_r, Rmax_comm. f_equal. f_equal. unfold cosine. rewrite mirror_norm by exact Pn.
    destruct (sized_cases _ Hv) as [[Ev Pv]| ->]; [|rewrite unit6_zero, !dot_zero_l; unfold Rdiv; ring].
    rewrite Ev, dot_mirror. rewrite <- (nsq n). unfold dot3 at 1, add3, scal3, div3. cbn [x3 y3 z3].
    unfold dot3 at 2 3 4. unfold dot3. field. lra.
  - exfalso. apply K. apply Rdiv_lt_0_compat; assumption.
  - exfalso. apply G. replace (dot3 n l) with (dot3 n l / (norm3 n * norm3 l) * (norm3 n * norm3 l)) by (field; lra).
    apply Rmult_lt_0_compat; assumption.
  - rewrite Rmult_0_r. apply power_0.
Qed.

(* ---- ranges and extremes ---- *)
Lemma lagr u v : dot3 u u * dot3 v v - dot3 u v * dot3 u v = dot3 (cross3 u v) (cross3 u v).
Proof. unfold dot3, cross3. cbn. ring. Qed.
Lemma schwarz u v : Rabs (dot3 u v) <= norm3 u * norm3 v.
Proof.
  apply Rsqr_incr_0_var; [|apply Rmult_le_pos; apply nnn]. rewrite <- Rsqr_abs. unfold Rsqr.
  replace (norm3 u * norm3 v * (norm3 u * norm3 v)) with ((norm3 u * norm3 u) * (norm3 v * norm3 v)) by ring. rewrite !nsq.
  pose proof (lagr u v). pose proof (dot_nn (cross3 u v)). lra.
Qed.
Lemma cosine_le u v : Rabs (cosine u v) <= 1.
Proof.
  unfold cosine. destruct (Rle_lt_or_eq_dec _ _ (nnn u)) as [Pu|E].
  2:{ rewrite (nzero u (eq_sym E)), dot_zero_l. unfold Rdiv. rewrite Rmult_0_l, Rabs_R0. lra. }
  destruct (Rle_lt_or_eq_dec _ _ (nnn v)) as [Pv|E].
  2:{ rewrite (nzero v (eq_sym E)), dot_zero_r. unfold Rdiv. rewrite Rmult_0_l, Rabs_R0. lra. }
  assert (PP : 0 < norm3 u * norm3 v) by (apply Rmult_lt_0_compat; assumption).
  unfold Rdiv. rewrite Rabs_mult, (Rabs_pos_eq (/ _)) by (left; apply Rinv_0_lt_compat, PP).
  apply (Rmult_le_reg_r (norm3 u * norm3 v)); [exact PP|]. rewrite Rmult_assoc, Rinv_l by lra. pose proof (schwarz u v). lra.
Qed.
Lemma cosine_one u v : u <> vzero -> v <> vzero -> (cosine u v = 1 <-> exists k, 0 < k /\ v = scal3 k u).
Proof.
  intros Hu Hv. pose proof (npos _ Hu) as Pu. pose proof (npos _ Hv) as Pv. unfold cosine. split.
  - intros E. assert (D : dot3 u v = norm3 u * norm3 v).
    { replace (dot3 u v) with (dot3 u v / (norm3 u * norm3 v) * (norm3 u * norm3 v)) by (field; lra). rewrite E. ring. }
    exists (norm3 v / norm3 u). split; [apply Rdiv_lt_0_compat; assumption|].
    assert (Z : sub3 v (scal3 (norm3 v / norm3 u) u) = vzero).
    { apply nzero. apply nuniq; [lra|]. set (k := norm3 v / norm3 u).
      replace (dot3 (sub3 v (scal3 k u)) (sub3 v (scal3 k u))) with (dot3 v v - 2 * k * dot3 u v + k * k * dot3 u u) by (unfold dot3, sub3, scal3; cbn; ring).
      rewrite D, <- !nsq. unfold k. field. lra. }
    destruct v as [a b c], u as [d e f]. unfold sub3, scal3, vzero in *. cbn [x3 y3 z3] in *. injection Z as Z1 Z2 Z3. f_equal; lra.
  - intros (k & Hk & ->). rewrite dot_scal_r. assert (E : norm3 (scal3 k u) = k * norm3 u).
    { apply nuniq; [apply Rmult_le_pos; lra|]. rewrite dot_scal_l, dot_scal_r, <- nsq. ring. }
    rewrite E, <- nsq. field. lra.
Qed.
Lemma Rabs_le_inv x a : Rabs x <= a -> - a <= x <= a.
Proof. intros H. unfold Rabs in H. destruct (Rcase_abs x); lra. Qed.
Lemma lambert_range n l : 0 <= lambert n l <= 1.
Proof.
  unfold lambert. pose proof (cosine_le n l) as H. apply Rabs_le_inv in H. split; [apply Rmax_l|]. apply Rmax_lub; lra.
Qed.
Lemma lambert_away n l : dot3 n l <= 0 -> lambert n l = 0.
Proof.
  intros H. unfold lambert, cosine. apply Rmax_left. destruct (Rle_lt_or_eq_dec 0 (norm3 n * norm3 l)) as [P|E].
  - apply Rmult_le_pos; apply nnn.
  - unfold Rdiv. pose proof (Rinv_0_lt_compat _ P). nra.
  - rewrite <- E. unfold Rdiv. rewrite Rinv_0. lra.
Qed.
Lemma lambert_full n l : n <> vzero -> l <> vzero -> (lambert n l = 1 <-> exists k, 0 < k /\ l = scal3 k n).
Proof.
  intros Hn Hl. rewrite <- cosine_one by assumption. unfold lambert. split; intros E.
  - destruct (Rle_dec (cosine n l) 0) as [G|G]; [rewrite Rmax_left in E by exact G; lra|]. rewrite Rmax_right in E by lra. exact E.
  - rewrite E. apply Rmax_right. lra.
Qed.
Lemma power_range a s : 0 <= a <= 1 -> 0 < s -> 0 <= power a s <= 1.
Proof.
  intros H Hs. unfold power. destruct (Reqb_spec a 0) as [E|E]; [lra|]. split; [left; apply exp_pos|].
  unfold Rpower. replace 1 with (exp 0) by apply exp_0. assert (L : ln a <= 0). { rewrite <- ln_1. destruct (Req_dec a 1) as [->|N]; [lra|]. left. apply ln_increasing; lra. }
  assert (P : s * ln a <= 0) by nra. destruct (Req_dec (s * ln a) 0) as [->|N]; [lra|]. left. apply exp_increasing. lra.
Qed.
Lemma power_one a s : 0 <= a -> 0 < s -> power a s = 1 -> a = 1.
Proof.
  intros H Hs. unfold power. destruct (Reqb_spec a 0) as [E|E]; [intros; lra|]. unfold Rpower. intros X.
  assert (Z : s * ln a = 0) by (rewrite <- (ln_exp (s * ln a)), X; apply ln_1).
  assert (La : ln a = 0). { apply Rmult_integral in Z. destruct Z; lra. }
  apply ln_inv; [lra|lra|]. rewrite La, ln_1. reflexivity.
Qed.
Lemma power_at_one s : power 1 s = 1.
Proof. unfold power. destruct (Reqb_spec 1 0); [lra|]. unfold Rpower. rewrite ln_1, Rmult_0_r. apply exp_0. Qed.
Lemma gloss_range n l v s : 0 < s -> 0 <= gloss n l v s <= 1.
Proof.
  intros Hs. unfold gloss. destruct (Rltb 0 (dot3 n l)); [|lra]. apply power_range; [|exact Hs].
  pose proof (cosine_le v (mirror n l)) as H. apply Rabs_le_inv in H. split; [apply Rmax_l|apply Rmax_lub; lra].
Qed.
Lemma gloss_away n l v s : dot3 n l <= 0 -> gloss n l v s = 0.
Proof. intros H. unfold gloss. destruct (Rltb_spec 0 (dot3 n l)); [lra|reflexivity]. Qed.
Lemma mirror_nonzero n l : n <> vzero -> l <> vzero -> mirror n l <> vzero.
Proof.
  intros Hn Hl E. pose proof (mirror_norm n l (npos _ Hn)) as M. rewrite E in M. pose proof (npos _ Hl).
  assert (norm3 vzero = 0) by (apply nuniq; [lra|rewrite dot_zero_l; ring]). lra.
Qed.
Lemma gloss_peak n l v s : n <> vzero -> l <> vzero -> v <> vzero -> 0 < dot3 n l -> 0 < s ->
  (gloss n l v s = 1 <-> exists k, 0 < k /\ v = scal3 k (mirror n l)).
Proof.
  intros Hn Hl Hv D Hs. pose proof (mirror_nonzero _ _ Hn Hl) as Hm.
  assert (CS : cosine v (mirror n l) = cosine (mirror n l) v) by (unfold cosine; rewrite dot_sym, Rmult_comm; reflexivity).
  rewrite <- (cosine_one (mirror n l) v) by assumption. unfold gloss. destruct (Rltb_spec 0 (dot3 n l)); [|contradiction].
  rewrite CS. split; intros E.
  - apply power_one in E; [|apply Rmax_l|exact Hs]. destruct (Rle_dec (cosine (mirror n l) v) 0) as [G|G]; [rewrite Rmax_left in E by exact G; lra|].
    rewrite Rmax_right in E by lra. exact E.
  - rewrite E, Rmax_right by lra. apply power_at_one.
Qed.

(* ---- rigid motions and rescaling ---- *)
Lemma vmul_mul v a b : vmul3 (vmul3 v a) b = vmul3 v (mul3 a b).
Proof. destruct v, a, b. unfold vmul3, mul3. cbn. f_equal; ring. Qed.
Lemma vmul_id v : vmul3 v id3 = v.
Proof. destruct v. unfold vmul3, id3. cbn. f_equal; ring. Qed.
Lemma dot_turn q a b : rigid q -> dot3 (vmul3 a q) (vmul3 b q) = dot3 a b.
Proof. intros H. rewrite dot3_vmul, vmul_mul. rewrite H, vmul_id. reflexivity. Qed.
Lemma norm_turn q a : rigid q -> norm3 (vmul3 a q) = norm3 a.
Proof. intros H. unfold norm3. rewrite dot_turn by exact H. reflexivity. Qed.
Lemma unit6_turn q a : rigid q -> unit6 (vmul3 a q) = vmul3 (unit6 a) q.
Proof. intros H. unfold unit6. rewrite norm_turn by exact H. destruct a, q. unfold vmul3, div3, Rdiv. cbn. f_equal; ring. Qed.
Lemma lit_turn q n l : rigid q -> lit (vmul3 n q) (vmul3 l q) = lit n l.
Proof. intros H. unfold lit. rewrite !unit6_turn, dot_turn by exact H. reflexivity. Qed.
Lemma vmul_lin q c a d b : add3 (scal3 c (vmul3 a q)) (scal3 d (vmul3 b q)) = vmul3 (add3 (scal3 c a) (scal3 d b)) q.
Proof. destruct a, b, q. unfold add3, scal3, vmul3. cbn. f_equal; ring. Qed.
Lemma shine_turn q n l v s : rigid q -> shine (vmul3 n q) (vmul3 l q) (vmul3 v q) s = shine n l v s.
Proof. intros H. unfold shine. cbv zeta. rewrite !unit6_turn by exact H. rewrite vmul_lin. rewrite !dot_turn by exact H. reflexivity. Qed.
