From Coquelicot Require Import Coquelicot.
From Verif Require Import Base RBase Geom GeomSpec GeomProofs GeomGrad.
Local Open Scope R_scope.

Lemma kEps_small : kEps < / 10000000.
Proof. unfold kEps. apply Rinv_lt_contravar; lra. Qed.

Lemma bary_one_refuted : ~ (forall p v0 v1 v2, signed_area2 v0 v1 v2 <> 0 ->
  x3 (bary p v0 v1 v2) + y3 (bary p v0 v1 v2) + z3 (bary p v0 v1 v2) = 1).
Proof.
  intros H. specialize (H (V2 0 0) (V2 0 0) (V2 0 1) (V2 1 0)).
  assert (K := kEps_pos).
  assert (E : edge (V2 1 0) (V2 0 0) (V2 0 1) = 1) by (unfold edge; cbn; ring).
  destruct (bary_sum (V2 0 0) (V2 0 0) (V2 0 1) (V2 1 0)) as [S _]; [rewrite E; lra|].
  cbv zeta in S. rewrite H in S by (unfold signed_area2; cbn; lra). rewrite E in S.
  assert (1 * (1 + kEps) = 1); [|lra]. rewrite S at 1. field. lra.
Qed.

Lemma persp_bwd_clamped_refuted : ~ (forall b z0 z1 z2 g,
  x3 b * z1 * z2 + y3 b * z0 * z2 + z3 b * z0 * z1 <> kEps ->
  is_grad3 (fun c => dot3 g (persp c z0 z1 z2)) b (fst (fst (fst (persp_bwd b z0 z1 z2 g))))).
Proof.
  intros H. specialize (H (V3 (-1) 0 0) 1 1 1 (V3 1 0 0)). assert (K := kEps_pos). assert (K' := kEps_small).
  destruct H as [H _]; [cbn; lra|]. cbn in H.
  rewrite Rmax_right in H by lra.
  assert (D : derivable_pt_lim (fun t => 1 * (t * 1 * 1 / Rmax (t * 1 * 1 + 0 * 1 * 1 + 0 * 1 * 1) kEps) +
    0 * (0 * 1 * 1 / Rmax (t * 1 * 1 + 0 * 1 * 1 + 0 * 1 * 1) kEps) + 0 * (0 * 1 * 1 / Rmax (t * 1 * 1 + 0 * 1 * 1 + 0 * 1 * 1) kEps)) (-1) (/ kEps)).
  { apply is_derive_Reals. eapply (derive_loc (fun t => t / kEps) _ _ _ (fun t => t < 0)).
    - apply (locally_lt (fun t => t)); [auto_derive; trivial|lra].
    - intros t Ht. cbv beta. rewrite (Rmax_right (t * 1 * 1 + 0 * 1 * 1 + 0 * 1 * 1) kEps) by lra. field. lra.
    - auto_derive; [lra|]. field. lra. }
  assert (E := uniqueness_limite _ _ _ _ H D).
  assert (X : (1 + kEps) * / (kEps * kEps) = / kEps) by (rewrite <- E; field; lra).
  assert (Y : 1 + kEps = kEps).
  { replace (1 + kEps) with ((1 + kEps) * / (kEps * kEps) * (kEps * kEps)) by (field; lra). rewrite X. field. lra. }
  lra.
Qed.

Lemma pline2_short_refuted : ~ (forall p a b, is_min (fun q => on_seg2 q a b) (sqd2 p) (pline2 p a b)).
Proof.
  intros H. specialize (H (V2 0 0) (V2 0 0) (V2 (/ 100000) 0)). destruct H as [_ H].
  specialize (H (V2 0 0)). assert (on_seg2 (V2 0 0) (V2 0 0) (V2 (/ 100000) 0)) by (exists 0; cbn; repeat split; lra).
  specialize (H H0). unfold pline2, sqd2, dot2, sub2 in H. cbn [x2 y2] in H.
  match type of H with context[Rleb ?a kEps] => replace (Rleb a kEps) with true in H by (symmetry; apply Rleb_true; unfold kEps; lra) end.
  lra.
Qed.

Lemma pline3_bwd_short_refuted : ~ (forall p v0 v1 g, sqd3 v1 v0 <> kEps ->
  is_grad3 (fun q => g * pline3 p v0 q) v1 (snd (pline3_bwd p v0 v1 g))).
Proof.
  intros H. specialize (H (V3 1 0 0) (V3 0 0 0) (V3 0 0 0) 1). assert (K := kEps_pos).
  destruct H as [H _]; [unfold sqd3; cbn; lra|].
  unfold pline3_bwd, dot3, sub3 in H; cbn [x3 y3 z3] in H.
  replace (Rltb ((0 - 0) * (0 - 0) + (0 - 0) * (0 - 0) + (0 - 0) * (0 - 0)) kEps) with true in H by (symmetry; apply Rltb_true; lra).
  cbn in H.
  assert (D : derivable_pt_lim (fun t => 1 * pline3 (V3 1 0 0) (V3 0 0 0) (V3 t 0 0)) 0 (-2)).
  { apply is_derive_Reals. eapply (derive_loc (fun t => (1 - t) * (1 - t)) _ _ _ (fun t => t * t < kEps)).
    - apply (locally_lt (fun t => t * t)); [auto_derive; trivial|lra].
    - intros t Ht. cbv beta. unfold pline3, dot3, sub3; cbn [x3 y3 z3].
      match goal with |- context[Rleb ?a kEps] => replace (Rleb a kEps) with true by (symmetry; apply Rleb_true; lra) end. ring.
    - auto_derive; [trivial|]. ring. }
  assert (E := uniqueness_limite _ _ _ _ H D). lra.
Qed.

Lemma ptri3_eps_refuted : ~ (forall p v0 v1 v2, kEps < sqd3 v1 v0 -> kEps < sqd3 v2 v0 -> kEps < sqd3 v2 v1 ->
  5 / 1000 <= area3 v0 v1 v2 ->
  is_min (fun q => in_tri3 q v0 v1 v2) (sqd3 p) (ptri3 kEps vEps p v0 v1 v2 (5 / 1000))).
Proof.
  intros H. specialize (H (V3 (1/4) (1/4) 1) (V3 0 0 0) (V3 1 0 0) (V3 0 1 0)).
  assert (K := kEps_pos). assert (K' := kEps_small). assert (EV : vEps = kEps) by reflexivity.
  assert (N : cross3 (sub3 (V3 0 1 0) (V3 0 0 0)) (sub3 (V3 1 0 0) (V3 0 0 0)) = V3 0 0 (-1)) by (unfold cross3, sub3; cbn; f_equal; ring).
  assert (NN : norm3 (V3 0 0 (-1)) = 1) by (unfold norm3, dot3; cbn; replace (0 * 0 + 0 * 0 + -1 * -1) with 1 by ring; apply sqrt_1).
  assert (A : area3 (V3 0 0 0) (V3 1 0 0) (V3 0 1 0) = / 2) by (rewrite area3_norm, N, NN; field).
  destruct H as [[q [Hq Eq]] HM]; try (unfold sqd3; cbn; lra).
  assert (I : in_tri3 (V3 (1/4) (1/4) 0) (V3 0 0 0) (V3 1 0 0) (V3 0 1 0)) by (exists (1/2), (1/4), (1/4); cbn; repeat split; lra).
  assert (IN : inside3 kEps (add3 (V3 (1/4) (1/4) 1) (scal3 (dot3 (sub3 (V3 0 0 0) (V3 (1/4) (1/4) 1)) (tri_normal vEps (V3 0 0 0) (V3 1 0 0) (V3 0 1 0))) (tri_normal vEps (V3 0 0 0) (V3 1 0 0) (V3 0 1 0)))) (V3 0 0 0) (V3 1 0 0) (V3 0 1 0) (5/1000) = true).
  { unfold inside3. rewrite A. replace (Rltb (/ 2) (5 / 1000)) with false by (symmetry; apply Rltb_false; lra).
    unfold tri_normal. rewrite N, NN, EV. unfold bary3, dot3, sub3, add3, scal3, div3; cbn [x3 y3 z3].
    rewrite !Bool.andb_true_iff, !in01_true.
    assert (G : forall a d, d = 1 + kEps -> a = 1 / 4 -> 0 <= a / d <= 1 / 4).
    { intros a d -> ->. split; [apply Rmult_le_pos; [lra|left; apply Rinv_0_lt_compat; lra]|].
      apply Rmult_le_reg_r with (1 + kEps); [lra|]. unfold Rdiv at 1. rewrite Rmult_assoc, Rinv_l by lra. lra. }
    match goal with |- ((0 <= 1 - ?u - ?v <= 1 /\ _) /\ _) => assert (G1 : 0 <= u <= 1/4); [|assert (G2 : 0 <= v <= 1/4); [|repeat split; lra]] end;
      apply G; field; lra. }
  destruct (ptri3_eps_inside (V3 (1/4) (1/4) 1) (V3 0 0 0) (V3 1 0 0) (V3 0 1 0) (5/1000)) with (ke := kEps) (ve := vEps) as [E _]; try assumption.
  - rewrite N. unfold dot3; cbn. lra.
  - rewrite EV; lra.
  - rewrite N, NN. lra.
  - rewrite N, NN, EV in E.
    assert (P : ptri3 kEps vEps (V3 (1/4) (1/4) 1) (V3 0 0 0) (V3 1 0 0) (V3 0 1 0) (5/1000) < 1).
    { rewrite EV, E. unfold dot3, sub3; cbn [x3 y3 z3].
      match goal with |- _ * ?a < 1 => replace a with 1 by field end.
      set (r := 1 / (1 + kEps)). assert (E1 : r * (1 + kEps) = 1) by (unfold r; field; lra). assert (0 < r) by (apply Rdiv_lt_0_compat; lra).
      assert (r < 1) by nra. nra. }
    destruct Hq as [a [b [c [Ha [Hb [Hc [HS [Hx [Hy Hz]]]]]]]]]. cbn in Hx, Hy, Hz.
    unfold sqd3 in Eq. cbn [x3 y3 z3] in Eq.
    assert (z3 q = 0) by lra. assert (Z1 := pow2_ge_0 (1/4 - x3 q)). assert (Z2 := pow2_ge_0 (1/4 - y3 q)).
    rewrite H in Eq. lra.
Qed.

(* ---- pixel centres ---- *)
Lemma pix_form i S1 S2 : (0 < S1)%Z -> (0 < S2)%Z ->
  pix_to_ndc i S1 S2 = (2 * IZR i + 1 - IZR S1) / IZR (Z.min S1 S2).
Proof.
  intros H1 H2. unfold pix_to_ndc, ndc_range. apply IZR_lt in H1. apply IZR_lt in H2.
  destruct (Z.ltb_spec S2 S1) as [L|L].
  - rewrite Z.min_r by lia. field. lra.
  - rewrite Z.min_l by lia. field. lra.
Qed.
Lemma min_pos S1 S2 : (0 < S1)%Z -> (0 < S2)%Z -> 0 < IZR (Z.min S1 S2).
Proof. intros. apply IZR_lt. lia. Qed.
Lemma pix_increasing i j S1 S2 : (0 < S1)%Z -> (0 < S2)%Z -> (i < j)%Z -> pix_to_ndc i S1 S2 < pix_to_ndc j S1 S2.
Proof.
  intros H1 H2 L. rewrite !pix_form by assumption. apply Rmult_lt_compat_r; [apply Rinv_0_lt_compat, min_pos; assumption|].
  apply IZR_lt in L. lra.
Qed.
Lemma pix_symmetric i S1 S2 : (0 < S1)%Z -> (0 < S2)%Z -> pix_to_ndc (S1 - 1 - i) S1 S2 = - pix_to_ndc i S1 S2.
Proof.
  intros H1 H2. rewrite !pix_form by assumption. assert (P := min_pos S1 S2 H1 H2). rewrite !minus_IZR. field. lra.
Qed.
Lemma pix_inside i S1 S2 : (0 < S1)%Z -> (0 < S2)%Z -> (0 <= i < S1)%Z ->
  - (IZR S1 / IZR (Z.min S1 S2)) < pix_to_ndc i S1 S2 < IZR S1 / IZR (Z.min S1 S2).
Proof.
  intros H1 H2 [Ha Hb]. rewrite !pix_form by assumption. assert (P := min_pos S1 S2 H1 H2).
  assert (Q := Rinv_0_lt_compat _ P). apply IZR_le in Ha. assert (Hb' : (i + 1 <= S1)%Z) by lia. apply IZR_le in Hb'. rewrite plus_IZR in Hb'.
  unfold Rdiv. rewrite Ropp_mult_distr_l. split; apply Rmult_lt_compat_r; lra.
Qed.
Lemma pix_spacing i j H W : (0 < H)%Z -> (0 < W)%Z ->
  pix_to_ndc (i + 1) H W - pix_to_ndc i H W = 2 / IZR (Z.min H W) /\
  pix_to_ndc (j + 1) W H - pix_to_ndc j W H = 2 / IZR (Z.min H W).
Proof.
  intros H1 H2. rewrite !pix_form by assumption. rewrite (Z.min_comm W H). assert (P := min_pos H W H1 H2).
  rewrite !plus_IZR. split; field; lra.
Qed.
