From Coquelicot Require Import Coquelicot.
From Verif Require Import Base RBase Composite CompositeSpec CompositeProofs CompositeGrad.
Local Open Scope R_scope.

Lemma ac_eps_pos : 0 < ac_eps.
Proof. unfold ac_eps. apply Rinv_0_lt_compat. lra. Qed.
Lemma nw_eps_pos : 0 < nw_eps.
Proof. unfold nw_eps. apply Rinv_0_lt_compat. lra. Qed.

(* an opaque layer: the gradient in its alpha ignores what it hides *)
Lemma ac_alpha_refuted : ~ (forall K P C idx al feat go p k, (p < P)%nat -> (k < K)%nat ->
  (forall p k, 0 <= al p k <= 1) ->
  is_partial (fun al => loss P C go (fun p c => ac_fwd (feat c) (row_of K idx al p))) al p k
    (run (flat_map (ac_pair K idx al feat go) (list_prod (seq 0 P) (seq 0 C))) (GA p k))).
Proof.
  intros H.
  specialize (H 2%nat 1%nat 1%nat (fun _ k => Z.of_nat k) (fun _ _ => 1) (fun _ n => INR n) (fun _ _ => 1) 0%nat 0%nat
    ltac:(lia) ltac:(lia) ltac:(intros; lra)).
  assert (T := ac_alpha_true 2 1 1 (fun _ k => Z.of_nat k) (fun _ _ => 1) (fun _ n => INR n) (fun _ _ => 1) 0 0).
  assert (E := uniqueness_limite _ _ _ _ H T). clear H T.
  rewrite (ac_alpha_run 2 1 1 _ _ _ _ _ 0 0 ltac:(lia) (Permutation_refl _)) in E.
  assert (P := ac_eps_pos). unfold sumf, row_of in E. cbn in E.
  unfold Rdiv in E. rewrite !Rminus_eq_0 in E. change (Pos.to_nat 1) with 1%nat in E. cbn [INR] in E. rewrite !Rmult_0_l in E. lra.
Qed.
(* below the clamp: the gradient ignores that the divisor is constant *)
Lemma nw_alpha_refuted : ~ (forall K P C idx al feat go p k, (p < P)%nat -> (k < K)%nat ->
  (forall p k, 0 <= al p k <= 1) ->
  is_partial (fun al => loss P C go (fun p c => nw_fwd (feat c) (row_of K idx al p))) al p k
    (run (flat_map (nw_pair K idx al feat go) (list_prod (seq 0 P) (seq 0 C))) (GA p k))).
Proof.
  intros H. assert (PE := nw_eps_pos). assert (PL : nw_eps < 1) by (unfold nw_eps; lra).
  specialize (H 1%nat 1%nat 1%nat (fun _ _ => 0%Z) (fun _ _ => nw_eps / 2) (fun _ _ => 1) (fun _ _ => 1) 0%nat 0%nat
    ltac:(lia) ltac:(lia) ltac:(intros; lra)).
  unfold is_partial in H.
  assert (T : derivable_pt_lim (fun t => loss 1 1 (fun _ _ => 1) (fun p c => nw_fwd ((fun _ _ => 1) c) (row_of 1 (fun _ _ => 0%Z) (set2 (fun _ _ => nw_eps / 2) 0 0 t) p)))
     (nw_eps / 2) (/ nw_eps)).
  { apply is_derive_Reals. apply (is_derive_ext_loc (fun t => t / nw_eps)).
    - exists (mkposreal (nw_eps / 2) ltac:(lra)). intros t Ht. unfold ball in Ht. cbn in Ht. unfold AbsRing_ball, abs, minus, plus, opp in Ht. cbn in Ht.
      assert (H2 := Rabs_def2 _ _ Ht). unfold loss, sumf, nw_fwd, nw_total, row_of, set2. cbn.
      destruct (Rltb_spec (0 + t) nw_eps); [|lra]. field. lra.
    - auto_derive; [lra|]. field. lra. }
  assert (E := uniqueness_limite _ _ _ _ H T). clear H T.
  unfold run, nw_pair, nw_total, nw_alphafs, row_of in E. cbn in E.
  destruct (Rltb_spec (0 + nw_eps / 2) nw_eps) as [L|L]; [|lra].
  assert (X : 0 + 1 * (1 * nw_eps - (0 + nw_eps / 2 * 1)) / (nw_eps * nw_eps) = / nw_eps / 2) by (field; lra).
  rewrite X in E. assert (0 < / nw_eps) by (apply Rinv_0_lt_compat; lra). lra.
Qed.
