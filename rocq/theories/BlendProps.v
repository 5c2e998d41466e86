(* Properties C21 and C53: blending of the faces of a pixel. *)
From Verif Require Import Base RBase Blend BlendSpec BlendProofs.
Local Open Scope R_scope.

(* C21 *)
Theorem sigmoid_alpha_formula : forall sigma row,
  sab_fwd sigma row = 1 - rprod (map (fun d => 1 - coverage sigma d) (valid_dists row)).
Proof. exact sab_fwd_prod. Qed.
Print Assumptions sigmoid_alpha_formula.
Theorem sigmoid_alpha_bounds : forall sigma row, 0 <= sab_fwd sigma row < 1.
Proof. exact sab_bounds. Qed.
Print Assumptions sigmoid_alpha_bounds.
Theorem sigmoid_alpha_order_independent : forall sigma row row', Permutation row row' -> sab_fwd sigma row = sab_fwd sigma row'.
Proof. exact sab_perm. Qed.
Print Assumptions sigmoid_alpha_order_independent.
Theorem sigmoid_alpha_grows_with_faces : forall sigma f d row, (0 <= f)%Z -> sab_fwd sigma row < sab_fwd sigma ((f, d) :: row).
Proof. exact sab_mono. Qed.
Print Assumptions sigmoid_alpha_grows_with_faces.
Theorem sigmoid_alpha_falls_with_distance : forall sigma row, 0 < sigma -> forall k t t', t <= t' ->
  sab_fwd sigma (set_dist row k t') <= sab_fwd sigma (set_dist row k t).
Proof. exact sab_mono_dist. Qed.
Print Assumptions sigmoid_alpha_falls_with_distance.
(* slot by slot, the backward pass is the derivative of the upstream gradient times alpha *)
Theorem sigmoid_alpha_backward : forall sigma g row, sigma <> 0 -> forall k f d, nth_error row k = Some (f, d) ->
  exists v, nth_error (sab_bwd sigma g (sab_fwd sigma row) row) k = Some v /\
    derivable_pt_lim (fun t => g * sab_fwd sigma (set_dist row k t)) d v.
Proof. exact sab_bwd_grad. Qed.
Print Assumptions sigmoid_alpha_backward.
Example sigmoid_alpha_ex : nth_error [(3%Z, -1); ((-1)%Z, -1); (5%Z, 1/2)] 2 = Some (5%Z, 1/2) /\ 10 <> 0
  /\ valid_dists [(3%Z, -1); ((-1)%Z, -1); (5%Z, 1/2)] = [-1; 1/2].
Proof. repeat split. lra. Qed.

(* C53: softmax_rgb_blend is a convex combination of the colours of the faces and the background in
   which empty slots have no weight; the alpha is that of the silhouette *)
Theorem softmax_blend_convex : forall sigma gamma znear zfar bg row, row <> [] ->
  exists ws wb v, softmax_blend sigma gamma znear zfar bg row = Ok (v, 1 - rprod (map (fun s => 1 - s_prob sigma s) row)) /\
    length ws = length row /\ (forall w, In w ws -> 0 <= w) /\ 0 < wb /\ rsum ws + wb = 1 /\
    v = rsum (map (fun p => fst p * s_col (snd p)) (combine ws row)) + wb * bg /\
    (forall k s w, nth_error row k = Some s -> nth_error ws k = Some w -> (s_face s < 0)%Z -> w = 0).
Proof. exact softmax_convex. Qed.
Print Assumptions softmax_blend_convex.
Theorem softmax_blend_in_range : forall sigma gamma znear zfar bg row lo hi, row <> [] -> lo <= bg <= hi ->
  (forall s, In s row -> lo <= s_col s <= hi) ->
  exists v a, softmax_blend sigma gamma znear zfar bg row = Ok (v, a) /\ lo <= v <= hi.
Proof.
  intros sigma gamma znear zfar bg row lo hi Hne Hb Hc.
  destruct (softmax_convex sigma gamma znear zfar bg row Hne) as (ws & wb & v & E & HL & Hw & Hwb & Hs & -> & _).
  eexists _, _. split; [exact E|]. apply rsum_range; auto. lra.
Qed.
Print Assumptions softmax_blend_in_range.
(* the exponentials never exceed one: the exp-normalisation is effective *)
Theorem softmax_blend_stable : forall sigma gamma znear zfar row zm, 0 < gamma -> zinv_max znear zfar row = Ok zm ->
  forall s, In s row -> 0 <= s_weight sigma gamma znear zfar zm s <= 1.
Proof. exact softmax_stable. Qed.
Print Assumptions softmax_blend_stable.
Example softmax_blend_stable_ex : exists zm, zinv_max 1 100 [SSlot 2 (-1) 5 (1/2); SSlot (-1) 0 (-1) 0] = Ok zm.
Proof. eexists. reflexivity. Qed.
(* an empty pixel shows the background *)
Theorem softmax_blend_empty : forall sigma gamma znear zfar bg row, row <> [] -> (forall s, In s row -> (s_face s < 0)%Z) ->
  softmax_blend sigma gamma znear zfar bg row = Ok (bg, 0).
Proof.
  intros sigma gamma znear zfar bg row Hne H.
  destruct (softmax_convex sigma gamma znear zfar bg row Hne) as (ws & wb & v & E & HL & Hw & Hwb & Hs & Hv & Hz).
  rewrite E. f_equal. f_equal.
  - assert (Z0 : forall w, In w ws -> w = 0).
    { intros w Hw'. apply In_nth_error in Hw' as [k Hk].
      destruct (nth_error row k) as [s|] eqn:Es.
      - apply (Hz k s w Es Hk), H. eapply nth_error_In; exact Es.
      - apply nth_error_None in Es. assert (k < length ws)%nat by (apply nth_error_Some; congruence). lia. }
    assert (S0 : rsum ws = 0).
    { clear - Z0. induction ws as [|w ws IH]; [reflexivity|]. rewrite rsum_cons, IH by (intros; apply Z0; right; assumption).
      rewrite (Z0 w) by (left; reflexivity). lra. }
    rewrite Hv. rewrite rsum_map_zero; [rewrite S0 in Hs; replace wb with 1 by lra; ring|].
    intros [w s] Hin. apply in_combine_l in Hin. cbn. rewrite (Z0 w Hin). ring.
  - assert (P1 : rprod (map (fun s => 1 - s_prob sigma s) row) = 1); [|rewrite P1; ring].
    clear - H. induction row as [|s row IH]; [reflexivity|]. cbn [map rprod fold_right].
    unfold rprod in IH. rewrite IH by (intros; apply H; right; assumption).
    unfold s_prob, s_mask. assert (Hf := H s (or_introl eq_refl)). destruct (Z.leb_spec 0 (s_face s)); [lia|]. ring.
Qed.
Print Assumptions softmax_blend_empty.
Theorem hard_blend_nearest : forall f fs c cs bg,
  hard_blend (f :: fs) (c :: cs) bg = Ok (if (f <? 0)%Z then bg ++ [0] else c ++ [1]).
Proof. intros. cbn. destruct (f <? 0)%Z; reflexivity. Qed.
Print Assumptions hard_blend_nearest.
