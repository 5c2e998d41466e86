(* Unit directions, the choice of pixels, the pixel grid. *)
From Verif Require Import Base Packing RBase Geom GeomProofs LinAlg Transform TransformSpec TransformProofs TransformProofs2 Camera CameraSpec CameraProofs CameraProofs2 CameraProofs3 CameraProofs4 CameraProofs5 Implicit ImplicitSpec ImplicitProofs3 Rays RaysSpec RaysProofs RaysProofs2 RaysProofs3.
From Coq Require Import R_Ifp.
Local Open Scope R_scope.

Lemma along_0 o d : along o d 0 = o.
Proof. destruct o, d. unfold along. cbm. apply V3_eq; ring. Qed.
Lemma unit_ray cs i p o d : ray_through cs i p o d -> (forall r, In r (cs_R cs) -> orthogonal r) ->
  norm3 (normalize d) = 1 /\
  exists c r t s, ndc_camera cs i c r t /\ 0 < s <= 1 /\
    forall z, z3 (view_of r t (along o (normalize d) z)) = s * z /\
      ((perspective c -> z <> 0) -> seen_at c (view_of r t (along o (normalize d) z)) p) /\
      norm3 (vsub (along o (normalize d) z) o) = Rabs z.
Proof.
  intros (c & r & t & Hc & H0 & Hz) Hor.
  assert (Hr : orthogonal r) by (destruct Hc as (c0 & (_ & Hr & _) & _); apply Hor; eapply batch_nth_In; exact Hr).
  assert (D : x3 d * m02 r + y3 d * m12 r + z3 d * m22 r = 1).
  { destruct (Hz 1) as (E1 & _). destruct (Hz 0) as (E0 & _). rewrite along_0 in E0. rewrite view_along in E1. cbm_in E1. rewrite E0 in E1. lra. }
  assert (L : 1 <= dot3 d d).
  { pose proof (orthogonal_len r d Hr) as E. rewrite D in E. unfold dot3. rewrite E.
    pose proof (pow2_ge_0 (x3 d * m00 r + y3 d * m10 r + z3 d * m20 r)). pose proof (pow2_ge_0 (x3 d * m01 r + y3 d * m11 r + z3 d * m21 r)). lra. }
  assert (N : 1 <= norm3 d). { unfold norm3. rewrite <- sqrt_1. apply sqrt_le_1_alt. exact L. }
  assert (M : Rmax (norm3 d) (/ 10 ^ 12) = norm3 d).
  { apply Rmax_left. apply Rle_trans with 1; [|exact N]. rewrite <- Rinv_1. apply Rinv_le_contravar; [lra|].
    apply pow_R1_Rle. lra. }
  assert (NN := norm3_sq d). assert (Hn : norm3 d <> 0) by lra.
  assert (EN : normalize d = V3 (x3 d / norm3 d) (y3 d / norm3 d) (z3 d / norm3 d)) by (unfold normalize; rewrite M; reflexivity).
  assert (U : dot3 (normalize d) (normalize d) = 1).
  { rewrite EN. unfold dot3 in *. cbm. replace (x3 d / norm3 d * (x3 d / norm3 d) + y3 d / norm3 d * (y3 d / norm3 d) + z3 d / norm3 d * (z3 d / norm3 d))
      with ((x3 d * x3 d + y3 d * y3 d + z3 d * z3 d) / (norm3 d * norm3 d)) by (field; exact Hn). rewrite <- NN. field. exact Hn. }
  assert (A : forall z, along o (normalize d) z = along o d (/ norm3 d * z)).
  { intros z. rewrite EN. unfold along. cbm. apply V3_eq; field; exact Hn. }
  assert (P : 0 < / norm3 d) by (apply Rinv_0_lt_compat; lra).
  split; [unfold norm3; rewrite U; apply sqrt_1|].
  exists c, r, t, (/ norm3 d). split; [exact Hc|]. split.
  { split; [exact P|]. rewrite <- Rinv_1. apply Rinv_le_contravar; lra. }
  intros z. rewrite !A. destruct (Hz (/ norm3 d * z)) as (E1 & E2). split; [exact E1|]. split.
  - intros Hp. apply E2. intros Hpc. specialize (Hp Hpc). apply Rmult_integral_contrapositive_currified; lra.
  - rewrite <- A. unfold norm3. replace (dot3 _ _) with (Rsqr z * dot3 (normalize d) (normalize d)).
    + rewrite U, Rmult_1_r. apply sqrt_Rsqr_abs.
    + unfold dot3, vsub, along, Rsqr. cbm. ring.
Qed.

(* ---- assignment of selected rows ---- *)
Lemma forall2_weaken {A B} (P Q : A -> B -> Prop) l l' : (forall a b, P a b -> Q a b) -> Forall2 P l l' -> Forall2 Q l l'.
Proof. intros H F. induction F; constructor; auto. Qed.
Lemma select_cons {A} b m (x : A) l : select (b :: m) (x :: l) = if b then x :: select m l else select m l.
Proof. destruct b; reflexivity. Qed.
Lemma assign_ok {A B} (f : A -> bool) (P Q : A -> B -> Prop) (input : list A) : forall res sub out,
  Forall2 P input res -> Forall2 Q (select (map f input) input) sub -> assign (map f input) res sub = Ok out ->
  Forall2 (fun a b => if f a then Q a b else P a b) input out.
Proof.
  induction input as [|a input IH]; intros res sub out HP HQ H; inversion HP; subst; cbn [map assign] in H.
  - cbn in HQ. inversion HQ; subst. injection H as <-. constructor.
  - cbn [map] in HQ. rewrite select_cons in HQ. destruct (f a) eqn:Ef.
    + inversion HQ; subst. destruct (assign (map f input) l' l'0) as [o|] eqn:Ea; cbn [rbind] in H; [|discriminate]. injection H as <-.
      constructor; [rewrite Ef; assumption|]. eapply IH; eassumption.
    + destruct (assign (map f input) l' sub) as [o|] eqn:Ea; cbn [rbind] in H; [|discriminate]. injection H as <-.
      constructor; [rewrite Ef; assumption|]. eapply IH; eassumption.
Qed.

Section Multi.
Variable mult : nat -> bool -> nat -> list (list R) -> nat -> result (list (list nat)).
Hypothesis Hmult : torch_multinomial mult.

Lemma safe_multinomial_draws cols w n res : safe_multinomial mult cols w n = Ok res ->
  (0 < n)%nat /\
  Forall2 (fun row idx => length idx = n /\ Forall (fun i => (i < length row)%nat) idx /\
             Forall (fun i => 0 < nth i row 0) idx /\ ((n <= positives row)%nat -> NoDup idx)) w res.
Proof.
  destruct Hmult as (M1 & M2 & M3). unfold safe_multinomial. intros H.
  destruct (mult 0 false cols w n) as [r0|[]] eqn:E0; try discriminate.
  - destruct (M1 _ _ _ _ _ _ E0) as (Hn & D0). split; [exact Hn|].
    destruct (existsb _ _) eqn:Ex.
    + destruct (mult 3 true cols _ n) as [sub|] eqn:E3; cbn [rbind] in H; [|discriminate].
      destruct (M1 _ _ _ _ _ _ E3) as (_ & D3).
      pose proof (assign_ok (fun row => (positives row <? n)%nat) _ _ w r0 sub res D0 D3 H) as K.
      eapply forall2_weaken; [|exact K]. intros row idx J. cbv beta in J.
      destruct (positives row <? n)%nat eqn:Ep; destruct J as (J1 & J2 & J3 & J4).
      * apply Nat.ltb_lt in Ep. repeat split; auto. intros L. lia.
      * apply Nat.ltb_ge in Ep. destruct (J4 eq_refl) as (J5 & J6). repeat split; auto.
    + injection H as <-.
      assert (Hall : Forall (fun row => (positives row <? n)%nat = false) w).
      { apply Forall_forall. intros row Hrow. destruct (positives row <? n)%nat eqn:Ep; [|reflexivity].
        exfalso. assert (X : existsb (fun b => b) (map (fun row => (positives row <? n)%nat) w) = true).
        { apply existsb_exists. exists true. split; [|reflexivity]. rewrite <- Ep. apply in_map_iff. exists row. auto. }
        congruence. }
      clear E0 Ex. induction D0 as [|row idx w r0 J D0 IH]; constructor.
      * inversion Hall; subst. apply Nat.ltb_ge in H1. destruct J as (J1 & J2 & J3 & J4). destruct (J4 eq_refl) as (J5 & J6). repeat split; auto.
      * apply IH. inversion Hall; assumption.
  - destruct (mult 1 true cols w n) as [r1|] eqn:E1; cbn [rbind] in H; [|discriminate].
    destruct (mult 2 false cols _ n) as [sub|] eqn:E2; cbn [rbind] in H; [|discriminate].
    destruct (M1 _ _ _ _ _ _ E1) as (Hn & D1). destruct (M1 _ _ _ _ _ _ E2) as (_ & D2). split; [exact Hn|].
    pose proof (assign_ok (fun row => (n <=? positives row)%nat) _ _ w r1 sub res D1 D2 H) as K.
    eapply forall2_weaken; [|exact K]. intros row idx J. cbv beta in J.
    destruct (n <=? positives row)%nat eqn:Ep; destruct J as (J1 & J2 & J3 & J4).
    + apply Nat.leb_le in Ep. destruct (J4 eq_refl) as (J5 & J6). repeat split; auto.
    + apply Nat.leb_gt in Ep. repeat split; auto. intros L. lia.
Qed.

(* more samples than categories: the fallback calls torch.multinomial without replacement again *)
Lemma too_many_draws cols w n : (cols < n)%nat -> exists e, safe_multinomial mult cols w n = Fail e.
Proof.
  intros H. destruct Hmult as (M1 & M2 & M3). unfold safe_multinomial. rewrite (M2 0%nat cols w n H).
  destruct (mult 1 true cols w n) as [r1|e]; cbn [rbind]; [|eauto]. rewrite (M2 2%nat cols _ n H). cbn [rbind]. eauto.
Qed.
End Multi.

(* ---- the grid ---- *)
Lemma flat_map_nth {A B} (f : A -> list B) (l : list A) w i j a : (forall x, length (f x) = w) -> nth_error l i = Some a -> (j < w)%nat ->
  nth_error (flat_map f l) (i * w + j) = nth_error (f a) j.
Proof.
  intros Hw. revert i. induction l as [|x l IH]; intros [|i] Hi Hj; try discriminate; cbn [flat_map].
  - injection Hi as ->. cbn. rewrite nth_error_app1 by (rewrite Hw; exact Hj). reflexivity.
  - cbn in Hi. rewrite nth_error_app2 by (rewrite Hw; lia). rewrite Hw. replace (S i * w + j - w)%nat with (i * w + j)%nat by lia. apply IH; assumption.
Qed.
Lemma linspace_nth_error a b n i : (i < n)%nat -> nth_error (linspace a b n) i = Some (a + INR i * ((b - a) / INR (n - 1))).
Proof. intros H. unfold linspace. rewrite nth_error_map, nth_error_seq_lt by exact H. reflexivity. Qed.
Lemma grid_nth a b c d h w i j : (i < h)%nat -> (j < w)%nat ->
  nth_error (xy_grid a b c d h w) (i * w + j) = Some (a + INR j * ((b - a) / INR (w - 1)), c + INR i * ((d - c) / INR (h - 1))).
Proof.
  intros Hi Hj. unfold xy_grid.
  rewrite (flat_map_nth _ (linspace c d h) w i j (c + INR i * ((d - c) / INR (h - 1)))).
  - rewrite nth_error_map, linspace_nth_error by exact Hj. reflexivity.
  - intros x. rewrite map_length, linspace_length. reflexivity.
  - apply linspace_nth_error. exact Hi.
  - exact Hj.
Qed.
Lemma grid_length a b c d h w : length (xy_grid a b c d h w) = (h * w)%nat.
Proof.
  unfold xy_grid. assert (K : forall l : list R, length (flat_map (fun y : R => map (fun x => (x, y)) (linspace a b w)) l) = (length l * w)%nat).
  { induction l as [|y l IH]; [reflexivity|]. cbn [flat_map length]. rewrite app_length, map_length, linspace_length, IH. lia. }
  rewrite K, linspace_length. reflexivity.
Qed.
(* one coordinate: pixel i of n of a symmetric range *)
Lemma centre range n i : (i < n)%nat -> let half := range / INR n in
  (range - half) + INR i * ((- range + half - (range - half)) / INR (n - 1)) = range * (1 - (2 * INR i + 1) / INR n).
Proof.
  intros Hi half. unfold half. destruct n as [|[|n]]; [lia| |].
  - assert (i = 0%nat) by lia. subst. cbn [INR Nat.sub]. unfold Rdiv. rewrite Rmult_0_l, Rinv_1. ring.
  - replace (S (S n) - 1)%nat with (S n) by lia. rewrite !S_INR. pose proof (pos_INR n). field. lra.
Qed.
Lemma ndc_grid_pixels h w lim i j z : ndc_limits h w = Ok lim -> (i < h)%nat -> (j < w)%nat ->
  let '(a, b, c, d) := lim in
  exists p, nth_error (xy_grid a b c d h w) (i * w + j) = Some p /\
    to_pixel (INR h, INR w) (V3 (fst p) (snd p) z) = V3 (INR j + / 2) (INR i + / 2) z.
Proof.
  unfold ndc_limits. destruct ((h =? 0) || (w =? 0))%nat eqn:E0; [discriminate|]. intros H Hi Hj. injection H as <-.
  eexists. split; [apply grid_nth; assumption|]. cbn [fst snd]. rewrite !centre by assumption.
  assert (Hh : 0 < INR h) by (apply lt_0_INR; lia). assert (Hw : 0 < INR w) by (apply lt_0_INR; lia).
  unfold to_pixel. cbm. destruct (h <=? w)%nat eqn:E.
  - apply Nat.leb_le in E. rewrite Rmin_left by (apply le_INR; exact E). apply V3_eq; field; lra.
  - apply Nat.leb_gt in E. rewrite Rmin_right by (apply le_INR; lia). apply V3_eq; field; lra.
Qed.
