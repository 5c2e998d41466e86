From Verif Require Import Base RBase Geom LinAlg Transform Rotation RotationSpec RotationProofs RotationProofs2 RotationProofs3 RotationProofs4.
Local Open Scope R_scope.

(* ---- exp is a one-parameter group along each axis ---- *)
Lemma norm3_scal s v : norm3 (scal3 s v) = Rabs s * norm3 v.
Proof.
  apply norm3_unique; [apply Rmult_le_pos; [apply Rabs_pos|apply norm3_nonneg]|].
  replace (Rabs s * norm3 v * (Rabs s * norm3 v)) with ((Rabs s * Rabs s) * (norm3 v * norm3 v)) by ring.
  rewrite norm3_sq, <- Rabs_mult, Rabs_right by nra. unfold dot3, scal3. cbn [x3 y3 z3]. ring.
Qed.
Lemma turn_neg k t u : turn (scal3 (-1) k) t u = turn k (- t) u.
Proof. unfold turn. rewrite cos_neg, sin_neg. destruct k, u. unfold add3, scal3, cross3, dot3. cbn. apply V3_eq; ring. Qed.
Lemma turn_0 k u : turn k 0 u = u.
Proof. unfold turn. rewrite cos_0, sin_0. destruct k, u. unfold add3, scal3, cross3, dot3. cbn. apply V3_eq; ring. Qed.
Lemma act_id u : act id3 u = u.
Proof. destruct u. unfold act, id3. cbn. apply V3_eq; ring. Qed.

Lemma exp_scaled k s f m u : dot3 k k = 1 -> axis_angle_to_matrix (scal3 s k) f = Ok m -> act m u = turn k s u.
Proof.
  intros K H. assert (Nk : norm3 k = 1) by (apply norm3_unique; [lra|rewrite K; ring]).
  destruct (Req_dec s 0) as [->|Hs].
  - replace (scal3 0 k) with (V3 0 0 0) in H by (unfold scal3; apply V3_eq; ring).
    rewrite aatm_zero in H. injection H as <-. rewrite turn_0. apply act_id.
  - assert (Nn : norm3 (scal3 s k) = Rabs s) by (rewrite norm3_scal, Nk; ring).
    rewrite (aatm_act _ f m u H) by (rewrite Nn; apply Rabs_no_R0; exact Hs). rewrite Nn.
    destruct (Rle_or_lt 0 s) as [P|P].
    + rewrite Rabs_right by lra. f_equal. unfold scal3. destruct k. cbn. apply V3_eq; field; exact Hs.
    + rewrite Rabs_left by lra. replace (scal3 (/ - s) (scal3 s k)) with (scal3 (-1) k).
      * rewrite turn_neg. f_equal. ring.
      * unfold scal3. destruct k. cbn. apply V3_eq; field; lra.
Qed.

Lemma exp_sum s t v a b c : so3_exp_map (scal3 s v) = Ok a -> so3_exp_map (scal3 t v) = Ok b ->
  so3_exp_map (scal3 (s + t) v) = Ok c -> mul3 a b = c.
Proof.
  intros Ha Hb Hc. apply act_ext. intros u. rewrite act_mul.
  destruct (Req_dec (norm3 v) 0) as [Z|Z].
  - apply norm3_zero in Z. subst v. unfold so3_exp_map in *.
    assert (E : forall r, scal3 r (V3 0 0 0) = V3 0 0 0) by (intros; unfold scal3; cbn; apply V3_eq; ring).
    rewrite E in Ha, Hb, Hc. rewrite aatm_zero in Ha, Hb, Hc. injection Ha as <-. injection Hb as <-. injection Hc as <-.
    rewrite !act_id. reflexivity.
  - set (n := norm3 v) in *. set (k := scal3 (/ n) v).
    assert (K : dot3 k k = 1).
    { unfold k. replace (dot3 (scal3 (/ n) v) (scal3 (/ n) v)) with (/ n * / n * dot3 v v) by (unfold dot3, scal3; cbn; ring).
      rewrite <- norm3_sq. fold n. field. exact Z. }
    assert (E : forall r, scal3 r v = scal3 (r * n) k) by (intros; unfold k, scal3; cbn; apply V3_eq; field; exact Z).
    rewrite E in Ha, Hb, Hc. unfold so3_exp_map in *.
    rewrite (exp_scaled k _ _ _ _ K Ha), (exp_scaled k _ _ _ _ K Hb), (exp_scaled k _ _ _ _ K Hc).
    rewrite turn_turn by exact K. f_equal. ring.
Qed.
Lemma exp_fixes_axis v m : so3_exp_map v = Ok m -> act m v = v.
Proof.
  intros H. destruct (Req_dec (norm3 v) 0) as [Z|Z].
  - apply norm3_zero in Z. subst v. unfold act. cbn. apply V3_eq; ring.
  - rewrite (aatm_act v false m v H Z). unfold turn.
    replace (cross3 (scal3 (/ norm3 v) v) v) with (V3 0 0 0) by (unfold cross3, scal3; cbn; apply V3_eq; ring).
    replace (dot3 (scal3 (/ norm3 v) v) v) with (norm3 v).
    + revert Z. generalize (norm3 v). intros n Z. destruct v as [p q r]. unfold add3, scal3. cbn [x3 y3 z3]. apply V3_eq; field; exact Z.
    + replace (dot3 (scal3 (/ norm3 v) v) v) with (/ norm3 v * dot3 v v) by (unfold dot3, scal3; cbn; ring).
      rewrite <- norm3_sq. field. exact Z.
Qed.
Lemma exp_neg v a b : so3_exp_map v = Ok a -> so3_exp_map (scal3 (-1) v) = Ok b -> b = tr3 a.
Proof.
  intros Ha Hb. assert (I : mul3 a b = id3).
  { apply (exp_sum 1 (-1) v).
    - replace (scal3 1 v) with v by (destruct v; unfold scal3; cbn; apply V3_eq; ring). exact Ha.
    - exact Hb.
    - replace (scal3 (1 + -1) v) with (V3 0 0 0) by (unfold scal3; cbn; apply V3_eq; ring). apply aatm_zero. }
  destruct (aatm_rotation v false a Ha) as [R _].
  rewrite <- (mul3_1_l b). rewrite <- (mul3_inv_comm _ _ R). rewrite mul3_assoc, I, mul3_1_r. reflexivity.
Qed.

(* ---- traces and angles ---- *)
Lemma trace_range m : rotation m -> -1 <= trace3 m <= 3.
Proof.
  intros R. apply rotation_rel in R. pose proof (four_nonneg m R) as (H0 & H1 & H2 & H3). unfold trace3. lra.
Qed.
Lemma exp_trace v f m : axis_angle_to_matrix v f = Ok m -> trace3 m = 1 + 2 * cos (norm3 v).
Proof.
  intros H. assert (X : axis_angle_to_matrix v true = Ok m) by (destruct f; [|rewrite <- aatm_fast_slow]; exact H).
  cbn in X. injection X as <-. unfold axis_angle_to_matrix_fast. pose proof (norm3_sq v) as N. set (a := norm3 v) in *.
  unfold trace3, madd3, mscal3, mul3, hat, id3. cbn [m00 m01 m02 m10 m11 m12 m20 m21 m22].
  destruct (Reqb_spec (a * a) 0) as [Z|Z].
  - assert (a = 0) by nra. rewrite H0, cos_0. field.
  - unfold dot3 in N. set (C := (1 - cos a) / (a * a)).
    transitivity (3 - 2 * C * (x3 v * x3 v + y3 v * y3 v + z3 v * z3 v)); [ring|]. rewrite <- N. unfold C. field.
    intros E. apply Z. rewrite E. ring.
Qed.
Lemma rotation_angle_ok m eps b : 0 <= eps -> rotation m ->
  so3_rotation_angle m eps b 0 = Ok (if b then (trace3 m - 1) / 2 else acos ((trace3 m - 1) / 2)).
Proof.
  intros He R. pose proof (trace_range m R) as T. unfold so3_rotation_angle.
  destruct (Rltb_spec (trace3 m) (-1 - eps)); [lra|]. destruct (Rltb_spec (3 + eps) (trace3 m)); [lra|]. cbn [orb].
  destruct b; [reflexivity|]. destruct (Rltb_spec 0 0); [lra|].
  destruct (Rltb_spec ((trace3 m - 1) * / 2) (-1)); [lra|]. destruct (Rltb_spec 1 ((trace3 m - 1) * / 2)); [lra|]. reflexivity.
Qed.
Lemma rotation_angle_exp v m eps : 0 <= eps -> norm3 v <= PI -> so3_exp_map v = Ok m ->
  so3_rotation_angle m eps false 0 = Ok (norm3 v).
Proof.
  intros He Hv H. rewrite rotation_angle_ok by (try exact He; exact (aatm_rotation _ _ _ H)). f_equal.
  rewrite (exp_trace v false m H). replace ((1 + 2 * cos (norm3 v) - 1) / 2) with (cos (norm3 v)) by field.
  apply acos_cos. pose proof (norm3_nonneg v). lra.
Qed.
Lemma rotation_angle_bad m eps b cb : trace3 m < -1 - eps \/ 3 + eps < trace3 m -> so3_rotation_angle m eps b cb = Fail EValue.
Proof.
  intros H. unfold so3_rotation_angle. destruct (Rltb_spec (trace3 m) (-1 - eps)); [reflexivity|].
  destruct (Rltb_spec (3 + eps) (trace3 m)); [reflexivity|lra].
Qed.
Lemma relative_angle_sym a b eps ca cb : so3_relative_angle a b eps ca cb = so3_relative_angle b a eps ca cb.
Proof.
  unfold so3_relative_angle, so3_rotation_angle.
  replace (trace3 (mul3 b (tr3 a))) with (trace3 (mul3 a (tr3 b))); [reflexivity|].
  destruct a, b. unfold trace3, mul3, tr3. cbn. ring.
Qed.
Lemma trace_3_id m : rotation m -> trace3 m = 3 -> m = id3.
Proof.
  intros R T. apply rotation_rel in R. pose proof (four_nonneg m R) as (H0 & H1 & H2 & H3).
  unfold trace3 in T. assert (A : m00 m = 1) by lra. assert (B : m11 m = 1) by lra. assert (C : m22 m = 1) by lra.
  destruct R. rewrite A in *. rewrite B in *. rewrite C in *.
  destruct m as [a b c d e f g h i]. cbn [m00 m01 m02 m10 m11 m12 m20 m21 m22] in *. unfold id3. apply M3_eq; try assumption; nra.
Qed.
Lemma relative_angle_zero a b eps t : 0 <= eps -> rotation a -> rotation b ->
  so3_relative_angle a b eps false 0 = Ok t -> (t = 0 <-> a = b).
Proof.
  intros He Ra Rb H. pose proof (rotation_mul _ _ Ra (rotation_tr _ Rb)) as Rm. unfold so3_relative_angle in H.
  rewrite rotation_angle_ok in H by assumption. injection H as <-. pose proof (trace_range _ Rm) as T. split.
  - intros E. assert (X : cos (acos ((trace3 (mul3 a (tr3 b)) - 1) / 2)) = 1) by (rewrite E; apply cos_0).
    rewrite cos_acos in X by lra.
    assert (I : mul3 a (tr3 b) = id3) by (apply trace_3_id; [exact Rm|lra]).
    destruct Rb as [Rb _]. pose proof (mul3_inv_comm _ _ Rb) as Rb'.
    rewrite <- (mul3_1_r a), <- Rb', <- mul3_assoc, I, mul3_1_l. reflexivity.
  - intros ->. destruct Rb as [Rb _]. rewrite Rb. unfold trace3, id3. cbn [m00 m11 m22].
    replace ((1 + 1 + 1 - 1) / 2) with 1 by field. apply acos_1.
Qed.

(* ---- hat ---- *)
Lemma hat_cross v u : act (hat v) u = cross3 v u.
Proof. destruct v, u. unfold act, hat, cross3. cbn. apply V3_eq; ring. Qed.
Lemma hat_skew_ok v : skew_ok (hat v) = true.
Proof.
  unfold skew_ok, hat. cbn [m00 m01 m02 m10 m11 m12 m20 m21 m22].
  assert (P : forall x, x = 0 -> Rleb (Rabs x) hat_tol = true).
  { intros x ->. rewrite Rabs_R0. destruct (Rleb_spec 0 hat_tol); [reflexivity|]. unfold hat_tol in *. exfalso. apply n.
    assert (0 < / 100000) by (apply Rinv_0_lt_compat; lra). lra. }
  rewrite !P by ring. reflexivity.
Qed.
Lemma hat_inv_hat vs : vs <> [] -> hat_inv (map hat vs) = Ok vs.
Proof.
  intros H. unfold hat_inv. destruct vs as [|v vs]; [congruence|]. cbn [map].
  replace (forallb skew_ok (hat v :: map hat vs)) with true.
  - assert (E : forall l, map (fun m => V3 (m21 m) (m02 m) (m10 m)) (map hat l) = l).
    { induction l as [|[x y z] l IH]; [reflexivity|]. cbn [map]. rewrite IH. reflexivity. }
    rewrite E. destruct v. reflexivity.
  - symmetry. apply forallb_forall. intros m Hm. change (hat v :: map hat vs) with (map hat (v :: vs)) in Hm.
    apply in_map_iff in Hm. destruct Hm as (w & <- & _). apply hat_skew_ok.
Qed.
Lemma hat_hat_inv ms vs : Forall (fun m => tr3 m = mscal3 (-1) m) ms -> hat_inv ms = Ok vs -> map hat vs = ms.
Proof.
  intros F H. assert (X : vs = map (fun m => V3 (m21 m) (m02 m) (m10 m)) ms).
  { unfold hat_inv in H. destruct ms; [discriminate|]. destruct (forallb _ _); [|discriminate]. injection H as <-. reflexivity. }
  subst vs. rewrite map_map. clear H. induction F as [|m ms Hm F IH]; [reflexivity|]. cbn [map]. f_equal; [|exact IH].
  destruct m as [a b c d e f g h i]. unfold tr3, mscal3, hat in *. cbn [m00 m01 m02 m10 m11 m12 m20 m21 m22 x3 y3 z3] in *.
  injection Hm as ? ? ? ? ? ? ? ? ?. apply M3_eq; lra.
Qed.
Lemma hat_inv_raises ms m : In m ms -> skew_ok m = false -> hat_inv ms = Fail EValue.
Proof.
  intros Hi Hs. unfold hat_inv. destruct ms as [|x xs]; [destruct Hi|].
  destruct (forallb skew_ok (x :: xs)) eqn:E; [|reflexivity]. rewrite forallb_forall in E. specialize (E m Hi). congruence.
Qed.

(* ---- 6D ---- *)
Lemma normalize_unit v : norm_eps <= norm3 v -> dot3 (normalize v) (normalize v) = 1 /\ v = scal3 (norm3 v) (normalize v) /\ 0 < norm3 v.
Proof.
  intros H. assert (0 < norm_eps) by (unfold norm_eps; apply Rinv_0_lt_compat; lra).
  unfold normalize. rewrite Rmax_left by exact H. set (n := norm3 v) in *. split; [|split; [|lra]].
  - replace (dot3 _ _) with (/ n * / n * dot3 v v) by (unfold dot3, scal3; cbn; ring). rewrite <- norm3_sq. fold n. field. lra.
  - clearbody n. destruct v. unfold scal3. cbn. apply V3_eq; field; lra.
Qed.
Lemma rows3_rotation a b : dot3 a a = 1 -> dot3 b b = 1 -> dot3 a b = 0 -> rotation (rows3 a b (cross3 a b)).
Proof.
  intros A B C. assert (L : dot3 (cross3 a b) (cross3 a b) = 1).
  { transitivity (dot3 a a * dot3 b b - dot3 a b * dot3 a b); [destruct a, b; unfold dot3, cross3; cbn; ring|]. rewrite A, B, C. ring. }
  assert (P : dot3 a (cross3 a b) = 0) by (destruct a, b; unfold dot3, cross3; cbn; ring).
  assert (Q0 : dot3 b (cross3 a b) = 0) by (destruct a, b; unfold dot3, cross3; cbn; ring).
  split.
  - generalize dependent (cross3 a b). intros c L P Q0. destruct a, b, c. unfold dot3, rows3, mul3, tr3, id3 in *. cbn in *.
    apply M3_eq; lra.
  - rewrite <- L. destruct a, b. unfold det3, rows3, dot3, cross3. cbn. ring.
Qed.
Definition residual (a1 a2 : vec3) : vec3 :=
  sub3 a2 (scal3 (dot3 (normalize a1) a2) (normalize a1)).
Lemma sixd_rotation a1 a2 : norm_eps <= norm3 a1 -> norm_eps <= norm3 (residual a1 a2) ->
  rotation (rotation_6d_to_matrix a1 a2) /\
  exists p q r, 0 < p /\ 0 < r /\ a1 = scal3 p (mrow (rotation_6d_to_matrix a1 a2) 0) /\
    a2 = add3 (scal3 q (mrow (rotation_6d_to_matrix a1 a2) 0)) (scal3 r (mrow (rotation_6d_to_matrix a1 a2) 1)).
Proof.
  intros H1 H2. destruct (normalize_unit _ H1) as (U1 & E1 & P1). destruct (normalize_unit _ H2) as (U2 & E2 & P2).
  unfold rotation_6d_to_matrix. fold (residual a1 a2).
  assert (O : dot3 (normalize a1) (normalize (residual a1 a2)) = 0).
  { assert (X : dot3 (normalize a1) (residual a1 a2) = 0).
    { transitivity (dot3 (normalize a1) a2 - dot3 (normalize a1) a2 * dot3 (normalize a1) (normalize a1)).
      - unfold residual. generalize (normalize a1). intros b. destruct b, a2. unfold dot3, sub3, scal3. cbn. ring.
      - rewrite U1. ring. }
    rewrite E2 in X. replace (dot3 (normalize a1) (scal3 (norm3 (residual a1 a2)) (normalize (residual a1 a2))))
      with (norm3 (residual a1 a2) * dot3 (normalize a1) (normalize (residual a1 a2))) in X
      by (unfold dot3, scal3; cbn; ring).
    apply Rmult_integral in X. destruct X; [lra|assumption]. }
  split; [apply rows3_rotation; assumption|].
  exists (norm3 a1), (dot3 (normalize a1) a2), (norm3 (residual a1 a2)).
  assert (RW : forall a b c, mrow (rows3 a b c) 0 = a /\ mrow (rows3 a b c) 1 = b) by (intros [] [] []; split; reflexivity).
  destruct (RW (normalize a1) (normalize (residual a1 a2)) (cross3 (normalize a1) (normalize (residual a1 a2)))) as [-> ->].
  split; [exact P1|]. split; [exact P2|]. split; [exact E1|]. rewrite <- E2. unfold residual.
  generalize (scal3 (dot3 (normalize a1) a2) (normalize a1)). intros b. destruct a2, b. unfold add3, sub3. cbn. apply V3_eq; ring.
Qed.
Lemma normalize_1 v : dot3 v v = 1 -> normalize v = v.
Proof.
  intros H. assert (N : norm3 v = 1) by (apply norm3_unique; [lra|rewrite H; ring]). unfold normalize. rewrite N, Rmax_left.
  - destruct v. unfold scal3. cbn. apply V3_eq; field.
  - unfold norm_eps. rewrite <- Rinv_1. apply Rinv_le_contravar; lra.
Qed.
Lemma sixd_roundtrip m : rotation m -> let '(a, b) := matrix_to_rotation_6d m in rotation_6d_to_matrix a b = m.
Proof.
  intros R. apply rotation_rel in R. unfold matrix_to_rotation_6d, rotation_6d_to_matrix, mrow.
  destruct R. rewrite (normalize_1 (V3 (m00 m) (m01 m) (m02 m))) by (unfold dot3; cbn; lra).
  replace (dot3 (V3 (m00 m) (m01 m) (m02 m)) (V3 (m10 m) (m11 m) (m12 m))) with 0 by (unfold dot3; cbn; lra).
  replace (sub3 (V3 (m10 m) (m11 m) (m12 m)) (scal3 0 (V3 (m00 m) (m01 m) (m02 m)))) with (V3 (m10 m) (m11 m) (m12 m))
    by (unfold sub3, scal3; cbn; apply V3_eq; ring).
  rewrite normalize_1 by (unfold dot3; cbn; lra).
  destruct m as [a b c d e f g h i]. unfold rows3, cross3. cbn [m00 m01 m02 m10 m11 m12 m20 m21 m22 x3 y3 z3] in *.
  apply M3_eq; lra.
Qed.
Lemma sixd_parallel a c : dot3 a a = 1 -> rotation_6d_to_matrix a (scal3 c a) = rows3 a (V3 0 0 0) (V3 0 0 0).
Proof.
  intros H. unfold rotation_6d_to_matrix. rewrite normalize_1 by exact H.
  replace (dot3 a (scal3 c a)) with c by (transitivity (c * dot3 a a); [rewrite H; ring|unfold dot3, scal3; cbn; ring]).
  replace (sub3 (scal3 c a) (scal3 c a)) with (V3 0 0 0) by (unfold sub3; cbn; apply V3_eq; ring).
  replace (normalize (V3 0 0 0)) with (V3 0 0 0) by (unfold normalize, scal3; cbn; apply V3_eq; ring).
  replace (cross3 a (V3 0 0 0)) with (V3 0 0 0) by (unfold cross3; cbn; apply V3_eq; ring). reflexivity.
Qed.
