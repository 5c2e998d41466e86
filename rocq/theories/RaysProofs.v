(* Unprojection from NDC, and the geometry of one ray. *)
From Verif Require Import Base Packing RBase Geom LinAlg Transform TransformSpec TransformProofs TransformProofs2 Camera CameraSpec CameraProofs CameraProofs2 CameraProofs3 CameraProofs4 CameraProofs5 Implicit ImplicitSpec Rays RaysSpec.
Local Open Scope R_scope.

Definition ndc_intr (cs : cameras) (i : nat) (c0 c : intr) : Prop :=
  if in_ndc cs then c = c0
  else exists l s, cs_size cs = Some l /\ batch_nth l i = Some s /\ c = ndc_equivalent s c0 /\ scale_of s <> 0.

Lemma ndc_acts cs n ms i a c0 k :
  cs_cls cs = CPersp \/ cs_cls cs = COrtho -> cs_K cs = None -> cls_of c0 = cs_cls cs ->
  ndc_camera_transform no_kw cs = Ok n -> get_matrix n = Ok ms -> batch_nth ms i = Some a ->
  batch_nth (cs_int cs) i = Some c0 -> calibration c0 = Ok k ->
  exists c, ndc_intr cs i c0 c /\ forall h v, from_h None h = pinhole c0 v -> from_h None (vmul4 h a) = pinhole c v.
Proof.
  intros Hc HK Hcl Hn Hm Ha Hi Hk. unfold ndc_intr. destruct (in_ndc cs) eqn:En.
  - exists c0. split; [reflexivity|]. unfold ndc_camera_transform in Hn. rewrite En in Hn. injection Hn as <-.
    cbn in Hm. injection Hm as <-. unfold batch_nth in Ha. cbn in Ha. injection Ha as <-.
    intros h v Hh. rewrite <- Hh. f_equal. destruct h. unfold vmul4, id4. cbm. apply V4_eq; ring.
  - destruct (ndc_camera_matrix _ _ _ _ _ _ En Hn Hm Ha) as (ks & k' & l & s & N1 & N2 & N3 & N4 & N5 & N6).
    destruct (calib_pinhole no_kw cs ks k' i eq_refl HK N1 N2) as (c' & C1 & C2 & C3).
    cbn in C1. rewrite Hi in C1. injection C1 as <-. rewrite Hk in C2. injection C2 as <-.
    exists (ndc_equivalent s c0). split.
    + exists l, s. unfold size_of in N3. cbn in N3. auto.
    + intros h v Hh. rewrite (from_h_then a _ h N6), Hh, <- Hcl. apply pinhole_equivalent; auto. rewrite Hcl. exact Hc.
Qed.

Lemma regular_ndc cs i c0 c : regular c0 -> ndc_intr cs i c0 c -> regular c /\ cls_of c = cls_of c0.
Proof.
  unfold ndc_intr. destruct (in_ndc cs); [intros H ->; auto|]. intros H (l & s & _ & _ & -> & Hs).
  destruct s as [h w]. unfold scale_of in Hs. cbn [fst snd] in Hs.
  destruct c0; cbn [ndc_equivalent regular cls_of] in *; auto; destruct H as (H1 & H2);
    (split; [|reflexivity]); split; intros E; apply Rmult_integral in E as [E|E]; try contradiction;
    exact (Rinv_neq_0_compat _ Hs E).
Qed.

Lemma full_get cs t : cams_wf cs -> snd (full_projection no_kw cs) = Ok t -> exists ms, get_matrix t = Ok ms /\ length ms = cs_n cs.
Proof.
  intros W H1. apply full_ok in H1. destruct H1 as (w & pr & Hw & Hpr & ->).
  destruct (projection_ok _ _ _ Hpr) as (ks & Hks & ->). rewrite get_matrix_compose1.
  unfold view_transform in Hw. rewrite stored_no_kw in Hw. cbn [snd] in Hw.
  destruct W as (W1 & W2 & _). rewrite world_to_view_defined in Hw by congruence. injection Hw as <-.
  cbn [get_matrix rbind mk_transform]. unfold broadcast. rewrite !map_length, W1, W2, Nat.eqb_refl. cbn [rbind].
  rewrite map_length, combine_length, !map_length, W1, W2, Nat.min_id, (calib_len _ _ _ Hks eq_refl), Nat.eqb_refl.
  eexists. split; [reflexivity|]. rewrite map_length, combine_length, map_length, combine_length, !map_length, W1, W2, (calib_len _ _ _ Hks eq_refl). lia.
Qed.
Lemma screen_get n flip size t : ndc_to_screen n flip size = Ok t -> exists ms, get_matrix t = Ok ms /\ length ms = n.
Proof.
  unfold ndc_to_screen. destruct size as [l|]; [|discriminate].
  destruct (spread n (map screen_mat l)) as [k|] eqn:Es; cbn [rbind]; [|discriminate]. intros H; injection H as <-.
  pose proof (spread_length _ _ _ Es) as L. destruct flip.
  - rewrite get_matrix_compose1. cbn [mk_transform get_matrix rbind]. unfold broadcast. rewrite !map_length, repeat_length, L, Nat.eqb_refl.
    eexists. split; [reflexivity|]. rewrite map_length, combine_length, !map_length, repeat_length. lia.
  - cbn. eexists. split; [reflexivity|]. rewrite map_length. exact L.
Qed.
Lemma ndc_get cs n : ndc_camera_transform no_kw cs = Ok n ->
  wf n /\ exists ms, get_matrix n = Ok ms /\ (length ms = 1%nat \/ length ms = cs_n cs).
Proof.
  intros Hn. unfold ndc_camera_transform in Hn. destruct (in_ndc cs).
  - injection Hn as <-. split; [apply wf_mk|]. eexists. split; [reflexivity|]. auto.
  - destruct (principal_point no_kw cs) as [pp|]; cbn [rbind] in Hn; [|discriminate].
    destruct (spread (cs_n cs) (map pp_fix pp)) as [fx|] eqn:Ef; cbn [rbind] in Hn; [|discriminate].
    destruct (screen_to_ndc (cs_n cs) false (size_of no_kw cs)) as [sn|] eqn:Es; cbn [rbind] in Hn; [|discriminate]. injection Hn as <-.
    unfold screen_to_ndc in Es. destruct (ndc_to_screen _ _ _) as [st|] eqn:Et; cbn [rbind] in Es; [|discriminate].
    destruct (screen_get _ _ _ _ Et) as (ms & Hm & Lm).
    destruct (inverse_matrix _ _ _ _ (wf_ndc_to_screen _ _ _ _ Et) Hm Es) as (ims & Hi & L & _).
    split; [apply wf_compose1; [apply wf_mk|]; cbn [inverse] in Es; eapply wf_inverse_parts; exact Es|].
    rewrite get_matrix_compose1, Hi. cbn [mk_transform get_matrix rbind]. pose proof (spread_length _ _ _ Ef) as Lf.
    unfold broadcast. rewrite map_length, Lf, <- L, Lm, Nat.eqb_refl. eexists. split; [reflexivity|]. right.
    rewrite map_length, combine_length, map_length. lia.
Qed.

Lemma unproject_ndc_view cs l out i j p X :
  cams_wf cs -> cs_K cs = None -> (forall c, In c (cs_int cs) -> regular c) ->
  snd (unproject true false true no_kw cs (P3 l)) = Ok out ->
  entry (P3 l) i j = Some p -> entry out i j = Some (Some X) ->
  exists c0 c r t, camera_at cs i c0 r t /\ ndc_intr cs i c0 c /\ regular c /\ cls_of c = cs_cls cs /\
    z3 (view_of r t X) = z3 p /\ seen_at c (view_of r t X) (x3 p, y3 p).
Proof.
  intros W HK Hreg Hu Hp HX.
  assert (Hsc : sound_call no_kw cs).
  { split; [intros c Hc; apply W; exact Hc|]. intros l0 k [E|E]; [congruence|discriminate]. }
  assert (Hcls : (cs_cls cs = CFoVPersp \/ cs_cls cs = CFoVOrtho) \/ (cs_cls cs = CPersp \/ cs_cls cs = COrtho)).
  { destruct (cs_cls cs); auto. }
  destruct Hcls as [Hc|Hc].
  - assert (Hu' : snd (unproject true false false no_kw cs (P3 l)) = Ok out).
    { rewrite <- Hu. unfold unproject. destruct Hc as [-> | ->]; reflexivity. }
    destruct (unproject_cases true no_kw cs (P3 l) out (fun _ => eq_refl) Hu') as (t & u & Q & H1 & H2 & H3 & H4).
    cbn [full_or_view] in H1.
    assert (Hwf := wf_full _ _ _ H1).
    destruct (full_get _ _ W H1) as (ms & Hg & Lg).
    destruct (undo_entry _ _ _ _ _ _ _ _ Hwf Hg H2 H3 HX) as (a & b & qo & A1 & A2 & A3 & A4 & A5).
    assert (Hd : depth_shape_ok cs (P3 l)) by (unfold depth_shape_ok; destruct (cs_cls cs); exact I).
    destruct (H4 Hd i j qo A4) as (p' & B1 & B2 & _). rewrite Hp in B1. injection B1 as <-.
    destruct (B2 Hc) as (ks & k & K1 & K2 & ->).
    destruct (with_depth (cs_cls cs) k p) as [q|] eqn:Eq; [|discriminate].
    destruct (full_matrix _ _ _ _ _ _ H1 Hg A1) as (r & tv & ks' & k' & F1 & F2 & F3 & F4 & Ea).
    rewrite K1 in F3. injection F3 as <-. rewrite K2 in F4. injection F4 as <-. rewrite stored_no_kw in F1, F2.
    destruct (calib_pinhole no_kw cs ks k i eq_refl HK K1 K2) as (c & C1 & C2 & C3). cbn in C1.
    assert (Hv : from_h None (vmul4 (to_h (view_of r tv X)) (tr4 k)) = Some q).
    { rewrite <- vmul4_view, <- vmul4_mul, <- Ea. apply (undo_point q X b a A3). symmetry. exact A5. }
    pose proof (Hreg c (batch_nth_In _ _ _ C1)) as Hr. assert (Hcc : cls_of c = cs_cls cs) by (apply W; eapply batch_nth_In; exact C1).
    assert (Hin : in_ndc cs = true) by (unfold in_ndc; destruct Hc as [-> | ->]; reflexivity).
    exists c, c, r, tv. split; [repeat split; assumption|]. split; [unfold ndc_intr; rewrite Hin; reflexivity|].
    split; [exact Hr|]. split; [exact Hcc|]. split.
    + assert (Hsh := calib_shape _ _ _ _ Hsc K1 (batch_nth_In _ _ _ K2)).
      eapply (depth_back (cs_cls cs) k); [exact Hsh| |exact Eq|exact Hv].
      destruct (regular_calibration c Hr) as (k2 & E2 & D & _). rewrite C2 in E2. injection E2 as <-. exact D.
    + exists q. rewrite <- C3. split; [exact Hv|]. destruct (with_depth_xy _ _ _ _ Eq). auto.
  - unfold unproject in Hu. cbn [full_or_view] in Hu.
    assert (K : exists t n u Q, snd (full_projection no_kw cs) = Ok t /\ ndc_camera_transform no_kw cs = Ok n /\
       inverse false (compose t [n]) = Ok u /\ transform_opt None u Q = Ok out /\
       forall k qo, entry Q i j = Some qo -> qo = with_depth (cs_cls cs) k p).
    { destruct (full_projection no_kw cs) as [cs' rt] eqn:Ef.
      assert (Ecs : cs' = cs) by (unfold full_projection, view_transform in Ef; rewrite stored_no_kw in Ef; congruence). subst cs'.
      destruct (cs_cls cs); try (destruct Hc; discriminate);
        (cbn [snd] in Hu |- *; destruct rt as [t|]; cbn [rbind] in Hu; [|discriminate];
         destruct (ndc_camera_transform no_kw cs) as [n|]; cbn [rbind] in Hu; [|discriminate];
         destruct (inverse false (compose t [n])) as [u|] eqn:Ei; cbn [rbind] in Hu; [|discriminate];
         exists t, n, u; eexists; repeat (split; [reflexivity || exact Ei || exact Hu|]);
         intros k qo HQ; rewrite entry_pmap, Hp in HQ; cbn in HQ; injection HQ as <-; reflexivity). }
    destruct K as (t & n & u & Q & Ht & Hn & Hi & Hopt & HQ).
    destruct (ndc_get _ _ Hn) as (Hwn & mn & Hmn & Lmn). destruct (full_get _ _ W Ht) as (mt & Hmt & Lmt).
    assert (Hwf : wf (compose t [n])) by (apply wf_compose1; [eapply wf_full; exact Ht|exact Hwn]).
    assert (Hg : exists ms, get_matrix (compose t [n]) = Ok ms).
    { rewrite get_matrix_compose1, Hmt, Hmn. cbn [rbind]. apply broadcast_defined. lia. }
    destruct Hg as (ms & Hg).
    destruct (undo_entry _ _ _ _ _ _ _ _ Hwf Hg Hi Hopt HX) as (a & b & qo & A1 & A2 & A3 & A4 & A5).
    destruct (compose_batch _ _ _ _ _ Hg A1) as (mt' & mn' & a1 & a2 & M1 & M2 & M3 & M4 & Eaa).
    destruct (full_matrix _ _ _ _ _ _ Ht M1 M3) as (r & tv & ks & k & F1 & F2 & F3 & F4 & Ea1).
    rewrite stored_no_kw in F1, F2.
    destruct (calib_pinhole no_kw cs ks k i eq_refl HK F3 F4) as (c0 & C1 & C2 & C3). cbn in C1.
    pose proof (Hreg c0 (batch_nth_In _ _ _ C1)) as Hr. assert (Hcc : cls_of c0 = cs_cls cs) by (apply W; eapply batch_nth_In; exact C1).
    destruct (ndc_acts cs n mn' i a2 c0 k Hc HK Hcc Hn M2 M4 C1 C2) as (c & N1 & N2).
    destruct (regular_ndc _ _ _ _ Hr N1) as (R1 & R2).
    rewrite (HQ k qo A4) in A5. destruct (with_depth (cs_cls cs) k p) as [q|] eqn:Eq; [|discriminate].
    assert (Hv : pinhole c (view_of r tv X) = Some q).
    { rewrite <- (N2 (vmul4 (to_h X) a1)).
      - rewrite <- vmul4_mul, <- Eaa. apply (undo_point q X b a A3). symmetry. exact A5.
      - rewrite Ea1, vmul4_mul, vmul4_view. apply C3. }
    exists c0, c, r, tv. split; [repeat split; assumption|]. split; [exact N1|]. split; [exact R1|]. split; [congruence|]. split.
    + destruct (view_of r tv X) as [vx vy vz]. cbm. destruct p as [px py pz]. cbm.
      assert (Ec : cls_of c = cs_cls cs) by congruence.
      destruct c; cbn [cls_of] in Ec; rewrite <- Ec in Eq, Hc; try (destruct Hc; discriminate); cbn [with_depth] in Eq.
      * unfold inv_depth, set_z in Eq. cbm_in Eq. cbn [pinhole] in Hv. destruct (Reqb_spec pz 0) as [|Hz]; [discriminate|]. injection Eq as <-.
        destruct (Reqb_spec vz 0) as [|Hz']; [discriminate|]. injection Hv as _ _ E. unfold Rdiv in E. rewrite Rmult_1_l in E. rewrite <- (Rinv_inv vz), E; apply Rinv_inv.
      * injection Eq as <-. cbn [pinhole] in Hv. injection Hv as _ _ E. exact E.
    + exists q. split; [exact Hv|]. destruct (with_depth_xy _ _ _ _ Eq). auto.
Qed.

(* ---- the geometry of one ray ---- *)
Lemma view_along r t o d z :
  view_of r t (along o d z) =
  V3 (x3 (view_of r t o) + z * (x3 d * m00 r + y3 d * m10 r + z3 d * m20 r))
     (y3 (view_of r t o) + z * (x3 d * m01 r + y3 d * m11 r + z3 d * m21 r))
     (z3 (view_of r t o) + z * (x3 d * m02 r + y3 d * m12 r + z3 d * m22 r)).
Proof. destruct o, d, t, r. unfold view_of, along. cbm. apply V3_eq; ring. Qed.

Lemma two_planes r t a b z : let d := vsub b a in let o := vsub a d in
  view_of r t (along o d z) =
  V3 (x3 (view_of r t a) + (z - 1) * (x3 (view_of r t b) - x3 (view_of r t a)))
     (y3 (view_of r t a) + (z - 1) * (y3 (view_of r t b) - y3 (view_of r t a)))
     (z3 (view_of r t a) + (z - 1) * (z3 (view_of r t b) - z3 (view_of r t a))).
Proof. destruct a, b, t, r. unfold view_of, along, vsub. cbm. apply V3_eq; ring. Qed.

Lemma ray_geometry c u v p z : regular c -> z3 u = 1 -> z3 v = 2 -> seen_at c u p -> seen_at c v p ->
  let w := V3 (x3 u + (z - 1) * (x3 v - x3 u)) (y3 u + (z - 1) * (y3 v - y3 u)) (z3 u + (z - 1) * (z3 v - z3 u)) in
  z3 w = z /\ (perspective c -> w = V3 (z * x3 u) (z * y3 u) z) /\ ((perspective c -> z <> 0) -> seen_at c w p).
Proof.
  destruct u as [a b e], v as [a' b' e'], p as [px py]. cbm. intros Hr -> -> (q & Q1 & Q2 & Q3) (q' & Q1' & Q2' & Q3'). cbn [fst snd] in *.
  split; [ring|]. unfold perspective, seen_at. cbn [fst snd].
  assert (D1 : (1 : R) <> 0) by lra. assert (D2 : (2 : R) <> 0) by lra.
  destruct c as [n f fov asp deg|n f ax bx ay b_y [sx sy sz]|fx fy ppx ppy|fx fy ppx ppy]; cbn [regular cls_of pinhole] in *.
  - destruct Hr as (H1 & H2 & H3 & H4 & H5 & H6). set (T := tan (half_angle fov deg)) in *.
    assert (HT : T <> 0). { unfold T, tan. intros E. apply Rmult_integral in E as [E|E]; [contradiction|exact (Rinv_neq_0_compat _ H6 E)]. }
    destruct (Reqb_spec 1 0); [lra|]. destruct (Reqb_spec 2 0); [lra|]. injection Q1 as <-. injection Q1' as <-. cbm_in Q2. cbm_in Q3. cbm_in Q2'. cbm_in Q3'.
    assert (Ea : a' = 2 * a). { rewrite <- Q2 in Q2'. replace a' with (a' / (2 * T * asp) * (2 * T * asp)) by (field; auto). rewrite Q2'. field. auto. }
    assert (Eb : b' = 2 * b). { rewrite <- Q3 in Q3'. replace b' with (b' / (2 * T) * (2 * T)) by (field; auto). rewrite Q3'. field. auto. }
    subst. split; [intros _; apply V3_eq; ring|]. intros Hz. specialize (Hz I).
    destruct (Reqb_spec (1 + (z - 1) * (2 - 1)) 0) as [E|E]; [lra|]. eexists. split; [reflexivity|]. cbm.
    split; field; repeat split; auto; lra.
  - destruct Hr as (H1 & H2 & H3 & H4 & H5 & H6). injection Q1 as <-. injection Q1' as <-. cbm_in Q2. cbm_in Q3. cbm_in Q2'. cbm_in Q3'. cbm_in H4. cbm_in H5.
    assert (N1 : ax - bx <> 0) by lra. assert (N2 : ay - b_y <> 0) by lra.
    assert (Ea : a' = a).
    { rewrite <- Q2 in Q2'. apply (f_equal (fun s => s * (ax - bx))) in Q2'. unfold Rdiv in Q2'. rewrite !Rmult_assoc, !Rinv_l, !Rmult_1_r in Q2' by exact N1.
      apply (Rmult_eq_reg_l (2 * sx)); [lra|]. apply Rmult_integral_contrapositive_currified; auto. }
    assert (Eb : b' = b).
    { rewrite <- Q3 in Q3'. apply (f_equal (fun s => s * (ay - b_y))) in Q3'. unfold Rdiv in Q3'. rewrite !Rmult_assoc, !Rinv_l, !Rmult_1_r in Q3' by exact N2.
      apply (Rmult_eq_reg_l (2 * sy)); [lra|]. apply Rmult_integral_contrapositive_currified; auto. }
    subst. split; [tauto|]. intros _. eexists. split; [reflexivity|]. cbm. split; do 2 f_equal; ring.
  - destruct Hr as (H1 & H2). destruct (Reqb_spec 1 0); [lra|]. destruct (Reqb_spec 2 0); [lra|].
    injection Q1 as <-. injection Q1' as <-. cbm_in Q2. cbm_in Q3. cbm_in Q2'. cbm_in Q3'.
    assert (Ea : a' = 2 * a). { apply (Rmult_eq_reg_l fx); [|exact H1]. lra. }
    assert (Eb : b' = 2 * b). { apply (Rmult_eq_reg_l fy); [|exact H2]. lra. }
    subst. split; [intros _; apply V3_eq; ring|]. intros Hz. specialize (Hz I).
    destruct (Reqb_spec (1 + (z - 1) * (2 - 1)) 0) as [E|E]; [lra|]. eexists. split; [reflexivity|]. cbm.
    split; field; lra.
  - destruct Hr as (H1 & H2). injection Q1 as <-. injection Q1' as <-. cbm_in Q2. cbm_in Q3. cbm_in Q2'. cbm_in Q3'.
    assert (Ea : a' = a). { apply (Rmult_eq_reg_l fx); [|exact H1]. lra. }
    assert (Eb : b' = b). { apply (Rmult_eq_reg_l fy); [|exact H2]. lra. }
    subst. split; [tauto|]. intros _. eexists. split; [reflexivity|]. cbm. split; ring.
Qed.
