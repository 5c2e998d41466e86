From Verif Require Import Base RBase Geom LinAlg Transform TransformSpec TransformProofs TransformProofs2 Camera CameraSpec CameraProofs CameraProofs2 CameraProofs3.
Local Open Scope R_scope.

(* ---- projection formulas ---- *)
Lemma calibration_pinhole c k v : calibration c = Ok k -> from_h None (vmul4 (to_h v) (tr4 k)) = pinhole c v.
Proof.
  destruct v as [x y z]. destruct c as [n f fov asp deg|n f ax bx ay b_y [sx sy sz]|fx fy px py|fx fy px py]; cbn [calibration pinhole]; cbv zeta; intros H.
  - fold (half_angle fov deg) in H. set (h := half_angle fov deg) in *.
    match type of H with (if ?b then _ else _) = _ => destruct b eqn:E; [|discriminate] end.
    apply andb_prop in E. destruct E as (E & E4). apply andb_prop in E. destruct E as (E & E3). apply andb_prop in E. destruct E as (E1 & E2).
    apply nz_true in E1, E2, E3, E4. set (t := tan h) in *.
    injection H as <-. unfold from_h, clamp_denom, vmul4, to_h, tr4. cbm.
    assert (Hn : n <> 0) by (intros ->; apply E3; ring).
    assert (Ht : t <> 0) by (intros Hz; rewrite Hz in E3; apply E3; ring).
    assert (Ha : asp <> 0) by (intros ->; apply E2; ring).
    replace (x * 0 + y * 0 + z * 1 + 1 * 0) with z by ring.
    destruct (Reqb_spec z 0) as [Ez|Ez]; [reflexivity|]. f_equal.
    assert (Q1 : t * n * asp - - (t * n * asp) = 2 * (t * n * asp)) by ring.
    assert (Q2 : t * n - - (t * n) = 2 * (t * n)) by ring. rewrite !Q1, !Q2.
    apply V3_eq; field; repeat split; auto.
  - match type of H with (if ?b then _ else _) = _ => destruct b eqn:E; [|discriminate] end.
    apply andb_prop in E. destruct E as (E & E3). apply andb_prop in E. destruct E as (E1 & E2).
    apply nz_true in E1, E2, E3. injection H as <-. unfold from_h, clamp_denom, vmul4, to_h, tr4. cbm.
    replace (x * 0 + y * 0 + z * 0 + 1 * 1) with 1 by ring.
    destruct (Reqb_spec 1 0) as [Ez|Ez]; [lra|]. f_equal. apply V3_eq; field; repeat split; auto.
  - injection H as <-. unfold from_h, clamp_denom, vmul4, to_h, tr4. cbm.
    replace (x * 0 + y * 0 + z * 1 + 1 * 0) with z by ring.
    destruct (Reqb_spec z 0) as [Ez|Ez]; [reflexivity|]. f_equal. apply V3_eq; field; repeat split; auto.
  - injection H as <-. unfold from_h, clamp_denom, vmul4, to_h, tr4. cbm.
    replace (x * 0 + y * 0 + z * 0 + 1 * 1) with 1 by ring.
    destruct (Reqb_spec 1 0) as [Ez|Ez]; [lra|]. f_equal. apply V3_eq; field.
Qed.
Lemma rmap_batch {A B} (f : A -> result B) l out i y : rmap f l = Ok out -> batch_nth out i = Some y ->
  exists x, batch_nth l i = Some x /\ f x = Ok y.
Proof.
  intros H Hy. apply rmap_Forall2 in H. unfold batch_nth in *. rewrite (Forall2_length _ _ _ H).
  destruct (length out =? 1)%nat; eapply forall2_nth_r in H; eauto.
Qed.
Lemma calib_pinhole kw cs ks k i : k_K kw = None -> cs_K cs = None -> calib_list kw cs = Ok ks -> batch_nth ks i = Some k ->
  exists c, batch_nth (orelse (k_int kw) (cs_int cs)) i = Some c /\ calibration c = Ok k /\
    forall v, from_h None (vmul4 (to_h v) (tr4 k)) = pinhole c v.
Proof.
  intros H1 H2 H Hk. unfold calib_list in H. rewrite H1, H2 in H. destruct (rmap_batch _ _ _ _ _ H Hk) as (c & Hc & E).
  exists c. split; [exact Hc|]. split; [exact E|]. intros v. apply calibration_pinhole. exact E.
Qed.
Lemma project_formula cs p oq i j o :
  cs_K cs = None -> snd (project None no_kw cs p) = Ok oq -> entry oq i j = Some o ->
  exists c r t x, camera_at cs i c r t /\ entry p i j = Some x /\ o = pinhole c (view_of r t x).
Proof.
  intros HK Hp Ho. destruct (project_ok _ _ _ _ Hp) as (t & Ht & Hpt).
  destruct (entry_points _ _ _ _ _ _ _ Hpt Ho) as (ms & x & a & Em & Ex & Ea & ->).
  destruct (full_matrix _ _ _ _ _ _ Ht Em Ea) as (r & tv & ks & k & F1 & F2 & F3 & F4 & ->).
  rewrite stored_no_kw in F1, F2. destruct (calib_pinhole no_kw _ _ _ _ eq_refl HK F3 F4) as (c & C1 & C2 & C3).
  exists c, r, tv, x. split; [repeat split; assumption|]. split; [exact Ex|].
  rewrite vmul4_mul, vmul4_view. apply C3.
Qed.
Lemma view_formula cs p w ov i j o :
  snd (view_transform no_kw cs) = Ok w -> transform_points None w p = Ok ov -> entry ov i j = Some o ->
  exists r t x, batch_nth (cs_R cs) i = Some r /\ batch_nth (cs_T cs) i = Some t /\ entry p i j = Some x /\ o = Some (view_of r t x).
Proof.
  intros Hw Hp Ho. unfold view_transform in Hw. rewrite stored_no_kw in Hw. cbn [snd] in Hw.
  destruct (entry_points _ _ _ _ _ _ _ Hp Ho) as (ms & x & a & Em & Ex & Ea & ->).
  destruct (view_matrix _ _ _ _ _ _ Hw Em Ea) as (r & t & F1 & F2 & ->). exists r, t, x.
  rewrite vmul4_view, from_to_h. auto.
Qed.

(* ---- NDC and screen coordinates of screen-space cameras ---- *)
Lemma w0_affine a2 (L : vec3 -> vec3) h :
  (forall q, from_h None (vmul4 (to_h q) a2) = Some (L q)) -> from_h None h = None -> from_h None (vmul4 h a2) = None.
Proof.
  intros HL H0.
  assert (W : w4 h = 0). { unfold from_h, clamp_denom in H0. destruct (Reqb_spec (w4 h) 0); [assumption|discriminate]. }
  assert (NZ : forall p, w4 (vmul4 (to_h p) a2) <> 0).
  { intros p E. specialize (HL p). unfold from_h, clamp_denom in HL. rewrite E in HL. destruct (Reqb_spec 0 0); [discriminate|lra]. }
  assert (N33 : n33 a2 <> 0). { intros E. apply (NZ (V3 0 0 0)). unfold vmul4, to_h. cbm. rewrite E. ring. }
  assert (C1 : n03 a2 = 0).
  { destruct (Req_dec (n03 a2) 0) as [E|E]; [exact E|exfalso]. apply (NZ (V3 (- n33 a2 / n03 a2) 0 0)). unfold vmul4, to_h. cbm. field. exact E. }
  assert (C2 : n13 a2 = 0).
  { destruct (Req_dec (n13 a2) 0) as [E|E]; [exact E|exfalso]. apply (NZ (V3 0 (- n33 a2 / n13 a2) 0)). unfold vmul4, to_h. cbm. field. exact E. }
  assert (C3 : n23 a2 = 0).
  { destruct (Req_dec (n23 a2) 0) as [E|E]; [exact E|exfalso]. apply (NZ (V3 0 0 (- n33 a2 / n23 a2))). unfold vmul4, to_h. cbm. field. exact E. }
  unfold from_h, clamp_denom. assert (E : w4 (vmul4 h a2) = 0) by (unfold vmul4; cbm; rewrite C1, C2, C3, W; ring).
  rewrite E. destruct (Reqb_spec 0 0); [reflexivity|lra].
Qed.
Lemma from_h_then a2 (L : vec3 -> vec3) h :
  (forall q, from_h None (vmul4 (to_h q) a2) = Some (L q)) ->
  from_h None (vmul4 h a2) = option_map L (from_h None h).
Proof.
  intros HL. destruct (from_h None h) as [q|] eqn:E; [|apply (w0_affine a2 L); assumption]. cbn [option_map].
  rewrite <- HL. unfold from_h, clamp_denom in *. destruct (Reqb_spec (w4 h) 0) as [E0|E0]; [discriminate|]. injection E as <-.
  assert (X : forall w, w4 (vmul4 (to_h (V3 (x4 h / w4 h) (y4 h / w4 h) (z4 h / w4 h))) a2) = w -> w4 (vmul4 h a2) = w * w4 h).
  { intros w <-. unfold vmul4, to_h. cbm. field. exact E0. }
  set (h' := to_h _) in *. specialize (X _ eq_refl).
  assert (Y : vmul4 h a2 = V4 (x4 (vmul4 h' a2) * w4 h) (y4 (vmul4 h' a2) * w4 h) (z4 (vmul4 h' a2) * w4 h) (w4 (vmul4 h' a2) * w4 h)).
  { unfold h', vmul4, to_h. cbm. apply V4_eq; field; exact E0. }
  rewrite Y. cbm. set (w := w4 (vmul4 h' a2)). destruct (Reqb_spec (w * w4 h) 0) as [Z|Z], (Reqb_spec w 0) as [Z'|Z'].
  - reflexivity.
  - exfalso. apply Rmult_integral in Z. tauto.
  - exfalso. apply Z. rewrite Z'. ring.
  - f_equal. apply V3_eq; field; auto.
Qed.
Lemma ndc_formula kw cs p oq i j o :
  in_ndc cs = false -> snd (project_ndc None kw cs p) = Ok oq -> entry oq i j = Some o ->
  exists r tv ks k l s x, batch_nth (cs_R (stored kw cs)) i = Some r /\ batch_nth (cs_T (stored kw cs)) i = Some tv /\
    calib_list kw cs = Ok ks /\ batch_nth ks i = Some k /\ size_of kw cs = Some l /\ batch_nth l i = Some s /\ entry p i j = Some x /\
    scale_of s <> 0 /\
    o = option_map (to_ndc_lin s (pp_of (cs_cls cs) k)) (from_h None (vmul4 (to_h (view_of r tv x)) (tr4 k))).
Proof.
  intros Hn Hp Ho. destruct (project_ndc_ok _ _ _ _ Hp) as (t & Ht & Hp'). rewrite Hn in Hp'. destruct Hp' as (n & Hnt & Hp').
  destruct (entry_points _ _ _ _ _ _ _ Hp' Ho) as (ms & x & a & Em & Ex & Ea & ->).
  destruct (compose_batch _ _ _ _ _ Em Ea) as (mt & mn & a1 & a2 & M1 & M2 & M3 & M4 & ->).
  destruct (full_matrix _ _ _ _ _ _ Ht M1 M3) as (r & tv & ks & k & F1 & F2 & F3 & F4 & ->).
  destruct (ndc_camera_matrix _ _ _ _ _ _ Hn Hnt M2 M4) as (ks' & k' & l & s & N1 & N2 & N3 & N4 & N5 & N6).
  rewrite F3 in N1. injection N1 as <-. rewrite F4 in N2. injection N2 as <-.
  exists r, tv, ks, k, l, s, x. repeat (split; [assumption|]).
  rewrite vmul4_mul, vmul4_mul, vmul4_view. apply from_h_then. exact N6.
Qed.

Lemma pp_calibration c k : calibration c = Ok k ->
  match c with Persp _ _ px py | Ortho _ _ px py => pp_of (cls_of c) k = (px, py) | _ => True end.
Proof. destruct c; cbn [calibration]; auto; intros H; injection H as <-; reflexivity. Qed.
Lemma pinhole_equivalent s c k v : calibration c = Ok k -> cls_of c = CPersp \/ cls_of c = COrtho -> scale_of s <> 0 ->
  option_map (to_ndc_lin s (pp_of (cls_of c) k)) (pinhole c v) = pinhole (ndc_equivalent s c) v.
Proof.
  intros Hk Hc Hs. pose proof (pp_calibration _ _ Hk) as P. destruct s as [h w]. unfold scale_of in Hs. cbn [fst snd] in Hs.
  assert (Hm : Rmin h w <> 0) by (intros E; apply Hs; rewrite E; field).
  destruct v as [x y z]. destruct c; cbn [cls_of] in *; try (destruct Hc; discriminate); rewrite P; cbn [pinhole ndc_equivalent].
  - destruct (Reqb_spec z 0); [reflexivity|]. cbn [option_map]. f_equal. unfold to_ndc_lin, scale_of. cbm. cbn [fst snd].
    apply V3_eq; field; auto.
  - cbn [option_map]. f_equal. unfold to_ndc_lin, scale_of. cbm. cbn [fst snd]. apply V3_eq; field; auto.
Qed.
Lemma project_ndc_formula cs p oq i j o :
  cs_K cs = None -> (forall c, In c (cs_int cs) -> cls_of c = cs_cls cs) ->
  snd (project_ndc None no_kw cs p) = Ok oq -> entry oq i j = Some o ->
  exists c r t x, camera_at cs i c r t /\ entry p i j = Some x /\
    ((in_ndc cs = true /\ o = pinhole c (view_of r t x)) \/
     (in_ndc cs = false /\ exists l s, cs_size cs = Some l /\ batch_nth l i = Some s /\ scale_of s <> 0 /\
        o = pinhole (ndc_equivalent s c) (view_of r t x))).
Proof.
  intros HK Hcl Hp Ho. destruct (in_ndc cs) eqn:En.
  - destruct (project_ndc_ok _ _ _ _ Hp) as (t & Ht & Hp'). rewrite En in Hp'.
    assert (Hpr : snd (project None no_kw cs p) = Ok oq).
    { unfold project. destruct (full_projection no_kw cs) as [cs' rt]. cbn [snd] in *. subst rt. exact Hp'. }
    destruct (project_formula _ _ _ _ _ _ HK Hpr Ho) as (c & r & tv & x & H1 & H2 & H3). exists c, r, tv, x. auto 6.
  - destruct (ndc_formula _ _ _ _ _ _ _ En Hp Ho) as (r & tv & ks & k & l & s & x & H1 & H2 & H3 & H4 & H5 & H6 & H7 & H8 & ->).
    rewrite stored_no_kw in H1, H2. destruct (calib_pinhole no_kw _ _ _ _ eq_refl HK H3 H4) as (c & C1 & C2 & C3).
    exists c, r, tv, x. split; [repeat split; assumption|]. split; [exact H7|]. right. split; [reflexivity|].
    exists l, s. repeat (split; [assumption|]). rewrite C3.
    assert (Ec : cls_of c = cs_cls cs) by (apply Hcl; eapply batch_nth_In; exact C1).
    rewrite <- Ec. apply pinhole_equivalent; auto. rewrite Ec. unfold in_ndc in En. destruct (cs_cls cs); try discriminate; auto.
Qed.
Lemma project_screen_values xyflip kw cs p os i j o :
  snd (project_screen None xyflip kw cs p) = Ok os -> entry os i j = Some o ->
  exists oq q l s, snd (project_ndc None kw cs p) = Ok oq /\ entry oq i j = Some q /\ size_of kw cs = Some l /\ batch_nth l i = Some s /\
    o = option_map (screen_lin xyflip s) q.
Proof.
  unfold project_screen. destruct (project_ndc None kw cs p) as [cs' rq]. cbn [snd].
  destruct rq as [oq|]; cbn [rbind]; [|discriminate].
  destruct (ndc_to_screen (cs_n cs) xyflip (size_of kw cs)) as [sc|] eqn:Es; cbn [rbind]; [|discriminate].
  intros H Ho. destruct (entry_opt _ _ _ _ _ _ _ H Ho) as (ms & q & a & E1 & E2 & E3 & ->).
  destruct (screen_matrix _ _ _ _ _ _ _ Es E1 E3) as (l & s & F1 & F2 & ->).
  exists oq, q, l, s. repeat (split; [assumption || reflexivity|]).
  destruct q as [q|]; [|reflexivity]. rewrite screen_acts. cbn [option_map]. apply from_to_h.
Qed.
Lemma project_screen_formula cs p os i j o :
  cs_K cs = None -> (forall c, In c (cs_int cs) -> cls_of c = cs_cls cs) ->
  snd (project_screen None true no_kw cs p) = Ok os -> entry os i j = Some o ->
  exists c r t x l s, camera_at cs i c r t /\ entry p i j = Some x /\ cs_size cs = Some l /\ batch_nth l i = Some s /\
    o = option_map (to_pixel s) (pinhole (if in_ndc cs then c else ndc_equivalent s c) (view_of r t x)).
Proof.
  intros HK Hcl H Ho. destruct (project_screen_values _ _ _ _ _ _ _ _ H Ho) as (oq & q & l & s & H1 & H2 & H3 & H4 & ->).
  destruct (project_ndc_formula _ _ _ _ _ _ HK Hcl H1 H2) as (c & r & t & x & C1 & C2 & C3).
  exists c, r, t, x, l, s. repeat (split; [assumption|]). unfold size_of in H3. cbn in H3.
  destruct C3 as [(En & ->)|(En & l' & s' & D1 & D2 & D3 & ->)].
  - rewrite En. destruct (pinhole c (view_of r t x)) as [u|]; [|reflexivity]. cbn [option_map]. rewrite screen_lin_flip. reflexivity.
  - rewrite En. rewrite H3 in D1. injection D1 as <-. rewrite H4 in D2. injection D2 as <-.
    destruct (pinhole _ _) as [u|]; [|reflexivity]. cbn [option_map]. rewrite screen_lin_flip. reflexivity.
Qed.

(* ---- NDC <-> screen ---- *)
Lemma screen_lin_inj flip s q q' : scale_of s <> 0 -> screen_lin flip s q = screen_lin flip s q' -> q = q'.
Proof.
  intros Hs H. destruct q as [a b c], q' as [a' b' c']. unfold screen_lin in H. cbm_in H. injection H as H1 H2 H3.
  assert (F : forall u v w, (if flip then -1 else 1) * (scale_of s * u - w) = (if flip then -1 else 1) * (scale_of s * v - w) -> u = v).
  { intros u v w E. apply (Rmult_eq_reg_l (scale_of s)); [|exact Hs]. destruct flip; lra. }
  apply V3_eq; [eapply F; exact H1|eapply F; exact H2|exact H3].
Qed.
Lemma screen_ndc_roundtrip n flip size u p oq i j o :
  screen_to_ndc n flip size = Ok u -> transform_points None u p = Ok oq -> entry oq i j = Some o ->
  exists l s q y, size = Some l /\ batch_nth l i = Some s /\ entry p i j = Some y /\ o = Some q /\ y = screen_lin flip s q.
Proof.
  intros Hu Hp Ho. destruct (entry_points _ _ _ _ _ _ _ Hp Ho) as (ms & y & b & Em & Ey & Eb & ->).
  destruct (screen_ndc_matrix _ _ _ _ _ _ _ Hu Em Eb) as (l & s & E1 & E2 & E3 & E4).
  set (f := if flip then -1 else 1). assert (Hf : f * f = 1) by (unfold f; destruct flip; ring).
  assert (Hf0 : f <> 0) by (intros E; rewrite E in Hf; lra).
  exists l, s, (V3 ((f * x3 y + snd s / 2) / scale_of s) ((f * y3 y + fst s / 2) / scale_of s) (z3 y)), y.
  repeat (split; [assumption|]).
  assert (X : y = screen_lin flip s (V3 ((f * x3 y + snd s / 2) / scale_of s) ((f * y3 y + fst s / 2) / scale_of s) (z3 y))).
  { unfold screen_lin. cbm. fold f. destruct y as [a b0 c]. cbm. apply V3_eq; [| |reflexivity].
    - replace (scale_of s * ((f * a + snd s / 2) / scale_of s) - snd s / 2) with (f * a) by (field; exact E3).
      rewrite <- Rmult_assoc, Hf. ring.
    - replace (scale_of s * ((f * b0 + fst s / 2) / scale_of s) - fst s / 2) with (f * b0) by (field; exact E3).
      rewrite <- Rmult_assoc, Hf. ring. }
  split; [|exact X]. apply E4. exact X.
Qed.
