From Verif Require Import Base RBase Geom LinAlg Transform TransformSpec TransformProofs TransformProofs2 Camera CameraSpec CameraProofs CameraProofs2 CameraProofs3 CameraProofs4.
Local Open Scope R_scope.

(* ---- unproject, then project ---- *)
Lemma det_full r t k b : mul4 (mul4 (mul4 (rotate_mat r) (translate_mat t)) (tr4 k)) b = id4 -> det4 (tr4 k) <> 0.
Proof. intros H. apply mul4_left_det in H. rewrite det4_mul in H. intros E. rewrite E in H. lra. Qed.
Lemma depth_back c k v p q : K_shape c k -> det4 (tr4 k) <> 0 -> with_depth c k p = Some q ->
  from_h None (vmul4 (to_h v) (tr4 k)) = Some q -> z3 v = z3 p.
Proof.
  intros Hs Hd Hw Hv. pose proof (shape_z _ _ _ _ Hs Hv) as Hz. destruct Hs as (H1 & H2 & H3 & H4 & H5).
  destruct k as [a00 a01 a02 a03 a10 a11 a12 a13 a20 a21 a22 a23 a30 a31 a32 a33]. cbm_in H1. cbm_in H2. cbm_in H3. cbm_in H4. cbm_in Hz. subst.
  assert (D : forall x y z w, det4 (tr4 (M4 a00 a01 a02 a03 a10 a11 a12 a13 0 0 x y 0 0 z w)) = (a00 * a11 - a01 * a10) * (x * w - y * z))
    by (intros; unfold det4, adj4, tr4, det3; cbm; ring).
  rewrite D in Hd. destruct c; cbm_in H5; unfold with_depth, inv_depth, set_z in Hw; cbm_in Hw.
  - destruct H5 as (-> & ->), Hz as (Hz & E). destruct (Reqb_spec (z3 p) 0) as [E0|E0]; [discriminate|].
    injection Hw as <-. cbm_in E. assert (K : a23 <> 0) by (intros ->; apply Hd; ring).
    assert (X : a23 * (z3 v - z3 p) = 0).
    { apply (f_equal (fun u => u * (z3 v * z3 p))) in E. replace ((a22 * z3 p + a23) / z3 p * (z3 v * z3 p)) with ((a22 * z3 p + a23) * z3 v) in E by (field; auto).
      replace ((a22 * z3 v + a23) / z3 v * (z3 v * z3 p)) with ((a22 * z3 v + a23) * z3 p) in E by (field; auto). lra. }
    apply Rmult_integral in X. destruct X; [contradiction|lra].
  - destruct H5 as (-> & ->). injection Hw as <-. cbm_in Hz. assert (K : a22 <> 0) by (intros ->; apply Hd; ring).
    apply (Rmult_eq_reg_l a22); [lra|exact K].
  - destruct Hz as (Hz & E). destruct (Reqb_spec (z3 p) 0) as [E0|E0]; [discriminate|]. injection Hw as <-. cbm_in E.
    rewrite <- (Rinv_inv (z3 v)), <- E. apply Rinv_inv.
  - injection Hw as <-. congruence.
Qed.
Lemma with_depth_xy c k p q : with_depth c k p = Some q -> x3 q = x3 p /\ y3 q = y3 p.
Proof.
  destruct p as [a b d]. destruct c; unfold with_depth, inv_depth, set_z; cbm;
    try (destruct (Reqb_spec d 0); [discriminate|]); intros H; injection H as <-; auto.
Qed.
Lemma unproject_project_world kw cs xyd out p X i j w pts ov v oq o :
  sound_call kw cs -> kw_ok kw cs -> depth_shape_ok cs xyd ->
  entry xyd i j = Some p ->
  snd (unproject true false false kw cs xyd) = Ok out -> entry out i j = Some (Some X) ->
  entry pts i j = Some X ->
  snd (view_transform kw cs) = Ok w -> transform_points None w pts = Ok ov -> entry ov i j = Some (Some v) ->
  snd (project None kw cs pts) = Ok oq -> entry oq i j = Some o ->
  z3 v = z3 p /\ exists q, o = Some q /\ x3 q = x3 p /\ y3 q = y3 p.
Proof.
  intros Hs Hkw Hd Hxyd Hu Eo HX Hw Hov Ev Hp Eq.
  destruct (unproject_cases _ _ _ _ _ Hkw Hu) as (t & u & Q & Ht & Hi & Hopt & HQ).
  destruct (project_ok _ _ _ _ Hp) as (t' & Ht' & Hpt). cbn [full_or_view] in Ht. rewrite Ht in Ht'. injection Ht' as <-.
  destruct (entry_points _ _ _ _ _ _ _ Hpt Eq) as (ms & x' & a & Em & Ex & Ea & Eqa).
  rewrite HX in Ex. injection Ex as <-.
  destruct (undo_entry _ _ _ _ _ _ _ _ (wf_full _ _ _ Ht) Em Hi Hopt Eo) as (a' & b & qo & Ea' & H1 & H2 & HQo & Eq1).
  rewrite Ea in Ea'. injection Ea' as <-. destruct qo as [q|]; [|discriminate]. symmetry in Eq1.
  pose proof (undo_point _ _ _ _ H2 Eq1) as Hq. rewrite Hq in Eqa.
  destruct (full_matrix _ _ _ _ _ _ Ht Em Ea) as (r & tv & ks & k & F1 & F2 & F3 & F4 & Ea2).
  assert (Hv : v = view_of r tv X).
  { destruct (entry_points _ _ _ _ _ _ _ Hov Ev) as (mw & x' & aw & G1 & G2 & G3 & G4).
    rewrite HX in G2. injection G2 as <-. destruct (view_matrix _ _ _ _ _ _ Hw G1 G3) as (r' & t' & K1 & K2 & ->).
    rewrite F1 in K1. rewrite F2 in K2. injection K1 as <-. injection K2 as <-.
    rewrite vmul4_view, from_to_h in G4. congruence. }
  assert (Hk : from_h None (vmul4 (to_h v) (tr4 k)) = Some q).
  { rewrite Hv, <- vmul4_view, <- vmul4_mul, <- Ea2. exact Hq. }
  pose proof (calib_shape _ _ _ _ Hs F3 (batch_nth_In _ _ _ F4)) as Hsh.
  assert (Hqo : with_depth (cs_cls cs) k p = Some q).
  { destruct (HQ Hd _ _ _ HQo) as (pp & Hpp & K1 & K2). rewrite Hxyd in Hpp. injection Hpp as <-.
    destruct (cs_cls cs) eqn:Ec.
    - destruct (K1 (or_introl eq_refl)) as (ks' & k' & L1 & L2 & L3). rewrite F3 in L1. injection L1 as <-. rewrite F4 in L2. injection L2 as <-. symmetry. exact L3.
    - destruct (K1 (or_intror eq_refl)) as (ks' & k' & L1 & L2 & L3). rewrite F3 in L1. injection L1 as <-. rewrite F4 in L2. injection L2 as <-. symmetry. exact L3.
    - symmetry. apply K2. auto.
    - symmetry. apply K2. auto. }
  split.
  - eapply depth_back; eauto. rewrite Ea2 in H1. eapply det_full. exact H1.
  - exists q. split; [exact Eqa|]. eapply with_depth_xy. exact Hqo.
Qed.

(* ---- definedness ---- *)
Lemma broadcast_batch_conv {A B C} (f : A -> B -> C) a b c i x y :
  broadcast f a b = Ok c -> batch_nth a i = Some x -> batch_nth b i = Some y -> batch_nth c i = Some (f x y).
Proof.
  unfold broadcast, batch_nth. destruct (length a =? length b)%nat eqn:E.
  - apply Nat.eqb_eq in E. intros H; injection H as <-. rewrite map_length, combine_length, <- E, Nat.min_id.
    assert (K : forall k, nth_error a k = Some x -> nth_error b k = Some y -> nth_error (map (fun p => f (fst p) (snd p)) (combine a b)) k = Some (f x y)).
    { intros k. rewrite nth_error_map. clear E. revert k b. induction a as [|a0 a IH]; intros [|k] [|b0 b]; cbn; try discriminate.
      - congruence.
      - apply IH. }
    destruct (length a =? 1)%nat; apply K.
  - destruct a as [|a0 [|a1 a]]; [intros _ H; destruct i; discriminate H| |].
    + intros H H1 H2; injection H as <-. cbn in H1. injection H1 as <-.
      rewrite map_length. destruct (length b =? 1)%nat; rewrite nth_error_map, H2; reflexivity.
    + destruct b as [|b0 [|b1 b]]; try discriminate. intros H H1 H2; injection H as <-. cbn in H2. injection H2 as <-.
      destruct i as [|[|i]]; cbn in H1 |- *; try congruence. rewrite nth_error_map, H1. reflexivity.
Qed.
Definition bc_to {A} (l : list A) (n : nat) : Prop := length l = n \/ length l = 1%nat.
Lemma broadcast_defined {A B C} (f : A -> B -> C) a b : length a = length b \/ length a = 1%nat \/ length b = 1%nat -> exists c, broadcast f a b = Ok c.
Proof.
  intros H. destruct (broadcast f a b) as [c|e] eqn:E; [eauto|]. apply broadcast_fail in E. lia.
Qed.
Lemma transform_opt_defined t ms p : get_matrix t = Ok ms -> length (as_batch p) = length ms \/ length (as_batch p) = 1%nat \/ length ms = 1%nat ->
  exists out, transform_opt None t p = Ok out /\
    forall i j q a, entry p i j = Some q -> batch_nth ms i = Some a ->
      entry out i j = Some (match q with Some q => from_h None (vmul4 (to_h q) a) | None => None end).
Proof.
  intros Hm Hl. unfold transform_opt. rewrite Hm. cbn [rbind].
  edestruct (broadcast_defined (fun pts a => map (fun q => match q with Some q => from_h None (vmul4 (to_h q) a) | None => None end) pts) (as_batch p) ms) as (c & Ec);
    [exact Hl|]. rewrite Ec. cbn [rbind]. eexists. split; [reflexivity|].
  intros i j q a Hq Ha. unfold entry in *. destruct (batch_nth (as_batch p) i) as [pl|] eqn:Ep; [|discriminate].
  pose proof (broadcast_batch_conv _ _ _ _ _ _ _ Ec Ep Ha) as K.
  assert (R : as_batch (reshape p c) = c).
  { destruct p as [l|l]; [|reflexivity]. cbn [reshape]. cbn [as_batch] in *. destruct c as [|c0 [|c1 c]]; reflexivity. }
  rewrite R, K. cbv beta. rewrite nth_error_map, Hq. reflexivity.
Qed.
Lemma regular_calibration c : regular c -> exists k, calibration c = Ok k /\ det4 (tr4 k) <> 0 /\
  forall x y d, (match cls_of c with CFoVPersp | CPersp => d <> 0 | _ => True end) ->
    exists v q, with_depth (cls_of c) k (V3 x y d) = Some q /\ from_h None (vmul4 (to_h v) (tr4 k)) = Some q.
Proof.
  assert (NZ : forall x, x <> 0 -> nz x = true) by (intros x H; unfold nz; destruct (Reqb_spec x 0); [contradiction|reflexivity]).
  destruct c as [n f fov asp deg|n f ax bx ay b_y [sx sy sz]|fx fy px py|fx fy px py]; cbn [calibration regular cls_of]; cbv zeta.
  - intros (H1 & H2 & H3 & H4 & H5 & H6). fold (half_angle fov deg). set (h := half_angle fov deg) in *.
    assert (Ht : tan h <> 0). { unfold tan. intros E. apply H5. apply (f_equal (fun u => u * cos h)) in E. rewrite Rmult_0_l in E. rewrite <- E. field. exact H6. }
    set (t := tan h) in *.
    assert (Q1 : t * n * asp - - (t * n * asp) <> 0).
    { intros E. assert (E' : t * n * asp = 0) by lra. repeat (apply Rmult_integral in E'; destruct E' as [E'|E']; try contradiction). }
    assert (Q2 : t * n - - (t * n) <> 0).
    { intros E. assert (E' : t * n = 0) by lra. repeat (apply Rmult_integral in E'; destruct E' as [E'|E']; try contradiction). }
    assert (Q3 : f - n <> 0) by lra.
    rewrite !NZ by assumption. cbn [andb]. eexists. split; [reflexivity|].
    assert (Q1' : t * n * asp - - (t * n * asp) = 2 * (t * n * asp)) by ring.
    assert (Q2' : t * n - - (t * n) = 2 * (t * n)) by ring. rewrite Q1', Q2'. split.
    + intros E. apply (f_equal (fun u => u * (t * t * asp * (f - n)))) in E. rewrite Rmult_0_l in E.
      assert (E' : f * n = 0). { rewrite <- E. unfold det4, adj4, tr4, det3. cbm. field. auto. }
      apply Rmult_integral in E'. tauto.
    + intros x y d Hd. unfold with_depth, set_z. cbm. destruct (Reqb_spec d 0); [contradiction|].
      exists (V3 (x * d * t * asp) (y * d * t) d). eexists. split; [reflexivity|].
      unfold from_h, clamp_denom, vmul4, to_h, tr4. cbm. replace (x * d * t * asp * 0 + y * d * t * 0 + d * 1 + 1 * 0) with d by ring.
      destruct (Reqb_spec d 0); [contradiction|]. f_equal. apply V3_eq; field; auto.
  - cbm. intros (H1 & H2 & H3 & H4 & H5 & H6).
    assert (Q1 : ax - bx <> 0) by lra. assert (Q2 : ay - b_y <> 0) by lra. assert (Q3 : f - n <> 0) by lra.
    rewrite !NZ by assumption. cbn [andb]. eexists. split; [reflexivity|]. split.
    + intros E. apply (f_equal (fun u => u * ((ax - bx) * (ay - b_y) * (f - n)))) in E. rewrite Rmult_0_l in E.
      assert (E' : 4 * (sx * sy * sz) = 0). { rewrite <- E. unfold det4, adj4, tr4, det3. cbm. field. auto. }
      assert (E2 : sx * sy * sz = 0) by lra. repeat (apply Rmult_integral in E2; destruct E2 as [E2|E2]; try contradiction).
    + intros x y d _. unfold with_depth, set_z. cbm.
      exists (V3 ((x * (ax - bx) + (ax + bx)) / (2 * sx)) ((y * (ay - b_y) + (ay + b_y)) / (2 * sy)) d). eexists. split; [reflexivity|].
      unfold from_h, clamp_denom, vmul4, to_h, tr4. cbm.
      match goal with |- (if Reqb ?e 0 then _ else _) = _ => replace e with 1 by ring end.
      destruct (Reqb_spec 1 0); [lra|]. f_equal. apply V3_eq; field; auto.
  - intros (H1 & H2). eexists. split; [reflexivity|]. split.
    + intros E. assert (E' : fx * fy = 0). { rewrite <- (Ropp_involutive (fx * fy)), <- Ropp_0. f_equal. rewrite <- E. unfold det4, adj4, tr4, det3. cbm. ring. }
      apply Rmult_integral in E'. tauto.
    + intros x y d Hd. unfold with_depth, inv_depth, set_z. cbm. destruct (Reqb_spec d 0); [contradiction|].
      exists (V3 ((x - px) * d / fx) ((y - py) * d / fy) d). eexists. split; [reflexivity|].
      unfold from_h, clamp_denom, vmul4, to_h, tr4. cbm.
      match goal with |- (if Reqb ?e 0 then _ else _) = _ => replace e with d by ring end.
      destruct (Reqb_spec d 0); [contradiction|]. f_equal. apply V3_eq; field; auto.
  - intros (H1 & H2). eexists. split; [reflexivity|]. split.
    + intros E. assert (E' : fx * fy = 0). { rewrite <- E. unfold det4, adj4, tr4, det3. cbm. ring. }
      apply Rmult_integral in E'. tauto.
    + intros x y d _. unfold with_depth.
      exists (V3 ((x - px) / fx) ((y - py) / fy) d). eexists. split; [reflexivity|].
      unfold from_h, clamp_denom, vmul4, to_h, tr4. cbm.
      match goal with |- (if Reqb ?e 0 then _ else _) = _ => replace e with 1 by ring end.
      destruct (Reqb_spec 1 0); [lra|]. f_equal. apply V3_eq; field; auto.
Qed.
Lemma det_view r t : det4 (mul4 (rotate_mat r) (translate_mat t)) = det3 r.
Proof. rewrite det4_mul. destruct r, t. unfold det4, adj4, rotate_mat, translate_mat, det3. cbm. ring. Qed.

Lemma in_batch {A} (l : list A) x : In x l -> exists i, batch_nth l i = Some x.
Proof.
  intros H. unfold batch_nth. apply In_nth_error in H. destruct H as (k & Hk). destruct (length l =? 1)%nat eqn:E.
  - apply Nat.eqb_eq in E. exists 0%nat. assert (k < length l)%nat by (apply nth_error_Some; congruence). replace 0%nat with k by lia. exact Hk.
  - exists k. exact Hk.
Qed.
Lemma batch_some {A} (l : list A) i : (i < length l)%nat -> exists x, batch_nth l i = Some x.
Proof.
  intros H. unfold batch_nth. destruct (length l =? 1)%nat eqn:E.
  - destruct l as [|x l]; [cbn in H; lia|]. exists x. reflexivity.
  - destruct (nth_error l i) eqn:En; [eauto|]. apply nth_error_None in En. lia.
Qed.
Lemma full_defined cs ks : cams_wf cs -> calib_list no_kw cs = Ok ks -> (0 < cs_n cs)%nat ->
  (forall r, In r (cs_R cs) -> det3 r <> 0) -> (forall k, In k ks -> det4 (tr4 k) <> 0) ->
  exists t ms u ims, snd (full_projection no_kw cs) = Ok t /\ get_matrix t = Ok ms /\ length ms = cs_n cs /\
    inverse false t = Ok u /\ get_matrix u = Ok ims /\ inv_batch ms ims.
Proof.
  intros (W1 & W2 & W3 & W4 & W5) Hk Hn HR HK. pose proof (calib_len _ _ _ Hk eq_refl) as Lk.
  assert (Ef : snd (full_projection no_kw cs) = Ok (compose (TR KGeneric (map rotate_mat (cs_R cs)) [TR KTranslate (map translate_mat (cs_T cs)) []]) [mk_transform (map tr4 ks)])).
  { unfold full_projection, view_transform. rewrite stored_no_kw. cbn [snd]. rewrite world_to_view_defined by congruence. cbn [rbind].
    rewrite projection_eq, Hk. reflexivity. }
  remember (compose _ _) as t eqn:Et. 
  assert (Hw : exists mw, get_matrix (TR KGeneric (map rotate_mat (cs_R cs)) [TR KTranslate (map translate_mat (cs_T cs)) []]) = Ok mw /\ length mw = cs_n cs).
  { cbn [get_matrix rbind]. unfold broadcast. rewrite !map_length, W1, W2, Nat.eqb_refl. cbn [rbind]. eexists. split; [reflexivity|].
    rewrite map_length, combine_length, !map_length. lia. }
  destruct Hw as (mw & Hw & Lw).
  assert (Hg : exists ms, get_matrix t = Ok ms /\ length ms = cs_n cs).
  { rewrite Et, get_matrix_compose1, Hw. cbn [rbind mk_transform get_matrix]. unfold broadcast. rewrite map_length, Lw, Lk, Nat.eqb_refl.
    eexists. split; [reflexivity|]. rewrite map_length, combine_length, map_length. lia. }
  destruct Hg as (ms & Hg & Lg).
  assert (Hd : Forall (fun a => det4 a <> 0) ms).
  { apply Forall_forall. intros a Ha. destruct (in_batch _ _ Ha) as (i & Hi).
    destruct (full_matrix _ _ _ _ _ _ Ef Hg Hi) as (r & tv & ks' & k & F1 & F2 & F3 & F4 & ->).
    rewrite Hk in F3. injection F3 as <-. rewrite det4_mul, det_view. rewrite stored_no_kw in F1.
    apply Rmult_integral_contrapositive_currified; [apply HR|apply HK]; eapply batch_nth_In; eassumption. }
  destruct (inverse_parts_defined t (wf_full _ _ _ Ef) ms Hg) as (u & Hu); [intros ->; cbn in Lg; lia|exact Hd|].
  destruct (inverse_matrix false _ _ _ (wf_full _ _ _ Ef) Hg Hu) as (ims & H1 & H2).
  exists t, ms, u, ims. auto 10.
Qed.
Lemma scale_defined f km l : length l = length km \/ length km = 1%nat ->
  exists o, scale_batch f km l = Ok o /\ length o = length l /\
    forall i j a x, batch_nth km i = Some a -> entry (P3 l) i j = Some x -> entry (P3 o) i j = Some (f a x).
Proof.
  intros H. assert (K : exists o, scale_batch f km l = Ok o /\ length o = length l).
  { unfold scale_batch. destruct (length km =? length l)%nat eqn:E.
    - apply Nat.eqb_eq in E. eexists. split; [reflexivity|]. rewrite map_length, combine_length. lia.
    - apply Nat.eqb_neq in E. destruct km as [|a [|b km]]; cbn [length] in *; try lia. eexists. split; [reflexivity|]. apply map_length. }
  destruct K as (o & Ho & Lo). exists o. split; [exact Ho|]. split; [exact Lo|]. intros i j a x Ha Hx.
  apply scale_batch_broadcast in Ho. unfold entry in *. cbn [as_batch] in *.
  destruct (batch_nth l i) as [pl|] eqn:Ep; [|discriminate]. rewrite (broadcast_batch_conv _ _ _ _ _ _ _ Ho Ha Ep).
  rewrite nth_error_map, Hx. reflexivity.
Qed.
Lemma unproject_defined cs xyd :
  cams_wf cs -> cs_K cs = None -> (0 < cs_n cs)%nat -> (forall c, In c (cs_int cs) -> regular c) ->
  (forall r, In r (cs_R cs) -> det3 r <> 0) -> call_shape_ok cs xyd ->
  exists out, snd (unproject true false false no_kw cs xyd) = Ok out /\
    forall i j p, entry xyd i j = Some p -> (i < cs_n cs)%nat \/ cs_n cs = 1%nat ->
      (match cs_cls cs with CFoVPersp | CPersp => z3 p <> 0 | _ => True end) ->
      exists X, entry out i j = Some (Some X).
Proof.
  intros W HK Hn Hreg HR Hs.
  assert (Hks : exists ks, calib_list no_kw cs = Ok ks).
  { unfold calib_list. cbn. rewrite HK. apply rmap_total. intros c Hc. destruct (regular_calibration c (Hreg c Hc)) as (k & Hk & _). eauto. }
  destruct Hks as (ks & Hks). pose proof (calib_len _ _ _ Hks eq_refl) as Lk.
  assert (HKd : forall k, In k ks -> exists c, calibration c = Ok k /\ regular c /\ cls_of c = cs_cls cs).
  { intros k Hk. pose proof Hks as H. unfold calib_list in H. cbn in H. rewrite HK in H. destruct (rmap_In _ _ _ _ H Hk) as (c & Hc & E).
    exists c. split; [exact E|]. split; [apply Hreg; exact Hc|]. apply W. exact Hc. }
  destruct (full_defined cs ks W Hks Hn HR) as (t & ms & u & ims & Ht & Hm & Lm & Hu & Him & Hinv).
  { intros k Hk. destruct (HKd k Hk) as (c & E & Hr & _). destruct (regular_calibration c Hr) as (k' & E' & D & _). rewrite E in E'. injection E' as <-. exact D. }
  assert (Li : length ims = cs_n cs) by (destruct Hinv as (L & _); lia).
  assert (HQ : exists Q, snd (unproject true false false no_kw cs xyd) = transform_opt None u Q /\ 
     (length (as_batch Q) = length ims \/ length (as_batch Q) = 1%nat \/ length ims = 1%nat) /\
     forall i j p k, entry xyd i j = Some p -> batch_nth ks i = Some k -> entry Q i j = Some (with_depth (cs_cls cs) k p)).
  { unfold unproject. cbn [full_or_view]. unfold call_shape_ok in Hs.
    assert (Ecs : fst (full_projection no_kw cs) = cs) by (unfold full_projection, view_transform; apply stored_no_kw).
    assert (Ep : projection_transform no_kw cs = Ok (mk_transform (map tr4 ks))) by (rewrite projection_eq, Hks; reflexivity).
    destruct (full_projection no_kw cs) as [cs' rt]. cbn [fst snd] in *. subst cs' rt. cbn [rbind].
    destruct (cs_cls cs) eqn:Ec; cbn [snd rbind]; rewrite ?Ep; cbn [rbind mk_transform get_matrix]; rewrite ?Hu.
    - destruct xyd as [l|l]; cbn [scale_depth].
      + assert (L1 : length (map tr4 ks) = 1%nat) by (rewrite map_length; lia).
        destruct ks as [|k0 [|k1 ks]]; cbn in L1; try lia. cbn [map length].
        exists (P2 (map (persp_depth (tr4 k0)) l)). split; [|split].
        * destruct (1 =? length l)%nat eqn:E1; [|reflexivity]. apply Nat.eqb_eq in E1. destruct l as [|p0 [|p1 l]]; cbn in E1; try lia. reflexivity.
        * right. left. reflexivity.
        * intros i j p k Hp Hk. cbn in Hk. injection Hk as <-. unfold entry in *. cbn in Hp |- *. rewrite nth_error_map, Hp. cbn. destruct k0; reflexivity.
      + destruct Hs as (_ & Hs). destruct (scale_defined persp_depth (map tr4 ks) l) as (o & Ho & Lo & Eo); [rewrite map_length; lia|].
        rewrite Ho. cbn [rbind]. exists (P3 o). split; [reflexivity|]. split; [cbn [as_batch]; lia|].
        intros i j p k Hp Hk. erewrite Eo; [|rewrite batch_nth_map, Hk; reflexivity|exact Hp]. destruct k; reflexivity.
    - destruct xyd as [l|l]; [contradiction|]. cbn [scale_depth].
      destruct Hs as (_ & Hs). destruct (scale_defined ortho_depth (map tr4 ks) l) as (o & Ho & Lo & Eo); [rewrite map_length; lia|].
      rewrite Ho. cbn [rbind]. exists (P3 o). split; [reflexivity|]. split; [cbn [as_batch]; lia|].
      intros i j p k Hp Hk. erewrite Eo; [|rewrite batch_nth_map, Hk; reflexivity|exact Hp]. destruct k; reflexivity.
    - cbn [rbind]. eexists. split; [reflexivity|]. split.
      + destruct xyd; cbn [pmap as_batch length]; [auto|]. rewrite map_length. lia.
      + intros i j p k Hp _. rewrite entry_pmap, Hp. reflexivity.
    - cbn [rbind]. eexists. split; [reflexivity|]. split.
      + destruct xyd; cbn [pmap as_batch length]; [auto|]. rewrite map_length. lia.
      + intros i j p k Hp _. rewrite entry_pmap, Hp. reflexivity. }
  destruct HQ as (Q & EQ & LQ & HQ). destruct (transform_opt_defined u ims Q Him LQ) as (out & Hout & Hent).
  exists out. split; [rewrite EQ; exact Hout|]. intros i j p Hp Hi Hz.
  assert (Hb : exists b, batch_nth ims i = Some b).
  { destruct Hi as [Hi|Hi]; [apply batch_some; lia|]. destruct ims as [|b [|b' ims]]; cbn in Li; try lia. exists b. reflexivity. }
  destruct Hb as (b & Hb). destruct (inv_batch_nth _ _ _ _ Hinv Hb) as (a & Ha & H1 & H2).
  destruct (full_matrix _ _ _ _ _ _ Ht Hm Ha) as (r & tv & ks' & k & F1 & F2 & F3 & F4 & Ea). rewrite Hks in F3. injection F3 as <-.
  rewrite stored_no_kw in F1. pose proof (HR r (batch_nth_In _ _ _ F1)) as Hr.
  destruct (HKd k (batch_nth_In _ _ _ F4)) as (c & E & Hrg & Hcl). destruct (regular_calibration c Hrg) as (k' & E' & D & Hex).
  rewrite E in E'. injection E' as <-. destruct p as [px py d]. cbm_in Hz.
  destruct (Hex px py d) as (v & q & Hq & Hv). { rewrite Hcl. destruct (cs_cls cs); exact Hz || exact I. }
  rewrite Hcl in Hq.
  (* a world point with view coordinates v *)
  assert (HX : exists X, view_of r tv X = v).
  { destruct (inv3_defined r Hr) as (ri & Hri). apply inv3_ok in Hri. destruct Hri as (_ & Ra & Rb).
    exists (vmul3 (sub3 v tv) ri).
    assert (Ev : forall y, view_of r tv y = add3 (vmul3 y r) tv) by (intros y; destruct y, r, tv; reflexivity).
    rewrite Ev, <- vmul3_mul, Rb, vmul3_id. destruct v, tv. unfold add3, sub3. cbm. apply V3_eq; ring. }
  destruct HX as (X & HX). exists X. rewrite (Hent i j _ b (HQ i j _ k Hp F4) Hb). rewrite Hq. f_equal.
  apply (undo_point X q a b H1). rewrite Ea, vmul4_mul, vmul4_view, HX. exact Hv.
Qed.
