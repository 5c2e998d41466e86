(* Entries of a bundle; when the unprojection succeeds. *)
From Verif Require Import Base Packing RBase Geom LinAlg Transform TransformSpec TransformProofs TransformProofs2 Camera CameraSpec CameraProofs CameraProofs2 CameraProofs3 CameraProofs4 CameraProofs5 Implicit ImplicitSpec Rays RaysSpec RaysProofs.
Local Open Scope R_scope.

Lemma nth_error_combine {A B} (a : list A) (b : list B) k x y :
  nth_error (combine a b) k = Some (x, y) <-> nth_error a k = Some x /\ nth_error b k = Some y.
Proof.
  revert a b. induction k as [|k IH]; intros [|a0 a] [|b0 b]; cbn; try (split; [discriminate|intros (E1 & E2); discriminate]).
  - split; [intros H; injection H as -> ->; auto|intros (H1 & H2); congruence].
  - apply IH.
Qed.
Lemma nth_error_seq0 n k x : nth_error (seq 0 n) k = Some x -> x = k /\ (k < n)%nat.
Proof.
  intros H. assert (L : (k < length (seq 0 n))%nat) by (apply nth_error_Some; congruence). rewrite seq_length in L.
  rewrite nth_error_seq_lt in H by exact L. injection H as <-. auto.
Qed.

Definition flat_points (xys : list (list (R * R))) : list (list vec3) :=
  map (fun l => map (fun p : R * R => V3 (fst p) (snd p) 1) l ++ map (fun p : R * R => V3 (fst p) (snd p) 2) l) xys.
Lemma flat_entry xys i l j p : nth_error xys i = Some l -> nth_error l j = Some p ->
  entry (P3 (flat_points xys)) i j = Some (V3 (fst p) (snd p) 1) /\
  entry (P3 (flat_points xys)) i (length l + j) = Some (V3 (fst p) (snd p) 2).
Proof.
  intros Hl Hp. unfold entry. cbn [as_batch].
  assert (E : batch_nth (flat_points xys) i =
    Some (map (fun p : R * R => V3 (fst p) (snd p) 1) l ++ map (fun p : R * R => V3 (fst p) (snd p) 2) l)).
  { unfold flat_points, batch_nth. rewrite map_length. destruct (length xys =? 1)%nat eqn:E1.
    - apply Nat.eqb_eq in E1. assert (i < length xys)%nat by (apply nth_error_Some; congruence).
      replace 0%nat with i by lia. rewrite nth_error_map, Hl. reflexivity.
    - rewrite nth_error_map, Hl. reflexivity. }
  rewrite E. assert (Hj : (j < length l)%nat) by (apply nth_error_Some; congruence). split.
  - rewrite nth_error_app1 by (rewrite map_length; exact Hj). rewrite nth_error_map, Hp. reflexivity.
  - rewrite nth_error_app2 by (rewrite map_length; lia). rewrite map_length. replace (length l + j - length l)%nat with j by lia.
    rewrite nth_error_map, Hp. reflexivity.
Qed.

Definition make_ray (unit : bool) (lo hi : R) (npts : nat) (jitter : option (nat -> nat -> list R)) (i j : nat)
    (p : R * R) (p1 p2 : option vec3) : ray :=
  let dir := lift2 vsub p2 p1 in
  Ray (lift2 vsub p1 dir) (if unit then option_map normalize dir else dir)
      (ray_depths lo hi npts (option_map (fun f => f i j) jitter)) p.

Lemma bundle_entry unit lo hi npts jitter cs xys B i j row ry :
  xy_to_ray_bundle unit lo hi npts jitter cs xys = Ok B -> nth_error B i = Some row -> nth_error row j = Some ry ->
  exists l p u p1 p2, nth_error xys i = Some l /\ nth_error l j = Some p /\
    snd (unproject true false true no_kw cs (P3 (flat_points xys))) = Ok u /\
    entry u i j = Some p1 /\ entry u i (length l + j) = Some p2 /\ ry = make_ray unit lo hi npts jitter i j p p1 p2.
Proof.
  intros H Hi Hj. unfold xy_to_ray_bundle in H. cbv zeta in H. fold (flat_points xys) in H.
  destruct (snd (unproject true false true no_kw cs (P3 (flat_points xys)))) as [u|] eqn:Eu; cbn [rbind] in H; [|discriminate].
  change (match u with P2 l => [l] | P3 l => l end) with (as_batch u) in H.
  destruct (length (as_batch u) =? length xys)%nat eqn:El; cbn [negb] in H; [|discriminate]. apply Nat.eqb_eq in El. injection H as <-.
  rewrite nth_error_map in Hi. destruct (nth_error (combine _ (as_batch u)) i) as [[[b l] rw]|] eqn:Ec; [|discriminate]. cbn in Hi. injection Hi as <-.
  apply nth_error_combine in Ec as (Ec & Er). apply nth_error_combine in Ec as (Es & Ex). apply nth_error_seq0 in Es as (-> & Hlt).
  unfold rays_of in Hj. rewrite nth_error_map in Hj.
  destruct (nth_error (combine _ _) j) as [[[[j' p] p1] p2]|] eqn:Ec; [|discriminate]. cbn in Hj. injection Hj as <-.
  apply nth_error_combine in Ec as (Ec & E2). apply nth_error_combine in Ec as (Ec & E1). apply nth_error_combine in Ec as (Es & Ep).
  apply nth_error_seq0 in Es as (-> & Hjl).
  assert (Eb : batch_nth (as_batch u) i = Some rw).
  { unfold batch_nth. destruct (length (as_batch u) =? 1)%nat eqn:E; [|exact Er]. apply Nat.eqb_eq in E. replace 0%nat with i by lia. exact Er. }
  exists l, p, u, p1, p2. repeat (split; [assumption || reflexivity|]). unfold entry. rewrite Eb.
  rewrite nth_error_firstn in E1. apply Nat.ltb_lt in Hjl. rewrite Hjl in E1. rewrite nth_error_skipn in E2. auto.
Qed.

(* ---- success ---- *)
Lemma ndc_defined cs : cams_wf cs -> cs_K cs = None -> (0 < cs_n cs)%nat -> (forall c, In c (cs_int cs) -> regular c) ->
  cs_cls cs = CPersp \/ cs_cls cs = COrtho ->
  (in_ndc cs = false -> exists l, cs_size cs = Some l /\ forall s, In s l -> scale_of s <> 0) ->
  exists n ms, ndc_camera_transform no_kw cs = Ok n /\ get_matrix n = Ok ms /\ Forall (fun a => det4 a <> 0) ms.
Proof.
  intros W HK Hn Hreg Hc Hs. unfold ndc_camera_transform. destruct (in_ndc cs) eqn:En.
  - exists mk_identity, [id4]. split; [reflexivity|]. split; [reflexivity|]. constructor; [|constructor].
    unfold det4, adj4, id4, det3. cbm. lra.
  - destruct (Hs eq_refl) as (l & Hl & Hsc). destruct W as (W1 & W2 & W3 & W4 & W5).
    pose proof (W4 l Hl) as Ll.
    assert (Hks : exists ks, calib_list no_kw cs = Ok ks).
    { unfold calib_list. cbn. rewrite HK. apply rmap_total. intros c Hc'. destruct (regular_calibration c (Hreg c Hc')) as (k & Hk & _). eauto. }
    destruct Hks as (ks & Hks). pose proof (calib_len _ _ _ Hks eq_refl) as Lk.
    unfold principal_point. rewrite projection_eq, Hks. cbn [rbind mk_transform get_matrix].
    match goal with |- context [spread (cs_n cs) ?m] => assert (Sp : spread (cs_n cs) m = Ok m) by (unfold spread; rewrite !map_length, Lk, Nat.eqb_refl; reflexivity);
      rewrite Sp; set (fx := m) in * end.
    cbn [rbind].
    assert (Et : ndc_to_screen (cs_n cs) false (size_of no_kw cs) = Ok (mk_transform (map tr4 (map screen_mat l)))).
    { unfold size_of. cbn [k_size no_kw]. rewrite Hl. unfold ndc_to_screen, spread. rewrite map_length, Ll, Nat.eqb_refl. reflexivity. }
    unfold screen_to_ndc. rewrite Et. cbn [rbind inverse].
    destruct (inverse_parts_defined (mk_transform (map tr4 (map screen_mat l))) (wf_mk _) (map tr4 (map screen_mat l)) eq_refl) as (u & Hu).
    { intros E. apply (f_equal (@length _)) in E. rewrite !map_length, Ll in E. cbn in E. lia. }
    { apply Forall_forall. intros a Ha. apply in_map_iff in Ha as (m & <- & Hm). apply in_map_iff in Hm as (s & <- & Hin).
      specialize (Hsc s Hin). destruct s as [h w]. unfold scale_of in Hsc. cbn [fst snd] in Hsc.
      unfold det4, adj4, tr4, screen_mat, det3. cbm. rewrite Rminus_0_r. set (k := Rmin h w / 2) in *.
      match goal with |- ?e <> 0 => replace e with (k * k) by ring end. apply Rmult_integral_contrapositive_currified; exact Hsc. }
    rewrite Hu. cbn [rbind].
    destruct (inverse_matrix false _ _ _ (wf_mk _) eq_refl Hu) as (ims & Hi & Hinv).
    assert (Li : length ims = cs_n cs) by (destruct Hinv as (L & _); rewrite <- L, !map_length; exact Ll).
    assert (Lf : length fx = cs_n cs) by (unfold fx; rewrite !map_length; exact Lk).
    assert (Hb : exists ms, broadcast mul4 (map tr4 fx) ims = Ok ms) by (apply broadcast_defined; left; rewrite map_length; lia).
    destruct Hb as (ms & Hb). eexists. exists ms. split; [reflexivity|]. split.
    { rewrite get_matrix_compose1, Hi. cbn [mk_transform get_matrix rbind]. exact Hb. }
    apply Forall_forall. intros a Ha. destruct (in_batch _ _ Ha) as (i & Hai).
    destruct (broadcast_batch_nth _ _ _ _ _ _ Hb Hai) as (x & y & Hx & Hy & ->).
    destruct (inv_batch_nth _ _ _ _ Hinv Hy) as (z & _ & _ & Hyz). rewrite det4_mul.
    apply Rmult_integral_contrapositive_currified; [|exact (mul4_left_det _ _ Hyz)].
    rewrite batch_nth_map in Hx. destruct (batch_nth fx i) as [g|] eqn:Eg; [|discriminate]. injection Hx as <-.
    apply batch_nth_In in Eg. unfold fx in Eg. apply in_map_iff in Eg as (pp & <- & _). destruct pp as [pa pb].
    unfold det4, adj4, tr4, pp_fix, det3. cbm. intros E. ring_simplify in E. lra.
Qed.

Lemma compose_get cs t n ms : wf t -> get_matrix t = Ok ms -> length ms = cs_n cs -> ndc_camera_transform no_kw cs = Ok n ->
  wf (compose t [n]) /\ exists mc, get_matrix (compose t [n]) = Ok mc /\ length mc = cs_n cs.
Proof.
  intros Hwf Hm Lm En. destruct (ndc_get _ _ En) as (Hwn & mn & Hmn & Lmn). split; [apply wf_compose1; assumption|].
  rewrite get_matrix_compose1, Hm, Hmn. cbn [rbind]. unfold broadcast.
  destruct (length ms =? length mn)%nat eqn:E.
  - eexists. split; [reflexivity|]. apply Nat.eqb_eq in E. rewrite map_length, combine_length. lia.
  - apply Nat.eqb_neq in E. destruct Lmn as [L1|L1]; [|lia]. destruct mn as [|x [|y mn]]; cbn in L1; try lia.
    destruct ms as [|m0 [|m1 ms]]; eexists; (split; [reflexivity|]); cbn [length map] in *; rewrite ?map_length; lia.
Qed.
Lemma opt_len u Q out ims n : transform_opt None u (P3 Q) = Ok out -> get_matrix u = Ok ims -> length ims = n -> length Q = n ->
  exists o, out = P3 o /\ length o = n.
Proof.
  intros H Hm Lm LQ. unfold transform_opt in H. rewrite Hm in H. cbn [rbind as_batch] in H.
  match type of H with (rbind ?b _) = _ => destruct b as [o|] eqn:Eb; cbn [rbind] in H; [|discriminate] end.
  cbn [reshape] in H. injection H as <-. exists o. split; [reflexivity|].
  unfold broadcast in Eb. rewrite LQ, Lm, Nat.eqb_refl in Eb. injection Eb as <-. rewrite map_length, combine_length. lia.
Qed.
Lemma scale_len f km l o : scale_batch f km l = Ok o -> length o = length l.
Proof.
  unfold scale_batch. destruct (length km =? length l)%nat eqn:E.
  - apply Nat.eqb_eq in E. intros H; injection H as <-. rewrite map_length, combine_length. lia.
  - destruct km as [|a [|b km]]; try discriminate. intros H; injection H as <-. apply map_length.
Qed.
Lemma inverse_len t u ms n : wf t -> get_matrix t = Ok ms -> length ms = n -> inverse false t = Ok u ->
  exists ims, get_matrix u = Ok ims /\ length ims = n.
Proof. intros Hw Hm L Hu. destruct (inverse_matrix _ _ _ _ Hw Hm Hu) as (ims & H1 & H2 & _). exists ims. split; [exact H1|lia]. Qed.

Lemma unproject_len cs l out : cams_wf cs -> length l = cs_n cs -> snd (unproject true false true no_kw cs (P3 l)) = Ok out ->
  exists o, out = P3 o /\ length o = cs_n cs.
Proof.
  intros W Hl Hu. unfold unproject in Hu. cbn [full_or_view] in Hu.
  assert (Ecs : fst (full_projection no_kw cs) = cs) by (unfold full_projection, view_transform; apply stored_no_kw).
  destruct (full_projection no_kw cs) as [cs' rt] eqn:Ef. cbn [fst] in Ecs. subst cs'.
  destruct rt as [t|e]; [|destruct (cs_cls cs); discriminate].
  assert (Ht : snd (full_projection no_kw cs) = Ok t) by (rewrite Ef; reflexivity). clear Ef.
  destruct (full_get _ _ W Ht) as (ms & Hm & Lm). pose proof (wf_full _ _ _ Ht) as Hwf.
  destruct (cs_cls cs) eqn:Ec; cbn [snd rbind] in Hu.
  - destruct (projection_transform no_kw cs) as [k|]; cbn [rbind] in Hu; [|discriminate].
    destruct (get_matrix k) as [km|]; cbn [rbind scale_depth] in Hu; [|discriminate].
    destruct (scale_batch persp_depth km l) as [o|] eqn:Es; cbn [rbind] in Hu; [|discriminate].
    destruct (inverse false t) as [u|] eqn:Ei; cbn [rbind] in Hu; [|discriminate].
    destruct (inverse_len _ _ _ _ Hwf Hm Lm Ei) as (ims & Hi & Li). eapply opt_len; [exact Hu|exact Hi|exact Li|].
    rewrite (scale_len _ _ _ _ Es). exact Hl.
  - destruct (projection_transform no_kw cs) as [k|]; cbn [rbind] in Hu; [|discriminate].
    destruct (get_matrix k) as [km|]; cbn [rbind scale_depth] in Hu; [|discriminate].
    destruct (scale_batch ortho_depth km l) as [o|] eqn:Es; cbn [rbind] in Hu; [|discriminate].
    destruct (inverse false t) as [u|] eqn:Ei; cbn [rbind] in Hu; [|discriminate].
    destruct (inverse_len _ _ _ _ Hwf Hm Lm Ei) as (ims & Hi & Li). eapply opt_len; [exact Hu|exact Hi|exact Li|].
    rewrite (scale_len _ _ _ _ Es). exact Hl.
  - destruct (ndc_camera_transform no_kw cs) as [n|] eqn:En; cbn [rbind] in Hu; [|discriminate].
    destruct (inverse false (compose t [n])) as [u|] eqn:Ei; cbn [rbind] in Hu; [|discriminate].
    destruct (compose_get cs t n ms Hwf Hm Lm En) as (Hw' & mc & Hc & Lc).
    destruct (inverse_len _ _ _ _ Hw' Hc Lc Ei) as (ims & Hi & Li). cbn [pmap] in Hu.
    eapply opt_len; [exact Hu|exact Hi|exact Li|]. rewrite map_length. exact Hl.
  - destruct (ndc_camera_transform no_kw cs) as [n|] eqn:En; cbn [rbind] in Hu; [|discriminate].
    destruct (inverse false (compose t [n])) as [u|] eqn:Ei; cbn [rbind] in Hu; [|discriminate].
    destruct (compose_get cs t n ms Hwf Hm Lm En) as (Hw' & mc & Hc & Lc).
    destruct (inverse_len _ _ _ _ Hw' Hc Lc Ei) as (ims & Hi & Li). cbn [pmap] in Hu.
    eapply opt_len; [exact Hu|exact Hi|exact Li|]. rewrite map_length. exact Hl.
Qed.

Lemma unproject_ndc_defined cs l :
  cams_wf cs -> cs_K cs = None -> (0 < cs_n cs)%nat -> (forall c, In c (cs_int cs) -> regular c) ->
  (forall r, In r (cs_R cs) -> det3 r <> 0) ->
  (in_ndc cs = false -> exists l, cs_size cs = Some l /\ forall s, In s l -> scale_of s <> 0) ->
  length l = cs_n cs ->
  exists out, snd (unproject true false true no_kw cs (P3 l)) = Ok out /\
    forall i j p, entry (P3 l) i j = Some p -> (i < cs_n cs)%nat -> z3 p <> 0 -> exists X, entry out i j = Some (Some X).
Proof.
  intros W HK Hn Hreg HR Hs Hl.
  assert (Hcls : (cs_cls cs = CFoVPersp \/ cs_cls cs = CFoVOrtho) \/ (cs_cls cs = CPersp \/ cs_cls cs = COrtho)).
  { destruct (cs_cls cs); auto. }
  destruct Hcls as [Hc|Hc].
  - destruct (unproject_defined cs (P3 l) W HK Hn Hreg HR) as (out & Ho & He).
    { cbn. split; [intros ->; cbn in Hl; lia|lia]. }
    exists out. split.
    + rewrite <- Ho. unfold unproject. destruct Hc as [-> | ->]; reflexivity.
    + intros i j p Hp Hi Hz. apply (He i j p Hp (or_introl Hi)). destruct (cs_cls cs); auto.
  - destruct (ndc_defined cs W HK Hn Hreg Hc Hs) as (n & mn & En & Hmn & Dn).
    assert (Hks : exists ks, calib_list no_kw cs = Ok ks).
    { unfold calib_list. cbn. rewrite HK. apply rmap_total. intros c Hc'. destruct (regular_calibration c (Hreg c Hc')) as (k & Hk & _). eauto. }
    destruct Hks as (ks & Hks).
    assert (HKd : forall k, In k ks -> det4 (tr4 k) <> 0).
    { intros k Hk. pose proof Hks as H. unfold calib_list in H. cbn in H. rewrite HK in H. destruct (rmap_In _ _ _ _ H Hk) as (c & Hc' & E).
      destruct (regular_calibration c (Hreg c Hc')) as (k' & E' & D & _). rewrite E in E'. injection E' as <-. exact D. }
    destruct (full_defined cs ks W Hks Hn HR HKd) as (t & ms & u0 & ims0 & Ht & Hm & Lm & Hu0 & Him0 & Hinv0).
    pose proof (wf_full _ _ _ Ht) as Hwf.
    destruct (compose_get cs t n ms Hwf Hm Lm En) as (Hw' & mc & Hmc & Lc).
    destruct (inverse_parts_defined _ Hw' mc Hmc) as (u & Hu).
    { intros ->. cbn in Lc. lia. }
    { apply Forall_forall. intros a Ha. destruct (in_batch _ _ Ha) as (i & Hai).
      destruct (compose_batch _ _ _ _ _ Hmc Hai) as (mt' & mn' & a1 & a2 & M1 & M2 & M3 & M4 & ->).
      rewrite Hm in M1. injection M1 as <-. rewrite Hmn in M2. injection M2 as <-. rewrite det4_mul.
      apply Rmult_integral_contrapositive_currified.
      - destruct (full_matrix _ _ _ _ _ _ Ht Hm M3) as (r & tv & ks' & k & F1 & F2 & F3 & F4 & ->).
        rewrite Hks in F3. injection F3 as <-. rewrite det4_mul, det_view. rewrite stored_no_kw in F1.
        apply Rmult_integral_contrapositive_currified; [apply HR|apply HKd]; eapply batch_nth_In; eassumption.
      - eapply Forall_forall in Dn; [exact Dn|]. eapply batch_nth_In; exact M4. }
    destruct (inverse_matrix false _ _ _ Hw' Hmc Hu) as (ims & Hi & Hinv).
    assert (Li : length ims = cs_n cs) by (destruct Hinv as (L & _); lia).
    set (g := match cs_cls cs with CPersp => inv_depth | _ => Some end).
    destruct (transform_opt_defined u ims (pmap g (P3 l)) Hi) as (out & Hout & Hent).
    { left. cbn [pmap as_batch]. rewrite map_length. lia. }
    exists out. split.
    + unfold unproject. cbn [full_or_view].
      assert (Ecs : fst (full_projection no_kw cs) = cs) by (unfold full_projection, view_transform; apply stored_no_kw).
      destruct (full_projection no_kw cs) as [cs' rt]. cbn [fst snd] in *. subst cs' rt.
      unfold g in Hout. destruct (cs_cls cs); try (destruct Hc; discriminate); cbn [snd rbind]; rewrite En; cbn [rbind inverse]; rewrite Hu; exact Hout.
    + intros i j p Hp Hin Hz.
      destruct (batch_some ims i ltac:(lia)) as (b & Hb). destruct (inv_batch_nth _ _ _ _ Hinv Hb) as (a & Ha & H1 & H2).
      destruct (compose_batch _ _ _ _ _ Hmc Ha) as (mt' & mn' & a1 & a2 & M1 & M2 & M3 & M4 & Eaa).
      rewrite Hm in M1. injection M1 as <-. rewrite Hmn in M2. injection M2 as <-.
      destruct (full_matrix _ _ _ _ _ _ Ht Hm M3) as (r & tv & ks' & k & F1 & F2 & F3 & F4 & Ea1).
      rewrite stored_no_kw in F1, F2.
      destruct (calib_pinhole no_kw cs ks' k i eq_refl HK F3 F4) as (c0 & C1 & C2 & C3). cbn in C1.
      pose proof (Hreg c0 (batch_nth_In _ _ _ C1)) as Hr. assert (Hcc : cls_of c0 = cs_cls cs) by (apply W; eapply batch_nth_In; exact C1).
      destruct (ndc_acts cs n mn i a2 c0 k Hc HK Hcc En Hmn M4 C1 C2) as (c & N1 & N2).
      destruct (regular_ndc _ _ _ _ Hr N1) as (R1 & R2).
      destruct (regular_calibration c R1) as (kc & E1 & _ & Hex). destruct p as [px py d]. cbm_in Hz.
      destruct (Hex px py d) as (v & q & Hq & Hv). { destruct (cls_of c); auto. }
      rewrite (calibration_pinhole _ _ _ E1) in Hv.
      assert (HX : exists X, view_of r tv X = v).
      { destruct (inv3_defined r (HR r (batch_nth_In _ _ _ F1))) as (ri & Hri). apply inv3_ok in Hri. destruct Hri as (_ & Ra & Rb).
        exists (vmul3 (sub3 v tv) ri).
        assert (Ev : forall y, view_of r tv y = add3 (vmul3 y r) tv) by (intros y; destruct y, r, tv; reflexivity).
        rewrite Ev, <- vmul3_mul, Rb, vmul3_id. destruct v, tv. unfold add3, sub3. cbm. apply V3_eq; ring. }
      destruct HX as (X & HX). exists X.
      assert (HQ : entry (pmap g (P3 l)) i j = Some (Some q)).
      { rewrite entry_pmap, Hp. cbn [option_map]. f_equal. rewrite <- Hq, R2, Hcc. unfold g, with_depth. destruct (cs_cls cs); try (destruct Hc; discriminate); reflexivity. }
      rewrite (Hent i j _ b HQ Hb). f_equal. apply (undo_point X q a b H1).
      rewrite Eaa, vmul4_mul, <- Hv, <- HX. apply N2. rewrite Ea1, vmul4_mul, vmul4_view. apply C3.
Qed.
