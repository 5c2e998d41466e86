From Verif Require Import Base RBase Geom LinAlg Transform TransformSpec TransformProofs TransformProofs2 Camera CameraSpec CameraProofs CameraProofs2.
Local Open Scope R_scope.

(* ---- scaled depth: the whole projected point is unprojected ---- *)
Lemma unproject_scaled world kw cs p oq q x xyd out i j o t :
  kw_ok kw cs -> cs_cls cs = CFoVPersp \/ cs_cls cs = CFoVOrtho ->
  snd (full_or_view world kw cs) = Ok t ->
  transform_points None t p = Ok oq -> entry p i j = Some x -> entry oq i j = Some (Some q) ->
  entry xyd i j = Some q ->
  snd (unproject world true false kw cs xyd) = Ok out -> entry out i j = Some o ->
  o = Some x.
Proof.
  intros Hkw Hc Ht Hp Hx Hq Hxyd Hu Ho. unfold kw_ok in Hkw.
  assert (Hwf : wf t).
  { destruct world; cbn [full_or_view snd] in Ht; [eapply wf_full; exact Ht|eapply wf_projection; exact Ht]. }
  assert (K : exists u, inverse false t = Ok u /\ transform_opt None u (pmap Some xyd) = Ok out).
  { unfold unproject in Hu. destruct (cs_cls cs) eqn:Ec; try (destruct Hc; discriminate).
    - rewrite (Hkw eq_refl) in Ht. destruct (full_or_view world no_kw cs) as [cs' rt]. cbn [snd] in Ht, Hu.
      subst rt. cbn [rbind] in Hu. destruct (inverse false t) as [u|]; cbn [rbind] in Hu; [|discriminate]. exists u. auto.
    - destruct (full_or_view world kw cs) as [cs' rt]. cbn [snd] in Ht, Hu.
      subst rt. cbn [rbind] in Hu. destruct (inverse false t) as [u|]; cbn [rbind] in Hu; [|discriminate]. exists u. auto. }
  destruct K as (u & Hi & Hopt).
  destruct (entry_points _ _ _ _ _ _ _ Hp Hq) as (ms & x' & a & Em & Ex & Ea & Eqa). rewrite Hx in Ex. injection Ex as <-.
  destruct (undo_entry _ _ _ _ _ _ _ _ Hwf Em Hi Hopt Ho) as (a' & b & qo & Ea' & H1 & H2 & HQo & ->).
  rewrite Ea in Ea'. injection Ea' as <-. rewrite entry_pmap, Hxyd in HQo. cbn in HQo. injection HQo as <-.
  apply (undo_point x q a b H1). symmetry. exact Eqa.
Qed.

(* ---- screen matrices ---- *)
Lemma spread_batch {A} n (l l' : list A) i x : spread n l = Ok l' -> batch_nth l' i = Some x -> batch_nth l i = Some x.
Proof.
  unfold spread. destruct (length l =? n)%nat; [intros H; injection H as <-; auto|].
  destruct l as [|y [|z l]]; try discriminate. intros H Hx; injection H as <-.
  apply batch_nth_In in Hx. apply repeat_spec in Hx. subst. reflexivity.
Qed.
Lemma spread_length {A} n (l l' : list A) : spread n l = Ok l' -> length l' = n.
Proof.
  unfold spread. destruct (length l =? n)%nat eqn:E; [intros H; injection H as <-; apply Nat.eqb_eq; exact E|].
  destruct l as [|y [|z l]]; try discriminate. intros H; injection H as <-. apply repeat_length.
Qed.
Definition screen_lin (flip : bool) (s : R * R) (q : vec3) : vec3 :=
  let f := if flip then -1 else 1 in
  V3 (f * (scale_of s * x3 q - snd s / 2)) (f * (scale_of s * y3 q - fst s / 2)) (z3 q).
Lemma screen_matrix n flip size t ms i a :
  ndc_to_screen n flip size = Ok t -> get_matrix t = Ok ms -> batch_nth ms i = Some a ->
  exists l s, size = Some l /\ batch_nth l i = Some s /\
    a = if flip then mul4 (tr4 (screen_mat s)) (tr4 flip_mat) else tr4 (screen_mat s).
Proof.
  unfold ndc_to_screen. destruct size as [l|]; [|discriminate].
  destruct (spread n (map screen_mat l)) as [k|] eqn:Es; cbn [rbind]; [|discriminate].
  intros H Hm Ha. injection H as <-.
  assert (K : forall x, batch_nth (map tr4 k) i = Some x -> exists s, batch_nth l i = Some s /\ x = tr4 (screen_mat s)).
  { intros x Hx. rewrite batch_nth_map in Hx. destruct (batch_nth k i) as [y|] eqn:Ey; [|discriminate].
    injection Hx as <-. apply (spread_batch _ _ _ _ _ Es) in Ey. rewrite batch_nth_map in Ey.
    destruct (batch_nth l i) as [s|] eqn:El; [|discriminate]. injection Ey as <-. exists s. auto. }
  destruct flip.
  - destruct (compose_batch _ _ _ _ _ Hm Ha) as (mt & mu & x & y & E1 & E2 & E3 & E4 & ->).
    cbn in E1, E2. injection E1 as <-. injection E2 as <-. destruct (K x E3) as (s & Hs & ->).
    exists l, s. split; [reflexivity|]. split; [exact Hs|]. f_equal. rewrite batch_nth_map in E4.
    destruct (batch_nth (repeat flip_mat n) i) as [z|] eqn:Ez; [|discriminate]. injection E4 as <-.
    apply batch_nth_In, repeat_spec in Ez. subst. reflexivity.
  - cbn in Hm. injection Hm as <-. destruct (K a Ha) as (s & Hs & ->). exists l, s. auto.
Qed.
Lemma screen_acts (flip : bool) s q :
  vmul4 (to_h q) (if flip then mul4 (tr4 (screen_mat s)) (tr4 flip_mat) else tr4 (screen_mat s)) = to_h (screen_lin flip s q).
Proof.
  destruct s as [h w], q as [x y z]. unfold screen_lin, scale_of. cbn [fst snd].
  destruct flip; unfold vmul4, to_h, mul4, tr4, screen_mat, flip_mat; cbm; apply V4_eq; field.
Qed.
Lemma screen_lin_flip s q : screen_lin true s q = to_pixel s q.
Proof. destruct s as [h w]. unfold screen_lin, to_pixel, scale_of. cbn [fst snd]. apply V3_eq; field. Qed.

Lemma wf_ndc_to_screen n flip size t : ndc_to_screen n flip size = Ok t -> wf t.
Proof.
  unfold ndc_to_screen. destruct size as [l|]; [|discriminate].
  destruct (spread n (map screen_mat l)) as [k|]; cbn [rbind]; [|discriminate]. intros H; injection H as <-.
  destruct flip; [apply wf_compose1; apply wf_mk|apply wf_mk].
Qed.

(* NDC -> screen -> NDC, point by point *)
Lemma ndc_screen_values n flip size t p oq i j o :
  ndc_to_screen n flip size = Ok t -> transform_points None t p = Ok oq -> entry oq i j = Some o ->
  exists l s q, size = Some l /\ batch_nth l i = Some s /\ entry p i j = Some q /\ o = Some (screen_lin flip s q).
Proof.
  intros Ht Hp Ho. destruct (entry_points _ _ _ _ _ _ _ Hp Ho) as (ms & q & a & Em & Eq & Ea & ->).
  destruct (screen_matrix _ _ _ _ _ _ _ Ht Em Ea) as (l & s & E1 & E2 & ->).
  exists l, s, q. rewrite screen_acts, from_to_h. auto.
Qed.
Lemma screen_ndc_matrix n flip size u ims i b :
  screen_to_ndc n flip size = Ok u -> get_matrix u = Ok ims -> batch_nth ims i = Some b ->
  exists l s, size = Some l /\ batch_nth l i = Some s /\ scale_of s <> 0 /\
    forall q q', from_h None (vmul4 (to_h q') b) = Some q <-> q' = screen_lin flip s q.
Proof.
  unfold screen_to_ndc. intros H Hm Hb.
  destruct (ndc_to_screen n flip size) as [t|] eqn:Et; cbn [rbind] in H; [|discriminate].
  assert (Hg : exists ms, get_matrix t = Ok ms).
  { unfold ndc_to_screen in Et. destruct size as [l|]; [|discriminate].
    destruct (spread n (map screen_mat l)) as [k|] eqn:Es; cbn [rbind] in Et; [|discriminate].
    injection Et as <-. destruct flip; [|eexists; reflexivity].
    rewrite get_matrix_compose1. cbn [mk_transform get_matrix rbind].
    pose proof (spread_length _ _ _ Es) as L. unfold broadcast. rewrite !map_length, repeat_length, L, Nat.eqb_refl. eexists; reflexivity. }
  destruct Hg as (ms & Hg).
  destruct (inverse_matrix _ _ _ _ (wf_ndc_to_screen _ _ _ _ Et) Hg H) as (ims' & E1 & E2).
  rewrite Hm in E1. injection E1 as <-.
  destruct (inv_batch_nth _ _ _ _ E2 Hb) as (a & Ea & H1 & H2).
  destruct (screen_matrix _ _ _ _ _ _ _ Et Hg Ea) as (l & s & F1 & F2 & Ea').
  exists l, s. split; [exact F1|]. split; [exact F2|]. split.
  - intros Hz. pose proof (mul4_left_det _ _ H1) as Hd. apply Hd. rewrite Ea'. destruct s as [h w]. unfold scale_of in Hz. cbn [fst snd] in Hz.
    destruct flip; [rewrite det4_mul|]; unfold det4, adj4, tr4, screen_mat, flip_mat; cbm; rewrite Rminus_0_r, Hz; ring.
  - intros q q'. split.
    + intros E. pose proof (undo_point _ _ _ _ H2 E) as U. rewrite Ea', screen_acts, from_to_h in U. congruence.
    + intros ->. apply (undo_point q (screen_lin flip s q) a b H1). rewrite Ea', screen_acts. apply from_to_h.
Qed.

(* the camera-to-NDC transform of a screen-space camera *)
Definition pp_of (c : cls) (k : mat4) : R * R :=
  match c with COrtho => (n03 k, n13 k) | _ => (n02 k, n12 k) end.
Definition to_ndc_lin (s pp : R * R) (q : vec3) : vec3 :=
  V3 ((x3 q - 2 * fst pp + snd s / 2) / scale_of s) ((y3 q - 2 * snd pp + fst s / 2) / scale_of s) (z3 q).
Lemma ndc_camera_matrix kw cs n ms i a :
  in_ndc cs = false -> ndc_camera_transform kw cs = Ok n -> get_matrix n = Ok ms -> batch_nth ms i = Some a ->
  exists ks k l s, calib_list kw cs = Ok ks /\ batch_nth ks i = Some k /\ size_of kw cs = Some l /\ batch_nth l i = Some s /\
    scale_of s <> 0 /\ forall q, from_h None (vmul4 (to_h q) a) = Some (to_ndc_lin s (pp_of (cs_cls cs) k) q).
Proof.
  intros Hn H Hm Ha. unfold ndc_camera_transform in H. rewrite Hn in H. unfold principal_point in H.
  destruct (projection_transform kw cs) as [pt|] eqn:Ep; cbn [rbind] in H; [|discriminate].
  destruct (projection_ok _ _ _ Ep) as (ks & Hks & ->). cbn [mk_transform get_matrix rbind] in H.
  destruct (spread (cs_n cs) (map pp_fix _)) as [fixes|] eqn:Ef; cbn [rbind] in H; [|discriminate].
  destruct (screen_to_ndc (cs_n cs) false (size_of kw cs)) as [s|] eqn:Es; cbn [rbind] in H; [|discriminate].
  injection H as <-. destruct (compose_batch _ _ _ _ _ Hm Ha) as (mt & mu & x & y & E1 & E2 & E3 & E4 & ->).
  cbn in E1. injection E1 as <-. destruct (screen_ndc_matrix _ _ _ _ _ _ _ Es E2 E4) as (l & sz & G1 & G2 & G3 & G4).
  rewrite batch_nth_map in E3. destruct (batch_nth fixes i) as [fx|] eqn:Efx; [|discriminate]. injection E3 as <-.
  apply (spread_batch _ _ _ _ _ Ef) in Efx. rewrite batch_nth_map in Efx. rewrite batch_nth_map in Efx.
  rewrite batch_nth_map in Efx. destruct (batch_nth ks i) as [k|] eqn:Ek; [|discriminate]. cbn [option_map] in Efx. injection Efx as <-.
  exists ks, k, l, sz. split; [exact Hks|]. split; [exact Ek|]. split; [exact G1|]. split; [exact G2|]. split; [exact G3|].
  intros q. set (pp := pp_of (cs_cls cs) k).
  change (match cs_cls cs with COrtho => (n03 k, n13 k) | _ => (n02 k, n12 k) end) with pp.
  rewrite (from_h_compose q (tr4 (pp_fix pp)) y (V3 (x3 q - 2 * fst pp) (y3 q - 2 * snd pp) (z3 q))).
  - apply G4. unfold screen_lin, to_ndc_lin. cbm. destruct q as [qx qy qz]. cbm. apply V3_eq; field; exact G3.
  - destruct q as [qx qy qz], pp as [a b]. unfold vmul4, to_h, tr4, pp_fix. cbm. cbn [fst snd].
    rewrite <- (from_to_h (V3 (qx - 2 * a) (qy - 2 * b) qz)). unfold to_h. cbm. f_equal. apply V4_eq; ring.
Qed.

Lemma project_ndc_ok kw cs p oq : snd (project_ndc None kw cs p) = Ok oq ->
  exists t, snd (full_projection kw cs) = Ok t /\
    (if in_ndc cs then transform_points None t p = Ok oq
     else exists n, ndc_camera_transform kw cs = Ok n /\ transform_points None (compose t [n]) p = Ok oq).
Proof.
  unfold project_ndc. destruct (full_projection kw cs) as [cs' rt] eqn:Ef. cbn [snd].
  assert (Ecs : cs' = stored kw cs) by (unfold full_projection, view_transform in Ef; congruence). subst cs'.
  destruct rt as [t|]; cbn [rbind]; [|discriminate].
  change (in_ndc (stored kw cs)) with (in_ndc cs). change (ndc_camera_transform kw (stored kw cs)) with (ndc_camera_transform kw cs).
  intros H. exists t. split; [reflexivity|]. destruct (in_ndc cs); [exact H|].
  destruct (ndc_camera_transform kw cs) as [n|]; cbn [rbind] in H; [|discriminate]. exists n. auto.
Qed.

(* project to NDC, unproject from NDC *)
Lemma project_unproject_ndc cs p w ov v oq q x xyd out i j o :
  cs_cls cs = CPersp \/ cs_cls cs = COrtho -> sound_call no_kw cs ->
  entry p i j = Some x ->
  snd (view_transform no_kw cs) = Ok w -> transform_points None w p = Ok ov -> entry ov i j = Some (Some v) ->
  snd (project_ndc None no_kw cs p) = Ok oq -> entry oq i j = Some (Some q) ->
  entry xyd i j = Some (V3 (x3 q) (y3 q) (z3 v)) ->
  snd (unproject true false true no_kw cs xyd) = Ok out -> entry out i j = Some o ->
  o = Some x.
Proof.
  intros Hc Hs Hx Hw Hov Ev Hp Eq Hxyd Hu Eo.
  destruct (project_ndc_ok _ _ _ _ Hp) as (t & Ht & Hp').
  assert (HT : exists n tt, ndc_camera_transform no_kw cs = Ok n /\ tt = compose t [n] /\ transform_points None tt p = Ok oq /\ wf tt).
  { destruct (in_ndc cs) eqn:En.
    - exists mk_identity, (compose t [mk_identity]). unfold ndc_camera_transform. rewrite En. split; [reflexivity|]. split; [reflexivity|].
      split; [|apply wf_compose1; [eapply wf_full; exact Ht|apply wf_mk]].
      rewrite <- Hp'. unfold transform_points. rewrite get_matrix_compose1. cbn [mk_identity get_matrix rbind].
      destruct (get_matrix t) as [m|]; cbn [rbind]; [|reflexivity].
      assert (E : broadcast mul4 m [id4] = Ok m).
      { unfold broadcast. cbn [length]. destruct (length m =? 1)%nat eqn:El.
        - apply Nat.eqb_eq in El. destruct m as [|y [|z m]]; try discriminate. cbn. rewrite mul4_1_r. reflexivity.
        - assert (E : map (fun x => mul4 x id4) m = m) by (rewrite <- (map_id m) at 2; apply map_ext; intros; apply mul4_1_r).
          destruct m as [|y [|z m]]; [reflexivity|discriminate|]. cbn [map] in E |- *. rewrite E. reflexivity. }
      rewrite E. reflexivity.
    - destruct Hp' as (n & Hn & Hp'). exists n, (compose t [n]). split; [exact Hn|]. split; [reflexivity|]. split; [exact Hp'|].
      apply wf_compose1; [eapply wf_full; exact Ht|]. unfold ndc_camera_transform in Hn. rewrite En in Hn.
      destruct (principal_point no_kw cs); cbn [rbind] in Hn; [|discriminate].
      destruct (spread _ _); cbn [rbind] in Hn; [|discriminate].
      destruct (screen_to_ndc (cs_n cs) false (size_of no_kw cs)) as [sn|] eqn:Es; cbn [rbind] in Hn; [|discriminate]. injection Hn as <-.
      apply wf_compose1; [apply wf_mk|]. unfold screen_to_ndc in Es.
      destruct (ndc_to_screen _ _ _); cbn [rbind] in Es; [|discriminate]. cbn [inverse] in Es. eapply wf_inverse_parts; exact Es. }
  destruct HT as (n & tt & Hn & Ett & Htp & Hwf).
  assert (K : exists u Q, inverse false tt = Ok u /\ transform_opt None u Q = Ok out /\
            forall k qo, entry Q i j = Some qo -> qo = with_depth (cs_cls cs) k (V3 (x3 q) (y3 q) (z3 v))).
  { unfold unproject in Hu. cbn [full_or_view] in Hu.
    destruct (cs_cls cs) eqn:Ec; try (destruct Hc; discriminate);
      (destruct (full_projection no_kw cs) as [cs' rt] eqn:Ef; cbn [snd] in Hu, Ht; subst rt; cbn [rbind] in Hu;
       assert (Ecs : cs' = cs) by (unfold full_projection, view_transform in Ef; rewrite stored_no_kw in Ef; congruence); subst cs';
       rewrite Hn in Hu; cbn [rbind] in Hu; rewrite <- Ett in Hu;
       destruct (inverse false tt) as [u|]; cbn [rbind] in Hu; [|discriminate];
       eexists u, _; split; [reflexivity|]; split; [exact Hu|];
       intros k qo HQ; rewrite entry_pmap, Hxyd in HQ; cbn in HQ; injection HQ as <-; reflexivity). }
  destruct K as (u & Q & Hi & Hopt & HQ).
  destruct (entry_points _ _ _ _ _ _ _ Htp Eq) as (ms & x' & a & Em & Ex & Ea & Eqa). rewrite Hx in Ex. injection Ex as <-.
  destruct (undo_entry _ _ _ _ _ _ _ _ Hwf Em Hi Hopt Eo) as (a' & b & qo & Ea' & H1 & H2 & HQo & ->).
  rewrite Ea in Ea'. injection Ea' as <-.
  rewrite Ett in Em. destruct (compose_batch _ _ _ _ _ Em Ea) as (mt & mn & a1 & a2 & M1 & M2 & M3 & M4 & Eaa).
  destruct (full_matrix _ _ _ _ _ _ Ht M1 M3) as (r & tv & ks & k & F1 & F2 & F3 & F4 & Ea1).
  assert (Hv : v = view_of r tv x).
  { destruct (entry_points _ _ _ _ _ _ _ Hov Ev) as (mw & x' & aw & G1 & G2 & G3 & G4).
    rewrite Hx in G2. injection G2 as <-. destruct (view_matrix _ _ _ _ _ _ Hw G1 G3) as (r' & t' & K1 & K2 & ->).
    rewrite F1 in K1. rewrite F2 in K2. injection K1 as <-. injection K2 as <-.
    rewrite vmul4_view, from_to_h in G4. congruence. }
  pose proof (calib_shape _ _ _ _ Hs F3 (batch_nth_In _ _ _ F4)) as Hsh.
  (* the camera-space projection is finite and has the same depth *)
  assert (Hcam : exists qc, from_h None (vmul4 (to_h v) (tr4 k)) = Some qc /\ z3 qc = z3 q).
  { destruct (in_ndc cs) eqn:En.
    - unfold ndc_camera_transform in Hn. rewrite En in Hn. injection Hn as <-. cbn in M2. injection M2 as <-.
      unfold batch_nth in M4. cbn in M4. injection M4 as <-. exists q. split; [|reflexivity].
      rewrite Hv, <- vmul4_view, <- vmul4_mul, <- Ea1. rewrite Eaa, mul4_1_r in Eqa. symmetry. exact Eqa.
    - destruct (ndc_camera_matrix _ _ _ _ _ _ En Hn M2 M4) as (ks' & k' & l & s & N1 & N2 & N3 & N4 & N5 & N6).
      assert (Hh : vmul4 (to_h x) a1 = vmul4 (to_h v) (tr4 k)) by (rewrite Hv, <- vmul4_view, <- vmul4_mul, <- Ea1; reflexivity).
      destruct (from_h None (vmul4 (to_h v) (tr4 k))) as [qc|] eqn:Eqc.
      + exists qc. split; [reflexivity|]. rewrite Eaa in Eqa. rewrite <- Hh in Eqc.
        rewrite (from_h_compose x a1 a2 qc Eqc), N6 in Eqa. injection Eqa as ->. reflexivity.
      + exfalso. (* w = 0 stays 0 through an affine map *)
        rewrite Eaa, vmul4_mul, Hh in Eqa. clear - Eqa Eqc N6. revert Eqa Eqc. generalize (vmul4 (to_h v) (tr4 k)). intros h Hq H0.
        assert (W : w4 h = 0). { unfold from_h, clamp_denom in H0. destruct (Reqb_spec (w4 h) 0); [assumption|discriminate]. }
        assert (A2 : forall p, w4 (vmul4 p a2) = n33 a2 * w4 p).
        { assert (B : forall p, exists q', from_h None (vmul4 (to_h p) a2) = Some q' /\ z3 q' = z3 p) by (intros p; eexists; split; [apply N6|reflexivity]).
          assert (Hcols : n03 a2 = 0 /\ n13 a2 = 0 /\ n23 a2 = 0).
          { assert (NZ : forall p, w4 (vmul4 (to_h p) a2) <> 0).
            { intros p E. destruct (B p) as (q' & E' & _). unfold from_h, clamp_denom in E'. rewrite E in E'. destruct (Reqb_spec 0 0); [discriminate|lra]. }
            assert (N33 : n33 a2 <> 0). { intros E. apply (NZ (V3 0 0 0)). unfold vmul4, to_h. cbm. rewrite E. ring. }
            repeat split.
            - destruct (Req_dec (n03 a2) 0) as [E|E]; [exact E|exfalso]. apply (NZ (V3 (- n33 a2 / n03 a2) 0 0)). unfold vmul4, to_h. cbm. field. exact E.
            - destruct (Req_dec (n13 a2) 0) as [E|E]; [exact E|exfalso]. apply (NZ (V3 0 (- n33 a2 / n13 a2) 0)). unfold vmul4, to_h. cbm. field. exact E.
            - destruct (Req_dec (n23 a2) 0) as [E|E]; [exact E|exfalso]. apply (NZ (V3 0 0 (- n33 a2 / n23 a2))). unfold vmul4, to_h. cbm. field. exact E. }
          destruct Hcols as (C1 & C2 & C3). intros p. unfold vmul4. cbm. rewrite C1, C2, C3. ring. }
        unfold from_h, clamp_denom in Hq. rewrite A2, W, Rmult_0_r in Hq. destruct (Reqb_spec 0 0); [discriminate|lra]. }
  destruct Hcam as (qc & Hqc & Hz).
  assert (Hqo : qo = Some q).
  { rewrite (HQ k qo HQo). pose proof (shape_z _ _ _ _ Hsh Hqc) as S. destruct q as [q1 q2 q3]. cbm. cbm_in Hz. rewrite Hz in S.
    destruct (cs_cls cs); try (destruct Hc; discriminate); unfold with_depth, inv_depth, set_z; cbm.
    - destruct S as (S1 & S2). destruct (Reqb_spec (z3 v) 0); [contradiction|]. rewrite S2. reflexivity.
    - rewrite S. reflexivity. }
  subst qo. apply (undo_point x q a b H1). symmetry. exact Eqa.
Qed.
