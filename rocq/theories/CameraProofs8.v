From Verif Require Import Base RBase Geom LinAlg Transform TransformSpec TransformProofs TransformProofs2 RotationSpec RotationProofs RotationProofs4 RotationProofs5 Camera CameraSpec CameraProofs CameraProofs2 CameraProofs3 CameraProofs4 CameraProofs5 CameraProofs6 CameraProofs7.
Local Open Scope R_scope.

Definition zero3 : vec3 := V3 0 0 0.
Definition simple_cam (c : intr) : cameras := Cams (cls_of c) [c] None [id3] [zero3] true None.

Lemma eval_persp cl fx fy px py r t b sz l :
  project None no_kw (Cams cl [Persp fx fy px py] None [r] [t] b sz) (P2 l) =
  (Cams cl [Persp fx fy px py] None [r] [t] b sz, Ok (P2 (map (fun x => pinhole (Persp fx fy px py) (view_of r t x)) l))).
Proof. eapply eval_project. reflexivity. Qed.

(* an R or T given to one call stays in the object *)
Lemma override_stays :
  ~ (forall kw cs p, snd (project None no_kw (fst (project None kw cs p)) p) = snd (project None no_kw cs p)).
Proof.
  intros H. specialize (H (Kw None None None (Some [V3 1 0 0]) None) (simple_cam (Persp 1 1 0 0)) (P2 [V3 0 0 1])).
  assert (E : fst (project None (Kw None None None (Some [V3 1 0 0]) None) (simple_cam (Persp 1 1 0 0)) (P2 [V3 0 0 1])) =
    Cams CPersp [Persp 1 1 0 0] None [id3] [V3 1 0 0] true None) by reflexivity.
  rewrite E in H. unfold simple_cam in H. cbn [cls_of] in H. rewrite !eval_persp in H. cbn [snd map] in H.
  injection H as H. unfold view_of, id3, zero3 in H. cbm_in H. cbn [pinhole] in H.
  destruct (Reqb_spec (0 * 0 + 0 * 0 + 1 * 1 + 0) 0) as [Z|Z]; [lra|]. injection H as H. 
  replace (0 * 0 + 0 * 0 + 1 * 1 + 0) with 1 in H by ring. unfold Rdiv in H. rewrite Rinv_1 in H. lra.
Qed.

(* transform_points of a screen-space camera is not transform_points_screen *)
Lemma screen_values_differ :
  ~ (forall cs p o o' i j q q', in_ndc cs = false -> snd (project None no_kw cs p) = Ok o -> snd (project_screen None true no_kw cs p) = Ok o' ->
       entry o i j = Some (Some q) -> entry o' i j = Some (Some q') -> x3 q = x3 q').
Proof.
  intros H. set (c := Persp 10 10 5 5). set (cs := Cams CPersp [c] None [id3] [zero3] false (Some [(10, 10)])).
  set (p := P2 [V3 1 1 1]).
  assert (E1 : snd (project None no_kw cs p) = Ok (P2 [pinhole c (view_of id3 zero3 (V3 1 1 1))])).
  { unfold cs, p, c. rewrite eval_persp. reflexivity. }
  assert (Ev : view_of id3 zero3 (V3 1 1 1) = V3 1 1 1) by (unfold view_of, id3, zero3; cbm; apply V3_eq; ring).
  assert (Ep : pinhole c (V3 1 1 1) = Some (V3 (10 * 1 / 1 + 5) (10 * 1 / 1 + 5) (1 / 1))) by (cbn [pinhole c]; destruct (Reqb_spec 1 0); [lra|reflexivity]).
  (* the NDC transform exists *)
  assert (Hs : exists u, screen_to_ndc 1 false (Some [(10, 10)]) = Ok u /\ get_matrix u <> Fail EValue /\ exists b, get_matrix u = Ok [b]).
  { unfold screen_to_ndc. cbn [ndc_to_screen map spread length Nat.eqb rbind]. set (t := mk_transform _).
    assert (Hm : get_matrix t = Ok [tr4 (screen_mat (10, 10))]) by reflexivity.
    destruct (inverse_parts_defined t (wf_mk _) _ Hm) as (u & Hu); [discriminate| |].
    { constructor; [|constructor]. assert (D : det4 (tr4 (screen_mat (10, 10))) = 25) by (unfold det4, adj4, det3, tr4, screen_mat; cbm; rewrite Rmin_left by lra; field). lra. }
    destruct (inverse_matrix false _ _ _ (wf_mk _) Hm Hu) as (ims & H1 & Hinv). exists u. split; [exact Hu|].
    assert (L : length ims = 1%nat) by (destruct Hinv as (L & _); cbn in L; lia). destruct ims as [|b [|b' ims]]; cbn in L; try lia.
    rewrite H1. split; [discriminate|]. exists b. reflexivity. }
  destruct Hs as (u & Hu & _ & b & Hb).
  assert (Hn : exists oq, snd (project_screen None true no_kw cs p) = Ok (P2 [oq])).
  { unfold project_screen, project_ndc. assert (Ef : exists t m, full_projection no_kw cs = (cs, Ok t) /\ get_matrix t = Ok [m]).
    { do 2 eexists. split; [reflexivity|]. reflexivity. }
    destruct Ef as (t & m & Ef & Em). rewrite Ef. cbn [rbind]. change (in_ndc cs) with false. cbn iota.
    assert (Enn : exists n mn, ndc_camera_transform no_kw cs = Ok n /\ get_matrix n = Ok [mn]).
    { unfold ndc_camera_transform. change (in_ndc cs) with false. cbn iota. unfold principal_point.
      assert (Epj : projection_transform no_kw cs = Ok (mk_transform [tr4 (M4 10 0 5 0 0 10 5 0 0 0 0 1 0 0 1 0)])) by reflexivity.
      rewrite Epj. cbn [rbind get_matrix mk_transform map spread length cs_n cs_int cs Nat.eqb].
      change (size_of no_kw cs) with (Some [(10, 10)]). rewrite Hu. cbn [rbind].
      do 2 eexists. split; [reflexivity|]. rewrite get_matrix_compose1, Hb. cbn [rbind get_matrix mk_transform map broadcast length Nat.eqb combine]. reflexivity. }
    destruct Enn as (n & mn & Enn & Emn). rewrite Enn. cbn [rbind]. unfold transform_points. rewrite get_matrix_compose1, Em, Emn.
    cbn [rbind broadcast length Nat.eqb combine map fst snd as_batch p reshape].
    cbn [ndc_to_screen size_of k_size no_kw cs_size cs map length cs_n cs_int spread Nat.eqb rbind].
    unfold transform_opt. rewrite get_matrix_compose1. cbn [get_matrix rbind map mk_transform repeat broadcast length Nat.eqb combine fst snd as_batch reshape]. eexists. reflexivity. }
  destruct Hn as (oq & Hn).
  destruct (project_screen_formula cs p (P2 [oq]) 0 0 oq eq_refl) with (2 := Hn) as (c' & r' & t' & x' & l & s & (C1 & C2 & C3) & Hx & Hl & Hsz & Eo).
  { intros c0 [<-|[]]. reflexivity. }
  { reflexivity. }
  cbn in C1, C2, C3, Hx, Hl. injection C1 as <-. injection C2 as <-. injection C3 as <-. injection Hx as <-. injection Hl as <-. cbn in Hsz. injection Hsz as <-.
  change (in_ndc cs) with false in Eo. cbn iota in Eo. rewrite Ev in Eo. unfold c in Eo. cbn [ndc_equivalent pinhole] in Eo.
  destruct (Reqb_spec 1 0) as [Z|Z]; [lra|]. cbn [option_map to_pixel] in Eo. cbm_in Eo. rewrite Rmin_left in Eo by lra.
  rewrite Ev, Ep in E1. subst oq.
  specialize (H cs p _ _ 0%nat 0%nat _ _ eq_refl E1 Hn eq_refl eq_refl). cbm_in H. 
  replace (10 / 2 - 10 / 2 * (10 / (10 / 2) * 1 / 1 + - (5 - 10 / 2) / (10 / 2))) with (-5) in H by field. lra.
Qed.

(* ---- unprojection caveats ---- *)
Definition k12 : mat4 := M4 1 0 0 0  0 1 0 0  0 0 2 (-2)  0 0 1 0.          (* near 1, far 2 *)
Definition k13 : mat4 := M4 1 0 0 0  0 1 0 0  0 0 (3/2) (-3/2)  0 0 1 0.    (* near 1, far 3 *)
Definition k12x2 : mat4 := M4 2 0 0 0  0 1 0 0  0 0 2 (-2)  0 0 1 0.
Definition unit_fov : intr := FoVPersp 1 2 1 1 false.
Lemma det_k12 : det4 (tr4 k12) <> 0. Proof. assert (D : det4 (tr4 k12) = 2) by (unfold det4, adj4, det3, tr4, k12; cbm; field). lra. Qed.
Lemma det_k13 : det4 (tr4 k13) <> 0. Proof. assert (D : det4 (tr4 k13) = 3 / 2) by (unfold det4, adj4, det3, tr4, k13; cbm; field). lra. Qed.
Lemma det3_id3 : det3 id3 <> 0. Proof. rewrite det3_id. lra. Qed.

Lemma points_defined t ms l : get_matrix t = Ok ms -> exists oq, transform_points None t (P2 l) = Ok oq.
Proof.
  intros Hm. unfold transform_points. rewrite Hm. cbn [rbind].
  edestruct (broadcast_defined (fun pts a => map (fun q => from_h None (vmul4 (to_h q) a)) pts) (as_batch (P2 l)) ms) as (c & ->); [cbn; auto|].
  cbn [rbind]. eexists; reflexivity.
Qed.
Lemma fov_kwargs_dropped :
  ~ (forall kw cs p oq q x xyd out o, cs_cls cs = CFoVPersp -> sound_call kw cs -> entry p 0 0 = Some x ->
      snd (project None kw cs p) = Ok oq -> entry oq 0 0 = Some (Some q) -> entry xyd 0 0 = Some q ->
      snd (unproject true true false kw cs xyd) = Ok out -> entry out 0 0 = Some o -> o = Some x).
Proof.
  intros H. set (cs := Cams CFoVPersp [unit_fov] (Some [k12]) [id3] [zero3] true None).
  set (kw := Kw None (Some [k12x2]) None None None). set (x := V3 1 0 1).
  assert (Hk : calib_list no_kw cs = Ok [k12]) by reflexivity.
  destruct (full_defined cs [k12]) as (t & ms & u & ims & Ht & Hm & Lm & Hu & Him & Hinv); auto.
  { unfold cams_wf, cs, cs_n. cbn. repeat split; intros l E; try discriminate; [injection E as <-; reflexivity|]. destruct E as [<-|[]]. reflexivity. }
  { intros r [<-|[]]. apply det3_id3. }
  { intros k [<-|[]]. apply det_k12. }
  set (q := V3 2 0 0).
  assert (Hp : snd (project None kw cs (P2 [x])) = Ok (P2 [Some q])).
  { assert (Ef : snd (full_projection kw cs) = Ok (compose (TR KGeneric (map rotate_mat [id3]) [TR KTranslate (map translate_mat [zero3]) []]) [mk_transform [tr4 k12x2]])) by reflexivity.
    unfold project. destruct (full_projection kw cs) as [cs' rt]. cbn [snd] in Ef |- *. subst rt. cbn [rbind]. unfold transform_points. rewrite get_matrix_compose1.
    cbn [get_matrix rbind map mk_transform broadcast length Nat.eqb combine fst snd as_batch reshape]. do 3 f_equal.
    rewrite vmul4_mul, vmul4_view. replace (view_of id3 zero3 x) with x by (unfold view_of, id3, zero3, x; cbm; apply V3_eq; ring).
    unfold from_h, clamp_denom, vmul4, to_h, tr4, k12x2, x. cbm. match goal with |- (if Reqb ?e 0 then _ else _) = _ => replace e with 1 by ring end.
    destruct (Reqb_spec 1 0); [lra|]. unfold q. f_equal. apply V3_eq; field. }
  set (xyd := P2 [q]).
  assert (Ho : exists out o, snd (unproject true true false kw cs xyd) = Ok out /\ entry out 0 0 = Some o /\ exists b, batch_nth ims 0 = Some b /\ o = from_h None (vmul4 (to_h q) b)).
  { unfold unproject. change (cs_cls cs) with CFoVPersp. cbn [full_or_view].
    destruct (full_projection no_kw cs) as [cs' rt]. cbn [snd] in *. subst rt. cbn [rbind]. rewrite Hu. cbn [rbind].
    destruct (transform_opt_defined u ims (pmap Some xyd) Him) as (out & Hout & Hent); [cbn; auto|].
    assert (L : length ims = 1%nat) by (destruct Hinv as (L & _); unfold cs_n in Lm; cbn in Lm; lia). destruct ims as [|b [|b' ims]]; cbn in L; try lia.
    exists out. eexists. split; [exact Hout|]. split; [apply (Hent 0%nat 0%nat (Some q) b); reflexivity|]. exists b. split; reflexivity. }
  destruct Ho as (out & o & Hout & Eo & b & Hb & Eob).
  assert (S : sound_call kw cs).
  { split; [intros c [<-|[]]; reflexivity|]. intros l k [E|E] Hin; injection E as <-; destruct Hin as [<-|[]]; unfold K_shape, k12, k12x2; cbm; cbn [cs_cls cs]; auto 10. }
  specialize (H kw cs (P2 [x]) _ q x xyd out o eq_refl S eq_refl Hp eq_refl eq_refl Hout Eo). rewrite H in Eob. symmetry in Eob.
  destruct (inv_batch_nth _ _ _ _ Hinv Hb) as (a & Ha & H1 & H2). pose proof (undo_point _ _ _ _ H2 Eob) as Hq.
  destruct (full_matrix _ _ _ _ _ _ Ht Hm Ha) as (r & tv & ks & k & F1 & F2 & F3 & F4 & ->).
  rewrite stored_no_kw in F1, F2. rewrite Hk in F3. injection F3 as <-. cbn in F1, F2, F4. injection F1 as <-. injection F2 as <-. injection F4 as <-.
  rewrite vmul4_mul, vmul4_view in Hq. replace (view_of id3 zero3 x) with x in Hq by (unfold view_of, id3, zero3, x; cbm; apply V3_eq; ring).
  unfold from_h, clamp_denom, vmul4, to_h, tr4, k12, x, q in Hq. cbm_in Hq.
  match type of Hq with (if Reqb ?e 0 then _ else _) = _ => replace e with 1 in Hq by ring end.
  destruct (Reqb_spec 1 0); [lra|]. injection Hq as E1 E2 E3. unfold Rdiv in E1. rewrite Rinv_1 in E1. lra.
Qed.

(* a (P,3) tensor with P = N > 1 pairs camera j with point j *)
Lemma flat_depths_mixed :
  ~ (forall cs p w ov v oq q x xyd out i j o,
      sound_call no_kw cs -> entry p i j = Some x ->
      snd (view_transform no_kw cs) = Ok w -> transform_points None w p = Ok ov -> entry ov i j = Some (Some v) ->
      snd (project None no_kw cs p) = Ok oq -> entry oq i j = Some (Some q) ->
      entry xyd i j = Some (V3 (x3 q) (y3 q) (z3 v)) ->
      snd (unproject true false false no_kw cs xyd) = Ok out -> entry out i j = Some o -> o = Some x).
Proof.
  intros H. set (cs := Cams CFoVPersp [unit_fov; unit_fov] (Some [k12; k13]) [id3; id3] [zero3; zero3] true None).
  set (x := V3 0 0 2). set (p := P2 [x; x]).
  assert (Hk : calib_list no_kw cs = Ok [k12; k13]) by reflexivity.
  destruct (full_defined cs [k12; k13]) as (t & ms & u & ims & Ht & Hm & Lm & Hu & Him & Hinv); auto.
  { unfold cams_wf, cs, cs_n. cbn. repeat split; intros l E; try discriminate; [injection E as <-; reflexivity|]. destruct E as [<-|[<-|[]]]; reflexivity. }
  { unfold cs, cs_n. cbn. lia. }
  { intros r [<-|[<-|[]]]; apply det3_id3. }
  { intros k [<-|[<-|[]]]; [apply det_k12|apply det_k13]. }
  assert (Vx : view_of id3 zero3 x = x) by (unfold view_of, id3, zero3, x; cbm; apply V3_eq; ring).
  assert (Hw : exists w, snd (view_transform no_kw cs) = Ok w /\ get_matrix w = Ok (map (fun _ => mul4 (rotate_mat id3) (translate_mat zero3)) [tt; tt])) by (eexists; split; reflexivity).
  destruct Hw as (w & Hw & Hwm).
  assert (Hov : exists ov, transform_points None w p = Ok ov /\ entry ov 0 1 = Some (Some x)).
  { unfold transform_points. rewrite Hwm. cbn [rbind map p as_batch broadcast length Nat.eqb reshape]. eexists. split; [reflexivity|].
    cbn [entry as_batch batch_nth length Nat.eqb nth_error]. rewrite vmul4_view, from_to_h, Vx. reflexivity. }
  destruct Hov as (ov & Hov & Eov).
  set (q := V3 0 0 1).
  assert (P0 : from_h None (vmul4 (to_h x) (tr4 k12)) = Some q).
  { unfold from_h, clamp_denom, vmul4, to_h, tr4, k12, x. cbm. match goal with |- (if Reqb ?e 0 then _ else _) = _ => replace e with 2 by ring end.
    destruct (Reqb_spec 2 0); [lra|]. unfold q. f_equal. apply V3_eq; field. }
  assert (Hp : exists oq, snd (project None no_kw cs p) = Ok oq).
  { unfold project. destruct (full_projection no_kw cs) as [cs' rt]. cbn [snd] in *. subst rt. cbn [rbind]. eapply points_defined. exact Hm. }
  destruct Hp as (oq & Hp).
  assert (Eoq : entry oq 0 1 = Some (Some q)).
  { destruct (project_ok _ _ _ _ Hp) as (t' & Ht' & Hpt). rewrite Ht in Ht'. injection Ht' as <-.
    unfold transform_points in Hpt. rewrite Hm in Hpt. cbn [rbind] in Hpt.
    destruct (broadcast _ (as_batch p) ms) as [c|] eqn:Ec; cbn [rbind] in Hpt; [|discriminate].
    assert (Er : oq = reshape p c) by congruence. rewrite Er.
    destruct (batch_some ms 0) as (a & Ha); [rewrite Lm; unfold cs_n, cs; cbn; lia|].
    pose proof (broadcast_batch_conv _ _ _ _ 0 [x; x] a Ec eq_refl Ha) as Hc. unfold entry. rewrite as_batch_reshape, Hc. cbn [map nth_error]. f_equal.
    destruct (full_matrix _ _ _ _ _ _ Ht Hm Ha) as (r & tv & ks & k & F1 & F2 & F3 & F4 & ->).
    rewrite stored_no_kw in F1, F2. rewrite Hk in F3. injection F3 as <-. cbn in F1, F2, F4. injection F1 as <-. injection F2 as <-. injection F4 as <-.
    rewrite vmul4_mul, vmul4_view, Vx. exact P0. }
  set (xyd := P2 [V3 0 0 2; V3 0 0 2]). set (q' := V3 0 0 (3/4)).
  assert (Ho : exists out o, snd (unproject true false false no_kw cs xyd) = Ok out /\ entry out 0 1 = Some o /\ exists b, batch_nth ims 0 = Some b /\ o = from_h None (vmul4 (to_h q') b)).
  { unfold unproject. change (cs_cls cs) with CFoVPersp. cbn [full_or_view].
    assert (Ep : projection_transform no_kw (fst (full_projection no_kw cs)) = Ok (mk_transform [tr4 k12; tr4 k13])) by reflexivity.
    destruct (full_projection no_kw cs) as [cs' rt]. cbn [fst snd] in *. subst rt. cbn [rbind]. rewrite Ep. cbn [rbind get_matrix mk_transform].
    cbn [scale_depth xyd length Nat.eqb combine map fst snd rbind]. rewrite Hu. cbn [rbind].
    match goal with |- context [transform_opt None u ?Q] => set (QQ := Q) end.
    destruct (transform_opt_defined u ims QQ Him) as (out & Hout & Hent); [cbn; auto|].
    destruct (batch_some ims 0) as (b & Hb). { destruct Hinv as (L & _). rewrite <- L, Lm. unfold cs_n, cs. cbn. lia. }
    assert (EQ : entry QQ 0 1 = Some (Some q')).
    { unfold QQ, entry. cbn [as_batch batch_nth length Nat.eqb nth_error]. unfold persp_depth, set_z, tr4, k13. cbm. destruct (Reqb_spec 2 0); [lra|].
      unfold q'. do 2 f_equal. apply V3_eq; field. }
    exists out. eexists. split; [exact Hout|]. split; [apply (Hent 0%nat 1%nat (Some q') b EQ Hb)|]. exists b. split; [exact Hb|reflexivity]. }
  destruct Ho as (out & o & Hout & Eo & b & Hb & Eob).
  assert (S : sound_call no_kw cs).
  { split; [intros c [<-|[<-|[]]]; reflexivity|]. intros l k [E|E] Hin; [|discriminate]. injection E as <-; destruct Hin as [<-|[<-|[]]]; unfold K_shape, k12, k13; cbm; cbn [cs_cls cs]; auto 10. }
  specialize (H cs p w ov x oq q x xyd out 0%nat 1%nat o S eq_refl Hw Hov Eov Hp Eoq eq_refl Hout Eo). rewrite H in Eob. symmetry in Eob.
  destruct (inv_batch_nth _ _ _ _ Hinv Hb) as (a & Ha & H1 & H2). pose proof (undo_point _ _ _ _ H2 Eob) as Hq.
  destruct (full_matrix _ _ _ _ _ _ Ht Hm Ha) as (r & tv & ks & k & F1 & F2 & F3 & F4 & ->).
  rewrite stored_no_kw in F1, F2. rewrite Hk in F3. injection F3 as <-. cbn in F1, F2, F4. injection F1 as <-. injection F2 as <-. injection F4 as <-.
  rewrite vmul4_mul, vmul4_view, Vx, P0 in Hq. unfold q, q' in Hq. injection Hq as E. lra.
Qed.
Lemma ortho_flat_fails world nd kw cs l : cs_cls cs = CFoVOrtho -> exists e, snd (unproject world false nd kw cs (P2 l)) = Fail e.
Proof.
  intros Hc. unfold unproject. rewrite Hc. destruct (full_or_view world kw cs) as [cs' rt]. cbn [snd].
  destruct rt as [t|]; cbn [rbind]; [|eauto]. destruct (projection_transform kw cs') as [pt|]; cbn [rbind]; [|eauto].
  destruct (get_matrix pt) as [km|]; cbn [rbind scale_depth]; eauto.
Qed.

(* ---- look_at without the length conditions ---- *)
Lemma look_at_short_up : ~ (forall pos at_ up, pos <> at_ -> cross3 up (sub3 at_ pos) <> V3 0 0 0 -> rotation (look_at_rotation pos at_ up)).
Proof.
  intros H. specialize (H (V3 0 0 0) (V3 0 0 1) (V3 0 (/ 1000000) 0)).
  assert (R : rotation (look_at_rotation (V3 0 0 0) (V3 0 0 1) (V3 0 (/ 1000000) 0))).
  { apply H; [intros E; injection E; lra|]. unfold cross3, sub3. cbm. intros E. injection E as E. lra. }
  apply rotation_rel in R. pose proof (k0 _ R) as K0. clear R.
  assert (Ez : norm5 (sub3 (V3 0 0 1) (V3 0 0 0)) = V3 0 0 1).
  { unfold sub3. cbm. replace (V3 (0 - 0) (0 - 0) (1 - 0)) with (V3 0 0 1) by (apply V3_eq; ring). apply unit_norm5. unfold dot3. cbm. ring. }
  assert (Ex : norm5 (cross3 (V3 0 (/ 1000000) 0) (V3 0 0 1)) = V3 (/ 10) 0 0).
  { assert (E : cross3 (V3 0 (/ 1000000) 0) (V3 0 0 1) = V3 (/ 1000000) 0 0) by (unfold cross3; cbm; apply V3_eq; ring). rewrite E.
    unfold norm5. rewrite (norm3_unique _ (/ 1000000)); [|lra|unfold dot3; cbm; ring]. rewrite Rmax_right by lra. unfold scal3. cbm. apply V3_eq; field. }
  unfold look_at_rotation in K0. rewrite Ez, Ex in K0. cbm_in K0.
  destruct (near0 (/ 10)) eqn:En; [unfold near0 in En; apply Rleb_true in En; rewrite Rabs_pos_eq in En; lra|].
  cbn [andb] in K0. cbm_in K0. lra.
Qed.
Lemma look_at_parallel_up : look_at_rotation (V3 0 0 0) (V3 0 0 1) (V3 0 0 1) = M3 0 0 0 0 0 0 0 0 1.
Proof.
  assert (Ez : norm5 (sub3 (V3 0 0 1) (V3 0 0 0)) = V3 0 0 1).
  { unfold sub3. cbm. replace (V3 (0 - 0) (0 - 0) (1 - 0)) with (V3 0 0 1) by (apply V3_eq; ring). apply unit_norm5. unfold dot3. cbm. ring. }
  assert (Ec : cross3 (V3 0 0 1) (V3 0 0 1) = V3 0 0 0) by (unfold cross3; cbm; apply V3_eq; ring).
  assert (E0 : norm5 (V3 0 0 0) = V3 0 0 0) by (unfold norm5, scal3; cbm; apply V3_eq; ring).
  unfold look_at_rotation. rewrite Ez, Ec, E0.
  assert (Ec2 : cross3 (V3 0 0 1) (V3 0 0 0) = V3 0 0 0) by (unfold cross3; cbm; apply V3_eq; ring). rewrite Ec2, E0. cbm.
  assert (N : near0 0 = true) by (unfold near0; rewrite Rabs_R0; apply Rleb_true; lra). rewrite N. cbn [andb].
  assert (Ec3 : cross3 (V3 0 0 0) (V3 0 0 1) = V3 0 0 0) by (unfold cross3; cbm; apply V3_eq; ring). rewrite Ec3, E0. reflexivity.
Qed.

(* ---- view frustum ---- *)
Lemma fov_depth n f fov asp deg x y z q : 0 < n < f -> pinhole (FoVPersp n f fov asp deg) (V3 x y z) = Some q -> 0 < z ->
  (0 <= z3 q <-> n <= z) /\ (z3 q <= 1 <-> z <= f) /\
  forall x' y' z' q', pinhole (FoVPersp n f fov asp deg) (V3 x' y' z') = Some q' -> 0 < z' -> (z < z' <-> z3 q < z3 q').
Proof.
  intros Hn H Hz. cbn [pinhole] in H. destruct (Reqb_spec z 0) as [E|E]; [lra|]. injection H as <-. cbm.
  assert (D : 0 < (f - n) * z) by (apply Rmult_lt_0_compat; lra).
  assert (P : forall u, (0 <= u / ((f - n) * z) <-> 0 <= u)).
  { intros u. split; intros H.
    - replace u with (u / ((f - n) * z) * ((f - n) * z)) by (field; lra). apply Rmult_le_pos; lra.
    - apply Rmult_le_pos; [exact H|]. left. apply Rinv_0_lt_compat. exact D. }
  split; [|split].
  - rewrite P. split; intros H; nra.
  - assert (X : f * (z - n) / ((f - n) * z) <= 1 <-> 0 <= (n * (f - z)) / ((f - n) * z)).
    { replace (n * (f - z) / ((f - n) * z)) with (1 - f * (z - n) / ((f - n) * z)) by (field; lra). lra. }
    rewrite X, P. split; intros H; nra.
  - intros x' y' z' q' H Hz'. cbn [pinhole] in H. destruct (Reqb_spec z' 0) as [E'|E']; [lra|]. injection H as <-. cbm.
    assert (X : f * (z' - n) / ((f - n) * z') - f * (z - n) / ((f - n) * z) = (f * n * / ((f - n) * z * z')) * (z' - z)) by (field; lra).
    assert (Y : 0 < f * n * / ((f - n) * z * z')).
    { apply Rmult_lt_0_compat; [nra|]. apply Rinv_0_lt_compat. apply Rmult_lt_0_compat; [exact D|exact Hz']. }
    split; intros H; nra.
Qed.

(* ---- OpenCV export of a screen-space camera ---- *)
Lemma opencv_screen_space : exists fx fy px py r t h w r' t' k x q,
  opencv_from_cameras (Persp fx fy px py) r t (h, w) = Ok (r', t', k) /\
  option_map (to_pixel (h, w)) (pinhole (ndc_equivalent (h, w) (Persp fx fy px py)) (view_of r t x)) = Some q /\
  x3 q <> fst (opencv_pixel k (opencv_cam r' t' x)).
Proof.
  exists 10, 10, 5, 5, id3, zero3, 10, 10. do 3 eexists. exists (V3 1 1 1). eexists.
  split; [reflexivity|].
  assert (Ev : view_of id3 zero3 (V3 1 1 1) = V3 1 1 1) by (unfold view_of, id3, zero3; cbm; apply V3_eq; ring).
  rewrite Ev. cbn [ndc_equivalent pinhole]. destruct (Reqb_spec 1 0); [lra|]. split; [cbn [option_map to_pixel]; reflexivity|].
  cbm. rewrite Rmin_left by lra. unfold opencv_pixel, opencv_cam, tr3, neg_xy_cols, id3, zero3. cbm. cbn [fst].
  match goal with |- ?a <> ?b => replace a with (-5) by field; replace b with (-70) by field end. lra.
Qed.
