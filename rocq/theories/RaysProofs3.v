(* Bundles: rays through their pixels, existence, unit directions. *)
From Verif Require Import Base Packing RBase Geom GeomProofs LinAlg Transform TransformSpec TransformProofs TransformProofs2 Camera CameraSpec CameraProofs CameraProofs2 CameraProofs3 CameraProofs4 CameraProofs5 Implicit ImplicitSpec ImplicitProofs3 Rays RaysSpec RaysProofs RaysProofs2.
Local Open Scope R_scope.

Lemma ndc_camera_of cs i c0 c r t : camera_at cs i c0 r t -> ndc_intr cs i c0 c -> ndc_camera cs i c r t.
Proof.
  intros H1 H2. exists c0. split; [exact H1|]. unfold ndc_intr in H2. destruct (in_ndc cs); [exact H2|].
  destruct H2 as (l & s & E1 & E2 & E3 & _). exists l, s. auto.
Qed.
Lemma ndc_camera_fun cs i c r t c' r' t' : ndc_camera cs i c r t -> ndc_camera cs i c' r' t' -> c = c' /\ r = r' /\ t = t'.
Proof.
  intros (c0 & (A1 & A2 & A3) & A4) (c0' & (B1 & B2 & B3) & B4).
  assert (c0 = c0') by congruence. assert (r = r') by congruence. assert (t = t') by congruence. subst. split; [|auto].
  destruct (in_ndc cs); [congruence|]. destruct A4 as (l & s & E1 & E2 & ->). destruct B4 as (l' & s' & F1 & F2 & ->). congruence.
Qed.

(* the ray before normalisation *)
Lemma raw_ray unit lo hi npts jitter cs xys B i j row ry o :
  cams_wf cs -> cs_K cs = None -> (forall c, In c (cs_int cs) -> regular c) ->
  xy_to_ray_bundle unit lo hi npts jitter cs xys = Ok B ->
  nth_error B i = Some row -> nth_error row j = Some ry -> origin ry = Some o ->
  exists l p c r t d, nth_error xys i = Some l /\ nth_error l j = Some p /\ xy ry = p /\ ndc_camera cs i c r t /\
    direction ry = Some (if unit then normalize d else d) /\
    lengths ry = ray_depths lo hi npts (option_map (fun f => f i j) jitter) /\
    (perspective c -> view_of r t o = V3 0 0 0) /\
    forall z, z3 (view_of r t (along o d z)) = z /\ ((perspective c -> z <> 0) -> seen_at c (view_of r t (along o d z)) p).
Proof.
  intros W HK Hreg H Hi Hj Ho.
  destruct (bundle_entry _ _ _ _ _ _ _ _ _ _ _ _ H Hi Hj) as (l & p & u & p1 & p2 & E1 & E2 & E3 & E4 & E5 & ->).
  unfold make_ray in *. cbn [origin direction xy lengths] in *.
  destruct p1 as [a|]; [|discriminate]. destruct p2 as [b|]; [|discriminate]. cbn [lift2 option_map] in *. injection Ho as <-.
  destruct (flat_entry _ _ _ _ _ E1 E2) as (F1 & F2).
  destruct (unproject_ndc_view _ _ _ _ _ _ _ W HK Hreg E3 F1 E4) as (c0 & c & r & t & G1 & G2 & G3 & G4 & G5 & G6).
  destruct (unproject_ndc_view _ _ _ _ _ _ _ W HK Hreg E3 F2 E5) as (c0' & c' & r' & t' & K1 & K2 & K3 & K4 & K5 & K6).
  pose proof (ndc_camera_of _ _ _ _ _ _ G1 G2) as N. pose proof (ndc_camera_of _ _ _ _ _ _ K1 K2) as N'.
  destruct (ndc_camera_fun _ _ _ _ _ _ _ _ N N') as (<- & <- & <-).
  exists l, p, c, r, t, (vsub b a). split; [exact E1|]. split; [exact E2|]. split; [reflexivity|]. split; [exact N|].
  split; [destruct unit; reflexivity|]. split; [reflexivity|]. cbm_in G5. cbm_in K5. cbm_in G6. cbm_in K6.
  assert (Ep : (fst p, snd p) = p) by (destruct p; reflexivity). rewrite Ep in G6, K6.
  split.
  - intros Hp. destruct (ray_geometry c _ _ p 0 G3 G5 K5 G6 K6) as (_ & J & _). specialize (J Hp).
    assert (Ea : along (vsub a (vsub b a)) (vsub b a) 0 = vsub a (vsub b a)) by (unfold along, vsub; cbm; apply V3_eq; ring).
    rewrite <- Ea, two_planes, J. apply V3_eq; ring.
  - intros z. rewrite two_planes. destruct (ray_geometry c _ _ p z G3 G5 K5 G6 K6) as (J1 & _ & J2). auto.
Qed.

Lemma rays_through_pixels lo hi npts jitter cs xys B i j row ry o d :
  cams_wf cs -> cs_K cs = None -> (forall c, In c (cs_int cs) -> regular c) ->
  xy_to_ray_bundle false lo hi npts jitter cs xys = Ok B ->
  nth_error B i = Some row -> nth_error row j = Some ry -> origin ry = Some o -> direction ry = Some d ->
  exists l p c r t, nth_error xys i = Some l /\ nth_error l j = Some p /\ xy ry = p /\ ndc_camera cs i c r t /\
    (perspective c -> view_of r t o = V3 0 0 0) /\
    forall z, z3 (view_of r t (along o d z)) = z /\ ((perspective c -> z <> 0) -> seen_at c (view_of r t (along o d z)) p).
Proof.
  intros W HK Hreg H Hi Hj Ho Hd.
  destruct (raw_ray _ _ _ _ _ _ _ _ _ _ _ _ _ W HK Hreg H Hi Hj Ho) as (l & p & c & r & t & d' & E1 & E2 & E3 & E4 & E5 & E6 & E7 & E8).
  rewrite Hd in E5. injection E5 as <-. exists l, p, c, r, t. auto 10.
Qed.

(* at the level of the API: projecting the points back *)
Lemma rays_project_back lo hi npts jitter cs xys B i j row ry o d z pts m oq res :
  cams_wf cs -> cs_K cs = None -> (forall c, In c (cs_int cs) -> regular c) ->
  xy_to_ray_bundle false lo hi npts jitter cs xys = Ok B ->
  nth_error B i = Some row -> nth_error row j = Some ry -> origin ry = Some o -> direction ry = Some d -> z <> 0 ->
  entry pts i m = Some (along o d z) -> snd (project_ndc None no_kw cs pts) = Ok oq -> entry oq i m = Some res ->
  exists q, res = Some q /\ x3 q = fst (xy ry) /\ y3 q = snd (xy ry).
Proof.
  intros W HK Hreg H Hi Hj Ho Hd Hz Hp Hq Hr.
  destruct (rays_through_pixels _ _ _ _ _ _ _ _ _ _ _ _ _ W HK Hreg H Hi Hj Ho Hd) as (l & p & c & r & t & E1 & E2 & E3 & E4 & E5 & E6).
  destruct (project_ndc_formula cs pts oq i m res HK (proj2 (proj2 (proj2 (proj2 W)))) Hq Hr) as (c0 & r0 & t0 & x & C1 & C2 & C3).
  rewrite Hp in C2. injection C2 as <-.
  assert (N : exists c', ndc_camera cs i c' r0 t0 /\ res = pinhole c' (view_of r0 t0 (along o d z))).
  { destruct C3 as [(En & ->)|(En & sz & s & S1 & S2 & S3 & ->)].
    - exists c0. split; [|reflexivity]. exists c0. split; [exact C1|]. rewrite En. reflexivity.
    - exists (ndc_equivalent s c0). split; [|reflexivity]. exists c0. split; [exact C1|]. rewrite En. exists sz, s. auto. }
  destruct N as (c' & N1 & ->). destruct (ndc_camera_fun _ _ _ _ _ _ _ _ E4 N1) as (<- & <- & <-).
  destruct (E6 z) as (_ & S). destruct (S (fun _ => Hz)) as (q & Q1 & Q2 & Q3). exists q. rewrite E3. auto.
Qed.

(* existence *)
Lemma bundle_defined unit lo hi npts jitter cs xys :
  cams_wf cs -> cs_K cs = None -> (0 < cs_n cs)%nat -> (forall c, In c (cs_int cs) -> regular c) ->
  (forall r, In r (cs_R cs) -> det3 r <> 0) ->
  (in_ndc cs = false -> exists l, cs_size cs = Some l /\ forall s, In s l -> scale_of s <> 0) ->
  length xys = cs_n cs ->
  exists B, xy_to_ray_bundle unit lo hi npts jitter cs xys = Ok B /\
    map (map xy) B = xys /\
    Forall (Forall (fun ry => (exists o, origin ry = Some o) /\ (exists d, direction ry = Some d))) B.
Proof.
  intros W HK Hn Hreg HR Hs Hl.
  assert (Lf : length (flat_points xys) = cs_n cs) by (unfold flat_points; rewrite map_length; exact Hl).
  destruct (unproject_ndc_defined cs (flat_points xys) W HK Hn Hreg HR Hs Lf) as (out & Hu & He).
  destruct (unproject_len _ _ _ W Lf Hu) as (rows & -> & Lr).
  unfold xy_to_ray_bundle. cbv zeta. fold (flat_points xys). rewrite Hu. cbn [rbind]. rewrite Lr, Hl, Nat.eqb_refl. cbn [negb].
  eexists. split; [reflexivity|].
  assert (Row : forall i l row, nth_error xys i = Some l -> nth_error rows i = Some row ->
     forall j p, nth_error l j = Some p -> (exists X, nth_error row j = Some (Some X)) /\ (exists X, nth_error row (length l + j) = Some (Some X))).
  { intros i l row Hxl Hrow j p Hjp. destruct (flat_entry _ _ _ _ _ Hxl Hjp) as (F1 & F2).
    assert (Hi : (i < cs_n cs)%nat) by (rewrite <- Hl; apply nth_error_Some; congruence).
    assert (Eb : batch_nth rows i = Some row).
    { unfold batch_nth. destruct (length rows =? 1)%nat eqn:E; [|exact Hrow]. apply Nat.eqb_eq in E. replace 0%nat with i by lia. exact Hrow. }
    destruct (He i j _ F1 Hi ltac:(cbm; lra)) as (X & HX). destruct (He i _ _ F2 Hi ltac:(cbm; lra)) as (Y & HY).
    unfold entry in HX, HY. cbn [as_batch] in HX, HY. rewrite Eb in HX, HY. eauto. }
  assert (RL : forall i l row, nth_error xys i = Some l -> nth_error rows i = Some row -> l <> [] -> (length l + length l <= length row)%nat).
  { intros i l row Hxl Hrow Hne. assert (Hll : (0 < length l)%nat) by (destruct l; [contradiction|cbn; lia]).
    destruct (nth_error l (length l - 1)) as [p|] eqn:Ep; [|apply nth_error_None in Ep; lia].
    destruct (Row _ _ _ Hxl Hrow _ _ Ep) as (_ & X & HX). assert (length l + (length l - 1) < length row)%nat by (apply nth_error_Some; congruence). lia. }
  split.
  - apply nth_error_ext. intros i. rewrite map_map, nth_error_map. destruct (nth_error xys i) as [l|] eqn:Ex.
    + assert (Hi : (i < length xys)%nat) by (apply nth_error_Some; congruence).
      destruct (nth_error rows i) as [row|] eqn:Er; [|apply nth_error_None in Er; lia].
      rewrite (proj2 (nth_error_combine (combine (seq 0 (cs_n cs)) xys) rows i (i, l) row)).
      2:{ split; [|exact Er]. apply nth_error_combine. split; [rewrite nth_error_seq_lt by lia; reflexivity|exact Ex]. }
      cbn [option_map]. f_equal. unfold rays_of. rewrite map_map. apply nth_error_ext. intros j. rewrite nth_error_map.
      destruct (nth_error l j) as [p|] eqn:Ep.
      * assert (Hj : (j < length l)%nat) by (apply nth_error_Some; congruence).
        destruct (Row _ _ _ Ex Er _ _ Ep) as ((X & HX) & (Y & HY)).
        rewrite (proj2 (nth_error_combine _ _ j (j, p, Some X) (Some Y))).
        2:{ split; [|rewrite nth_error_skipn; exact HY]. apply nth_error_combine. split.
            - apply nth_error_combine. split; [rewrite nth_error_seq_lt by lia; reflexivity|exact Ep].
            - rewrite nth_error_firstn. apply Nat.ltb_lt in Hj. rewrite Hj. exact HX. }
        reflexivity.
      * apply nth_error_None in Ep. assert (En : nth_error (combine (combine (combine (seq 0 (length l)) l) (firstn (length l) row)) (skipn (length l) row)) j = None).
        { apply nth_error_None. rewrite !combine_length. lia. }
        rewrite En. reflexivity.
    + apply nth_error_None in Ex. assert (En : nth_error (combine (combine (seq 0 (cs_n cs)) xys) rows) i = None).
      { apply nth_error_None. rewrite !combine_length. lia. }
      rewrite En. reflexivity.
  - apply Forall_forall. intros row' Hrow'. apply in_map_iff in Hrow' as ([[b l] row] & <- & Hin).
    apply In_nth_error in Hin as (i & Hin). apply nth_error_combine in Hin as (Hin & Er). apply nth_error_combine in Hin as (_ & Ex).
    apply Forall_forall. intros ry Hry. unfold rays_of in Hry. apply in_map_iff in Hry as ([[[j p] p1] p2] & <- & Hin).
    apply In_nth_error in Hin as (jj & Hin). apply nth_error_combine in Hin as (Hin & E2). apply nth_error_combine in Hin as (Hin & E1).
    apply nth_error_combine in Hin as (_ & Ep). destruct (Row _ _ _ Ex Er _ _ Ep) as ((X & HX) & (Y & HY)).
    rewrite nth_error_skipn, HY in E2. injection E2 as <-. rewrite nth_error_firstn in E1.
    destruct (jj <? length l)%nat; [|discriminate]. rewrite HX in E1. injection E1 as <-. cbn [origin direction lift2].
    split; [eauto|]. destruct unit; cbn; eauto.
Qed.

(* unit directions *)
Lemma orthogonal_len r d : orthogonal r ->
  x3 d * x3 d + y3 d * y3 d + z3 d * z3 d =
  (x3 d * m00 r + y3 d * m10 r + z3 d * m20 r) ^ 2 + (x3 d * m01 r + y3 d * m11 r + z3 d * m21 r) ^ 2 + (x3 d * m02 r + y3 d * m12 r + z3 d * m22 r) ^ 2.
Proof.
  unfold orthogonal. destruct r as [a b c e f g h i k]. destruct d as [x y z]. unfold mul3, tr3, id3. cbm. intros H. injection H as H1 H2 H3 H4 H5 H6 H7 H8 H9.
  replace (x * x + y * y + z * z) with (x * x * 1 + y * y * 1 + z * z * 1 + 2 * (x * y * 0 + x * z * 0 + y * z * 0)) by ring.
  rewrite <- H1 at 1. rewrite <- H5 at 1. rewrite <- H9 at 1. rewrite <- H2 at 1. rewrite <- H3 at 1. rewrite <- H6 at 1. ring.
Qed.
