From Verif Require Import Base RBase Geom LinAlg Transform TransformSpec TransformProofs TransformProofs2 Camera CameraSpec CameraProofs.
Local Open Scope R_scope.

Lemma undo_entry t u ms Q out i j o :
  wf t -> get_matrix t = Ok ms -> inverse false t = Ok u -> transform_opt None u Q = Ok out ->
  entry out i j = Some o ->
  exists a b qo, batch_nth ms i = Some a /\ mul4 a b = id4 /\ mul4 b a = id4 /\ entry Q i j = Some qo /\
    o = match qo with Some q => from_h None (vmul4 (to_h q) b) | None => None end.
Proof.
  intros Hwf Hm Hu Ht Ho. destruct (inverse_matrix _ _ _ _ Hwf Hm Hu) as (ims & Hi & Hinv).
  destruct (entry_opt _ _ _ _ _ _ _ Ht Ho) as (ms' & q & b & E1 & E2 & E3 & ->).
  rewrite Hi in E1. injection E1 as <-.
  destruct (inv_batch_nth _ _ _ _ Hinv E3) as (a & Ea & H1 & H2). exists a, b, q. auto.
Qed.

Definition depth_fun (c : cls) : mat4 -> vec3 -> option vec3 :=
  match c with CFoVPersp => persp_depth | _ => ortho_depth end.
Lemma scale_batch_broadcast f km l o : scale_batch f km l = Ok o ->
  broadcast (fun a l => map (f a) l) km l = Ok o.
Proof.
  unfold scale_batch, broadcast. destruct (length km =? length l)%nat; [auto|].
  destruct km as [|a [|b km]]; try discriminate. auto.
Qed.
Lemma scale_entry c km p q i j o :
  scale_depth c km p = Ok q -> (c = CFoVPersp -> match p with P2 _ => length km = 1%nat | _ => True end) ->
  entry q i j = Some o ->
  exists a x, batch_nth km i = Some a /\ entry p i j = Some x /\ o = depth_fun c a x.
Proof.
  intros H Hs Ho. destruct p as [l|l]; cbn [scale_depth] in H.
  - destruct c; try discriminate. specialize (Hs eq_refl). cbn in Hs.
    destruct km as [|a [|b km]]; try discriminate.
    assert (E : q = P2 (map (persp_depth a) l)).
    { destruct (length [a] =? length l)%nat eqn:E.
      - apply Nat.eqb_eq in E. destruct l as [|x [|y l]]; try discriminate. cbn [combine map length Nat.eqb fst snd] in H. cbn [map]. congruence.
      - congruence. }
    subst q. cbn in Ho. unfold entry in *. cbn [as_batch] in *. unfold batch_nth in Ho. cbn [length Nat.eqb nth_error] in Ho.
    rewrite nth_error_map in Ho. unfold batch_nth. cbn [length Nat.eqb nth_error].
    destruct (nth_error l j) as [x|]; [|discriminate]. cbn in Ho. injection Ho as <-. exists a, x. auto.
  - assert (K : exists o', scale_batch (depth_fun c) km l = Ok o' /\ q = P3 o').
    { unfold depth_fun. destruct c; cbn [scale_depth] in H;
        match type of H with (rbind ?b _) = _ => destruct b as [o'|]; cbn [rbind] in H; [|discriminate] end;
        injection H as <-; exists o'; auto. }
    destruct K as (o' & K1 & ->). apply scale_batch_broadcast in K1. unfold entry in *. cbn [as_batch] in *.
    destruct (batch_nth o' i) as [ol|] eqn:Eo; [|discriminate].
    destruct (broadcast_batch_nth _ _ _ _ _ _ K1 Eo) as (a & pl & H1 & H2 & ->).
    rewrite nth_error_map in Ho. rewrite H2. destruct (nth_error pl j) as [x|]; [|discriminate].
    cbn in Ho. injection Ho as <-. exists a, x. auto.
Qed.

(* the value handed to the inverse transform for a point with the given depth *)
Definition with_depth (c : cls) (k : mat4) (p : vec3) : option vec3 :=
  match c with
  | CFoVPersp => if Reqb (z3 p) 0 then None else Some (set_z p ((n22 k * z3 p + n23 k) / z3 p))
  | CFoVOrtho => Some (set_z p (n22 k * z3 p + n23 k))
  | CPersp => inv_depth p
  | COrtho => Some p
  end.
Lemma with_depth_ok c k v q : K_shape c k -> from_h None (vmul4 (to_h v) (tr4 k)) = Some q ->
  with_depth c k (V3 (x3 q) (y3 q) (z3 v)) = Some q.
Proof.
  intros Hs H. pose proof (shape_z _ _ _ _ Hs H) as Hz. destruct q as [a b d]. cbm. cbm_in Hz.
  destruct c; unfold with_depth, inv_depth, set_z; cbm.
  - destruct Hz as (Hz & E). destruct (Reqb_spec (z3 v) 0); [contradiction|]. rewrite E. reflexivity.
  - rewrite Hz. reflexivity.
  - destruct Hz as (Hz & E). destruct (Reqb_spec (z3 v) 0); [contradiction|]. rewrite E. reflexivity.
  - rewrite Hz. reflexivity.
Qed.

Lemma calib_len kw cs ks : calib_list kw cs = Ok ks -> k_int kw = None -> length ks = cs_n cs.
Proof.
  unfold calib_list. intros H E. rewrite E in H. destruct (match k_K kw with Some k => Some k | None => cs_K cs end).
  - destruct (length l =? cs_n cs)%nat eqn:EE; [|discriminate]. injection H as <-. apply Nat.eqb_eq. exact EE.
  - apply rmap_Forall2 in H. symmetry. eapply Forall2_length. exact H.
Qed.


Lemma stored_no_kw cs : stored no_kw cs = cs.
Proof. destruct cs; reflexivity. Qed.

(* one shape for all classes: the transform t, its inverse u, the depth conversion *)
Lemma unproject_cases world kw cs xyd out : kw_ok kw cs ->
  snd (unproject world false false kw cs xyd) = Ok out ->
  exists t u Q, snd (full_or_view world kw cs) = Ok t /\ inverse false t = Ok u /\ transform_opt None u Q = Ok out /\
    (depth_shape_ok cs xyd -> forall i j qo, entry Q i j = Some qo ->
       exists p, entry xyd i j = Some p /\
         ((cs_cls cs = CFoVPersp \/ cs_cls cs = CFoVOrtho) ->
            exists ks k, calib_list kw cs = Ok ks /\ batch_nth ks i = Some k /\ qo = with_depth (cs_cls cs) k p) /\
         ((cs_cls cs = CPersp \/ cs_cls cs = COrtho) -> forall k, qo = with_depth (cs_cls cs) k p)).
Proof.
  intros Hkw H. unfold unproject in H. unfold kw_ok in Hkw. unfold depth_shape_ok.
  destruct (cs_cls cs) eqn:Ec.
  - rewrite (Hkw eq_refl). destruct (full_or_view world no_kw cs) as [cs' rt] eqn:Ef. cbn [snd] in H |- *.
    destruct rt as [t|]; cbn [rbind] in H; [|discriminate].
    assert (Ek : projection_transform kw cs' = projection_transform no_kw cs).
    { rewrite (Hkw eq_refl). unfold full_or_view in Ef. destruct world.
      - unfold full_projection, view_transform in Ef. injection Ef as <- _. reflexivity.
      - injection Ef as <- _. reflexivity. }
    rewrite Ek in H. destruct (projection_transform no_kw cs) as [pt|] eqn:Ep; cbn [rbind] in H; [|discriminate].
    destruct (get_matrix pt) as [km|] eqn:Em; cbn [rbind] in H; [|discriminate].
    destruct (scale_depth CFoVPersp km xyd) as [Q|] eqn:Es; cbn [rbind] in H; [|discriminate].
    destruct (inverse false t) as [u|] eqn:Eu; cbn [rbind] in H; [|discriminate].
    exists t, u, Q. split; [reflexivity|]. split; [exact Eu|]. split; [exact H|].
    intros Hd i j qo Hq.
    destruct (projection_ok _ _ _ Ep) as (ks & Hks & Ept).
    assert (Hlen : length km = cs_n cs).
    { rewrite <- (calib_len no_kw cs ks Hks eq_refl). subst pt. cbn in Em. injection Em as <-. apply map_length. }
    destruct (scale_entry _ _ _ _ i j qo Es) with (2 := Hq) as (a & x & Ha & Hx & Eo).
    { intros _. destruct xyd; [rewrite Hlen; exact Hd|exact I]. }
    exists x. split; [exact Hx|]. split; [|intros [C|C]; discriminate].
    intros _. subst pt. cbn in Em. injection Em as <-. rewrite batch_nth_map in Ha.
    destruct (batch_nth ks i) as [k|] eqn:Ek2; [|discriminate]. injection Ha as <-.
    exists ks, k. split; [exact Hks|]. split; [exact Ek2|]. rewrite Eo. cbn [depth_fun].
    unfold persp_depth, with_depth. destruct k; reflexivity.
  - destruct (full_or_view world kw cs) as [cs' rt] eqn:Ef. cbn [snd] in H |- *.
    destruct rt as [t|]; cbn [rbind] in H; [|discriminate].
    assert (Ek : projection_transform kw cs' = projection_transform kw cs).
    { unfold full_or_view in Ef. destruct world.
      - unfold full_projection, view_transform in Ef. injection Ef as <- _. reflexivity.
      - injection Ef as <- _. reflexivity. }
    rewrite Ek in H. destruct (projection_transform kw cs) as [pt|] eqn:Ep; cbn [rbind] in H; [|discriminate].
    destruct (get_matrix pt) as [km|] eqn:Em; cbn [rbind] in H; [|discriminate].
    destruct (scale_depth CFoVOrtho km xyd) as [Q|] eqn:Es; cbn [rbind] in H; [|discriminate].
    destruct (inverse false t) as [u|] eqn:Eu; cbn [rbind] in H; [|discriminate].
    exists t, u, Q. split; [reflexivity|]. split; [exact Eu|]. split; [exact H|].
    intros Hd i j qo Hq.
    destruct (projection_ok _ _ _ Ep) as (ks & Hks & Ept).
    destruct (scale_entry _ _ _ _ i j qo Es) with (2 := Hq) as (a & x & Ha & Hx & Eo); [discriminate|].
    exists x. split; [exact Hx|]. split; [|intros [C|C]; discriminate].
    intros _. subst pt. cbn in Em. injection Em as <-. rewrite batch_nth_map in Ha.
    destruct (batch_nth ks i) as [k|] eqn:Ek2; [|discriminate]. injection Ha as <-.
    exists ks, k. split; [exact Hks|]. split; [exact Ek2|]. rewrite Eo. cbn [depth_fun].
    unfold ortho_depth, with_depth. destruct k; reflexivity.
  - destruct (full_or_view world kw cs) as [cs' rt] eqn:Ef. cbn [snd] in H |- *.
    destruct rt as [t|]; cbn [rbind] in H; [|discriminate].
    destruct (inverse false t) as [u|] eqn:Eu; cbn [rbind] in H; [|discriminate].
    eexists t, u, _. split; [reflexivity|]. split; [exact Eu|]. split; [exact H|].
    intros _ i j qo Hq. rewrite entry_pmap in Hq. destruct (entry xyd i j) as [p|]; [|discriminate].
    cbn in Hq. injection Hq as <-. exists p. split; [reflexivity|]. split; [intros [C|C]; discriminate|]. intros _ k. reflexivity.
  - destruct (full_or_view world kw cs) as [cs' rt] eqn:Ef. cbn [snd] in H |- *.
    destruct rt as [t|]; cbn [rbind] in H; [|discriminate].
    destruct (inverse false t) as [u|] eqn:Eu; cbn [rbind] in H; [|discriminate].
    eexists t, u, _. split; [reflexivity|]. split; [exact Eu|]. split; [exact H|].
    intros _ i j qo Hq. rewrite entry_pmap in Hq. destruct (entry xyd i j) as [p|]; [|discriminate].
    cbn in Hq. injection Hq as <-. exists p. split; [reflexivity|]. split; [intros [C|C]; discriminate|]. intros _ k. reflexivity.
Qed.

Lemma project_ok kw cs p oq : snd (project None kw cs p) = Ok oq ->
  exists t, snd (full_projection kw cs) = Ok t /\ transform_points None t p = Ok oq.
Proof.
  unfold project. destruct (full_projection kw cs) as [cs' rt]. cbn [snd].
  destruct rt as [t|]; cbn [rbind]; [|discriminate]. intros H. exists t. auto.
Qed.

(* world coordinates *)
Lemma project_unproject_world kw cs p w ov v oq q x xyd out i j o :
  sound_call kw cs -> kw_ok kw cs -> depth_shape_ok cs xyd ->
  entry p i j = Some x ->
  snd (view_transform kw cs) = Ok w -> transform_points None w p = Ok ov -> entry ov i j = Some (Some v) ->
  snd (project None kw cs p) = Ok oq -> entry oq i j = Some (Some q) ->
  entry xyd i j = Some (V3 (x3 q) (y3 q) (z3 v)) ->
  snd (unproject true false false kw cs xyd) = Ok out -> entry out i j = Some o ->
  o = Some x.
Proof.
  intros Hs Hkw Hd Hx Hw Hov Ev Hp Eq Hxyd Hu Eo.
  destruct (unproject_cases _ _ _ _ _ Hkw Hu) as (t & u & Q & Ht & Hi & Hopt & HQ).
  destruct (project_ok _ _ _ _ Hp) as (t' & Ht' & Hpt). cbn [full_or_view] in Ht. rewrite Ht in Ht'. injection Ht' as <-.
  destruct (entry_points _ _ _ _ _ _ _ Hpt Eq) as (ms & x' & a & Em & Ex & Ea & Eqa).
  rewrite Hx in Ex. injection Ex as <-.
  destruct (undo_entry _ _ _ _ _ _ _ _ (wf_full _ _ _ Ht) Em Hi Hopt Eo) as (a' & b & qo & Ea' & H1 & H2 & HQo & ->).
  rewrite Ea in Ea'. injection Ea' as <-.
  destruct (full_matrix _ _ _ _ _ _ Ht Em Ea) as (r & tv & ks & k & F1 & F2 & F3 & F4 & Ea2).
  assert (Hv : v = view_of r tv x).
  { destruct (entry_points _ _ _ _ _ _ _ Hov Ev) as (mw & x' & aw & G1 & G2 & G3 & G4).
    rewrite Hx in G2. injection G2 as <-. destruct (view_matrix _ _ _ _ _ _ Hw G1 G3) as (r' & t' & K1 & K2 & ->).
    rewrite F1 in K1. rewrite F2 in K2. injection K1 as <-. injection K2 as <-.
    rewrite vmul4_view, from_to_h in G4. congruence. }
  assert (Hk : from_h None (vmul4 (to_h v) (tr4 k)) = Some q).
  { rewrite Hv, <- vmul4_view, <- vmul4_mul, <- Ea2. symmetry. exact Eqa. }
  assert (Hqo : qo = Some q).
  { destruct (HQ Hd _ _ _ HQo) as (pp & Hpp & K1 & K2). rewrite Hxyd in Hpp. injection Hpp as <-.
    pose proof (calib_shape _ _ _ _ Hs F3 (batch_nth_In _ _ _ F4)) as Hsh.
    rewrite <- (with_depth_ok _ _ _ _ Hsh Hk). destruct (cs_cls cs) eqn:Ec.
    - destruct (K1 (or_introl eq_refl)) as (ks' & k' & L1 & L2 & ->). rewrite F3 in L1. injection L1 as <-. rewrite F4 in L2. injection L2 as <-. reflexivity.
    - destruct (K1 (or_intror eq_refl)) as (ks' & k' & L1 & L2 & ->). rewrite F3 in L1. injection L1 as <-. rewrite F4 in L2. injection L2 as <-. reflexivity.
    - apply K2. auto.
    - apply K2. auto. }
  subst qo. apply (undo_point x q a b H1). symmetry. exact Eqa.
Qed.

(* view coordinates *)
Lemma project_unproject_view kw cs pt pv oq q v xyd out i j o :
  sound_call kw cs -> kw_ok kw cs -> depth_shape_ok cs xyd ->
  entry pv i j = Some v ->
  projection_transform kw cs = Ok pt -> transform_points None pt pv = Ok oq -> entry oq i j = Some (Some q) ->
  entry xyd i j = Some (V3 (x3 q) (y3 q) (z3 v)) ->
  snd (unproject false false false kw cs xyd) = Ok out -> entry out i j = Some o ->
  o = Some v.
Proof.
  intros Hs Hkw Hd Hx Hp Hpt Eq Hxyd Hu Eo.
  destruct (unproject_cases _ _ _ _ _ Hkw Hu) as (t & u & Q & Ht & Hi & Hopt & HQ).
  cbn [full_or_view snd] in Ht. rewrite Hp in Ht. injection Ht as <-.
  destruct (entry_points _ _ _ _ _ _ _ Hpt Eq) as (ms & x' & a & Em & Ex & Ea & Eqa).
  rewrite Hx in Ex. injection Ex as <-.
  destruct (undo_entry _ _ _ _ _ _ _ _ (wf_projection _ _ _ Hp) Em Hi Hopt Eo) as (a' & b & qo & Ea' & H1 & H2 & HQo & ->).
  rewrite Ea in Ea'. injection Ea' as <-.
  destruct (projection_matrix _ _ _ _ _ _ Hp Em Ea) as (ks & k & F3 & F4 & Ea2).
  assert (Hk : from_h None (vmul4 (to_h v) (tr4 k)) = Some q) by (rewrite <- Ea2; symmetry; exact Eqa).
  assert (Hqo : qo = Some q).
  { destruct (HQ Hd _ _ _ HQo) as (pp & Hpp & K1 & K2). rewrite Hxyd in Hpp. injection Hpp as <-.
    pose proof (calib_shape _ _ _ _ Hs F3 (batch_nth_In _ _ _ F4)) as Hsh.
    rewrite <- (with_depth_ok _ _ _ _ Hsh Hk). destruct (cs_cls cs) eqn:Ec.
    - destruct (K1 (or_introl eq_refl)) as (ks' & k' & L1 & L2 & ->). rewrite F3 in L1. injection L1 as <-. rewrite F4 in L2. injection L2 as <-. reflexivity.
    - destruct (K1 (or_intror eq_refl)) as (ks' & k' & L1 & L2 & ->). rewrite F3 in L1. injection L1 as <-. rewrite F4 in L2. injection L2 as <-. reflexivity.
    - apply K2. auto.
    - apply K2. auto. }
  subst qo. apply (undo_point v q a b H1). symmetry. exact Eqa.
Qed.
