From Verif Require Import Base RBase Geom LinAlg Transform TransformSpec TransformProofs TransformProofs2 Camera CameraSpec.
Local Open Scope R_scope.

Ltac cbm := cbn [n00 n01 n02 n03 n10 n11 n12 n13 n20 n21 n22 n23 n30 n31 n32 n33
                 m00 m01 m02 m10 m11 m12 m20 m21 m22 x3 y3 z3 x4 y4 z4 w4].
Ltac cbm_in H := cbn [n00 n01 n02 n03 n10 n11 n12 n13 n20 n21 n22 n23 n30 n31 n32 n33
                 m00 m01 m02 m10 m11 m12 m20 m21 m22 x3 y3 z3 x4 y4 z4 w4] in H.

(* ---- generic ---- *)
Lemma entry_opt eps t p oq i j o :
  transform_opt eps t p = Ok oq -> entry oq i j = Some o ->
  exists ms q a, get_matrix t = Ok ms /\ entry p i j = Some q /\ batch_nth ms i = Some a /\
    o = match q with Some q => from_h eps (vmul4 (to_h q) a) | None => None end.
Proof.
  intros H Ho. unfold transform_opt in H.
  destruct (get_matrix t) as [m|] eqn:Em; cbn [rbind] in H; [|discriminate].
  match type of H with (rbind ?b _) = _ => destruct b as [out|] eqn:Eo end; cbn [rbind] in H; [|discriminate].
  injection H as <-. unfold entry in *. rewrite as_batch_reshape in Ho.
  destruct (batch_nth out i) as [l|] eqn:El; [|discriminate].
  destruct (broadcast_batch_nth _ _ _ _ _ _ Eo El) as (pts & a & Hp & Ha & ->).
  rewrite nth_error_map in Ho. destruct (nth_error pts j) as [q|] eqn:Eq; [|discriminate].
  cbn in Ho. injection Ho as <-. exists m, q, a. rewrite Hp. auto.
Qed.

Lemma entry_pmap {A B} (f : A -> B) p i j : entry (pmap f p) i j = option_map f (entry p i j).
Proof.
  unfold entry. assert (E : as_batch (pmap f p) = map (map f) (as_batch p)) by (destruct p; reflexivity).
  rewrite E, batch_nth_map. destruct (batch_nth (as_batch p) i) as [l|]; [|reflexivity].
  cbn [option_map]. apply nth_error_map.
Qed.


Lemma forall2_nth_r {A B} (P : A -> B -> Prop) l m k y :
  Forall2 P l m -> nth_error m k = Some y -> exists x, nth_error l k = Some x /\ P x y.
Proof.
  intros H. revert k. induction H as [|a b l m H1 H2 IH]; intros [|k] Hy; try discriminate.
  - injection Hy as <-. exists a. auto.
  - apply IH. exact Hy.
Qed.







Lemma inv_batch_nth a b i y : inv_batch a b -> batch_nth b i = Some y ->
  exists x, batch_nth a i = Some x /\ mul4 x y = id4 /\ mul4 y x = id4.
Proof.
  intros H Hy. apply inv_batch_mutual in H. unfold batch_nth in *.
  assert (L : length a = length b) by (eapply Forall2_length; exact H). rewrite L.
  destruct (length b =? 1)%nat; destruct (forall2_nth_r _ _ _ _ _ H Hy) as (x & E & Hx);
    exists x; (split; [exact E|exact Hx]).
Qed.

(* undoing one point *)
Lemma undo_point x q a b :
  mul4 a b = id4 -> from_h None (vmul4 (to_h x) a) = Some q -> from_h None (vmul4 (to_h q) b) = Some x.
Proof. intros Hab Hq. rewrite <- (from_h_compose x a b q Hq), Hab. apply from_h_id. Qed.

Lemma vmul4_view x r t : vmul4 (to_h x) (mul4 (rotate_mat r) (translate_mat t)) = to_h (view_of r t x).
Proof.
  destruct x as [a b c], r, t. unfold vmul4, to_h, mul4, rotate_mat, translate_mat, view_of. cbm.
  apply V4_eq; ring.
Qed.
Lemma from_to_h v : from_h None (to_h v) = Some v.
Proof. rewrite <- (vmul4_id (to_h v)). apply from_h_id. Qed.

(* ---- the matrices of a camera ---- *)
Definition calib_list (kw : kwargs) (cs : cameras) : result (list mat4) :=
  match (match k_K kw with Some k => Some k | None => cs_K cs end) with
  | Some k => if (length k =? cs_n cs)%nat then Ok k else Fail EValue
  | None => rmap calibration (orelse (k_int kw) (cs_int cs))
  end.
Lemma projection_eq kw cs : projection_transform kw cs = (k <- calib_list kw cs ;; Ok (mk_transform (map tr4 k))).
Proof.
  unfold projection_transform, calib_list. destruct (match k_K kw with Some k => Some k | None => cs_K cs end) as [k|].
  - destruct (length k =? cs_n cs)%nat; reflexivity.
  - reflexivity.
Qed.
Lemma projection_ok kw cs p : projection_transform kw cs = Ok p ->
  exists k, calib_list kw cs = Ok k /\ p = mk_transform (map tr4 k).
Proof.
  rewrite projection_eq. destruct (calib_list kw cs) as [k|]; cbn [rbind]; [|discriminate].
  intros H; injection H as <-. exists k. auto.
Qed.
Lemma calib_stored kw kw' cs : calib_list kw (stored kw' cs) = calib_list kw cs.
Proof. reflexivity. Qed.
Lemma projection_stored kw kw' cs : projection_transform kw (stored kw' cs) = projection_transform kw cs.
Proof. reflexivity. Qed.

Lemma world_to_view_ok rs ts w : world_to_view rs ts = Ok w ->
  length ts = length rs /\ w = TR KGeneric (map rotate_mat rs) [TR KTranslate (map translate_mat ts) []].
Proof.
  unfold world_to_view. destruct (length ts =? length rs)%nat eqn:E; [|discriminate].
  apply Nat.eqb_eq in E. cbn. intros H; injection H as <-. auto.
Qed.
Lemma world_to_view_defined rs ts : length ts = length rs ->
  world_to_view rs ts = Ok (TR KGeneric (map rotate_mat rs) [TR KTranslate (map translate_mat ts) []]).
Proof. intros H. unfold world_to_view. rewrite H, Nat.eqb_refl. reflexivity. Qed.
Lemma wf_view rs ts w : world_to_view rs ts = Ok w -> wf w.
Proof.
  intros H. apply world_to_view_ok in H. destruct H as (_ & ->). apply wf_generic. constructor; [|constructor].
  apply wf_eq. split; [|split; [constructor|reflexivity]].
  apply Forall_map, Forall_forall. intros p _. exists p. reflexivity.
Qed.
Lemma view_matrix rs ts w ms i a : world_to_view rs ts = Ok w -> get_matrix w = Ok ms -> batch_nth ms i = Some a ->
  exists r t, batch_nth rs i = Some r /\ batch_nth ts i = Some t /\ a = mul4 (rotate_mat r) (translate_mat t).
Proof.
  intros H Hm Ha. apply world_to_view_ok in H. destruct H as (_ & ->). cbn [get_matrix rbind] in Hm.
  destruct (broadcast mul4 (map rotate_mat rs) (map translate_mat ts)) as [m|] eqn:E; cbn [rbind] in Hm; [|discriminate].
  injection Hm as <-. destruct (broadcast_batch_nth _ _ _ _ _ _ E Ha) as (x & y & Hx & Hy & ->).
  rewrite batch_nth_map in Hx. rewrite batch_nth_map in Hy. destruct (batch_nth rs i) as [r|]; [|discriminate].
  destruct (batch_nth ts i) as [t|]; [|discriminate]. injection Hx as <-. injection Hy as <-. exists r, t. auto.
Qed.

Lemma full_ok kw cs t : snd (full_projection kw cs) = Ok t ->
  exists w p, world_to_view (cs_R (stored kw cs)) (cs_T (stored kw cs)) = Ok w /\
    projection_transform kw cs = Ok p /\ t = compose w [p].
Proof.
  unfold full_projection, view_transform. cbn [snd].
  destruct (world_to_view _ _) as [w|]; cbn [rbind]; [|discriminate].
  change (projection_transform kw (stored kw cs)) with (projection_transform kw cs).
  destruct (projection_transform kw cs) as [p|]; cbn [rbind]; [|discriminate].
  intros H; injection H as <-. exists w, p. auto.
Qed.
Lemma wf_compose1 t u : wf t -> wf u -> wf (compose t [u]).
Proof.
  intros Ht Hu. destruct t as [k m ts]. unfold compose. cbn [t_matrix t_list]. apply wf_generic.
  apply wf_eq in Ht. destruct Ht as (_ & Hts & _). apply Forall_app. split; [exact Hts|constructor; [exact Hu|constructor]].
Qed.
Lemma wf_mk m : wf (mk_transform m).
Proof. apply wf_generic. constructor. Qed.
Lemma wf_projection kw cs p : projection_transform kw cs = Ok p -> wf p.
Proof. intros H. apply projection_ok in H. destruct H as (k & _ & ->). apply wf_mk. Qed.
Lemma wf_full kw cs t : snd (full_projection kw cs) = Ok t -> wf t.
Proof.
  intros H. apply full_ok in H. destruct H as (w & p & Hw & Hp & ->).
  apply wf_compose1; [eapply wf_view; exact Hw|eapply wf_projection; exact Hp].
Qed.
Lemma projection_matrix kw cs p ms i a :
  projection_transform kw cs = Ok p -> get_matrix p = Ok ms -> batch_nth ms i = Some a ->
  exists ks k, calib_list kw cs = Ok ks /\ batch_nth ks i = Some k /\ a = tr4 k.
Proof.
  intros H Hm Ha. apply projection_ok in H. destruct H as (k & Hk & ->). cbn in Hm. injection Hm as <-.
  rewrite batch_nth_map in Ha. destruct (batch_nth k i) as [x|] eqn:E; [|discriminate]. injection Ha as <-.
  exists k, x. auto.
Qed.
Lemma compose_batch t u ms i a : get_matrix (compose t [u]) = Ok ms -> batch_nth ms i = Some a ->
  exists mt mu x y, get_matrix t = Ok mt /\ get_matrix u = Ok mu /\
    batch_nth mt i = Some x /\ batch_nth mu i = Some y /\ a = mul4 x y.
Proof.
  rewrite get_matrix_compose1. destruct (get_matrix t) as [mt|]; cbn [rbind]; [|discriminate].
  destruct (get_matrix u) as [mu|]; cbn [rbind]; [|discriminate]. intros H Ha.
  destruct (broadcast_batch_nth _ _ _ _ _ _ H Ha) as (x & y & Hx & Hy & ->). exists mt, mu, x, y. auto.
Qed.
Lemma full_matrix kw cs t ms i a :
  snd (full_projection kw cs) = Ok t -> get_matrix t = Ok ms -> batch_nth ms i = Some a ->
  exists r tv ks k, batch_nth (cs_R (stored kw cs)) i = Some r /\ batch_nth (cs_T (stored kw cs)) i = Some tv /\
    calib_list kw cs = Ok ks /\ batch_nth ks i = Some k /\
    a = mul4 (mul4 (rotate_mat r) (translate_mat tv)) (tr4 k).
Proof.
  intros H Hm Ha. apply full_ok in H. destruct H as (w & p & Hw & Hp & ->).
  destruct (compose_batch _ _ _ _ _ Hm Ha) as (mt & mu & x & y & E1 & E2 & E3 & E4 & ->).
  destruct (view_matrix _ _ _ _ _ _ Hw E1 E3) as (r & tv & F1 & F2 & ->).
  destruct (projection_matrix _ _ _ _ _ _ Hp E2 E4) as (ks & k & F3 & F4 & ->).
  exists r, tv, ks, k. auto 10.
Qed.

(* ---- shape of the calibration matrices ---- *)
Lemma nz_true x : nz x = true -> x <> 0.
Proof. unfold nz. destruct (Reqb_spec x 0); [discriminate|auto]. Qed.
Lemma calibration_shape c k : calibration c = Ok k -> K_shape (cls_of c) k.
Proof.
  destruct c; cbn [calibration cls_of]; cbv zeta; unfold K_shape; intros H.
  - match type of H with (if ?b then _ else _) = _ => destruct b; [|discriminate] end.
    injection H as <-. cbm. auto 10.
  - match type of H with (if ?b then _ else _) = _ => destruct b; [|discriminate] end.
    injection H as <-. cbm. auto 10.
  - injection H as <-. cbm. auto 10.
  - injection H as <-. cbm. auto 10.
Qed.
Lemma batch_nth_In {A} (l : list A) i x : batch_nth l i = Some x -> In x l.
Proof. unfold batch_nth. destruct (length l =? 1)%nat; apply nth_error_In. Qed.
Lemma rmap_In {A B} (f : A -> result B) l out y : rmap f l = Ok out -> In y out -> exists x, In x l /\ f x = Ok y.
Proof.
  intros H. apply rmap_Forall2 in H. induction H as [|a b l out H1 H2 IH]; intros [].
  - subst. exists a. split; [left; reflexivity|exact H1].
  - destruct (IH H) as (x & Hx & E). exists x. split; [right; exact Hx|exact E].
Qed.
Lemma calib_shape kw cs ks k : sound_call kw cs -> calib_list kw cs = Ok ks -> In k ks -> K_shape (cs_cls cs) k.
Proof.
  intros (H1 & H2) H Hk. unfold calib_list in H.
  destruct (k_K kw) as [l|] eqn:EK.
  - destruct (length l =? cs_n cs)%nat; [|discriminate]. injection H as <-. exact (H2 l k (or_intror eq_refl) Hk).
  - destruct (cs_K cs) as [l|] eqn:EC.
    + destruct (length l =? cs_n cs)%nat; [|discriminate]. injection H as <-. exact (H2 l k (or_introl eq_refl) Hk).
    + destruct (rmap_In _ _ _ _ H Hk) as (c & Hc & Ec). rewrite <- (H1 c Hc). apply calibration_shape. exact Ec.
Qed.

(* depth given by the projection of a view point *)
Lemma shape_z c k v q : K_shape c k -> from_h None (vmul4 (to_h v) (tr4 k)) = Some q ->
  match c with
  | CFoVPersp => z3 v <> 0 /\ z3 q = (n22 k * z3 v + n23 k) / z3 v
  | CFoVOrtho => z3 q = n22 k * z3 v + n23 k
  | CPersp => z3 v <> 0 /\ z3 q = / z3 v
  | COrtho => z3 q = z3 v
  end.
Proof.
  intros (H1 & H2 & H3 & H4 & H5) H. destruct v as [x y z], k. unfold from_h, vmul4, to_h, tr4, clamp_denom in H.
  cbm_in H1. cbm_in H2. cbm_in H3. cbm_in H4. cbm_in H. subst. cbm.
  match type of H with (if Reqb ?w 0 then _ else _) = _ => destruct (Reqb_spec w 0) as [E|E]; [discriminate|] end.
  injection H as <-. cbm. destruct c; cbm_in H5.
  - destruct H5 as (-> & ->). assert (z <> 0) by (intros ->; apply E; ring). split; [assumption|]. field; repeat split; auto; intros E'; apply E; lra.
  - destruct H5 as (-> & ->). field; intros E'; apply E; lra.
  - destruct H5 as (-> & -> & -> & ->). assert (z <> 0) by (intros ->; apply E; ring). split; [assumption|]. field; repeat split; auto; intros E'; apply E; lra.
  - destruct H5 as (-> & -> & -> & ->). field; intros E'; apply E; lra.
Qed.
