From Verif Require Import Base RBase Geom LinAlg Transform TransformSpec TransformProofs.
Local Open Scope R_scope.

Lemma batch_nth_getb {A} (d : A) l i x : batch_nth l i = Some x -> getb d l i = x.
Proof. unfold batch_nth, getb. destruct (length l =? 1)%nat; intros H; apply nth_error_nth; exact H. Qed.
Lemma getb_batch_nth {A} (d : A) (l : list A) n i :
  bc l n -> (i < n)%nat -> batch_nth l i = Some (getb d l i).
Proof.
  intros Hb Hi. unfold batch_nth, getb. destruct (length l =? 1)%nat eqn:E.
  - apply Nat.eqb_eq in E. apply nth_error_nth'. lia.
  - apply Nat.eqb_neq in E. apply nth_error_nth'. destruct Hb; lia.
Qed.
Lemma batch_nth_one {A} (l : list A) i j : length l = 1%nat -> batch_nth l i = batch_nth l j.
Proof. intros H. unfold batch_nth. rewrite H. reflexivity. Qed.

Lemma broadcast_batch_nth {A B C} (f : A -> B -> C) a b c i z :
  broadcast f a b = Ok c -> batch_nth c i = Some z ->
  exists x y, batch_nth a i = Some x /\ batch_nth b i = Some y /\ z = f x y.
Proof.
  intros H Hz. pose proof (broadcast_inv _ _ _ _ H) as (Ha & Hb & _).
  assert (K : forall i, (i < length c)%nat -> batch_nth c i = Some z ->
    exists x y, batch_nth a i = Some x /\ batch_nth b i = Some y /\ z = f x y).
  { clear i Hz. intros i Hi Hz. destruct a as [|xa a'] eqn:Ea.
    - destruct Ha as [Ha|Ha]; [|discriminate]. cbn in Ha. lia.
    - destruct b as [|yb b'] eqn:Eb.
      + destruct Hb as [Hb|Hb]; [|discriminate]. cbn in Hb. lia.
      + rewrite <- Ea, <- Eb in *.
        destruct (broadcast_ok f xa yb z a b (length c) Ha Hb) as (c' & E & _ & _ & _ & V).
        rewrite H in E. injection E as <-.
        exists (getb xa a i), (getb yb b i).
        split; [eapply getb_batch_nth; eassumption|]. split; [eapply getb_batch_nth; eassumption|].
        rewrite <- V by exact Hi. symmetry. apply batch_nth_getb. exact Hz. }
  destruct (length c =? 1)%nat eqn:E1.
  - apply Nat.eqb_eq in E1. rewrite (batch_nth_one c i 0 E1) in Hz.
    destruct (K 0%nat ltac:(lia) Hz) as (x & y & H1 & H2 & H3).
    assert (La : length a = 1%nat) by (destruct Ha; lia).
    assert (Lb : length b = 1%nat) by (destruct Hb; lia).
    exists x, y. rewrite (batch_nth_one a i 0 La), (batch_nth_one b i 0 Lb). auto.
  - apply K; [|exact Hz]. unfold batch_nth in Hz. rewrite E1 in Hz. apply nth_error_Some. congruence.
Qed.

Lemma list_ext_getb {A} (d : A) (a b : list A) :
  length a = length b -> (forall i, (i < length a)%nat -> getb d a i = getb d b i) -> a = b.
Proof.
  intros L H. apply (nth_ext _ _ d d L). intros i Hi. specialize (H i Hi). unfold getb in H.
  rewrite <- L in H. destruct (length a =? 1)%nat eqn:E; [|exact H].
  apply Nat.eqb_eq in E. replace i with 0%nat by lia. exact H.
Qed.

(* ---- composition ---- *)
Lemma get_matrix_compose1 t u :
  get_matrix (compose t [u]) = (mt <- get_matrix t ;; mu <- get_matrix u ;; broadcast mul4 mt mu).
Proof.
  destruct t as [k m ts]. unfold compose. cbn [t_matrix t_list get_matrix]. revert m.
  induction ts as [|t ts IH]; intros m.
  - cbn [app rbind]. destruct (get_matrix u) as [mu|]; [|reflexivity]. cbn [rbind].
    destruct (broadcast mul4 m mu); reflexivity.
  - cbn [app]. destruct (get_matrix t) as [mt|]; [|reflexivity]. cbn [rbind].
    destruct (broadcast mul4 m mt); [|reflexivity]. cbn [rbind]. apply IH.
Qed.

Definition tpf (eps : option R) (pts : list vec3) (a : mat4) : list (option vec3) :=
  map (fun q => from_h eps (vmul4 (to_h q) a)) pts.

Lemma vmul4_scal c h a : vmul4 (V4 (c * x4 h) (c * y4 h) (c * z4 h) (c * w4 h)) a =
  V4 (c * x4 (vmul4 h a)) (c * y4 (vmul4 h a)) (c * z4 (vmul4 h a)) (c * w4 (vmul4 h a)).
Proof. m4r. apply V4_eq; ring. Qed.

Lemma from_h_scal c h : c <> 0 -> from_h None (V4 (c * x4 h) (c * y4 h) (c * z4 h) (c * w4 h)) = from_h None h.
Proof.
  intros Hc. unfold from_h. cbn [clamp_denom x4 y4 z4 w4].
  destruct (Reqb_spec (w4 h) 0) as [E|E]; destruct (Reqb_spec (c * w4 h) 0) as [E'|E'].
  - reflexivity.
  - exfalso. apply E'. rewrite E. ring.
  - exfalso. apply Rmult_integral in E'. tauto.
  - f_equal. apply V3_eq; field; auto.
Qed.

Lemma from_h_compose q a b q' :
  from_h None (vmul4 (to_h q) a) = Some q' ->
  from_h None (vmul4 (to_h q) (mul4 a b)) = from_h None (vmul4 (to_h q') b).
Proof.
  rewrite vmul4_mul. generalize (vmul4 (to_h q) a). intros h. unfold from_h at 1. cbn [clamp_denom].
  destruct (Reqb_spec (w4 h) 0) as [E|E]; [discriminate|]. intros H; injection H as <-.
  rewrite <- (from_h_scal (/ w4 h) (vmul4 h b)) by (apply Rinv_neq_0_compat; exact E).
  rewrite <- vmul4_scal. f_equal. f_equal. unfold to_h. cbn [x3 y3 z3]. apply V4_eq; field; exact E.
Qed.

Lemma as_batch_reshape {A B} (p : points A) (o : list (list B)) : as_batch (reshape p o) = o.
Proof. destruct p, o as [|x [|y o]]; reflexivity. Qed.

Lemma all_finite_batch op q : all_finite op q -> as_batch op = map (map Some) (as_batch q).
Proof. destruct op, q; cbn; intros H; try contradiction; subst; reflexivity. Qed.

Lemma transform_points_ok eps t p oq :
  transform_points eps t p = Ok oq <->
  exists m o, get_matrix t = Ok m /\ broadcast (tpf eps) (as_batch p) m = Ok o /\ oq = reshape p o.
Proof.
  unfold transform_points. destruct (get_matrix t) as [m|]; cbn [rbind]; [|split; [discriminate|intros (? & ? & ? & _); discriminate]].
  change (fun pts a => map (fun q => from_h eps (vmul4 (to_h q) a)) pts) with (tpf eps).
  destruct (broadcast (tpf eps) (as_batch p) m) as [o|] eqn:E; cbn [rbind].
  - split; [intros H; injection H as <-; exists m, o; auto|]. intros (m' & o' & H1 & H2 & ->). congruence.
  - split; [discriminate|]. intros (m' & o' & H1 & H2 & _). congruence.
Qed.

Lemma compose_points t u p oq q :
  transform_points None t p = Ok oq -> all_finite oq q ->
  transform_points None (compose t [u]) p = transform_points None u q.
Proof.
  intros Ht Hf. apply transform_points_ok in Ht. destruct Ht as (mt & o1 & Emt & Eo & ->).
  pose proof (all_finite_batch _ _ Hf) as HQ. rewrite as_batch_reshape in HQ.
  unfold transform_points. rewrite get_matrix_compose1, Emt. cbn [rbind].
  destruct (get_matrix u) as [mu|] eqn:Emu; [|reflexivity]. cbn [rbind].
  change (fun pts a => map (fun q => from_h None (vmul4 (to_h q) a)) pts) with (tpf None).
  set (P := as_batch p) in *. set (Q := as_batch q) in *.
  assert (LQ : length Q = length o1) by (rewrite HQ, map_length; reflexivity).
  destruct (broadcast_inv _ _ _ _ Eo) as (BP & Bt & Bx).
  destruct (broadcast (tpf None) Q mu) as [o2|e2] eqn:E2; cbn [rbind].
  - destruct (broadcast_inv _ _ _ _ E2) as (B1 & B2 & B3). set (n := length o2) in *.
    assert (BPn : bc P n) by (unfold bc in *; lia).
    assert (Btn : bc mt n) by (unfold bc in *; lia).
    destruct (broadcast_ok mul4 id4 id4 id4 mt mu n Btn B2) as (m & Em & Bm & Lm & _ & Vm).
    rewrite Em. cbn [rbind].
    destruct (broadcast_ok (tpf None) [] id4 [] P m n BPn Bm) as (o & Eo' & Bo & Lo & _ & Vo).
    rewrite Eo'. cbn [rbind].
    assert (Len : length o = n).
    { apply Lo. destruct B3 as [B3|B3]; [|right; apply Lm; right; exact B3].
      destruct Bx as [Bx|Bx]; [left; congruence|right; apply Lm; left; congruence]. }
    assert (Eq : o = o2).
    { apply (list_ext_getb []); [exact Len|]. intros i Hi. rewrite Len in Hi.
      rewrite Vo, Vm by exact Hi.
      destruct (broadcast_ok (tpf None) [] id4 [] Q mu n B1 B2) as (o' & Eo'' & _ & _ & _ & V2).
      rewrite E2 in Eo''. injection Eo'' as <-. rewrite V2 by exact Hi.
      assert (Ho1 : getb [] o1 i = map Some (getb [] Q i)).
      { unfold getb. rewrite <- LQ, HQ. change (@nil (option vec3)) with (map Some (@nil vec3)). apply map_nth. }
      assert (Ho1' : getb [] o1 i = tpf None (getb [] P i) (getb id4 mt i)).
      { destruct (broadcast_ok (tpf None) [] id4 [] P mt (length o1) BP Bt) as (o' & Eq' & _ & _ & _ & V1).
        rewrite Eo in Eq'. injection Eq' as <-.
        destruct (length o1 =? 1)%nat eqn:E1.
        - apply Nat.eqb_eq in E1. specialize (V1 0%nat ltac:(lia)).
          assert (LP : length P = 1%nat) by (unfold bc in *; lia).
          assert (Lt : length mt = 1%nat) by (unfold bc in *; lia).
          unfold getb in *. rewrite E1, LP, Lt in *. exact V1.
        - apply Nat.eqb_neq in E1. apply V1. unfold bc in *. lia. }
      rewrite Ho1 in Ho1'. generalize (getb [] P i) (getb [] Q i) Ho1'. clear.
      generalize (getb id4 mt i) (getb id4 mu i). intros a b. unfold tpf.
      induction l as [|x l IH]; intros [|y l'] H; try discriminate; [reflexivity|].
      cbn [map] in *. injection H as H1 H2. rewrite (from_h_compose x a b y) by congruence. f_equal. apply IH. exact H2. }
    subst o2. f_equal. destruct p as [pl|pl]; cbn [reshape] in *.
    + destruct o1 as [|x [|y o1]]; cbn [all_finite] in Hf; destruct q as [ql|ql]; try contradiction; cbn [reshape]; try reflexivity.
      * destruct o as [|z [|z' o]]; try reflexivity. exfalso. unfold Q in *. cbn in LQ.
        subst n. cbn in *. unfold bc in *. lia.
      * destruct o as [|z [|z' o]]; try reflexivity. exfalso. unfold Q in *. cbn in LQ.
        subst n. cbn in *. unfold bc in *. lia.
    + destruct q as [ql|ql]; [cbn in Hf; contradiction|]. reflexivity.
  - apply broadcast_fail in E2. destruct E2 as (-> & N1 & N2 & N3).
    destruct (broadcast mul4 mt mu) as [m|e] eqn:Em; cbn [rbind].
    + destruct (broadcast (tpf None) P m) as [o|e] eqn:Eo'; cbn [rbind].
      * exfalso. apply broadcast_inv in Em. apply broadcast_inv in Eo'. unfold bc in *. lia.
      * apply broadcast_fail in Eo'. destruct Eo' as (-> & _). reflexivity.
    + apply broadcast_fail in Em. destruct Em as (-> & _). reflexivity.
Qed.

Lemma compose_cons t u us : compose t (u :: us) = compose (compose t [u]) us.
Proof. unfold compose. cbn [t_matrix t_list]. rewrite <- app_assoc. reflexivity. Qed.

Lemma all_finite_fun op q q' : all_finite op q -> all_finite op q' -> q = q'.
Proof.
  assert (I1 : forall (a b : list vec3), map Some a = map Some b -> a = b).
  { induction a as [|x a IH]; intros [|y b] H; try discriminate; [reflexivity|]. cbn in H. injection H as -> H. f_equal; auto. }
  destruct op as [l|l], q as [a|a], q' as [b|b]; cbn; try contradiction; intros -> H; f_equal; [auto|].
  revert b H. induction a as [|x a IH]; intros [|y b] H; try discriminate; [reflexivity|].
  cbn in H. injection H as H1 H2. f_equal; auto.
Qed.

Lemma compose_chain : forall us t p r,
  chain (t :: us) p r ->
  exists o, transform_points None (compose t us) p = Ok o /\ all_finite o r.
Proof.
  induction us as [|u us IH]; intros t p r H; inversion H as [|? ? ? oq q ? H1 H2 H3]; subst.
  - inversion H3; subst. exists oq. split; [|exact H2].
    unfold compose. rewrite app_nil_r. destruct t as [k m ts]. exact H1.
  - rewrite compose_cons. inversion H3 as [|? ? ? oq' q' ? H4 H5 H6]; subst.
    apply IH. econstructor; [|exact H5|exact H6]. rewrite (compose_points _ _ _ _ _ H1 H2). exact H4.
Qed.

(* ---- inverse on points ---- *)
Lemma from_h_id q : from_h None (vmul4 (to_h q) id4) = Some q.
Proof.
  rewrite vmul4_id. destruct q as [x y z]. unfold from_h, to_h. cbn [clamp_denom x3 y3 z3 x4 y4 z4 w4].
  destruct (Reqb_spec 1 0); [lra|]. f_equal. apply V3_eq; field.
Qed.
Lemma tpf_id l : tpf None l id4 = map Some l.
Proof. unfold tpf. apply map_ext. intros; apply from_h_id. Qed.

Lemma broadcast_self_inv ms ims :
  inv_batch ms ims -> broadcast mul4 ms ims = Ok (repeat id4 (length ms)).
Proof.
  intros (L & H). unfold broadcast. rewrite L, Nat.eqb_refl. f_equal. rewrite <- L.
  revert ims L H. induction ms as [|a ms IH]; intros [|b ims] L H; try discriminate; [reflexivity|].
  cbn [combine map length repeat fst snd]. f_equal; [exact (H 0%nat ltac:(cbn; lia))|].
  apply IH; [cbn in L; lia|]. intros i Hi. apply (H (S i)). cbn; lia.
Qed.

Lemma inverse_points c t u p oq q :
  wf t -> inverse c t = Ok u ->
  transform_points None t p = Ok oq -> all_finite oq q ->
  exists r, transform_points None u q = Ok r /\
    as_batch r = map (map Some) (expand_batch (length (as_batch q)) (as_batch p)).
Proof.
  intros Hwf Hu Ht Hf. pose proof (compose_points t u p oq q Ht Hf) as Hc.
  apply transform_points_ok in Ht. destruct Ht as (ms & o1 & Em & Eo & ->).
  destruct (inverse_matrix c t ms u Hwf Em Hu) as (ims & Ei & Hinv).
  rewrite <- Hc. unfold transform_points. rewrite get_matrix_compose1, Em, Ei. cbn [rbind].
  rewrite (broadcast_self_inv _ _ Hinv). cbn [rbind].
  change (fun pts a => map (fun q => from_h None (vmul4 (to_h q) a)) pts) with (tpf None).
  pose proof (all_finite_batch _ _ Hf) as HQ. rewrite as_batch_reshape in HQ.
  assert (LQ : length (as_batch q) = length o1) by (rewrite HQ, map_length; reflexivity).
  rewrite LQ. clear HQ LQ Hc Hf Hu Ei Hinv ims Em.
  set (P := as_batch p) in *. destruct (broadcast_inv _ _ _ _ Eo) as (BP & Bt & Bx).
  set (n := length o1) in *.
  destruct (broadcast_ok (tpf None) [] id4 [] P (repeat id4 (length ms)) n BP) as (o & E & Bo & Lo & _ & V).
  { unfold bc in *. rewrite repeat_length. exact Bt. }
  rewrite E. cbn [rbind]. eexists; split; [reflexivity|]. rewrite as_batch_reshape.
  assert (Len : length o = n) by (apply Lo; rewrite repeat_length; exact Bx).
  assert (LE : length (expand_batch n P) = n).
  { unfold expand_batch. destruct P as [|x [|y P']]; [|rewrite repeat_length; reflexivity|]; destruct BP as [B|B]; try discriminate; exact B. }
  apply (list_ext_getb []); [rewrite map_length; lia|]. intros i Hi. rewrite Len in Hi. rewrite V by exact Hi.
  assert (R1 : getb id4 (repeat id4 (length ms)) i = id4).
  { unfold getb. generalize (if (length (repeat id4 (length ms)) =? 1)%nat then 0%nat else i). intros j.
    destruct (le_lt_dec (length ms) j); [apply nth_overflow; rewrite repeat_length; lia|apply nth_repeat]. }
  rewrite R1, tpf_id.
  assert (X : getb [] (map (map Some) (expand_batch n P)) i = map Some (getb [] (expand_batch n P) i)).
  { unfold getb. rewrite map_length. change (@nil (option vec3)) with (map Some (@nil vec3)). apply map_nth. }
  rewrite X. f_equal.
  unfold getb. rewrite LE. destruct (n =? 1)%nat eqn:En.
  - apply Nat.eqb_eq in En. rewrite En. replace i with 0%nat by lia. destruct P as [|x [|y P']]; reflexivity.
  - unfold expand_batch. destruct P as [|x [|y P']].
    + reflexivity.
    + cbn [length Nat.eqb nth]. symmetry. clear - Hi. revert i Hi. induction n; [lia|]. intros [|i] Hi; [reflexivity|]. cbn. apply IHn. lia.
    + reflexivity.
Qed.

(* ---- when inverse succeeds ---- *)
Lemma det_fold l : forall a, det4 (fold_left mul4 l a) <> 0 <-> det4 a <> 0 /\ Forall (fun b => det4 b <> 0) l.
Proof.
  induction l as [|b l IH]; intros a; cbn [fold_left].
  - split; [intros H; split; [exact H|constructor]|tauto].
  - rewrite IH, det4_mul. split.
    + intros (H1 & H2). split; [intros E; apply H1; rewrite E; ring|]. constructor; [intros E; apply H1; rewrite E; ring|exact H2].
    + intros (H1 & H2). inversion H2; subst. split; [apply Rmult_integral_contrapositive_currified; assumption|assumption].
Qed.

Lemma rmap_total {A B} (f : A -> result B) l : (forall x, In x l -> exists y, f x = Ok y) -> exists out, rmap f l = Ok out.
Proof.
  induction l as [|x l IH]; intros H; [exists []; reflexivity|].
  destruct (H x (or_introl eq_refl)) as [y Ey]. destruct IH as [out Eo]; [intros; apply H; right; assumption|].
  exists (y :: out). cbn [rmap]. rewrite Ey. cbn [rbind]. rewrite Eo. reflexivity.
Qed.

Lemma bc_in {A} (d : A) (l : list A) n x : bc l n -> (0 < n)%nat -> In x l -> exists i, (i < n)%nat /\ getb d l i = x.
Proof.
  intros Hb Hn Hx. destruct (In_nth _ _ d Hx) as (j & Hj & <-). unfold getb.
  destruct (length l =? 1)%nat eqn:E.
  - apply Nat.eqb_eq in E. exists 0%nat. split; [exact Hn|]. replace j with 0%nat by lia. reflexivity.
  - apply Nat.eqb_neq in E. exists j. split; [destruct Hb; lia|reflexivity].
Qed.

Lemma inverse_parts_defined : forall t, wf t -> forall ms,
  get_matrix t = Ok ms -> ms <> [] -> Forall (fun a => det4 a <> 0) ms -> exists u, inverse_parts t = Ok u.
Proof.
  apply (transform_rect' (fun t => wf t -> forall ms,
    get_matrix t = Ok ms -> ms <> [] -> Forall (fun a => det4 a <> 0) ms -> exists u, inverse_parts t = Ok u)).
  intros k m ts IH Hwf ms Hm Hne Hd. apply wf_eq in Hwf. destruct Hwf as (Hk & Hts & _).
  apply get_matrix_ok in Hm. destruct Hm as (cs & Hcs & Hf).
  destruct (bfold_inv _ _ _ Hf) as (Hbm & Hbcs & _). set (n := length ms) in *.
  assert (Hn : (0 < n)%nat) by (unfold n; destruct ms; [congruence|cbn; lia]).
  destruct (bfold_ok n cs m Hbm Hbcs) as (ms' & Ems & _ & _ & Hv). rewrite Hf in Ems. injection Ems as <-.
  assert (Hall : forall i, (i < n)%nat -> det4 (getb id4 m i) <> 0 /\ Forall (fun c => det4 (getb id4 c i) <> 0) cs).
  { intros i Hi. assert (D : det4 (getb id4 ms i) <> 0).
    { rewrite Forall_forall in Hd. apply Hd. unfold getb. apply nth_In. fold n.
      destruct (n =? 1)%nat; lia. }
    rewrite Hv in D by exact Hi. apply det_fold in D. rewrite Forall_map in D. exact D. }
  rewrite inverse_parts_eq.
  destruct (rmap_total (kind_inverse k) m) as [im Eim].
  { intros a Ha. rewrite Forall_forall in Hk. apply kind_inverse_defined; [apply Hk; exact Ha|].
    destruct (bc_in id4 m n a Hbm Hn Ha) as (i & Hi & <-). apply Hall; exact Hi. }
  rewrite Eim. cbn [rbind].
  assert (Hits : exists its, rmap inverse_parts ts = Ok its).
  { assert (Q : Forall (fun c => forall i, (i < n)%nat -> det4 (getb id4 c i) <> 0) cs).
    { apply Forall_forall. intros c Hc i Hi. destruct (Hall i Hi) as [_ X]. rewrite Forall_forall in X. apply X; exact Hc. }
    clear - IH Hts Hcs Hbcs Hn Q. apply rmap_total. intros t Ht.
    revert cs Hcs Hbcs Q. induction ts as [|t' ts IHt]; [contradiction|]. intros cs Hcs Hbcs Q.
    inversion Hcs as [|? c ? cs' H1 H2]; subst.
    apply Forall_cons_iff in IH, Hts, Hbcs, Q. destruct IH as [I1 I2], Hts as [T1 T2], Hbcs as [B1 B2], Q as [Q1 Q2].
    destruct Ht as [->|Ht]; [|exact (IHt I2 T2 Ht cs' H2 B2 Q2)].
    apply (I1 T1 c H1).
    - destruct c; [|discriminate]. destruct B1 as [X|X]; cbn in X; [lia|discriminate].
    - apply Forall_forall. intros a Ha.
      destruct (bc_in id4 c n a B1 Hn Ha) as (i & Hi & <-). auto. }
  destruct Hits as [its Eits]. destruct ts; [eexists; reflexivity|]. rewrite Eits. cbn [rbind]. eexists; reflexivity.
Qed.

Lemma inverse_defined_iff c t ms :
  wf t -> get_matrix t = Ok ms -> ms <> [] ->
  ((exists u, inverse c t = Ok u) <-> forall a, In a ms -> det4 a <> 0).
Proof.
  intros Hwf Hm Hne. split.
  - intros (u & Hu) a Ha. destruct (inverse_matrix c t ms u Hwf Hm Hu) as (ims & _ & L & H).
    destruct (In_nth _ _ id4 Ha) as (i & Hi & <-). eapply mul4_left_det. apply H. exact Hi.
  - intros H. destruct c; cbn [inverse].
    + rewrite Hm. cbn [rbind]. destruct (rmap_total inv4 ms) as [im Ei]; [intros a Ha; apply inv4_defined; auto|].
      rewrite Ei. eexists; reflexivity.
    + apply (inverse_parts_defined t Hwf ms Hm Hne). apply Forall_forall. exact H.
Qed.

Lemma inv_batch_fun a b c : inv_batch a b -> inv_batch a c -> b = c.
Proof.
  intros (L1 & H1) (L2 & H2). apply (nth_ext _ _ id4 id4); [lia|]. intros i Hi.
  apply (inv4_unique (nth i a id4)); [apply H1; lia|]. apply mul4_inv_comm. apply H2. lia.
Qed.

(* ---- clone, stack, indexing ---- *)
Lemma clone_matrix : forall t, get_matrix (clone t) = get_matrix t.
Proof.
  apply (transform_rect' (fun t => get_matrix (clone t) = get_matrix t)).
  intros k m ts IH. cbn [clone get_matrix]. revert m.
  induction ts as [|t ts IHt]; intros m; [reflexivity|]. cbn [map]. inversion IH as [|? ? H1 H2]; subst.
  rewrite H1. destruct (get_matrix t) as [mt|]; [|reflexivity]. cbn [rbind].
  destruct (broadcast mul4 m mt); [|reflexivity]. cbn [rbind]. apply IHt. exact H2.
Qed.

Lemma stack_matrix t os u :
  stack t os = Ok u ->
  exists ms, Forall2 (fun t m => get_matrix t = Ok m) (t :: os) ms /\ get_matrix u = Ok (concat ms).
Proof.
  unfold stack. destruct (rmap get_matrix (t :: os)) as [ms|] eqn:E; [|discriminate]. cbn [rbind].
  intros H; injection H as <-. exists ms. split; [apply rmap_Forall2; exact E|reflexivity].
Qed.

Lemma zip3_map_scale mi : (forall a, In a mi -> exists p, a = scale_mat p) ->
  map scale_mat (zip3 (map n00 mi) (map n11 mi) (map n22 mi)) = mi.
Proof.
  induction mi as [|a mi IH]; intros H; [reflexivity|]. cbn [map zip3]. f_equal.
  - destruct (H a (or_introl eq_refl)) as ([x y z] & ->). reflexivity.
  - apply IH. intros; apply H; right; assumption.
Qed.
Lemma expand_self v n : length v = n -> expand n v = v.
Proof. intros <-. unfold expand. destruct v as [|x [|y v]]; reflexivity. Qed.
Lemma map_id_in {A} (f : A -> A) l : (forall a, In a l -> f a = a) -> map f l = l.
Proof. intros H. rewrite <- (map_id l) at 2. apply map_ext_in. exact H. Qed.

Lemma getitem_matrix t ix ms mi :
  wf t -> t_kind t <> KAxisAngle -> get_matrix t = Ok ms -> take_index ms ix = Ok mi ->
  exists u, getitem t ix = Ok u /\ get_matrix u = Ok mi.
Proof.
  intros Hwf Hk Hm Hi. unfold getitem. rewrite Hm. cbn [rbind]. rewrite Hi. cbn [rbind].
  destruct t as [k m ts]. apply wf_eq in Hwf. destruct Hwf as (W1 & _ & W2). cbn [t_kind] in *.
  assert (Hin : k <> KGeneric -> forall a, In a mi -> kind_ok k a).
  { intros Hg a Ha. rewrite W2 in Hm by exact Hg. cbn in Hm. injection Hm as <-.
    rewrite Forall_forall in W1. apply W1. eapply take_index_in; eassumption. }
  destruct k.
  - eexists; split; reflexivity.
  - specialize (Hin ltac:(discriminate)). eexists; split; [reflexivity|]. cbn [get_matrix]. f_equal. rewrite map_map.
    apply map_id_in. intros a Ha. destruct (Hin a Ha) as ([x y z] & ->). reflexivity.
  - specialize (Hin ltac:(discriminate)). unfold mk_scale, handle_input. cbn [handle_coord rbind].
    rewrite !map_length, !Nat.max_id, Nat.eqb_refl, orb_true_r. cbn [andb rbind].
    eexists; split; [reflexivity|]. cbn [get_matrix]. f_equal. rewrite !expand_self by apply map_length.
    apply zip3_map_scale. exact Hin.
  - specialize (Hin ltac:(discriminate)). eexists; split; [reflexivity|]. unfold mk_rotate; cbn [get_matrix]. f_equal. rewrite map_map.
    apply map_id_in. intros a Ha. destruct (Hin a Ha) as ([] & -> & _). reflexivity.
  - congruence.
Qed.

(* ---- constructors on points ---- *)
Lemma entry_points eps t p oq i j o :
  transform_points eps t p = Ok oq -> entry oq i j = Some o ->
  exists ms q a, get_matrix t = Ok ms /\ entry p i j = Some q /\ batch_nth ms i = Some a /\
    o = from_h eps (vmul4 (to_h q) a).
Proof.
  intros H Ho. apply transform_points_ok in H. destruct H as (m & out & Em & Eo & ->).
  unfold entry in *. rewrite as_batch_reshape in Ho.
  destruct (batch_nth out i) as [l|] eqn:El; [|discriminate].
  destruct (broadcast_batch_nth _ _ _ _ _ _ Eo El) as (pts & a & Hp & Ha & ->).
  unfold tpf in Ho. rewrite nth_error_map in Ho. destruct (nth_error pts j) as [q|] eqn:Eq; [|discriminate].
  cbn in Ho. injection Ho as <-. exists m, q, a. rewrite Hp. auto.
Qed.

Lemma batch_nth_map {A B} (f : A -> B) l i : batch_nth (map f l) i = option_map f (batch_nth l i).
Proof. unfold batch_nth. rewrite map_length. destruct (length l =? 1)%nat; apply nth_error_map. Qed.

Lemma zip3_length a b c n : length a = n -> length b = n -> length c = n -> length (zip3 a b c) = n.
Proof.
  revert a b c. induction n as [|n IH]; intros [|x a] [|y b] [|z c]; cbn; try discriminate; auto.
Qed.
Lemma zip3_nth : forall a b c i v,
  nth_error (zip3 a b c) i = Some v ->
  nth_error a i = Some (x3 v) /\ nth_error b i = Some (y3 v) /\ nth_error c i = Some (z3 v).
Proof.
  induction a as [|x a IH]; intros [|y b] [|z c] [|i] v; cbn; try discriminate.
  - intros H; injection H as <-. auto.
  - apply IH.
Qed.
Lemma expand_batch_nth n c i x : ((length c =? 1) || (length c =? n))%nat = true -> (0 < n)%nat ->
  batch_nth (expand n c) i = Some x -> batch_nth c i = Some x.
Proof.
  intros H Hn. apply orb_true_iff in H. destruct H as [H|H]; apply Nat.eqb_eq in H.
  - destruct c as [|y [|]]; try discriminate. cbn [expand]. unfold batch_nth. rewrite repeat_length. cbn [length Nat.eqb nth_error].
    intros E. assert (In x (repeat y n)) by (destruct (n =? 1)%nat; [apply (nth_error_In (repeat y n) 0)|apply (nth_error_In (repeat y n) i)]; exact E).
    apply repeat_spec in H0. congruence.
  - rewrite expand_self by exact H. auto.
Qed.
Lemma expand_length n c : ((length c =? 1) || (length c =? n))%nat = true -> length (expand n c) = n.
Proof.
  intros H. apply orb_true_iff in H. destruct H as [H|H]; apply Nat.eqb_eq in H.
  - destruct c as [|y [|]]; try discriminate. apply repeat_length.
  - rewrite expand_self; exact H.
Qed.

Lemma handle_coord_at c v i x : handle_coord c = Ok v -> batch_nth v i = Some x -> scalar_at c i = Some x.
Proof.
  destruct c; cbn [handle_coord scalar_at]; try discriminate; intros H; injection H as <-.
  - unfold batch_nth. cbn. auto.
  - auto.
Qed.

Lemma zip3_at (cx cy cz : coord) xs ys zs i v :
  handle_coord cx = Ok xs -> handle_coord cy = Ok ys -> handle_coord cz = Ok zs ->
  let n := Nat.max (length xs) (Nat.max (length ys) (length zs)) in
  ((length xs =? 1) || (length xs =? n))%nat = true ->
  ((length ys =? 1) || (length ys =? n))%nat = true ->
  ((length zs =? 1) || (length zs =? n))%nat = true ->
  batch_nth (zip3 (expand n xs) (expand n ys) (expand n zs)) i = Some v ->
  scalar_at cx i = Some (x3 v) /\ scalar_at cy i = Some (y3 v) /\ scalar_at cz i = Some (z3 v).
Proof.
  intros Ex Ey Ez n Ox Oy Oz H.
  assert (L : length (zip3 (expand n xs) (expand n ys) (expand n zs)) = n) by (apply zip3_length; apply expand_length; assumption).
  assert (Hn : (0 < n)%nat).
  { unfold batch_nth in H. rewrite L in H. destruct (n =? 1)%nat eqn:E.
    - apply Nat.eqb_eq in E. lia.
    - assert (i < length (zip3 (expand n xs) (expand n ys) (expand n zs)))%nat by (apply nth_error_Some; congruence). lia. }
  set (j := if (n =? 1)%nat then 0%nat else i).
  assert (B : forall l : list R, length l = n -> batch_nth l i = nth_error l j).
  { intros l Ll. unfold batch_nth, j. rewrite Ll. destruct (n =? 1)%nat; reflexivity. }
  assert (H' : nth_error (zip3 (expand n xs) (expand n ys) (expand n zs)) j = Some v).
  { rewrite <- H. unfold batch_nth, j. rewrite L. destruct (n =? 1)%nat; reflexivity. }
  apply zip3_nth in H'. destruct H' as (H1 & H2 & H3).
  rewrite <- B in H1, H2, H3 by (apply expand_length; assumption).
  apply expand_batch_nth in H1, H2, H3; try assumption.
  repeat split; eapply handle_coord_at; eassumption.
Qed.

Lemma handle_input_at x y z s v i p :
  handle_input x y z s = Ok v -> batch_nth v i = Some p ->
  (if s then scale_at x y z i else vector_at x y z i) = Some p.
Proof.
  intros H Hp.
  assert (G : forall x' y' z' xs ys zs, handle_coord x' = Ok xs -> handle_coord y' = Ok ys -> handle_coord z' = Ok zs ->
     (let n := Nat.max (length xs) (Nat.max (length ys) (length zs)) in
      let ok c := ((length c =? 1) || (length c =? n))%nat in
      if ok xs && ok ys && ok zs then Ok (zip3 (expand n xs) (expand n ys) (expand n zs)) else Fail EValue) = Ok v ->
     scalar_at x' i = Some (x3 p) /\ scalar_at y' i = Some (y3 p) /\ scalar_at z' i = Some (z3 p)).
  { intros x' y' z' xs ys zs Ex Ey Ez. cbv zeta.
    set (n := Nat.max (length xs) (Nat.max (length ys) (length zs))).
    destruct ((length xs =? 1) || (length xs =? n))%nat eqn:O1; [|discriminate].
    destruct ((length ys =? 1) || (length ys =? n))%nat eqn:O2; [|discriminate].
    destruct ((length zs =? 1) || (length zs =? n))%nat eqn:O3; [|discriminate]. cbn [andb]. intros E; injection E as <-.
    eapply zip3_at; eassumption. }
  assert (K : forall x', (match x' with CMat _ => False | _ => True end) ->
    forall y' z', (xs <- handle_coord x' ;; ys <- handle_coord y' ;; zs <- handle_coord z' ;;
      let n := Nat.max (length xs) (Nat.max (length ys) (length zs)) in
      let ok c := ((length c =? 1) || (length c =? n))%nat in
      if ok xs && ok ys && ok zs then Ok (zip3 (expand n xs) (expand n ys) (expand n zs)) else Fail EValue) = Ok v ->
    vector_at x' y' z' i = Some p).
  { intros x' Nx y' z'. destruct (handle_coord x') as [xs|] eqn:Ex; [|discriminate]. cbn [rbind].
    destruct (handle_coord y') as [ys|] eqn:Ey; [|discriminate]. cbn [rbind].
    destruct (handle_coord z') as [zs|] eqn:Ez; [|discriminate]. cbn [rbind]. intros E.
    destruct (G _ _ _ _ _ _ Ex Ey Ez E) as (G1 & G2 & G3).
    unfold vector_at. destruct x'; try contradiction; rewrite G1, G2, G3; destruct p; reflexivity. }
  destruct x as [|x|xv|xm].
  - cbn in H. discriminate.
  - cbn [handle_input] in H. destruct y, z, s; cbn [handle_coord rbind] in H; try discriminate;
      try (apply (K (CScalar x) I)); try exact H.
  - cbn [handle_input] in H. destruct y, z, s; cbn [handle_coord rbind] in H; try discriminate;
      try (apply (K (CVec xv) I)); try exact H.
  - cbn [handle_input] in H. destruct y, z; try discriminate. injection H as <-. destruct s; exact Hp.
Qed.

Lemma translate_points x y z t p oq i j o :
  mk_translate x y z = Ok t -> transform_points None t p = Ok oq -> entry oq i j = Some o ->
  exists q d, entry p i j = Some q /\ vector_at x y z i = Some d /\ o = Some (add3 q d).
Proof.
  intros Ht Hp Ho. destruct (entry_points _ _ _ _ _ _ _ Hp Ho) as (ms & q & a & Em & Eq & Ea & ->).
  apply mk_translate_ok in Ht. destruct Ht as (v & Ev & ->). cbn in Em. injection Em as <-.
  rewrite batch_nth_map in Ea. destruct (batch_nth v i) as [d|] eqn:Ed; [|discriminate]. injection Ea as <-.
  exists q, d. split; [exact Eq|]. split; [exact (handle_input_at _ _ _ _ _ _ _ Ev Ed)|].
  destruct q as [qx qy qz], d as [dx dy dz]. unfold from_h, vmul4, to_h, translate_mat, add3, clamp_denom.
  cbn [n00 n01 n02 n03 n10 n11 n12 n13 n20 n21 n22 n23 n30 n31 n32 n33 x3 y3 z3 x4 y4 z4 w4].
  destruct (Reqb_spec (qx * 0 + qy * 0 + qz * 0 + 1 * 1) 0); [lra|]. f_equal. apply V3_eq; field; lra.
Qed.

Lemma scale_points x y z t p oq i j o :
  mk_scale x y z = Ok t -> transform_points None t p = Ok oq -> entry oq i j = Some o ->
  exists q d, entry p i j = Some q /\ scale_at x y z i = Some d /\
    o = Some (V3 (x3 d * x3 q) (y3 d * y3 q) (z3 d * z3 q)).
Proof.
  intros Ht Hp Ho. destruct (entry_points _ _ _ _ _ _ _ Hp Ho) as (ms & q & a & Em & Eq & Ea & ->).
  apply mk_scale_ok in Ht. destruct Ht as (v & Ev & ->). cbn in Em. injection Em as <-.
  rewrite batch_nth_map in Ea. destruct (batch_nth v i) as [d|] eqn:Ed; [|discriminate]. injection Ea as <-.
  exists q, d. split; [exact Eq|]. split; [exact (handle_input_at _ _ _ _ _ _ _ Ev Ed)|].
  destruct q as [qx qy qz], d as [dx dy dz]. unfold from_h, vmul4, to_h, scale_mat, clamp_denom.
  cbn [n00 n01 n02 n03 n10 n11 n12 n13 n20 n21 n22 n23 n30 n31 n32 n33 x3 y3 z3 x4 y4 z4 w4].
  destruct (Reqb_spec (qx * 0 + qy * 0 + qz * 0 + 1 * 1) 0); [lra|]. f_equal. apply V3_eq; field; lra.
Qed.

Lemma rotate_from_h q r : from_h None (vmul4 (to_h q) (rotate_mat r)) = Some (vmul3 q r).
Proof.
  destruct q as [qx qy qz], r as [ra rb rc rd re rf rg rh ri]. unfold from_h, vmul4, to_h, rotate_mat, clamp_denom, vmul3.
  cbn [n00 n01 n02 n03 n10 n11 n12 n13 n20 n21 n22 n23 n30 n31 n32 n33 x3 y3 z3 x4 y4 z4 w4 m00 m01 m02 m10 m11 m12 m20 m21 m22].
  destruct (Reqb_spec (qx * 0 + qy * 0 + qz * 0 + 1 * 1) 0); [lra|]. f_equal. apply V3_eq; field; lra.
Qed.
Lemma rotate_points rs p oq i j o :
  transform_points None (mk_rotate rs) p = Ok oq -> entry oq i j = Some o ->
  exists q r, entry p i j = Some q /\ batch_nth rs i = Some r /\ o = Some (vmul3 q r).
Proof.
  intros Hp Ho. destruct (entry_points _ _ _ _ _ _ _ Hp Ho) as (ms & q & a & Em & Eq & Ea & ->).
  cbn in Em. injection Em as <-. rewrite batch_nth_map in Ea.
  destruct (batch_nth rs i) as [r|] eqn:Ed; [|discriminate]. injection Ea as <-.
  exists q, r. split; [exact Eq|]. split; [reflexivity|]. apply rotate_from_h.
Qed.

Lemma orthogonal_dist r p q : orthogonal r -> dist2 (vmul3 p r) (vmul3 q r) = dist2 p q.
Proof.
  intros H. unfold dist2.
  assert (S : sub3 (vmul3 p r) (vmul3 q r) = vmul3 (sub3 p q) r).
  { clear H. m3r. apply V3_eq; ring. }
  rewrite S, dot3_vmul, <- vmul3_mul, H, vmul3_id. reflexivity.
Qed.

Lemma axis_points c a d t p oq i j o :
  mk_axis_angle c a d = Ok t -> transform_points None t p = Ok oq -> entry oq i j = Some o ->
  exists q ang, entry p i j = Some q /\ scalar_at c i = Some ang /\
    o = let th := if d then ang / 180 * PI else ang in
        Some match a with
             | AX => V3 (x3 q) (y3 q * cos th - z3 q * sin th) (y3 q * sin th + z3 q * cos th)
             | AY => V3 (z3 q * sin th + x3 q * cos th) (y3 q) (z3 q * cos th - x3 q * sin th)
             | AZ => V3 (x3 q * cos th - y3 q * sin th) (x3 q * sin th + y3 q * cos th) (z3 q)
             end.
Proof.
  intros Ht Hp Ho. destruct (entry_points _ _ _ _ _ _ _ Hp Ho) as (ms & q & m & Em & Eq & Ea & ->).
  unfold mk_axis_angle in Ht. destruct (handle_angle c) as [v|] eqn:Ec; [|discriminate]. cbn [rbind] in Ht.
  injection Ht as <-. cbn in Em. injection Em as <-. rewrite batch_nth_map in Ea.
  destruct (batch_nth v i) as [ang|] eqn:Ed; [|discriminate]. injection Ea as <-.
  exists q, ang. split; [exact Eq|]. split.
  { destruct c; cbn [handle_angle] in Ec; try discriminate; eapply handle_coord_at; eassumption. }
  cbv zeta. rewrite rotate_from_h. f_equal. set (th := if d then _ else _).
  destruct q as [qx qy qz]. destruct a; unfold axis_rot, tr3, vmul3; cbn [x3 y3 z3 m00 m01 m02 m10 m11 m12 m20 m21 m22]; apply V3_eq; ring.
Qed.

(* ---- eps clamp ---- *)
Lemma clamp_big e d : 0 < e -> e <= Rabs d -> clamp_denom (Some e) d = d.
Proof.
  intros He Hd. cbn [clamp_denom]. rewrite Rmax_left by exact Hd.
  destruct (Rltb_spec d 0); destruct (Reqb_spec d 0); destruct (Rltb_spec 0 d); try lra.
  - rewrite Rabs_left by lra. ring.
  - rewrite Rabs_right by lra. ring.
  - rewrite Rabs_right by lra. ring.
Qed.
Lemma clamp_nonzero e d : 0 < e -> clamp_denom (Some e) d <> 0 /\ e <= Rabs (clamp_denom (Some e) d).
Proof.
  intros He. cbn [clamp_denom]. pose proof (Rmax_r (Rabs d) e) as M.
  set (m := Rmax (Rabs d) e) in *.
  assert (Hm : 0 < m) by lra.
  assert (X : clamp_denom (Some e) d = m \/ clamp_denom (Some e) d = - m).
  { cbn [clamp_denom]. fold m. destruct (Rltb_spec d 0); destruct (Reqb_spec d 0); destruct (Rltb_spec 0 d); try lra;
      (left; ring) || (right; ring). }
  cbn [clamp_denom] in X. fold m in X. destruct X as [-> | ->].
  - rewrite Rabs_right by lra. lra.
  - rewrite Rabs_Ropp, Rabs_right by lra. lra.
Qed.

(* ---- normals ---- *)
Lemma entry_normals t p op i j o :
  transform_normals t p = Ok op -> entry op i j = Some o ->
  exists ms q a b, get_matrix t = Ok ms /\ entry p i j = Some q /\ batch_nth ms i = Some a /\
    inv3 (tr3 (block3 a)) = Ok b /\ o = vmul3 q b.
Proof.
  unfold transform_normals. destruct (get_matrix t) as [ms|] eqn:Em; [|discriminate]. cbn [rbind].
  destruct (rmap _ ms) as [im|] eqn:Ei; [|discriminate]. cbn [rbind].
  destruct (broadcast _ (as_batch p) im) as [out|] eqn:Eo; [|discriminate]. cbn [rbind].
  intros H; injection H as <-. unfold entry. rewrite as_batch_reshape.
  destruct (batch_nth out i) as [l|] eqn:El; [|discriminate].
  destruct (broadcast_batch_nth _ _ _ _ _ _ Eo El) as (pts & b & Hp & Hb & ->).
  rewrite nth_error_map. destruct (nth_error pts j) as [q|] eqn:Eq; [|discriminate]. cbn. intros H; injection H as <-.
  apply rmap_Forall2 in Ei.
  assert (Hab : exists a, batch_nth ms i = Some a /\ inv3 (tr3 (block3 a)) = Ok b).
  { unfold batch_nth in *. rewrite (Forall2_length _ _ _ Ei) in *.
    generalize dependent (if (length im =? 1)%nat then 0%nat else i). intros k.
    destruct (length im =? 1)%nat.
    - clear - Ei Hb. destruct Ei; cbn in *; [discriminate|]. injection Hb as <-. eauto.
    - clear - Ei Hb. revert i Hb. induction Ei as [|a b' l l' H F IH]; intros [|i] Hb; cbn in *; try discriminate.
      + injection Hb as <-. eauto.
      + apply IH; exact Hb. }
  destruct Hab as (a & Ha & Hb'). exists ms, q, a, b. rewrite Hp. auto.
Qed.

Lemma affine_from_h q a : affine a ->
  from_h None (vmul4 (to_h q) a) = Some (add3 (vmul3 q (block3 a)) (V3 (n30 a) (n31 a) (n32 a))).
Proof.
  intros (H0 & H1 & H2 & H3). destruct q as [qx qy qz]. unfold from_h, vmul4, to_h, clamp_denom, vmul3, block3, add3.
  cbn [x3 y3 z3 x4 y4 z4 w4 m00 m01 m02 m10 m11 m12 m20 m21 m22]. rewrite H0, H1, H2, H3.
  destruct (Reqb_spec (qx * 0 + qy * 0 + qz * 0 + 1 * 1) 0); [lra|]. f_equal. apply V3_eq; field; lra.
Qed.

Lemma normals_perp t ms nrm nrm' p oq i j k l n n' a b a' b' :
  get_matrix t = Ok ms -> (forall m, In m ms -> affine m) ->
  transform_normals t nrm = Ok nrm' -> transform_points None t p = Ok oq ->
  entry nrm i j = Some n -> entry nrm' i j = Some n' ->
  entry p i k = Some a -> entry p i l = Some b ->
  entry oq i k = Some (Some a') -> entry oq i l = Some (Some b') ->
  dot3 n' (sub3 b' a') = dot3 n (sub3 b a).
Proof.
  intros Em Haff Hn Hp En En' Ea Eb Ea' Eb'.
  destruct (entry_normals _ _ _ _ _ _ Hn En') as (ms1 & q & m & im & E1 & E2 & E3 & E4 & ->).
  destruct (entry_points _ _ _ _ _ _ _ Hp Ea') as (ms2 & qa & m2 & F1 & F2 & F3 & F4).
  destruct (entry_points _ _ _ _ _ _ _ Hp Eb') as (ms3 & qb & m3 & G1 & G2 & G3 & G4).
  rewrite Em in E1, F1, G1. injection E1 as <-. injection F1 as <-. injection G1 as <-.
  rewrite E3 in F3, G3. injection F3 as <-. injection G3 as <-.
  rewrite En in E2. rewrite Ea in F2. rewrite Eb in G2. injection E2 as <-. injection F2 as <-. injection G2 as <-.
  assert (Ha : affine m).
  { apply Haff. unfold batch_nth in E3. destruct (length ms =? 1)%nat; eapply nth_error_In; exact E3. }
  rewrite affine_from_h in F4, G4 by exact Ha. injection F4 as ->. injection G4 as ->.
  assert (S : sub3 (add3 (vmul3 b (block3 m)) (V3 (n30 m) (n31 m) (n32 m))) (add3 (vmul3 a (block3 m)) (V3 (n30 m) (n31 m) (n32 m)))
            = vmul3 (sub3 b a) (block3 m)).
  { destruct a as [ax ay az], b as [bx by_ bz]. unfold sub3, add3, vmul3. cbn [x3 y3 z3]. apply V3_eq; ring. }
  rewrite S. apply inv3_ok in E4. destruct E4 as (_ & E5 & E6).
  rewrite dot3_vmul, <- vmul3_mul.
  assert (T : mul3 (block3 m) (tr3 im) = id3).
  { rewrite <- (tr3_tr (block3 m)), <- tr3_mul, E6. reflexivity. }
  rewrite T, vmul3_id. reflexivity.
Qed.
