From Verif Require Import Base RBase Geom LinAlg Transform TransformSpec TransformProofs TransformProofs2 RotationSpec RotationProofs Camera CameraSpec CameraProofs CameraProofs2 CameraProofs3 CameraProofs4 CameraProofs5.
Local Open Scope R_scope.

(* ---- camera centre ---- *)
Lemma center_origin cs l i C : snd (camera_center no_kw cs) = Ok l -> batch_nth l i = Some C ->
  exists r t, batch_nth (cs_R cs) i = Some r /\ batch_nth (cs_T cs) i = Some t /\ view_of r t C = V3 0 0 0.
Proof.
  unfold camera_center, view_transform. rewrite stored_no_kw. cbn [snd].
  destruct (world_to_view (cs_R cs) (cs_T cs)) as [w|] eqn:Ew; cbn [rbind]; [|discriminate].
  destruct (inverse false w) as [u|] eqn:Eu; cbn [rbind]; [|discriminate].
  destruct (get_matrix u) as [ims|] eqn:Em; cbn [rbind]; [|discriminate].
  intros H Hc. injection H as <-. rewrite batch_nth_map in Hc. destruct (batch_nth ims i) as [b|] eqn:Eb; [|discriminate].
  injection Hc as <-.
  assert (Hg : exists ms, get_matrix w = Ok ms).
  { destruct (world_to_view_ok _ _ _ Ew) as (L & ->). cbn [get_matrix rbind]. unfold broadcast. rewrite !map_length, L, Nat.eqb_refl. eexists; reflexivity. }
  destruct Hg as (ms & Hg). destruct (inverse_matrix false _ _ _ (wf_view _ _ _ Ew) Hg Eu) as (ims' & E1 & Hinv).
  rewrite Em in E1. injection E1 as <-. destruct (inv_batch_nth _ _ _ _ Hinv Eb) as (a & Ha & H1 & H2).
  destruct (view_matrix _ _ _ _ _ _ Ew Hg Ha) as (r & t & F1 & F2 & ->). exists r, t. split; [exact F1|]. split; [exact F2|].
  set (a := mul4 (rotate_mat r) (translate_mat t)) in *.
  assert (A3 : n03 a = 0 /\ n13 a = 0 /\ n23 a = 0 /\ n33 a = 1) by (unfold a, mul4, rotate_mat, translate_mat; cbm; repeat split; ring).
  destruct A3 as (A0 & A1 & A2 & A3).
  assert (B33 : n33 b = 1).
  { assert (E : n33 (mul4 b a) = 1) by (rewrite H2; reflexivity). unfold mul4 in E. cbm_in E. rewrite A0, A1, A2, A3 in E. lra. }
  assert (E : to_h (view_of r t (V3 (n30 b) (n31 b) (n32 b))) = V4 0 0 0 1).
  { rewrite <- vmul4_view. fold a.
    assert (E : V4 (n30 (mul4 b a)) (n31 (mul4 b a)) (n32 (mul4 b a)) (n33 (mul4 b a)) = V4 0 0 0 1) by (rewrite H2; reflexivity).
    rewrite <- E. unfold vmul4, to_h, mul4. cbm. rewrite B33. reflexivity. }
  unfold to_h in E. injection E as X1 X2 X3. unfold view_of. cbm. apply V3_eq; assumption.
Qed.

(* ---- the state of the object after a call ---- *)
Lemma call_state kw cs : 
  fst (view_transform kw cs) = stored kw cs /\ fst (full_projection kw cs) = stored kw cs /\
  (forall eps p, fst (project eps kw cs p) = stored kw cs) /\
  (forall eps p, fst (project_ndc eps kw cs p) = stored kw cs) /\
  (forall eps f p, fst (project_screen eps f kw cs p) = stored kw cs).
Proof. repeat split. Qed.
Lemma unproject_state w sc nd cs p : fst (unproject w sc nd no_kw cs p) = cs.
Proof.
  unfold unproject, full_or_view, full_projection, view_transform. rewrite stored_no_kw.
  destruct (cs_cls cs), w; reflexivity.
Qed.

(* ---- indexing ---- *)
Definition selects {A} (l : list A) (idx : list nat) (out : list A) : Prop :=
  Forall2 (fun j x => nth_error l j = Some x) idx out.
Lemma take_list_selects {A} (l : list A) is_ out : take_index l (IxList is_) = Ok out ->
  selects l (map (position (length l)) is_) out /\ Forall (fun i => (- Z.of_nat (length l) <= i < Z.of_nat (length l))%Z) is_.
Proof.
  cbn [take_index]. revert out. induction is_ as [|i is_ IH]; intros out H.
  - cbn in H. injection H as <-. split; constructor.
  - cbn [rmap] in H. unfold index1 in H at 1.
    destruct ((i <? - Z.of_nat (length l)) || (Z.of_nat (length l) <=? i))%Z eqn:E; cbn [rbind] in H; [discriminate|].
    apply orb_false_iff in E. destruct E as (E1 & E2). apply Z.ltb_ge in E1. apply Z.leb_gt in E2.
    unfold rget in H at 1. destruct (nth_error l _) as [x|] eqn:Ex in H; cbn [rbind] in H; [|discriminate].
    destruct (rmap _ is_) as [o|] eqn:Eo; cbn [rbind] in H; [|discriminate]. injection H as <-.
    destruct (IH o eq_refl) as (I1 & I2). split; [|constructor; [lia|exact I2]]. constructor; [exact Ex|exact I1].
Qed.
Lemma mask_from {A} (l l0 : list A) : forall b, length b = length l ->
  Forall2 (fun j x => nth_error (l0 ++ l) j = Some x) (map fst (filter snd (combine (seq (length l0) (length b)) b))) (map snd (filter fst (combine b l))).
Proof.
  revert l0. induction l as [|x l IH]; intros l0 [|c b] L; try discriminate; [constructor|].
  cbn [length] in L. injection L as L. cbn [length seq combine filter fst snd].
  assert (K : Forall2 (fun j y => nth_error (l0 ++ x :: l) j = Some y) (map fst (filter snd (combine (seq (S (length l0)) (length b)) b))) (map snd (filter fst (combine b l)))).
  { specialize (IH (l0 ++ [x]) b L). rewrite app_length in IH. cbn [length] in IH. rewrite Nat.add_1_r in IH. rewrite <- app_assoc in IH. exact IH. }
  destruct c; cbn [map fst snd]; [constructor|]; [|exact K|exact K].
  rewrite nth_error_app2 by lia. rewrite Nat.sub_diag. reflexivity.
Qed.
Lemma take_mask_selects {A} (l : list A) b out : take_index l (IxMask b) = Ok out ->
  selects l (map fst (filter snd (combine (seq 0 (length b)) b))) out /\ length b = length l.
Proof.
  cbn [take_index]. destruct (length b =? length l)%nat eqn:E; [|discriminate]. apply Nat.eqb_eq in E.
  intros H; injection H as <-. split; [|exact E]. exact (mask_from l [] b E).
Qed.
Lemma cams_index_selects cs ix jx : cams_index cs ix = Ok jx ->
  (forall {A} (l : list A) out, length l = cs_n cs -> take_index l jx = Ok out -> selects l (positions (cs_n cs) ix) out).
Proof.
  intros H A l out L Ht. destruct ix as [i|is_|b]; cbn [cams_index] in H.
  - destruct (Z.of_nat (cs_n cs) <=? i)%Z; [discriminate|]. injection H as <-.
    apply take_list_selects in Ht. rewrite L in Ht. apply Ht.
  - destruct is_ as [|i is_]; [discriminate|]. destruct (Z.of_nat (cs_n cs) <=? _)%Z; [discriminate|]. injection H as <-.
    apply take_list_selects in Ht. rewrite L in Ht. apply Ht.
  - destruct (length b =? cs_n cs)%nat; [|discriminate]. injection H as <-. apply take_mask_selects in Ht. apply Ht.
Qed.
Lemma selects_nth {A} (l : list A) idx out k j : selects l idx out -> nth_error idx k = Some j -> nth_error out k = nth_error l j.
Proof.
  intros H. revert k. induction H as [|j' x idx out H1 H2 IH]; intros [|k] Hk; try discriminate.
  - injection Hk as <-. symmetry. exact H1.
  - apply IH. exact Hk.
Qed.
Lemma getitem_correct cs ix out : cams_wf cs -> cams_getitem cs ix = Ok out ->
  let idx := positions (cs_n cs) ix in
  cs_cls out = cs_cls cs /\ in_ndc out = in_ndc cs /\ cs_n out = length idx /\ cams_wf out /\
  Forall (fun j => (j < cs_n cs)%nat) idx /\
  forall k j, nth_error idx k = Some j ->
    nth_error (cs_int out) k = nth_error (cs_int cs) j /\ nth_error (cs_R out) k = nth_error (cs_R cs) j /\
    nth_error (cs_T out) k = nth_error (cs_T cs) j /\
    option_map (fun l => nth_error l k) (cs_K out) = option_map (fun l => nth_error l j) (cs_K cs) /\
    option_map (fun l => nth_error l k) (cs_size out) = option_map (fun l => nth_error l j) (cs_size cs).
Proof.
  intros (W1 & W2 & W3 & W4 & W5) H idx. unfold cams_getitem in H.
  destruct (cams_index cs ix) as [jx|] eqn:Ej; cbn [rbind] in H; [|discriminate].
  destruct (take_index (cs_int cs) jx) as [ii|] eqn:E1; cbn [rbind] in H; [|discriminate].
  destruct (take_opt (cs_K cs) jx) as [kk|] eqn:E2; cbn [rbind] in H; [|discriminate].
  destruct (take_index (cs_R cs) jx) as [rr|] eqn:E3; cbn [rbind] in H; [|discriminate].
  destruct (take_index (cs_T cs) jx) as [tt|] eqn:E4; cbn [rbind] in H; [|discriminate].
  destruct (take_opt (cs_size cs) jx) as [ss|] eqn:E5; cbn [rbind] in H; [|discriminate].
  injection H as <-. pose proof (fun A => cams_index_selects cs ix jx Ej (A := A)) as SEL.
  assert (S1 := SEL _ _ _ eq_refl E1). assert (S3 := SEL _ _ _ W1 E3). assert (S4 := SEL _ _ _ W2 E4). fold idx in S1, S3, S4.
  assert (SO : forall A (o : option (list A)) o', (forall l, o = Some l -> length l = cs_n cs) -> take_opt o jx = Ok o' ->
    match o, o' with Some l, Some l' => selects l idx l' | None, None => True | _, _ => False end).
  { intros A o o' Hl Ho. unfold take_opt in Ho. destruct o as [l|].
    - destruct (take_index l jx) as [l'|] eqn:El; cbn [rbind] in Ho; [|discriminate]. injection Ho as <-. apply (SEL _ l l'); auto.
    - injection Ho as <-. exact I. }
  assert (S2 := SO _ _ _ W3 E2). assert (S5 := SO _ _ _ W4 E5).
  split; [reflexivity|]. split; [reflexivity|]. split.
  { unfold cs_n. cbn [cs_int]. symmetry. exact (Forall2_length _ _ _ S1). }
  split.
  { unfold cams_wf, cs_n. cbn [cs_int cs_R cs_T cs_K cs_size cs_cls].
    rewrite <- (Forall2_length _ _ _ S1), <- (Forall2_length _ _ _ S3), <- (Forall2_length _ _ _ S4). split; [reflexivity|]. split; [reflexivity|].
    split; [|split].
    - intros l ->. destruct (cs_K cs); [|contradiction]. symmetry. exact (Forall2_length _ _ _ S2).
    - intros l ->. destruct (cs_size cs); [|contradiction]. symmetry. exact (Forall2_length _ _ _ S5).
    - intros c Hc. apply W5. eapply take_index_in; eassumption. }
  split.
  { clear - S1. unfold selects in S1. induction S1 as [|j x idx' out' H1 H2 IH]; constructor; [|exact IH].
    unfold cs_n. apply nth_error_Some. congruence. }
  intros k j Hk. cbn [cs_int cs_R cs_T cs_K cs_size].
  rewrite (selects_nth _ _ _ _ _ S1 Hk), (selects_nth _ _ _ _ _ S3 Hk), (selects_nth _ _ _ _ _ S4 Hk).
  split; [reflexivity|]. split; [reflexivity|]. split; [reflexivity|]. split.
  - destruct (cs_K cs), kk; try contradiction; [|reflexivity]. cbn [option_map]. rewrite (selects_nth _ _ _ _ _ S2 Hk). reflexivity.
  - destruct (cs_size cs), ss; try contradiction; [|reflexivity]. cbn [option_map]. rewrite (selects_nth _ _ _ _ _ S5 Hk). reflexivity.
Qed.
Lemma getitem_defined cs ix : cams_wf cs -> in_bounds (cs_n cs) ix -> exists out, cams_getitem cs ix = Ok out.
Proof.
  intros (W1 & W2 & W3 & W4 & W5) Hb.
  assert (TL : forall A (l : list A) is_, length l = cs_n cs -> Forall (fun i => (- Z.of_nat (cs_n cs) <= i < Z.of_nat (cs_n cs))%Z) is_ ->
      exists out, take_index l (IxList is_) = Ok out).
  { intros A l is_ L HF. cbn [take_index]. apply rmap_total. intros i Hi. rewrite Forall_forall in HF. specialize (HF i Hi).
    unfold index1. rewrite L. assert (Ei : ((i <? - Z.of_nat (cs_n cs)) || (Z.of_nat (cs_n cs) <=? i))%Z = false) by (apply orb_false_iff; split; [apply Z.ltb_ge|apply Z.leb_gt]; lia).
    rewrite Ei. cbn [rbind]. unfold rget.
    destruct (nth_error l _) eqn:En; [eexists; reflexivity|]. apply nth_error_None in En. destruct (Z.ltb_spec i 0); lia. }
  assert (TI : exists jx, cams_index cs ix = Ok jx /\ forall A (l : list A), length l = cs_n cs -> exists out, take_index l jx = Ok out).
  { destruct ix as [i|is_|b]; cbn [in_bounds cams_index] in *.
    - destruct (Z.leb_spec (Z.of_nat (cs_n cs)) i); [lia|]. eexists. split; [reflexivity|]. intros A l L. apply TL; [exact L|]. constructor; [lia|constructor].
    - destruct Hb as (Hne & Hb). destruct is_ as [|i is_]; [congruence|].
      assert (M : (fold_left Z.max is_ i < Z.of_nat (cs_n cs))%Z).
      { apply Forall_cons_iff in Hb. destruct Hb as (Hi & Hb). clear Hne. revert i Hi Hb. induction is_ as [|a is_ IH]; intros i Hi Hb; cbn [fold_left]; [lia|].
        apply Forall_cons_iff in Hb. destruct Hb as (Ha & Hb). apply IH; [lia|exact Hb]. }
      destruct (Z.leb_spec (Z.of_nat (cs_n cs)) (fold_left Z.max is_ i)); [lia|]. eexists. split; [reflexivity|]. intros A l L. apply TL; [exact L|exact Hb].
    - rewrite Hb, Nat.eqb_refl. eexists. split; [reflexivity|]. intros A l L. cbn [take_index]. rewrite Hb, L, Nat.eqb_refl. eexists; reflexivity. }
  destruct TI as (jx & Ej & T). unfold cams_getitem. rewrite Ej. cbn [rbind].
  destruct (T _ (cs_int cs) eq_refl) as (a & ->). cbn [rbind].
  assert (TO : forall A (o : option (list A)), (forall l, o = Some l -> length l = cs_n cs) -> exists o', take_opt o jx = Ok o').
  { intros A o Ho. destruct o as [l|]; [|eexists; reflexivity]. cbn [take_opt]. destruct (T _ l (Ho l eq_refl)) as (l' & ->). eexists; reflexivity. }
  destruct (TO _ _ W3) as (b & ->). cbn [rbind]. destruct (T _ _ W1) as (c & ->). cbn [rbind].
  destruct (T _ _ W2) as (d & ->). cbn [rbind]. destruct (TO _ _ W4) as (e & ->). cbn [rbind]. eexists; reflexivity.
Qed.

(* ---- joining ---- *)
Lemma concat_offset {A B} (f : A -> list B) l1 x l2 k : nth_error (f x) k <> None ->
  nth_error (concat (map f (l1 ++ x :: l2))) (length (concat (map f l1)) + k) = nth_error (f x) k.
Proof.
  intros H. rewrite map_app, concat_app. rewrite nth_error_app2 by lia. replace (_ + k - _)%nat with k by lia.
  cbn [map concat]. apply nth_error_app1. apply nth_error_Some. exact H.
Qed.
Lemma concat_len {A B C} (f : A -> list B) (g : A -> list C) l : (forall x, In x l -> length (f x) = length (g x)) ->
  length (concat (map f l)) = length (concat (map g l)).
Proof.
  induction l as [|x l IH]; intros H; [reflexivity|]. cbn [map concat]. rewrite !app_length, (H x (or_introl eq_refl)), IH; [reflexivity|].
  intros y Hy. apply H. right. exact Hy.
Qed.
Lemma join_opt_ok {A} (l : list (option (list A))) o : join_opt l = Ok o ->
  (o = None /\ forall x, In x l -> x = None) \/
  (o = Some (concat (map (fun o => orelse o []) l)) /\ forall x, In x l -> exists y, x = Some y).
Proof.
  unfold join_opt. destruct (existsb is_some l) eqn:E; cbn [negb].
  - destruct (forallb is_some l) eqn:F; [|discriminate]. intros H; injection H as <-. right. split; [reflexivity|].
    intros x Hx. rewrite forallb_forall in F. specialize (F x Hx). destruct x; [eauto|discriminate].
  - intros H; injection H as <-. left. split; [reflexivity|]. intros x Hx. destruct x; [|reflexivity].
    assert (existsb is_some l = true) by (apply existsb_exists; eexists; split; [exact Hx|reflexivity]). congruence.
Qed.
Lemma join_correct l1 c l2 out : (forall x, In x (l1 ++ c :: l2) -> cams_wf x) -> join_cameras (l1 ++ c :: l2) = Ok out ->
  cs_n out = list_sum (map cs_n (l1 ++ c :: l2)) /\ cams_wf out /\ cs_cls out = cs_cls c /\ in_ndc out = in_ndc c /\
  forall k, (k < cs_n c)%nat -> let m := (list_sum (map cs_n l1) + k)%nat in
    nth_error (cs_int out) m = nth_error (cs_int c) k /\ nth_error (cs_R out) m = nth_error (cs_R c) k /\
    nth_error (cs_T out) m = nth_error (cs_T c) k /\
    option_map (fun l => nth_error l m) (cs_K out) = option_map (fun l => nth_error l k) (cs_K c) /\
    option_map (fun l => nth_error l m) (cs_size out) = option_map (fun l => nth_error l k) (cs_size c).
Proof.
  intros W H. set (L := l1 ++ c :: l2) in *. unfold join_cameras in H. destruct L as [|c0 L'] eqn:EL; [discriminate|]. rewrite <- EL in *.
  assert (Hin : In c L) by (unfold L; apply in_or_app; right; left; reflexivity).
  destruct (forallb (fun c => cls_eqb (cs_cls c) (cs_cls c0)) L) eqn:F1; cbn [negb] in H; [|discriminate].
  destruct (forallb (shared_ok c0) L) eqn:F2; cbn [negb] in H; [|discriminate].
  destruct (join_opt (map cs_K L)) as [k|] eqn:EK; cbn [rbind] in H; [|discriminate].
  destruct (join_opt (map cs_size L)) as [s|] eqn:ES; cbn [rbind] in H; [|discriminate]. injection H as <-.
  rewrite forallb_forall in F1, F2.
  assert (Ecls : forall x, In x L -> cs_cls x = cs_cls c0).
  { intros x Hx. specialize (F1 x Hx). destruct (cs_cls x), (cs_cls c0); try discriminate; reflexivity. }
  assert (LS : forall l, length (concat (map cs_int l)) = list_sum (map cs_n l)).
  { induction l as [|x l IH]; [reflexivity|]. cbn [map concat list_sum fold_right]. rewrite app_length. f_equal. exact IH. }
  assert (LR : forall l, (forall x, In x l -> In x L) -> length (concat (map cs_R l)) = list_sum (map cs_n l)).
  { intros l Hl. rewrite <- LS. apply concat_len. intros x Hx. apply W, Hl, Hx. }
  assert (LT : forall l, (forall x, In x l -> In x L) -> length (concat (map cs_T l)) = list_sum (map cs_n l)).
  { intros l Hl. rewrite <- LS. apply concat_len. intros x Hx. apply (W x), Hl, Hx. }
  assert (LO : forall A (f : cameras -> option (list A)), (forall x, In x L -> forall y, f x = Some y -> length y = cs_n x) ->
     (forall x, In x (map f L) -> exists y, x = Some y) ->
     forall l, (forall x, In x l -> In x L) -> length (concat (map (fun o => orelse o []) (map f l))) = list_sum (map cs_n l)).
  { intros A f Hf Hs l Hl. rewrite <- LS, map_map. apply concat_len. intros x Hx. destruct (Hs (f x)) as (y & Ey); [apply in_map, Hl, Hx|].
    rewrite Ey. cbn [orelse]. apply (Hf x); auto. }
  assert (I1 : forall x, In x l1 -> In x L) by (intros x Hx; unfold L; apply in_or_app; auto).
  split; [unfold cs_n at 1; cbn [cs_int]; apply LS|]. split.
  { unfold cams_wf. cbn [cs_int cs_R cs_T cs_K cs_size cs_cls]. unfold cs_n at 1 2 3 4. cbn [cs_int]. rewrite LS. split; [apply LR; auto|]. split; [apply LT; auto|].
    split; [|split].
    - intros kl Ekl. destruct (join_opt_ok _ _ EK) as [(E & _)|(E & Hs)]; [congruence|]. rewrite E in Ekl. injection Ekl as <-.
      apply LO; auto. intros x Hx. apply (W x Hx).
    - intros kl Ekl. destruct (join_opt_ok _ _ ES) as [(E & _)|(E & Hs)]; [congruence|]. rewrite E in Ekl. injection Ekl as <-.
      apply LO; auto. intros x Hx. apply (W x Hx).
    - intros i Hi. apply in_concat in Hi. destruct Hi as (li & Hli & Hi). apply in_map_iff in Hli. destruct Hli as (x & <- & Hx).
      rewrite <- (Ecls x Hx). apply (W x Hx). exact Hi. }
  split; [symmetry; apply Ecls; exact Hin|]. split.
  { unfold in_ndc. cbn [cs_cls cs_ndc]. rewrite (Ecls c Hin). specialize (F2 c Hin). unfold shared_ok in F2.
    destruct (cs_cls c0); auto; apply eqb_prop in F2; auto. }
  intros kk Hkk m. cbn [cs_int cs_R cs_T cs_K cs_size].
  assert (Wc := W c Hin). destruct Wc as (W1 & W2 & W3 & W4 & W5).
  split. { unfold m. rewrite <- LS. apply concat_offset. apply nth_error_Some. exact Hkk. }
  split. { unfold m. rewrite <- (LR l1 I1). apply concat_offset. apply nth_error_Some. lia. }
  split. { unfold m. rewrite <- (LT l1 I1). apply concat_offset. apply nth_error_Some. lia. }
  assert (KO : forall A (f : cameras -> option (list A)) o, (forall x, In x L -> forall y, f x = Some y -> length y = cs_n x) -> join_opt (map f L) = Ok o ->
     option_map (fun l => nth_error l m) o = option_map (fun l => nth_error l kk) (f c)).
  { intros A f o Hf Ho. destruct (join_opt_ok _ _ Ho) as [(-> & Hs)|(-> & Hs)].
    - rewrite (Hs (f c)); [reflexivity|]. apply in_map. exact Hin.
    - destruct (Hs (f c)) as (y & Ey); [apply in_map; exact Hin|]. rewrite Ey. cbn [option_map]. f_equal.
      unfold m. rewrite <- (LO A f Hf Hs l1 I1). rewrite !map_map. unfold L. rewrite (concat_offset (fun x => orelse (f x) [])); rewrite Ey; [reflexivity|].
      cbn [orelse]. apply nth_error_Some. rewrite (Hf c Hin y Ey). exact Hkk. }
  split; apply KO; auto; intros x Hx; apply (W x Hx).
Qed.
