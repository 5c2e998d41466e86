(* Phong and flat shading, pixel by pixel. *)
From Coq Require Import Lra.
From Verif Require Import Base RBase Geom LinAlg Tens Lighting LightingSpec LightingProofs LightingProofs2 LightingProofs3 LightingProofs4.
Local Open Scope R_scope.

Lemma in_indices s ix : In ix (indices s) <-> inside ix s.
Proof.
  revert ix; induction s as [|d s IH]; intros ix; cbn [indices].
  - split; [intros [<-|[]]; constructor|]. intros H. inversion H. left. reflexivity.
  - rewrite in_flat_map. split.
    + intros (i & Hi & H). apply in_map_iff in H. destruct H as (q & <- & Hq). apply in_seq in Hi. constructor; [lia|]. apply IH, Hq.
    + intros H. inversion H as [|i ? q ? Hi Hq]; subst. exists i. split; [apply in_seq; lia|]. apply in_map, IH, Hq.
Qed.
Definition seen (A : nat -> vec3) (p2f : itensor) (faces : list (nat * nat * nat)) (B : nat -> list nat -> vec3) (i : nat) (js : list nat) : vec3 :=
  match face_at p2f faces (i :: js) with Some f => on_face A f (B i js) | None => vzero end.
Lemma face_attributes_eval a nv A faces : vecs a nv [] (fun v _ => A v) -> faces_ok nv faces ->
  face_attributes a faces = Ok (T [length faces; 3; 3]%nat (fun ix => match ix with
                                | [f; j; c] => get a [corner (nth f faces no_face) j; c] | _ => 0 end)).
Proof.
  intros (S & _) HF. unfold face_attributes. rewrite S. cbn [app].
  assert (E : forallb (fun f => (corner f 0 <? nv) && (corner f 1 <? nv) && (corner f 2 <? nv))%nat faces = true).
  { apply forallb_forall. intros [[u v] w] H. destruct (HF u v w H) as (U & V & W). cbn [corner fst snd].
    apply andb_true_intro; split; [apply andb_true_intro; split|]; apply Nat.ltb_lt; assumption. }
  rewrite E. reflexivity.
Qed.
Lemma rendered_face p2f n h w k faces i js : rendered p2f n h w k faces -> (i < n)%nat -> inside js [h; w; k] ->
  face_at p2f faces (i :: js) = (if (iget p2f (i :: js) <? 0)%Z then None else Some (nth (Z.to_nat (iget p2f (i :: js))) faces no_face)) /\
  ((iget p2f (i :: js) < 0)%Z -> iget p2f (i :: js) = (-1)%Z) /\
  ((0 <= iget p2f (i :: js))%Z -> (Z.to_nat (iget p2f (i :: js)) < length faces)%nat).
Proof.
  intros (_ & NE & H) Hi J. specialize (H i js Hi J). split; [|split; lia]. unfold face_at. destruct (Z.ltb_spec (iget p2f (i :: js)) 0); [reflexivity|].
  apply nth_error_nth'. lia.
Qed.
Lemma interpolate_eval p2f bary a nv A B n h w k faces : rendered p2f n h w k faces -> faces_ok nv faces ->
  vecs a nv [] (fun v _ => A v) -> vecs bary n [h; w; k] B ->
  exists fa r, face_attributes a faces = Ok fa /\ interpolate p2f bary fa = Ok r /\ vecs r n [h; w; k] (seen A p2f faces B).
Proof.
  intros HR HF VA (SB & HB). eexists. rewrite (face_attributes_eval _ _ _ _ VA HF).
  pose proof (proj1 HR) as SI. pose proof (proj1 (proj2 HR)) as NE.
  assert (LF : (0 < length faces)%nat) by (destruct faces; [contradiction|cbn; lia]).
  unfold interpolate. 
  eexists. split; [reflexivity|]. cbn [shp]. rewrite SB. cbn [app Nat.eqb negb].
  unfold shape_eqb. rewrite SI. destruct (list_eq_dec Nat.eq_dec [n; h; w; k] [n; h; w; k]); [|contradiction]. cbn [negb].
  match goal with |- (if ?b then _ else _) = _ /\ _ => assert (E : b = true) end.
  { apply forallb_forall. intros ix Hix. apply in_indices in Hix. inversion Hix as [|i ? js ? Hi J]; subst.
    destruct (rendered_face _ _ _ _ _ _ i js HR Hi J) as (_ & _ & L). apply Nat.ltb_lt.
    destruct (Z.ltb_spec (iget p2f (i :: js)) 0); [exact LF|]. apply L. lia. }
  rewrite E. split; [reflexivity|]. split; [reflexivity|]. intros i js Hi J.
  destruct (rendered_face _ _ _ _ _ _ i js HR Hi J) as (FE & _ & L). unfold seen. rewrite FE.
  unfold row. cbn [get]. rewrite !removelast_last, !last_last.
  destruct (Z.ltb_spec (iget p2f (i :: js)) 0) as [G|G]; [reflexivity|]. specialize (L G).
  rewrite !sumf3. pose proof (HB i js Hi J) as HB'. unfold row in HB'. 
  assert (IN : In (nth (Z.to_nat (iget p2f (i :: js))) faces no_face) faces) by (apply nth_In; exact L).
  destruct (nth (Z.to_nat (iget p2f (i :: js))) faces no_face) as [[u v] x] eqn:EF. destruct (HF _ _ _ IN) as (U & V & X).
  destruct VA as (_ & VA). pose proof (VA u [] U (Forall2_nil _)) as HU. pose proof (VA v [] V (Forall2_nil _)) as HV. pose proof (VA x [] X (Forall2_nil _)) as HX.
  unfold on_face, mix. rewrite <- HB', <- HU, <- HV, <- HX. unfold row, add3, scal3. cbn [corner fst snd app x3 y3 z3]. f_equal; ring.
Qed.
Lemma mean_eval a nv A faces : vecs a nv [] (fun v _ => A v) -> faces_ok nv faces ->
  exists fa t, face_attributes a faces = Ok fa /\ mean_corner fa = Ok t /\
    vecs t (length faces) [] (fun f _ => centroid A (nth f faces no_face)).
Proof.
  intros VA HF. eexists. eexists. split; [apply (face_attributes_eval _ _ _ _ VA HF)|]. split; [reflexivity|].
  split; [reflexivity|]. intros i js Hi J. inversion J; subst.
  unfold row. cbn [get app]. rewrite !sumf3.
  assert (IN : In (nth i faces no_face) faces) by (apply nth_In; exact Hi).
  destruct (nth i faces no_face) as [[u v] x] eqn:EF. destruct (HF _ _ _ IN) as (U & V & X).
  destruct VA as (_ & VA). pose proof (VA u [] U (Forall2_nil _)) as HU. pose proof (VA v [] V (Forall2_nil _)) as HV. pose proof (VA x [] X (Forall2_nil _)) as HX.
  unfold centroid. rewrite <- HU, <- HV, <- HX. unfold row, add3, div3. cbn [corner fst snd app x3 y3 z3 INR]. f_equal; field.
Qed.
Lemma gather_eval p2f a A n h w k faces : rendered p2f n h w k faces -> vecs a (length faces) [] (fun f _ => A f) ->
  exists r, gather_faces p2f a = Ok r /\ vecs r n [h; w; k] (fun i js =>
    if (iget p2f (i :: js) <? 0)%Z then vzero else A (Z.to_nat (iget p2f (i :: js)))).
Proof.
  intros HR (SA & VA). pose proof (proj1 HR) as SI. pose proof (proj1 (proj2 HR)) as NE.
  assert (LF : (0 < length faces)%nat) by (destruct faces; [contradiction|cbn; lia]).
  unfold gather_faces. rewrite SA, SI. cbn [app Nat.eqb negb].
  match goal with |- exists r, (if ?b then _ else _) = _ /\ _ => assert (E : b = true) end.
  { apply forallb_forall. intros ix Hix. apply in_indices in Hix. inversion Hix as [|i ? js ? Hi J]; subst.
    destruct HR as (_ & _ & H). specialize (H i js Hi J). 
    destruct (Z.eqb_spec (iget p2f (i :: js)) (-1)); apply andb_true_intro; split; try apply Z.leb_le; try apply Z.ltb_lt; lia. }
  rewrite E. eexists. split; [reflexivity|]. split; [reflexivity|]. intros i js Hi J.
  unfold row. cbn [get]. rewrite !removelast_last, !last_last. destruct HR as (_ & _ & H). specialize (H i js Hi J).
  destruct (Z.eqb_spec (iget p2f (i :: js)) (-1)) as [G|G], (Z.ltb_spec (iget p2f (i :: js)) 0) as [K|K]; try lia; [reflexivity|].
  rewrite <- (VA (Z.to_nat (iget p2f (i :: js))) []); [reflexivity|lia|constructor].
Qed.

(* a pixel where nothing is seen *)
Lemma lit_zero l : lit vzero l = 0.
Proof. unfold lit. rewrite unit6_zero, dot_zero_l. apply Rmax00. Qed.
Lemma shine_zero l v s : 0 < s -> shine vzero l v s = 0.
Proof.
  intros Hs. unfold shine. cbv zeta. rewrite unit6_zero, dot_zero_l. destruct (Rltb_spec 0 0); [lra|]. rewrite Rmult_0_r, tpow_power by exact Hs. apply power_0.
Qed.
Lemma shade_eval ma md ms s la ld ls n l v x : 0 < s -> sized n -> sized l -> sized v ->
  add3 (tint (add3 (tint ma la) (tint md (scal3 (lit n l) ld))) x) (tint ms (scal3 (shine n l v s) ls)) = shade ma md ms s la ld ls n l v x.
Proof. intros Hs Hn Hl Hv. unfold shade. rewrite lit_lambert, shine_gloss by assumption. reflexivity. Qed.
Lemma empty_eval ma md ms s la ld ls l v x : 0 < s ->
  add3 (tint (add3 (tint ma la) (tint md (scal3 (lit vzero l) ld))) x) (tint ms (scal3 (shine vzero l v s) ls)) = tint (tint ma la) x.
Proof. intros Hs. rewrite lit_zero, shine_zero by exact Hs. unfold add3, tint, scal3. cbn. f_equal; ring. Qed.

Lemma phong_eval verts vn nv A VN faces p2f bary B l n la ld ls tw cam C m ma md ms s x X h w k : (0 < n)%nat -> 0 < s ->
  vecs verts nv [] (fun v _ => A v) -> vecs vn nv [] (fun v _ => VN v) -> faces_ok nv faces ->
  rendered p2f n h w k faces -> vecs bary n [h; w; k] B ->
  lamp l n la ld ls tw -> prop3 cam n C -> shared_material m ma md ms s -> vecs x n [h; w; k] X ->
  exists out, phong_shading verts vn faces p2f bary l cam m x = Ok out /\ shp out = [n; h; w; k; 3%nat] /\
    forall i js, (i < n)%nat -> inside js [h; w; k] ->
      match face_at p2f faces (i :: js) with
      | None => row out (i :: js) = tint (tint ma (la i)) (X i js)
      | Some f =>
          let p := on_face A f (B i js) in
          let q := on_face VN f (B i js) in
          sized q -> sized (tw i p) -> sized (sub3 (C i) p) ->
          row out (i :: js) = shade ma md ms s (la i) (ld i) (ls i) q (tw i p) (sub3 (C i) p) (X i js)
      end.
Proof.
  intros Hn Hs VV VN' HF HR VB HL HC HM VX. unfold phong_shading.
  destruct (interpolate_eval p2f bary verts nv A B n h w k faces HR HF VV VB) as (fv & pts & E1 & E2 & VP).
  destruct (interpolate_eval p2f bary vn nv VN B n h w k faces HR HF VN' VB) as (fn & nms & E3 & E4 & VQ).
  rewrite E1. cbn [rbind]. rewrite E3. cbn [rbind]. rewrite E2. cbn [rbind]. rewrite E4. cbn [rbind].
  destruct (pixels_eval l m n la ld ls tw ma md ms s cam C pts nms h w k _ _ x X Hn HL HM HC VP VQ VX) as (a & d & sp & r & -> & R & SR & HR').
  cbn [rbind]. rewrite R. exists r. split; [reflexivity|]. split; [exact SR|].
  intros i js Hi J. rewrite (HR' i js Hi J). unfold seen. destruct (face_at p2f faces (i :: js)) as [f|].
  - cbv zeta. intros. apply shade_eval; assumption.
  - apply empty_eval, Hs.
Qed.
Lemma flat_eval verts fn nv A FN faces p2f l n la ld ls tw cam C m ma md ms s x X h w k : (0 < n)%nat -> 0 < s ->
  vecs verts nv [] (fun v _ => A v) -> vecs fn (length faces) [] (fun f _ => FN f) -> faces_ok nv faces ->
  rendered p2f n h w k faces ->
  lamp l n la ld ls tw -> prop3 cam n C -> shared_material m ma md ms s -> vecs x n [h; w; k] X ->
  exists out, flat_shading verts fn faces p2f l cam m x = Ok out /\ shp out = [n; h; w; k; 3%nat] /\
    forall i js, (i < n)%nat -> inside js [h; w; k] ->
      match face_at p2f faces (i :: js) with
      | None => row out (i :: js) = tint (tint ma (la i)) (X i js)
      | Some f =>
          let p := centroid A f in
          let q := FN (Z.to_nat (iget p2f (i :: js))) in
          sized q -> sized (tw i p) -> sized (sub3 (C i) p) ->
          row out (i :: js) = shade ma md ms s (la i) (ld i) (ls i) q (tw i p) (sub3 (C i) p) (X i js)
      end.
Proof.
  intros Hn Hs VV VF HF HR HL HC HM VX. unfold flat_shading.
  destruct (mean_eval verts nv A faces VV HF) as (fv & fc & E1 & E2 & VC).
  destruct (gather_eval p2f fc _ n h w k faces HR VC) as (pts & E3 & VP).
  destruct (gather_eval p2f fn _ n h w k faces HR VF) as (nms & E4 & VQ).
  rewrite E1. cbn [rbind]. rewrite E2. cbn [rbind]. rewrite E3. cbn [rbind]. rewrite E4. cbn [rbind].
  destruct (pixels_eval l m n la ld ls tw ma md ms s cam C pts nms h w k _ _ x X Hn HL HM HC VP VQ VX) as (a & d & sp & r & -> & R & SR & HR').
  cbn [rbind]. rewrite R. exists r. split; [reflexivity|]. split; [exact SR|].
  intros i js Hi J. rewrite (HR' i js Hi J). destruct (rendered_face _ _ _ _ _ _ i js HR Hi J) as (FE & _ & _). rewrite FE.
  destruct (iget p2f (i :: js) <? 0)%Z.
  - apply empty_eval, Hs.
  - cbv zeta. intros. apply shade_eval; assumption.
Qed.
