(* corresponding_cameras_alignment: the two modes. *)
From Coq Require Import String.
From Verif Require Import Base RBase Geom LinAlg Transform TransformSpec TransformProofs TransformProofs2 RotationSpec RotationProofs Camera CameraSpec CameraProofs CameraProofs2 CameraProofs3 CameraProofs4 CameraProofs5 CameraProofs6 CameraProofs7.
From Verif Require Import Alignment AlignmentSpec AlignmentProofs AlignmentProofs2 AlignmentProofs3 AlignmentProofs6 CamAlign CamAlignSpec CamAlignProofs.
Local Open Scope R_scope.

Lemma fold_map (f : (mat3 * vec3) * (mat3 * vec3) -> mat3) l : fold_right madd3 zero3 (map f l) = fold_right (fun x m => madd3 (f x) m) zero3 l.
Proof. induction l as [|x l IH]; [reflexivity|]. cbn. rewrite IH. reflexivity. Qed.
Lemma along_R (rs : list mat3) (ts : list vec3) (rs' : list mat3) (ts' : list vec3) :
  List.length ts = List.length rs -> List.length rs' = List.length rs -> List.length ts' = List.length rs ->
  along (fun r r' => mul3 r (tr3 r')) rs rs' = map (fun pp => mul3 (fst (fst pp)) (tr3 (fst (snd pp)))) (combine (combine rs ts) (combine rs' ts')).
Proof.
  unfold along. revert ts rs' ts'. induction rs as [|r rs IH]; intros [|t ts] [|r' rs'] [|t' ts'] L1 L2 L3; try discriminate; [reflexivity|].
  cbn [combine map fst snd]. f_equal. apply IH; cbn in *; lia.
Qed.
Lemma along_T (rs : list mat3) (ts : list vec3) (rs' : list mat3) (ts' : list vec3) :
  List.length ts = List.length rs -> List.length rs' = List.length rs -> List.length ts' = List.length rs ->
  along mulv3 rs ts' = map (fun pp => mulv3 (fst (fst pp)) (snd (snd pp))) (combine (combine rs ts) (combine rs' ts')).
Proof.
  unfold along. revert ts rs' ts'. induction rs as [|r rs IH]; intros [|t ts] [|r' rs'] [|t' ts'] L1 L2 L3; try discriminate; [reflexivity|].
  cbn [combine map fst snd]. f_equal. apply IH; cbn in *; lia.
Qed.
(* the vectors A_i and B_i of the code *)
Definition here (ps : list (mat3 * vec3)) : list vec3 := map (fun p => mulv3 (fst p) (snd p)) ps.
Definition there (ps ps' : list (mat3 * vec3)) : list vec3 := map (fun pp => mulv3 (fst (fst pp)) (snd (snd pp))) (combine ps ps').

Section Fix.
  Variable svd : mat3 -> mat3 * vec3 * mat3.
  Variables src tgt : cameras.
  Variable n : nat.
  Hypothesis Hs : cameras_ok src n.
  Hypothesis Ht : cameras_ok tgt n.

  Lemma poses_length cs : cameras_ok cs n -> List.length (poses cs) = n.
  Proof. intros (_ & A & B & _). unfold poses. rewrite combine_length. lia. Qed.
  Lemma poses_orthogonal cs : cameras_ok cs n -> List.Forall (fun p => orthogonal (fst p)) (poses cs).
  Proof.
    intros (_ & _ & _ & O). apply Forall_forall. intros [r t] H. apply in_combine_l in H. rewrite Forall_forall in O. apply O, H.
  Qed.
  Lemma there_length : List.length (there (poses src) (poses tgt)) = n.
  Proof. unfold there. rewrite map_length, combine_length, !poses_length by assumption. lia. Qed.
  Lemma here_length : List.length (here (poses src)) = n.
  Proof. unfold here. rewrite map_length. apply poses_length, Hs. Qed.

  Lemma extrinsics_eq es eps u s v : svd (turn_cov (poses src) (poses tgt)) = (u, s, v) ->
    align_extrinsics svd src tgt es eps =
    let c := best_scale es eps (here (poses src)) (there (poses src) (poses tgt)) in
    Ok (Sim (mul3 v (tr3 u)) (sub3 (mean_vec (there (poses src) (poses tgt))) (scal3 c (mean_vec (here (poses src))))) c).
  Proof.
    intros E. destruct Hs as (N & L1 & L2 & _). destruct Ht as (_ & L3 & L4 & _). unfold align_extrinsics.
    assert (Em : mean_mat (along (fun r r' => mul3 r (tr3 r')) (cs_R src) (cs_R tgt)) = turn_cov (poses src) (poses tgt)).
    { unfold mean_mat, turn_cov. rewrite along_length by congruence. rewrite (poses_length src Hs), L1.
      rewrite (along_R (cs_R src) (cs_T src) (cs_R tgt) (cs_T tgt)) by congruence. rewrite fold_map. reflexivity. }
    destruct (cs_R src) as [|r0 rs0] eqn:ER; [cbn in L1; lia|]. rewrite <- ER in *. rewrite Em, E.
    assert (Ea : along mulv3 (cs_R src) (cs_T src) = here (poses src)) by reflexivity.
    assert (Eb : along mulv3 (cs_R src) (cs_T tgt) = there (poses src) (poses tgt)) by (apply along_T; congruence).
    rewrite Ea, Eb. reflexivity.
  Qed.

  Lemma shift_misfit t : shift_error t (poses src) (poses tgt) =
    misfit (repeat 1 (List.length (here (poses src)))) (here (poses src)) (there (poses src) (poses tgt)) (Sim id3 (shift t) (scale t)).
  Proof.
    unfold misfit. rewrite sum3_ones by (rewrite here_length, there_length; reflexivity).
    pose proof (poses_orthogonal src Hs) as O. assert (L : List.length (poses src) = List.length (poses tgt)) by (rewrite !poses_length by assumption; reflexivity).
    unfold shift_error, here, there, along. revert L O. generalize (poses src) as ps, (poses tgt) as ps'.
    induction ps as [|p ps IH]; intros [|p' ps'] L O; try discriminate; [reflexivity|]. inversion O as [|? ? O1 O2]; subst.
    specialize (IH ps' ltac:(cbn in L; lia) O2). cbn [combine map fst snd realigned] in *. rewrite !rsum_cons, IH. f_equal.
    unfold image, mulv3. cbn [rot scale shift]. rewrite vmul3_id.
    set (x := add3 (vmul3 (shift t) (fst p)) (scal3 (scale t) (snd p))).
    assert (E : add3 (scal3 (scale t) (vmul3 (snd p) (tr3 (fst p)))) (shift t) = vmul3 x (tr3 (fst p))).
    { assert (E1 : vmul3 x (tr3 (fst p)) = add3 (vmul3 (vmul3 (shift t) (fst p)) (tr3 (fst p))) (scal3 (scale t) (vmul3 (snd p) (tr3 (fst p))))).
      { unfold x, vmul3, add3, scal3, tr3. cbn [x3 y3 z3 m00 m01 m02 m10 m11 m12 m20 m21 m22]. apply V3_eq; ring. }
      rewrite E1, <- vmul3_mul, O1, vmul3_id. unfold add3. apply V3_eq; ring. }
    rewrite E. rewrite !sqdist_sub.
    assert (E2 : sub3 (vmul3 x (tr3 (fst p))) (vmul3 (snd p') (tr3 (fst p))) = vmul3 (sub3 x (snd p')) (tr3 (fst p))).
    { unfold vmul3, sub3, tr3. cbn [x3 y3 z3 m00 m01 m02 m10 m11 m12 m20 m21 m22]. apply V3_eq; ring. }
    rewrite E2, (vmul_norm (tr3 (fst p))) by (apply orthogonal_t; exact O1). ring.
  Qed.
  Lemma neg_square l : square (map neg3 l) = square l.
  Proof.
    unfold square. rewrite !map_map. assert (M : mean_vec (map neg3 l) = neg3 (mean_vec l)).
    { unfold mean_vec. rewrite map_length. assert (V : vsum3 (map neg3 l) = neg3 (vsum3 l)).
      { induction l as [|p l IH]; [unfold vsum3, neg3; cbn; apply V3_eq; ring|]. unfold vsum3 in *. cbn [map fold_right]. rewrite IH. unfold neg3, add3. cbn [x3 y3 z3]. apply V3_eq; ring. }
      rewrite V. unfold neg3, div3. cbn [x3 y3 z3]. unfold Rdiv. apply V3_eq; ring. }
    rewrite M. apply rsum_map_ext. intros p _. unfold dot3, sub3, neg3. cbn [x3 y3 z3]. ring.
  Qed.
  Lemma spread_square : spread src = square (here (poses src)) / INR n.
  Proof.
    unfold spread. pose proof (poses_length src Hs) as L. pose proof (proj1 Hs) as N.
    assert (E : here (poses src) = map neg3 (map seat (poses src))).
    { unfold here. rewrite map_map. apply map_ext. intros p. unfold seat, neg3, mulv3. cbn [x3 y3 z3]. destruct (vmul3 (snd p) (tr3 (fst p))). cbn. apply V3_eq; ring. }
    rewrite E, neg_square. set (x := map seat (poses src)). assert (Lx : List.length x = n) by (unfold x; rewrite map_length; exact L).
    rewrite L, <- Lx. unfold variance. rewrite rsum_ones. f_equal. rewrite centre_ones by lia. rewrite (sum3_ones _ x x eq_refl). unfold square. rewrite map_map. unfold along.
    generalize (mean_vec x) as m. clear. intros m. induction x as [|p x IH]; [reflexivity|]. cbn [combine map fst snd]. rewrite !rsum_cons, IH, sqdist_sub. ring.
  Qed.

  Lemma extrinsics_best es eps : svd_of (turn_cov (poses src) (poses tgt)) (svd (turn_cov (poses src) (poses tgt))) -> 0 < eps ->
    (es = true -> spread src = 0 \/ 3 * eps <= spread src) ->
    exists t, align_extrinsics svd src tgt es eps = Ok t /\ orthogonal (rot t) /\ (es = false -> scale t = 1) /\
      (forall t', orthogonal (rot t') -> turn_error t (poses src) (poses tgt) <= turn_error t' (poses src) (poses tgt)) /\
      (forall t', (es = false -> scale t' = 1) -> shift_error t (poses src) (poses tgt) <= shift_error t' (poses src) (poses tgt)).
  Proof.
    intros S E HV. destruct (svd (turn_cov (poses src) (poses tgt))) as [[u s] v] eqn:Es. pose proof (proj1 Hs) as N.
    pose proof (INR_ge1 n N) as N1. pose proof here_length as Lh. pose proof there_length as Lt.
    eexists. split; [exact (extrinsics_eq es eps u s v Es)|]. cbv zeta. set (c := best_scale es eps _ _). set (t := Sim _ _ _).
    pose proof (fun t' => turn_best u s v (poses src) (poses tgt) t t' ltac:(rewrite !poses_length by assumption; reflexivity) ltac:(rewrite poses_length by assumption; exact N)
      (poses_orthogonal src Hs) (poses_orthogonal tgt Ht) S eq_refl) as TB.
    split; [exact (proj1 (TB (Sim id3 (V3 0 0 0) 1) id3_orthogonal))|]. split; [|split].
    - intros Ee. cbn [scale t]. unfold c, best_scale. rewrite Ee. reflexivity.
    - intros t' O. exact (proj2 (TB t' O)).
    - intros t' C. rewrite !shift_misfit. cbn [shift scale t]. unfold c. apply (translation_best es eps (here (poses src)) (there (poses src) (poses tgt)) (shift t') (scale t')); try lia; try assumption.
      rewrite Lh. intros Ee. specialize (HV Ee). rewrite spread_square in HV. destruct HV as [Z|V]; [left|right].
      + replace (square (here (poses src))) with (square (here (poses src)) / INR n * INR n) by (field; lra). rewrite Z. ring.
      + replace (square (here (poses src)) / (3 * INR n)) with (square (here (poses src)) / INR n / 3) by (field; lra). lra.
  Qed.

  (* centres *)
  Lemma center_all cs : cameras_ok cs n -> snd (camera_center no_kw cs) = Ok (map seat (poses cs)).
  Proof.
    intros (N & L1 & L2 & O). unfold camera_center, view_transform. rewrite stored_no_kw. cbn [snd].
    assert (Ew := world_to_view_defined (cs_R cs) (cs_T cs) ltac:(congruence)). set (w := TR _ _ _) in Ew. rewrite Ew. cbn [rbind].
    set (ms := map (fun p => mul4 (rotate_mat (fst p)) (translate_mat (snd p))) (poses cs)).
    assert (Hm : exists ms', get_matrix w = Ok ms' /\ List.length ms' = n).
    { unfold w. cbn [get_matrix rbind]. unfold broadcast. rewrite !map_length, L1, L2, Nat.eqb_refl. eexists. split; [reflexivity|]. rewrite map_length, combine_length, !map_length. lia. }
    destruct Hm as (ms' & Hm & Lm).
    assert (View : forall i a, nth_error ms' i = Some a -> exists r t, nth_error (cs_R cs) i = Some r /\ nth_error (cs_T cs) i = Some t /\ a = mul4 (rotate_mat r) (translate_mat t)).
    { intros i a Ha. assert (Hi : (i < n)%nat) by (rewrite <- Lm; apply nth_error_Some; congruence).
      assert (B : forall A (l : list A), List.length l = n -> batch_nth l i = nth_error l i).
      { intros A l Ll. unfold batch_nth. destruct (Nat.eqb_spec (List.length l) 1) as [E|E]; [|reflexivity]. f_equal. lia. }
      destruct (view_matrix _ _ _ _ i a Ew Hm) as (r & t & A1 & A2 & A3); [rewrite B by exact Lm; exact Ha|].
      rewrite B in A1, A2 by assumption. exists r, t. auto. }
    assert (Od : forall r, In r (cs_R cs) -> orthogonal r) by (apply Forall_forall; exact O).
    destruct (proj2 (inverse_defined_iff false w ms' (wf_view _ _ _ Ew) Hm ltac:(intros ->; cbn in Lm; lia))) as (u & Hu).
    { intros a Ha. destruct (In_nth_error _ _ Ha) as (i & Hi). destruct (View i a Hi) as (r & t & A1 & _ & ->). rewrite det_view.
      destruct (orthogonal_det r (Od r (nth_error_In _ _ A1))); lra. }
    rewrite Hu. cbn [rbind]. destruct (inverse_matrix false _ _ _ (wf_view _ _ _ Ew) Hm Hu) as (ims & E1 & Li & Hinv). rewrite E1. cbn [rbind]. f_equal.
    apply (nth_ext _ _ (V3 0 0 0) (V3 0 0 0)); rewrite !map_length.
    { unfold poses. rewrite combine_length. lia. }
    intros i Hi. rewrite (nth_map_lt _ _ _ id4) by exact Hi. assert (Hp : (i < List.length (poses cs))%nat) by (unfold poses; rewrite combine_length; lia).
    rewrite (nth_map_lt _ _ _ (id3, V3 0 0 0)) by exact Hp.
    specialize (Hinv i ltac:(lia)). assert (Ha : nth_error ms' i = Some (nth i ms' id4)) by (apply nth_error_nth'; lia).
    destruct (View i _ Ha) as (r & t & A1 & A2 & A3). rewrite A3 in Hinv.
    assert (Ep : nth i (poses cs) (id3, V3 0 0 0) = (r, t)).
    { unfold poses. rewrite combine_nth by congruence. rewrite (nth_error_nth _ _ _ A1), (nth_error_nth _ _ _ A2). reflexivity. }
    rewrite Ep. assert (Or : orthogonal r) by (apply Od; eapply nth_error_In; exact A1).
    set (b' := M4 (m00 r) (m10 r) (m20 r) 0 (m01 r) (m11 r) (m21 r) 0 (m02 r) (m12 r) (m22 r) 0 (x3 (seat (r, t))) (y3 (seat (r, t))) (z3 (seat (r, t))) 1).
    assert (Eb : nth i ims id4 = b').
    { apply (inv4_unique (mul4 (rotate_mat r) (translate_mat t))); [exact Hinv|]. clear - Or. pose proof (orthogonal_tr r Or) as Q. unfold orthogonal in Or.
      unfold mul3, tr3, id3 in Q. cbn [m00 m01 m02 m10 m11 m12 m20 m21 m22] in Q. injection Q as Q1 Q2 Q3 Q4 Q5 Q6 Q7 Q8 Q9.
      unfold b', mul4, rotate_mat, translate_mat, seat, vmul3, tr3, id4.
      cbn [fst snd x3 y3 z3 m00 m01 m02 m10 m11 m12 m20 m21 m22 n00 n01 n02 n03 n10 n11 n12 n13 n20 n21 n22 n23 n30 n31 n32 n33].
      pose proof (f_equal (Rmult (x3 t)) Q1) as Fx1. pose proof (f_equal (Rmult (x3 t)) Q2) as Fx2. pose proof (f_equal (Rmult (x3 t)) Q3) as Fx3. pose proof (f_equal (Rmult (x3 t)) Q4) as Fx4. pose proof (f_equal (Rmult (x3 t)) Q5) as Fx5. pose proof (f_equal (Rmult (x3 t)) Q6) as Fx6. pose proof (f_equal (Rmult (x3 t)) Q7) as Fx7. pose proof (f_equal (Rmult (x3 t)) Q8) as Fx8. pose proof (f_equal (Rmult (x3 t)) Q9) as Fx9. pose proof (f_equal (Rmult (y3 t)) Q1) as Fy1. pose proof (f_equal (Rmult (y3 t)) Q2) as Fy2. pose proof (f_equal (Rmult (y3 t)) Q3) as Fy3. pose proof (f_equal (Rmult (y3 t)) Q4) as Fy4. pose proof (f_equal (Rmult (y3 t)) Q5) as Fy5. pose proof (f_equal (Rmult (y3 t)) Q6) as Fy6. pose proof (f_equal (Rmult (y3 t)) Q7) as Fy7. pose proof (f_equal (Rmult (y3 t)) Q8) as Fy8. pose proof (f_equal (Rmult (y3 t)) Q9) as Fy9. pose proof (f_equal (Rmult (z3 t)) Q1) as Fz1. pose proof (f_equal (Rmult (z3 t)) Q2) as Fz2. pose proof (f_equal (Rmult (z3 t)) Q3) as Fz3. pose proof (f_equal (Rmult (z3 t)) Q4) as Fz4. pose proof (f_equal (Rmult (z3 t)) Q5) as Fz5. pose proof (f_equal (Rmult (z3 t)) Q6) as Fz6. pose proof (f_equal (Rmult (z3 t)) Q7) as Fz7. pose proof (f_equal (Rmult (z3 t)) Q8) as Fz8. pose proof (f_equal (Rmult (z3 t)) Q9) as Fz9.
      apply M4_eq; lra. }
    rewrite Eb. unfold b'. cbn [n30 n31 n32]. destruct (seat (r, t)). reflexivity.
  Qed.
End Fix.
