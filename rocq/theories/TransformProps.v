(* C31: Transform3d. Statements about every transform the API can build ([built]),
   every batch size, every point set. *)
From Verif Require Import Base RBase Geom LinAlg Transform TransformSpec TransformProofs TransformProofs2.
Local Open Scope R_scope.

(* transforming by t.compose(u1, ..., uk) is transforming by t, then u1, ..., then uk *)
Theorem compose_is_sequential : forall us t p r,
  chain (t :: us) p r ->
  exists o, transform_points None (compose t us) p = Ok o /\ all_finite o r.
Proof. exact compose_chain. Qed.
Print Assumptions compose_is_sequential.

(* one step, including the cases where the second transform fails *)
Theorem compose_step : forall t u p oq q,
  transform_points None t p = Ok oq -> all_finite oq q ->
  transform_points None (compose t [u]) p = transform_points None u q.
Proof. exact compose_points. Qed.
Print Assumptions compose_step.

Theorem compose_matrix_product : forall t u mt mu m i a,
  get_matrix t = Ok mt -> get_matrix u = Ok mu ->
  get_matrix (compose t [u]) = Ok m -> batch_nth m i = Some a ->
  exists x y, batch_nth mt i = Some x /\ batch_nth mu i = Some y /\ a = mul4 x y.
Proof.
  intros t u mt mu m i a Ht Hu Hm Ha. rewrite get_matrix_compose1, Ht, Hu in Hm. cbn [rbind] in Hm.
  exact (broadcast_batch_nth _ _ _ _ _ _ Hm Ha).
Qed.
Print Assumptions compose_matrix_product.

(* composing transforms whose batch sizes differ and are not 1 raises ValueError *)
Theorem compose_batch_mismatch : forall t u mt mu,
  get_matrix t = Ok mt -> get_matrix u = Ok mu ->
  (length mt <> length mu /\ length mt <> 1%nat /\ length mu <> 1%nat
   <-> get_matrix (compose t [u]) = Fail EValue).
Proof.
  intros t u mt mu Ht Hu. rewrite get_matrix_compose1, Ht, Hu. cbn [rbind]. split.
  - intros (H1 & H2 & H3). destruct (broadcast mul4 mt mu) as [m|e] eqn:E.
    + apply broadcast_inv in E. unfold bc in E. lia.
    + apply broadcast_fail in E. destruct E as (-> & _). reflexivity.
  - intros H. apply broadcast_fail in H. tauto.
Qed.
Print Assumptions compose_batch_mismatch.

(* the matrices of the inverse are the matrix inverses, element by element, in both modes *)
Theorem inverse_is_matrix_inverse : forall c t ms u,
  built t -> get_matrix t = Ok ms -> inverse c t = Ok u ->
  exists ims, get_matrix u = Ok ims /\ Forall2 mutual_inverse ms ims.
Proof.
  intros c t ms u Hb Hm Hu. destruct (inverse_matrix c t ms u (built_wf _ Hb) Hm Hu) as (ims & H1 & H2).
  exists ims. split; [exact H1|apply inv_batch_mutual; exact H2].
Qed.
Print Assumptions inverse_is_matrix_inverse.

(* inverse succeeds exactly when every matrix of the batch is invertible *)
Theorem inverse_defined_when_invertible : forall c t ms,
  built t -> get_matrix t = Ok ms -> ms <> [] ->
  ((exists u, inverse c t = Ok u) <-> forall a, In a ms -> det4 a <> 0).
Proof. intros c t ms Hb. apply inverse_defined_iff. apply built_wf. exact Hb. Qed.
Print Assumptions inverse_defined_when_invertible.

Theorem inverse_modes_agree : forall t ms u v,
  built t -> get_matrix t = Ok ms -> inverse true t = Ok u -> inverse false t = Ok v ->
  get_matrix u = get_matrix v.
Proof.
  intros t ms u v Hb Hm Hu Hv.
  destruct (inverse_matrix _ t ms u (built_wf _ Hb) Hm Hu) as (a & Ha & Ia).
  destruct (inverse_matrix _ t ms v (built_wf _ Hb) Hm Hv) as (b & Hc & Ib).
  rewrite Ha, Hc. f_equal. exact (inv_batch_fun _ _ _ Ia Ib).
Qed.
Print Assumptions inverse_modes_agree.

Theorem inverse_inverse_matrix : forall c d t ms u v,
  built t -> get_matrix t = Ok ms -> inverse c t = Ok u -> inverse d u = Ok v ->
  get_matrix v = Ok ms.
Proof.
  intros c d t ms u v Hb Hm Hu Hv.
  destruct (inverse_matrix _ t ms u (built_wf _ Hb) Hm Hu) as (a & Ha & Ia).
  assert (Hbu : built u) by (exact (b_inverse c t u Hb Hu)).
  destruct (inverse_matrix _ u a v (built_wf _ Hbu) Ha Hv) as (b & Hc & Ib).
  rewrite Hc. f_equal. eapply inv_batch_fun; [exact Ib|].
  apply inv_batch_mutual. apply inv_batch_mutual in Ia. clear - Ia.
  induction Ia as [|x y l l' [H1 H2] F IH]; constructor; [split; assumption|exact IH].
Qed.
Print Assumptions inverse_inverse_matrix.

(* transforming and transforming back gives the points again (a batch of one point set is
   repeated when the transform has a larger batch) *)
Theorem inverse_undoes_points : forall c t u p oq q,
  built t -> inverse c t = Ok u ->
  transform_points None t p = Ok oq -> all_finite oq q ->
  exists r, transform_points None u q = Ok r /\
    as_batch r = map (map Some) (expand_batch (length (as_batch q)) (as_batch p)).
Proof. intros c t u p oq q Hb. apply inverse_points. apply built_wf. exact Hb. Qed.
Print Assumptions inverse_undoes_points.

(* the elementary transforms *)
Theorem translate_adds : forall x y z t p oq i j o,
  mk_translate x y z = Ok t -> transform_points None t p = Ok oq -> entry oq i j = Some o ->
  exists q d, entry p i j = Some q /\ vector_at x y z i = Some d /\ o = Some (add3 q d).
Proof. exact translate_points. Qed.
Print Assumptions translate_adds.

Theorem scale_multiplies : forall x y z t p oq i j o,
  mk_scale x y z = Ok t -> transform_points None t p = Ok oq -> entry oq i j = Some o ->
  exists q d, entry p i j = Some q /\ scale_at x y z i = Some d /\
    o = Some (V3 (x3 d * x3 q) (y3 d * y3 q) (z3 d * z3 q)).
Proof. exact scale_points. Qed.
Print Assumptions scale_multiplies.

Theorem rotate_multiplies : forall rs p oq i j o,
  transform_points None (mk_rotate rs) p = Ok oq -> entry oq i j = Some o ->
  exists q r, entry p i j = Some q /\ batch_nth rs i = Some r /\ o = Some (vmul3 q r).
Proof. exact rotate_points. Qed.
Print Assumptions rotate_multiplies.

Theorem rotate_preserves_distances : forall rs p oq i j k o1 o2 q1 q2,
  (forall r, In r rs -> orthogonal r) ->
  transform_points None (mk_rotate rs) p = Ok oq ->
  entry p i j = Some q1 -> entry p i k = Some q2 ->
  entry oq i j = Some (Some o1) -> entry oq i k = Some (Some o2) ->
  dist2 o1 o2 = dist2 q1 q2.
Proof.
  intros rs p oq i j k o1 o2 q1 q2 Hr Hp E1 E2 F1 F2.
  destruct (rotate_points _ _ _ _ _ _ Hp F1) as (q & r & G1 & G2 & G3).
  destruct (rotate_points _ _ _ _ _ _ Hp F2) as (q' & r' & G4 & G5 & G6).
  rewrite E1 in G1. rewrite E2 in G4. rewrite G2 in G5.
  injection G1 as <-. injection G4 as <-. injection G5 as <-. injection G3 as ->. injection G6 as ->.
  apply orthogonal_dist. apply Hr. unfold batch_nth in G2.
  destruct (length rs =? 1)%nat; eapply nth_error_In; exact G2.
Qed.
Print Assumptions rotate_preserves_distances.

(* positive angles turn counter-clockwise about the axis (right-handed), degrees or radians *)
Theorem axis_angle_turns_ccw : forall c a d t p oq i j o,
  mk_axis_angle c a d = Ok t -> transform_points None t p = Ok oq -> entry oq i j = Some o ->
  exists q ang, entry p i j = Some q /\ scalar_at c i = Some ang /\
    o = let th := if d then ang / 180 * PI else ang in
        Some match a with
             | AX => V3 (x3 q) (y3 q * cos th - z3 q * sin th) (y3 q * sin th + z3 q * cos th)
             | AY => V3 (z3 q * sin th + x3 q * cos th) (y3 q) (z3 q * cos th - x3 q * sin th)
             | AZ => V3 (x3 q * cos th - y3 q * sin th) (x3 q * sin th + y3 q * cos th) (z3 q)
             end.
Proof. exact axis_points. Qed.
Print Assumptions axis_angle_turns_ccw.

(* normals: their dot product with any surface direction is unchanged, so a normal that was
   perpendicular to a face stays perpendicular to the transformed face *)
Theorem normals_keep_products : forall t ms nrm nrm' p oq i j k l n n' a b a' b',
  get_matrix t = Ok ms -> (forall m, In m ms -> affine m) ->
  transform_normals t nrm = Ok nrm' -> transform_points None t p = Ok oq ->
  entry nrm i j = Some n -> entry nrm' i j = Some n' ->
  entry p i k = Some a -> entry p i l = Some b ->
  entry oq i k = Some (Some a') -> entry oq i l = Some (Some b') ->
  dot3 n' (sub3 b' a') = dot3 n (sub3 b a).
Proof. exact normals_perp. Qed.
Print Assumptions normals_keep_products.

(* eps: never divides by less than eps, and changes nothing when the depth is at least eps *)
Theorem eps_clamp_safe : forall e d, 0 < e ->
  e <= Rabs (clamp_denom (Some e) d) /\ (e <= Rabs d -> clamp_denom (Some e) d = d).
Proof.
  intros e d He. split; [apply clamp_nonzero; exact He|]. intros H. apply clamp_big; assumption.
Qed.
Print Assumptions eps_clamp_safe.

Theorem eps_always_finite : forall e t p oq i j o, 0 < e ->
  transform_points (Some e) t p = Ok oq -> entry oq i j = Some o -> o <> None.
Proof.
  intros e t p oq i j o He Hp Ho. destruct (entry_points _ _ _ _ _ _ _ Hp Ho) as (ms & q & a & _ & _ & _ & ->).
  unfold from_h. destruct (clamp_nonzero e (w4 (vmul4 (to_h q) a)) He) as (H & _).
  destruct (Reqb_spec (clamp_denom (Some e) (w4 (vmul4 (to_h q) a))) 0); [contradiction|discriminate].
Qed.
Print Assumptions eps_always_finite.

(* clone, stack, indexing *)
Theorem clone_same_transform : forall t p eps,
  get_matrix (clone t) = get_matrix t /\
  transform_points eps (clone t) p = transform_points eps t p /\
  transform_normals (clone t) p = transform_normals t p.
Proof.
  intros t p eps. unfold transform_points, transform_normals. rewrite clone_matrix. auto.
Qed.
Print Assumptions clone_same_transform.

Theorem clone_same_inverse : forall c d t ms u v,
  built t -> get_matrix t = Ok ms -> inverse c t = Ok u -> inverse d (clone t) = Ok v ->
  get_matrix u = get_matrix v.
Proof.
  intros c d t ms u v Hb Hm Hu Hv.
  destruct (inverse_matrix _ t ms u (built_wf _ Hb) Hm Hu) as (a & Ha & Ia).
  rewrite <- clone_matrix in Hm.
  destruct (inverse_matrix _ (clone t) ms v (wf_clone t) Hm Hv) as (b & Hc & Ib).
  rewrite Ha, Hc. f_equal. exact (inv_batch_fun _ _ _ Ia Ib).
Qed.
Print Assumptions clone_same_inverse.

Theorem stack_concatenates : forall t os u,
  stack t os = Ok u ->
  exists ms, Forall2 (fun t m => get_matrix t = Ok m) (t :: os) ms /\ get_matrix u = Ok (concat ms).
Proof. exact stack_matrix. Qed.
Print Assumptions stack_concatenates.

(* t[ix] has the selected matrices, for every class but RotateAxisAngle *)
Theorem getitem_selects : forall t ix ms mi,
  built t -> t_kind t <> KAxisAngle -> get_matrix t = Ok ms -> take_index ms ix = Ok mi ->
  exists u, getitem t ix = Ok u /\ get_matrix u = Ok mi.
Proof. intros t ix ms mi Hb. apply getitem_matrix. apply built_wf. exact Hb. Qed.
Print Assumptions getitem_selects.

(* an integer index counts from the end when negative, and out of range raises IndexError *)
Theorem getitem_int_index : forall (ms : list mat4) i,
  take_index ms (IxInt i) =
  if (i <? - Z.of_nat (length ms))%Z || (Z.of_nat (length ms) <=? i)%Z then Fail EIndex
  else match nth_error ms (Z.to_nat (i mod Z.of_nat (length ms))) with
       | Some a => Ok [a] | None => Fail EIndex end.
Proof.
  intros ms i. unfold take_index, index1.
  destruct ((i <? - Z.of_nat (length ms)) || (Z.of_nat (length ms) <=? i))%Z eqn:E; [reflexivity|].
  apply orb_false_iff in E. destruct E as [E1 E2]. apply Z.ltb_ge in E1. apply Z.leb_gt in E2. cbn [rbind].
  assert (X : Z.to_nat (if (i <? 0)%Z then i + Z.of_nat (length ms) else i) = Z.to_nat (i mod Z.of_nat (length ms))).
  { f_equal. destruct (i <? 0)%Z eqn:E3; [apply Z.ltb_lt in E3|apply Z.ltb_ge in E3].
    - apply (Z.mod_unique_pos _ _ (-1)); lia.
    - rewrite Z.mod_small; lia. }
  rewrite X. unfold rget.
  destruct (nth_error ms (Z.to_nat (i mod Z.of_nat (length ms)))) eqn:En; [reflexivity|].
  exfalso. apply nth_error_None in En.
  assert (0 <= i mod Z.of_nat (length ms) < Z.of_nat (length ms))%Z by (apply Z.mod_pos_bound; lia). lia.
Qed.
Print Assumptions getitem_int_index.

(* ---- what does not hold ---- *)
(* indexing a RotateAxisAngle always raises, even for a valid index *)
Theorem axis_angle_getitem_refuted : forall c a d t ix,
  mk_axis_angle c a d = Ok t -> exists e, getitem t ix = Fail e.
Proof.
  intros c a d t ix H. unfold mk_axis_angle in H. destruct (handle_angle c) as [v|]; [|discriminate].
  cbn [rbind] in H. injection H as <-. unfold getitem. cbn [get_matrix rbind t_kind].
  destruct (take_index _ ix); eexists; reflexivity.
Qed.
Print Assumptions axis_angle_getitem_refuted.

(* Rotate accepts a non-orthogonal matrix silently; its inverse() is then not the inverse and
   changes when the object is cloned *)
Theorem rotate_nonorthogonal_inverse_refuted :
  exists rs u v ms mu mv,
    inverse false (mk_rotate rs) = Ok u /\ inverse false (clone (mk_rotate rs)) = Ok v /\
    get_matrix (mk_rotate rs) = Ok ms /\ get_matrix u = Ok mu /\ get_matrix v = Ok mv /\
    ~ Forall2 mutual_inverse ms mu /\ Forall2 mutual_inverse ms mv.
Proof.
  set (r := M3 2 0 0 0 1 0 0 0 1).
  assert (I : inv4 (rotate_mat r) = Ok (M4 (/2) 0 0 0 0 1 0 0 0 0 1 0 0 0 0 1)).
  { apply inv4_eq. unfold rotate_mat, r, mul4, id4.
    cbn [n00 n01 n02 n03 n10 n11 n12 n13 n20 n21 n22 n23 n30 n31 n32 n33 m00 m01 m02 m10 m11 m12 m20 m21 m22].
    apply M4_eq; lra. }
  exists [r], (TR KGeneric [tr4 (rotate_mat r)] []), (TR KGeneric [M4 (/2) 0 0 0 0 1 0 0 0 0 1 0 0 0 0 1] []).
  exists [rotate_mat r], [tr4 (rotate_mat r)], [M4 (/2) 0 0 0 0 1 0 0 0 0 1 0 0 0 0 1].
  split; [reflexivity|]. split.
  { unfold mk_rotate, inverse. cbn [map clone]. rewrite inverse_parts_eq. cbn [rmap kind_inverse].
    rewrite I. reflexivity. }
  split; [reflexivity|]. split; [reflexivity|]. split; [reflexivity|]. split.
  - intros H. inversion H as [|? ? ? ? [H1 _] _]; subst. apply (f_equal n00) in H1.
    unfold mul4, rotate_mat, tr4, r, id4 in H1.
    cbn [n00 n01 n02 n03 n10 n11 n12 n13 n20 n21 n22 n23 n30 n31 n32 n33 m00 m01 m02 m10 m11 m12 m20 m21 m22] in H1. lra.
  - constructor; [|constructor]. apply inv4_ok in I. split; apply I.
Qed.
Print Assumptions rotate_nonorthogonal_inverse_refuted.

(* the clamp is applied once per call, so with eps composition is not sequential application
   when an intermediate depth is below eps *)
Theorem eps_compose_refuted : exists t u p q r o,
  transform_points (Some 1) t (P2 [p]) = Ok (P2 [Some q]) /\
  transform_points (Some 1) u (P2 [q]) = Ok (P2 [Some r]) /\
  transform_points (Some 1) (compose t [u]) (P2 [p]) = Ok (P2 [Some o]) /\ o <> r.
Proof.
  (* t divides by 1/2 (clamped to 1), u divides by 2 *)
  set (a := M4 1 0 0 0 0 1 0 0 0 0 1 0 0 0 0 (/2)).
  set (b := M4 1 0 0 0 0 1 0 0 0 0 1 0 0 0 0 2).
  assert (C1 : clamp_denom (Some 1) (/2) = 1).
  { cbn [clamp_denom]. destruct (Rltb_spec (/2) 0); [lra|]. destruct (Rltb_spec 0 (/2)); [|lra].
    destruct (Reqb_spec (/2) 0); [lra|]. rewrite Rabs_right by lra. rewrite Rmax_right by lra. ring. }
  assert (C2 : clamp_denom (Some 1) 2 = 2) by (apply clamp_big; [lra|rewrite Rabs_right; lra]).
  assert (C3 : clamp_denom (Some 1) 1 = 1) by (apply clamp_big; [lra|rewrite Rabs_right; lra]).
  assert (F : forall x y z w, w <> 0 -> forall d, clamp_denom (Some 1) d = w ->
     from_h (Some 1) (V4 x y z d) = Some (V3 (x / w) (y / w) (z / w))).
  { intros x y z w Hw d Hd. unfold from_h. cbn [x4 y4 z4 w4]. rewrite Hd.
    destruct (Reqb_spec w 0); [contradiction|reflexivity]. }
  exists (mk_transform [a]), (mk_transform [b]), (V3 1 0 0), (V3 1 0 0), (V3 (1/2) 0 0), (V3 1 0 0).
  assert (V : forall x d, vmul4 (to_h (V3 x 0 0)) (M4 1 0 0 0 0 1 0 0 0 0 1 0 0 0 0 d) = V4 x 0 0 d).
  { intros x d. unfold vmul4, to_h. cbn [x3 y3 z3 x4 y4 z4 w4 n00 n01 n02 n03 n10 n11 n12 n13 n20 n21 n22 n23 n30 n31 n32 n33]. apply V4_eq; ring. }
  assert (M : mul4 a b = M4 1 0 0 0 0 1 0 0 0 0 1 0 0 0 0 1).
  { unfold mul4, a, b. cbn [n00 n01 n02 n03 n10 n11 n12 n13 n20 n21 n22 n23 n30 n31 n32 n33]. apply M4_eq; field. }
  split; [|split; [|split]].
  - unfold transform_points. cbn [get_matrix mk_transform rbind broadcast as_batch length Nat.eqb combine map fst snd reshape].
    unfold a. rewrite V, (F 1 0 0 1 ltac:(lra) (/2) C1). do 3 f_equal. f_equal. apply V3_eq; field.
  - unfold transform_points. cbn [get_matrix mk_transform rbind broadcast as_batch length Nat.eqb combine map fst snd reshape].
    unfold b. rewrite V, (F 1 0 0 2 ltac:(lra) 2 C2). do 3 f_equal. f_equal. apply V3_eq; field.
  - unfold transform_points. rewrite get_matrix_compose1.
    cbn [get_matrix mk_transform rbind broadcast as_batch length Nat.eqb combine map fst snd reshape].
    rewrite M, V, (F 1 0 0 1 ltac:(lra) 1 C3). do 3 f_equal. f_equal. apply V3_eq; field.
  - intros H. apply (f_equal x3) in H. cbn in H. lra.
Qed.
Print Assumptions eps_compose_refuted.

(* ---- the hypotheses are satisfiable ---- *)
Example built_example : exists t, mk_translate (CVec [1; 2]) (CScalar 0) (CScalar 3) = Ok t /\
  built (compose t [mk_rotate [id3]]) /\
  get_matrix t = Ok [translate_mat (V3 1 0 3); translate_mat (V3 2 0 3)].
Proof.
  eexists. split; [reflexivity|]. split; [|reflexivity]. apply b_compose.
  - eapply (b_translate (CVec [1; 2]) (CScalar 0) (CScalar 3)). reflexivity.
  - intros o [<-|[]]. apply b_rotate. intros r [<-|[]]. unfold orthogonal. rewrite tr3_id. apply mul3_1_l.
Qed.
Example inverse_example : exists u, inverse false (TR KTranslate [translate_mat (V3 1 2 3)] []) = Ok u /\
  get_matrix u = Ok [translate_mat (V3 (-1) (-2) (-3))].
Proof. eexists; split; [reflexivity|reflexivity]. Qed.
