From Verif Require Import Base Packing PackingProofs PackOpsProofs RBase Geom FaceAreas FaceAreasSpec Meshes MeshesSpec MeshesHistSpec Pointclouds PointcloudsSpec.
From Verif Require Import MeshesProofs MeshesProofs4 MeshesProofs6 MeshesProofs7 MeshesProofs8 PointcloudsProofs PointcloudsProofs2.
Local Open Scope nat_scope.

Section Features.
Variable F : Type.
Variable fzero : F.
Notation row := (row F). Notation cloud := (cloud F). Notation pc := (pointclouds F). Notation cstate := (cstate F).
Local Arguments cN {F} _. Local Arguments cP {F} _. Local Arguments ceq {F} _. Local Arguments cvalid {F} _. Local Arguments counts {F} _.
Local Arguments pts_l {F} _. Local Arguments pts_p {F} _. Local Arguments nrm {F} _. Local Arguments fts {F} _. Local Arguments cpk {F} _. Local Arguments cp2p {F} _.
Local Arguments pos {F} _. Local Arguments nor {F} _. Local Arguments fea {F} _. Local Arguments sizes {F} _. Local Arguments largest {F} _. Local Arguments points_of {F} _.
Local Arguments column {F A} _ _ _. Local Arguments has_a_point {F} _. Local Arguments clouds {F} _. Local Arguments ppad {F} _. Local Arguments npad {F} _. Local Arguments fpad {F} _.
Local Arguments CS {F} _ _ _ _. Local Arguments points_list {F} _. Local Arguments normals_list {F} _. Local Arguments features_list {F} _.
Local Arguments vals {F A} _ _ _. Local Arguments col {F A} _ _ _ _. Local Arguments uni {F A} _ _ _. Local Arguments pads {F A} _ _.
Local Arguments cwf {F} _ _ _. Local Arguments crepr {F} _ _ _ _ _. Local Arguments aux_ok {F A} _ _ _ _ _ _ _. Local Arguments put {F A} _ _ _. Local Arguments rest {F A} _ _. Local Arguments fits {F A} _ _.
Local Arguments list_arg {F A} _ _ _. Local Arguments pad_arg {F A} _ _ _. Local Arguments full_batch {F} _.

Lemma f2len {A B} {P : A -> B -> Prop} {l l'} (H : Forall2 P l l') : length l = length l'.
Proof. induction H; cbn; congruence. Qed.
Local Arguments moved {F} _ _. Local Arguments fresh {F} _ _ _ _.

(* ---- offset_ and scale_ ---- *)
Lemma sum_sizes (c : cloud) b : sum_nat (sizes (c :: b)) = @length row c + sum_nat (sizes b). Proof. reflexivity. Qed.
Lemma points_moved_app v (c : cloud) : map pos (map (move_to F (fun x => add3 x v)) c) = add_rows (map pos c) (repeat v (length (map pos c))).
Proof. unfold add_rows. rewrite map_length. induction c as [|r c IH]; [reflexivity|]. cbn. rewrite IH. reflexivity. Qed.
Lemma add_rows_app a a' b b' : length a = length b -> add_rows (a ++ a') (b ++ b') = add_rows a b ++ add_rows a' b'.
Proof. intros H. unfold add_rows. rewrite combine_app_len by exact H. apply map_app. Qed.
Lemma move_one_rows v (b : list cloud) : concat (points_of (map (map (move_to F (fun x => add3 x v))) b)) = add_rows (concat (points_of b)) (repeat v (length (concat (points_of b)))).
Proof.
  induction b as [|c b IH]; [reflexivity|]. cbn [map points_of concat]. unfold points_of in *. cbn [map concat]. rewrite IH, points_moved_app.
  rewrite app_length, repeat_app, add_rows_app by (rewrite repeat_length; reflexivity). reflexivity.
Qed.
Lemma move_list_rows (c : cloud) : forall l, length l = length c ->
  map pos (map (fun q => move_to F (fun x => add3 x (snd q)) (fst q)) (combine c l)) = add_rows (map pos c) l.
Proof. unfold add_rows. induction c as [|r c IH]; intros [|v l] H; try discriminate; [reflexivity|]. cbn. rewrite IH by (injection H; auto). reflexivity. Qed.
Lemma move_all_rows (b : list cloud) : forall l, length l = sum_nat (sizes b) -> concat (points_of (move_all F l b)) = add_rows (concat (points_of b)) l.
Proof.
  induction b as [|c b IH]; intros l H.
  - destruct l; [reflexivity|discriminate].
  - rewrite sum_sizes in H. unfold PointcloudsSpec.cloud in *.
    assert (L : length (firstn (length c) l) = length c) by (rewrite firstn_length; lia).
    cbn [move_all]. unfold points_of in *. cbn [map concat]. rewrite IH by (rewrite skipn_length; lia). rewrite move_list_rows by exact L.
    rewrite <- add_rows_app by (rewrite map_length; auto). rewrite firstn_skipn. reflexivity.
Qed.
Lemma moved_map (g : vec3 -> vec3) (b : list cloud) : moved b (map (map (move_to F g)) b).
Proof. induction b as [|c b IH]; constructor; [|exact IH]. induction c as [|r c IHc]; constructor; [split; reflexivity|exact IHc]. Qed.
Lemma moved_all (b : list cloud) : forall l, length l = sum_nat (sizes b) -> moved b (move_all F l b).
Proof.
  induction b as [|c b IH]; intros l H; cbn [move_all]; constructor.
  - rewrite sum_sizes in H. unfold PointcloudsSpec.cloud in *.
    assert (L : length (firstn (length c) l) = length c) by (rewrite firstn_length; lia). revert L. generalize (firstn (length c) l). clear.
    induction c as [|r c IH]; intros [|v l] H; try discriminate; cbn; constructor; [split; reflexivity|]. apply IH. injection H; auto.
  - apply IH. rewrite skipn_length. rewrite sum_sizes in H. unfold PointcloudsSpec.cloud in *. lia.
Qed.
Lemma moved_scaled (b : list cloud) : forall s, length b <= length s -> moved b (map (fun q => map (move_to F (scal3 (fst q))) (snd q)) (combine s b)).
Proof.
  induction b as [|c b IH]; intros [|x s] H; cbn in H; try lia; cbn; constructor; [|apply IH; lia].
  induction c as [|r c IHc]; constructor; [split; reflexivity|exact IHc].
Qed.
Lemma scaled_points (b : list cloud) : forall s, length b <= length s ->
  map (fun p => map (scal3 (fst p)) (snd p)) (combine s (points_of b)) = points_of (map (fun q => map (move_to F (scal3 (fst q))) (snd q)) (combine s b)).
Proof.
  induction b as [|c b IH]; intros [|x s] H; cbn in H; try lia; [reflexivity|reflexivity|]. unfold points_of in *. cbn [map combine fst snd]. rewrite IH by lia.
  rewrite !map_map. reflexivity.
Qed.

Lemma q_pads a hn hf (c : pc) : crepr fzero a hn hf c -> pts_p c = None \/ pts_p c = Some (Pad (largest (clouds a)) (zip_app (points_of (clouds a)) (ppad a))).
Proof. intros R. destruct (q_p _ _ _ _ _ _ R) as [(H & _)|H]; auto. Qed.

Lemma offset_ok a hn hf (c : pc) o off b' : cwf a hn hf -> crepr fzero a hn hf c ->
  (match o with OneOffset v => repeat v (length (concat (points_of (clouds a)))) | AllOffsets l => l end) = off ->
  length off = sum_nat (sizes (clouds a)) -> moved (clouds a) b' -> concat (points_of b') = add_rows (concat (points_of (clouds a))) off ->
  exists c', cloud_offset_ F o c = Ok c' /\ crepr fzero (CS b' (ppad a) (npad a) (fpad a)) hn hf c'.
Proof.
  intros Hw R Eo Lo Hm Ep. unfold cloud_offset_, points_packed.
  destruct (from_packed_ok F fzero a hn hf c (cp_points F) Hw R) as (c1 & E1 & R1 & K1 & _). rewrite E1. cbn [rbind].
  assert (Lp : length (concat (points_of (clouds a))) = sum_nat (sizes (clouds a))) by (rewrite length_concat_sum, sizes_points; reflexivity).
  change (cp_points F (packed_clouds F fzero hn hf (clouds a))) with (concat (points_of (clouds a))).
  replace (match o with OneOffset v => repeat v (length (concat (points_of (clouds a)))) | AllOffsets l => l end) with off.
  rewrite Lo, Lp, Nat.eqb_refl. cbn [negb]. rewrite K1, <- Ep, <- moved_packed by exact Hm.
  cbn [with_pk counts]. rewrite (q_cnt _ _ _ _ _ _ R1), <- (moved_sizes F _ _ Hm), <- sizes_points, packed_to_list_inverse. cbn [rbind].
  destruct (cloud_write_ok F a b' (with_pts F (Some (points_of b')) (pts_p (with_pk F (Some (packed_clouds F fzero hn hf b')) c1)) (with_pk F (Some (packed_clouds F fzero hn hf b')) c1))) as (c' & E & H).
  - cbn. apply (q_pads _ _ _ _ R1).
  - apply (pads_length F), Hw.
  - exact Hm.
  - exists c'. split; [exact E|]. cbn in H. destruct H as (H1 & H2 & H3 & H4 & H5 & H6 & H7 & H8 & H9 & H10 & H11).
    apply (moved_repr F fzero a b' hn hf c1 c'); auto.
Qed.
Lemma scale_ok a hn hf (c : pc) s : cwf a hn hf -> crepr fzero a hn hf c -> length (clouds a) <= length (cscales F s (clouds a)) ->
  exists c', cloud_scale_ F s c = Ok c' /\
  crepr fzero (CS (map (fun q => map (move_to F (scal3 (fst q))) (snd q)) (combine (cscales F s (clouds a)) (clouds a))) (ppad a) (npad a) (fpad a)) hn hf c'.
Proof.
  intros Hw R Hs. unfold cloud_scale_.
  replace (match s with OneScale x => repeat x (cN c) | AllScales l => l end) with (cscales F s (clouds a)) by (unfold cscales; rewrite (q_N _ _ _ _ _ _ R); reflexivity).
  destruct (points_list_ok F fzero a hn hf c Hw R) as (c1 & E1 & R1 & L1 & P1 & K1 & _). rewrite E1. cbn [rbind]. rewrite points_length.
  replace (length (cscales F s (clouds a)) <? length (clouds a)) with false by (symmetry; apply Nat.ltb_ge; exact Hs).
  rewrite scaled_points by exact Hs. pose proof (moved_scaled _ _ Hs) as Hm.
  set (b' := map (fun q => map (move_to F (scal3 (fst q))) (snd q)) (combine (cscales F s (clouds a)) (clouds a))) in *.
  change (cpk (with_pts F (Some (points_of b')) (pts_p c1) c1)) with (cpk c1).
  assert (W : forall k, (k = None \/ k = Some (packed_clouds F fzero hn hf b')) -> exists c',
    cloud_write F (with_pk F k (with_pts F (Some (points_of b')) (pts_p c1) c1)) (points_of b') = Ok c' /\ crepr fzero (CS b' (ppad a) (npad a) (fpad a)) hn hf c').
  { intros k Hk. destruct (cloud_write_ok F a b' (with_pk F k (with_pts F (Some (points_of b')) (pts_p c1) c1))) as (c' & E & H).
    - cbn. apply (q_pads _ _ _ _ R1).
    - apply (pads_length F), Hw.
    - exact Hm.
    - exists c'. split; [exact E|]. cbn in H. destruct H as (H1 & H2 & H3 & H4 & H5 & H6 & H7 & H8 & H9 & H10 & H11).
      apply (moved_repr F fzero a b' hn hf c1 c'); auto. rewrite H10. exact Hk. }
  destruct (q_k _ _ _ _ _ _ R1) as [K|(K & _)]; rewrite K.
  - cbn [rbind]. destruct (W None (or_introl eq_refl)) as (c' & E & R'). exists c'. split; [|exact R']. rewrite <- E. f_equal. unfold with_pk, with_pts. cbn. rewrite K. reflexivity.
  - destruct (W (Some (packed_clouds F fzero hn hf b')) (or_intror eq_refl)) as (c' & E & R'). exists c'. split; [|exact R']. rewrite <- E.
    rewrite (moved_packed F fzero hn hf (clouds a) b') by exact Hm. destruct (points_of b') eqn:Z; [|reflexivity].
    pose proof (moved_point F _ _ Hm (w_pt _ _ _ _ Hw)) as (x & Hx & _). destruct b'; [destruct Hx|discriminate].
Qed.

(* ---- clone ---- *)
Lemma given_pad_parse {A} (f : row -> option A) z h b t x cnt : aux_ok f z h b t true x -> pads b t -> b <> [] ->
  parse_aux (length b) (largest b) cnt (given_pad (aux_p x)) = Ok (Aux None (aux_p x)).
Proof.
  intros H Ht Hb. unfold parse_aux. replace (length b =? 0) with false by (destruct b; [contradiction|reflexivity]). unfold aux_ok in H. destruct h.
  - destruct H as (_ & ->). cbn. rewrite zip_app_length by (rewrite vals_length; symmetry; apply (pads_length F _ _ Ht)). rewrite vals_length, !Nat.eqb_refl. reflexivity.
  - subst x. reflexivity.
Qed.
Lemma clone_ok a hn hf (c : pc) : cwf a hn hf -> crepr fzero a hn hf c -> exists c1 c2, cloud_clone F c = Ok (c1, c2) /\ crepr fzero a hn hf c1 /\ crepr fzero a hn hf c2.
Proof.
  intros Hw R. pose proof (point_nonempty F _ (w_pt _ _ _ _ Hw)) as Hb. unfold cloud_clone. destruct (pts_l c) as [l|] eqn:El.
  - assert (l = points_of (clouds a)) as -> by (destruct (q_l _ _ _ _ _ _ R); congruence).
    destruct (normals_list_ok F fzero a hn hf c Hw R) as (c1 & E1 & R1 & L1 & P1 & K1 & F1 & A1 & B1). rewrite E1. cbn [rbind].
    destruct (features_list_ok F fzero a hn hf c1 Hw R1) as (c2 & E2 & R2 & L2 & P2 & K2 & F2 & A2 & B2). rewrite E2. cbn [rbind].
    rewrite new_given by exact Hb. cbn [rbind]. eexists _, c2. split; [reflexivity|]. split; [|exact R2].
    pose proof R2 as R2'. destruct R2. constructor; cbn.
    + reflexivity.
    + reflexivity.
    + assumption.
    + assumption.
    + auto.
    + destruct q_p as [(Q1 & Q2 & Q3 & Q4)|Q]; [left|right]; [rewrite Q1|rewrite Q]; cbn; auto.
    + destruct (pts_p c2) eqn:Ep2; cbn in *; unfold aux_ok in *; destruct hn; cbn in *.
      * destruct q_n as (_ & ->). auto.
      * rewrite q_n. reflexivity.
      * destruct q_n as (_ & -> & _ & ?). auto.
      * rewrite q_n. reflexivity.
    + destruct (pts_p c2) eqn:Ep2; cbn in *; unfold aux_ok in *; destruct hf; cbn in *.
      * destruct q_f as (_ & ->). auto.
      * rewrite q_f. reflexivity.
      * destruct q_f as (_ & -> & _ & ?). auto.
      * rewrite q_f. reflexivity.
    + destruct q_k as [->|(-> & _)]; cbn; auto.
    + destruct q_i as [->| ->]; cbn; auto.
  - assert (Ep : pts_p c = Some (Pad (largest (clouds a)) (zip_app (points_of (clouds a)) (ppad a)))) by (destruct (q_p _ _ _ _ _ _ R) as [(_ & Q & _)|Q]; [congruence|exact Q]).
    rewrite Ep. unfold new_clouds_padded. cbn [rows dim1].
    assert (Lz : length (zip_app (points_of (clouds a)) (ppad a)) = length (clouds a)).
    { rewrite zip_app_length; rewrite points_length; [reflexivity|]. symmetry. apply (pads_length F), Hw. }
    rewrite Lz. pose proof (q_n _ _ _ _ _ _ R) as Hn. pose proof (q_f _ _ _ _ _ _ R) as Hf. rewrite Ep in Hn, Hf. cbn in Hn, Hf.
    rewrite (given_pad_parse _ _ _ _ _ _ _ Hn (w_np _ _ _ _ Hw) Hb). cbn [rbind]. rewrite (given_pad_parse _ _ _ _ _ _ _ Hf (w_fp _ _ _ _ Hw) Hb). cbn [rbind].
    eexists _, c. split; [reflexivity|]. split; [|exact R].
    pose proof R as R2'. destruct R. constructor; cbn.
    + reflexivity.
    + reflexivity.
    + assumption.
    + assumption.
    + auto.
    + right. rewrite Ep. reflexivity.
    + rewrite Ep. cbn. unfold aux_ok in *. destruct hn; cbn in *; [destruct Hn as (_ & ->); auto|rewrite Hn; reflexivity].
    + rewrite Ep. cbn. unfold aux_ok in *. destruct hf; cbn in *; [destruct Hf as (_ & ->); auto|rewrite Hf; reflexivity].
    + destruct q_k as [->|(-> & Q)]; cbn; [auto|congruence].
    + destruct q_i as [->| ->]; cbn; auto.
Qed.
End Features.
