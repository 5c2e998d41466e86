From Verif Require Import Base Packing PackingProofs PackOpsProofs RBase Geom FaceAreas FaceAreasSpec Meshes MeshesSpec MeshesHistSpec Pointclouds PointcloudsSpec.
From Verif Require Import MeshesProofs MeshesProofs4 MeshesProofs6 MeshesProofs7 MeshesProofs8 PointcloudsProofs PointcloudsProofs2 PointcloudsProofs3.
Local Open Scope nat_scope.

Section Features.
Variable F : Type.
Variable fzero : F.
Notation row := (row F). Notation cloud := (cloud F). Notation pc := (pointclouds F). Notation cstate := (cstate F).
Local Arguments cN {F} _. Local Arguments cP {F} _. Local Arguments ceq {F} _. Local Arguments cvalid {F} _. Local Arguments counts {F} _.
Local Arguments pts_l {F} _. Local Arguments pts_p {F} _. Local Arguments nrm {F} _. Local Arguments fts {F} _. Local Arguments cpk {F} _. Local Arguments cp2p {F} _.
Local Arguments pos {F} _. Local Arguments nor {F} _. Local Arguments fea {F} _. Local Arguments sizes {F} _. Local Arguments largest {F} _. Local Arguments points_of {F} _.
Local Arguments column {F A} _ _ _. Local Arguments has_a_point {F} _. Local Arguments clouds {F} _. Local Arguments ppad {F} _. Local Arguments npad {F} _. Local Arguments fpad {F} _.
Local Arguments CS {F} _ _ _ _. Local Arguments points_list {F} _. Local Arguments normals_list {F} _. Local Arguments features_list {F} _.
Local Arguments vals {F A} _ _ _. Local Arguments col {F A} _ _ _ _. Local Arguments uni {F A} _ _ _. Local Arguments pads {F A} _ _.
Local Arguments cwf {F} _ _ _. Local Arguments crepr {F} _ _ _ _ _. Local Arguments aux_ok {F A} _ _ _ _ _ _ _. Local Arguments put {F A} _ _ _. Local Arguments rest {F A} _ _. Local Arguments fits {F A} _ _.
Local Arguments list_arg {F A} _ _ _. Local Arguments pad_arg {F A} _ _ _. Local Arguments full_batch {F} _.

Lemma f2len {A B} {P : A -> B -> Prop} {l l'} (H : Forall2 P l l') : length l = length l'.
Proof. induction H; cbn; congruence. Qed.
Local Arguments moved {F} _ _. Local Arguments fresh {F} _ _ _ _. Local Arguments updated {F} _ _ _ _. Local Arguments fits_opt {F A} _ _.

(* ---- a component is replaced by a padded tensor ---- *)
Definition headn {A} (rs : list (list A)) (ns : list nat) : list (list A) := map (fun q => firstn (snd q) (fst q)) (combine rs ns).
Definition restn {A} (rs : list (list A)) (ns : list nat) : list (list A) := map (fun q => skipn (snd q) (fst q)) (combine rs ns).
Lemma head_rest {A} (rs : list (list A)) : forall ns, length rs = length ns -> zip_app (headn rs ns) (restn rs ns) = rs.
Proof. induction rs as [|r rs IH]; intros [|n ns] H; try discriminate; [reflexivity|]. unfold headn, restn in *. cbn. rewrite IH by (injection H; auto). rewrite firstn_skipn. reflexivity. Qed.
Lemma rest_sizes {A} (p : padded A) (b : list cloud) : rest p b = restn (rows p) (sizes b).
Proof. unfold rest, restn. generalize (rows p). intros l. revert b. induction l as [|r l IH]; intros [|c b]; try reflexivity. cbn. rewrite IH. reflexivity. Qed.
Lemma fits_alike {A} (p : padded A) (b b' : list cloud) : sizes b' = sizes b -> fits p b -> fits p b'.
Proof.
  intros E (H1 & H2 & H3). unfold fits. unfold largest in *. rewrite E. split; [|auto]. rewrite H1. rewrite <- (sizes_length F b), <- E. apply sizes_length.
Qed.
Lemma fits_long {A} (p : padded A) (b : list cloud) : fits p b -> Forall2 (fun r n => n <= length r) (rows p) (sizes b).
Proof.
  intros (H1 & H2 & H3). rewrite <- (sizes_length F b) in H1. assert (H : Forall (fun n => n <= dim1 p) (sizes b)).
  { apply Forall_forall. intros n Hn. rewrite H2. unfold largest. apply max_nat_ge. exact Hn. }
  revert H1 H3 H. generalize (rows p) (sizes b) (dim1 p). clear. induction l as [|r l IH]; intros [|n ns] m E H1 H2; try discriminate; constructor;
    apply Forall_cons_iff in H1, H2; destruct H1, H2; [lia|]. apply IH with m; auto.
Qed.
Lemma rest_pads {A} (p : padded A) (b b' : list cloud) : sizes b' = sizes b -> fits p b -> pads b' (rest p b).
Proof.
  intros E H. rewrite rest_sizes. unfold pads, largest. rewrite E. pose proof (fits_long p b H) as Hl. destruct H as (_ & H2 & H3). fold (largest b). rewrite <- H2.
  clear E. revert H3. generalize (dim1 p). intros m. unfold restn. clear H2. induction Hl as [|r n rs ns L _ IH]; intros H; cbn; constructor; apply Forall_cons_iff in H; destruct H as (Hr & H).
  - rewrite skipn_length. lia.
  - apply IH. exact H.
Qed.
Lemma put_sizes {A} (g : A -> row -> row) p (b : list cloud) : fits p b -> sizes (put g p b) = sizes b.
Proof.
  intros H. pose proof (fits_long p b H) as Hl. unfold put. revert Hl. generalize (rows p). clear H. induction b as [|c b IH]; intros [|r l] Hl; inversion Hl; subst; [reflexivity|].
  cbn [combine map]. change (sizes (c :: b)) with (@length row c :: sizes b). rewrite <- (IH l) by assumption. unfold sizes. cbn [map fst snd]. rewrite map_length, combine_length. f_equal. lia.
Qed.
Lemma put_vals {A B} (g : A -> row -> row) p (b : list cloud) (f : row -> option B) (z : B) (k : A -> B) : fits p b -> (forall x r, f (g x r) = Some (k x)) ->
  vals f z (put g p b) = map (map k) (headn (rows p) (sizes b)).
Proof.
  intros H Hg. pose proof (fits_long p b H) as Hl. unfold put, vals, headn. revert Hl. generalize (rows p). clear H. induction b as [|c b IH]; intros [|r l] Hl; inversion Hl; subst; [reflexivity|].
  change (sizes (c :: b)) with (@length row c :: sizes b). cbn [combine map fst snd]. rewrite IH by assumption. f_equal. clear - Hg. revert r. induction c as [|x c IH]; intros [|y r]; try reflexivity.
  cbn. rewrite Hg. cbn. f_equal. apply IH.
Qed.
Lemma put_uni {A B} (g : A -> row -> row) p (b : list cloud) (f : row -> option B) (k : A -> B) : (forall x r, f (g x r) = Some (k x)) -> uni f true (put g p b).
Proof.
  intros Hg. unfold put, uni. apply Forall_forall. intros c Hc. apply in_map_iff in Hc. destruct Hc as (q & <- & _). apply Forall_forall. intros r Hr.
  apply in_map_iff in Hr. destruct Hr as (z & <- & _). rewrite Hg. reflexivity.
Qed.
Lemma put_keep {A B} (g : A -> row -> row) p (b : list cloud) (f : row -> option B) (z : B) : fits p b -> (forall x r, f (g x r) = f r) -> vals f z (put g p b) = vals f z b.
Proof.
  intros H Hg. pose proof (fits_long p b H) as Hl. unfold put, vals. revert Hl. generalize (rows p). clear H. induction b as [|c b IH]; intros [|r l] Hl; inversion Hl; subst; [reflexivity|].
  cbn [combine map fst snd]. rewrite IH by assumption. f_equal. clear - H2 Hg. revert r H2. induction c as [|x c IH]; intros [|y r] H; cbn in H; try lia; [reflexivity..|].
  cbn. rewrite Hg. f_equal. apply IH. lia.
Qed.
Lemma put_keep_uni {A B} (g : A -> row -> row) p (b : list cloud) (f : row -> option B) h : (forall x r, f (g x r) = f r) -> uni f h b -> uni f h (put g p b).
Proof.
  intros Hg U. unfold put, uni in *. rewrite Forall_forall in U. apply Forall_forall. intros c Hc. apply in_map_iff in Hc. destruct Hc as (q & <- & Hq). destruct q as (rs & c).
  apply in_combine_r in Hq. specialize (U c Hq). rewrite Forall_forall in U. apply Forall_forall. intros r Hr.
  apply in_map_iff in Hr. destruct Hr as ((x & y) & <- & Hxy). cbn [fst snd] in *. apply in_combine_r in Hxy. rewrite Hg. apply U, Hxy.
Qed.
Lemma alike_point (b b' : list cloud) : sizes b' = sizes b -> has_a_point b -> has_a_point b'.
Proof.
  revert b'. induction b as [|c b IH]; intros [|c' b'] E (x & Hx & Hn); try discriminate; [destruct Hx|]. injection E as E1 E2. destruct Hx as [->|Hx].
  - exists c'. split; [left; reflexivity|]. intros ->. apply Hn. destruct x; [reflexivity|discriminate].
  - destruct (IH b' E2) as (y & Hy & Hyn); [exists x; auto|]. exists y. split; [right; exact Hy|exact Hyn].
Qed.
Lemma alike_pads {A} (b b' : list cloud) (t : list (list A)) : sizes b' = sizes b -> pads b t -> pads b' t.
Proof. intros E. unfold pads, largest. rewrite E. auto. Qed.

(* replacing one component, or not *)
Definition put_opt {A} (g : A -> row -> row) (o : option (padded A)) (b : list cloud) : list cloud := match o with Some p => put g p b | None => b end.
Definition has_new {A} (h : bool) (o : option A) : bool := match o with Some _ => true | None => h end.
Definition new_tail {A} (o : option (padded A)) (b : list cloud) (t : list (list A)) : list (list A) := match o with Some p => rest p b | None => t end.
Definition new_aux {A} (o : option (padded A)) (x : aux A) : aux A := match o with Some p => Aux None (Some p) | None => x end.
Lemma put_opt_sizes {A} (g : A -> row -> row) o (b : list cloud) : fits_opt o b -> sizes (put_opt g o b) = sizes b.
Proof. intros H. destruct o as [p|]; [|reflexivity]. apply put_sizes, H. reflexivity. Qed.
Lemma fits_opt_alike {A} (o : option (padded A)) (b b' : list cloud) : sizes b' = sizes b -> fits_opt o b -> fits_opt o b'.
Proof. intros E H p Hp. eapply fits_alike; [exact E|]. apply H, Hp. Qed.
Lemma new_aux_ok {A} (f : row -> option A) (z : A) h o (b b' : list cloud) t pd x : sizes b' = sizes b -> fits_opt o b ->
  (forall p, o = Some p -> vals f z b' = headn (rows p) (sizes b)) -> (o = None -> vals f z b' = vals f z b) ->
  (o = None -> h = true -> pd = true) -> aux_ok f z h b t pd x ->
  aux_ok f z (has_new h o) b' (new_tail o b t) true (new_aux o x).
Proof.
  intros E Ho H1 H2 Hpd Hx. unfold aux_ok, largest in *. rewrite E. destruct o as [p|]; cbn [has_new new_tail new_aux].
  - cbn. split; [auto|]. specialize (Ho p eq_refl). destruct Ho as (L1 & L2 & L3). unfold largest in L2. rewrite <- L2, (H1 p eq_refl), rest_sizes, head_rest by (rewrite L1; symmetry; apply sizes_length).
    destruct p; reflexivity.
  - rewrite (H2 eq_refl). destruct h; [|exact Hx]. rewrite (Hpd eq_refl eq_refl) in Hx. exact Hx.
Qed.

Lemma update_ok a hn hf (c : pc) np nn nf : cwf a hn hf -> crepr fzero a hn hf c -> fits np (clouds a) -> fits_opt nn (clouds a) -> fits_opt nf (clouds a) ->
  (nn = None -> hn = true -> pts_p c <> None) -> (nf = None -> hf = true -> pts_p c <> None) ->
  exists c', cloud_update F np nn nf c = Ok c' /\ cwf (updated np nn nf a) (has_new hn nn) (has_new hf nf) /\
    crepr fzero (updated np nn nf a) (has_new hn nn) (has_new hf nf) c'.
Proof.
  intros Hw R Fp Fn Ff Gn Gf. pose proof (point_nonempty F _ (w_pt _ _ _ _ Hw)) as Hb.
  assert (Es : sizes (put (put_pos F) np (clouds a)) = sizes (clouds a)) by (apply put_sizes; exact Fp).
  assert (Es2 : sizes (put_opt (put_nor F) nn (put (put_pos F) np (clouds a))) = sizes (clouds a)).
  { rewrite put_opt_sizes; [exact Es|]. eapply fits_opt_alike; [exact Es|exact Fn]. }
  assert (Es3 : sizes (put_opt (put_fea F) nf (put_opt (put_nor F) nn (put (put_pos F) np (clouds a)))) = sizes (clouds a)).
  { rewrite put_opt_sizes; [exact Es2|]. eapply fits_opt_alike; [exact Es2|exact Ff]. }
  change (updated np nn nf a) with (CS (put_opt (put_fea F) nf (put_opt (put_nor F) nn (put (put_pos F) np (clouds a)))) (rest np (clouds a))
    (new_tail nn (clouds a) (npad a)) (new_tail nf (clouds a) (fpad a))).
  set (b1 := put (put_pos F) np (clouds a)) in *. set (b2 := put_opt (put_nor F) nn b1) in *. set (b3 := put_opt (put_fea F) nf b2) in *.
  assert (Fn1 : fits_opt nn b1) by (eapply fits_opt_alike; eassumption). assert (Ff2 : fits_opt nf b2) by (eapply fits_opt_alike; eassumption).
  unfold cloud_update.
  assert (S : forall A (o : option (padded A)), fits_opt o (clouds a) -> shape_ok_opt (cN c) (cP c) o = true).
  { intros A [p|] H; [|reflexivity]. destruct (H p eq_refl) as (L1 & L2 & _). cbn. unfold shape_ok. rewrite L1, L2, (q_N _ _ _ _ _ _ R), (q_P _ _ _ _ _ _ R), !Nat.eqb_refl. reflexivity. }
  rewrite (S _ nn Fn), (S _ nf Ff). rewrite (S _ (Some np) (fun p E => eq_ind np (fun x => fits x (clouds a)) Fp p ltac:(congruence)) : shape_ok _ _ np = true). cbn [andb negb].
  destruct Fp as (L1 & L2 & L3). unfold new_clouds_padded. rewrite L1, L2.
  assert (Q : forall A (o : option (padded A)), fits_opt o (clouds a) -> exists x, parse_aux (length (clouds a)) (largest (clouds a)) (repeat (largest (clouds a)) (length (clouds a))) (given_pad o) = Ok x).
  { intros A [p|] H; unfold parse_aux; destruct (length (clouds a) =? 0); cbn; eauto. destruct (H p eq_refl) as (M1 & M2 & _). rewrite M1, M2, !Nat.eqb_refl. cbn. eauto. }
  destruct (Q _ nn Fn) as (xn & En). destruct (Q _ nf Ff) as (xf & Ef). rewrite En. cbn [rbind]. rewrite Ef. cbn [rbind].
  eexists. split; [reflexivity|].
  assert (Un : uni nor (has_new hn nn) b3).
  { assert (U2 : uni nor (has_new hn nn) b2).
    { subst b2. destruct nn; cbn; [eapply put_uni with (k := fun x => x); reflexivity|]. apply put_keep_uni; [reflexivity|apply Hw]. }
    subst b3. destruct nf; cbn; [|exact U2]. apply put_keep_uni; [reflexivity|exact U2]. }
  assert (Uf : uni fea (has_new hf nf) b3).
  { subst b3. destruct nf; cbn; [eapply put_uni with (k := fun x => x); reflexivity|]. subst b2. destruct nn; cbn; repeat (apply put_keep_uni; [reflexivity|]); apply Hw. }
  assert (Vp : points_of b3 = headn (rows np) (sizes (clouds a))).
  { change (points_of b3) with (vals (fun r => Some (pos r)) zero_row b3).
    transitivity (vals (fun r => Some (pos r)) zero_row b1).
    - transitivity (vals (fun r => Some (pos r)) zero_row b2).
      + subst b3. destruct nf; [|reflexivity]. apply put_keep; [apply Ff2; reflexivity|reflexivity].
      + subst b2. destruct nn; [|reflexivity]. apply put_keep; [apply Fn1; reflexivity|reflexivity].
    - subst b1. rewrite (put_vals (put_pos F) np (clouds a) _ _ (fun x => x)) by (try reflexivity; repeat split; assumption). 
      rewrite (map_ext (map (fun x : vec3 => x)) (fun x => x)) by apply map_id. apply map_id. }
  assert (Vn : (forall p, nn = Some p -> vals nor zero_row b3 = headn (rows p) (sizes (clouds a))) /\ (nn = None -> vals nor zero_row b3 = vals nor zero_row (clouds a))).
  { assert (V : vals nor zero_row b3 = vals nor zero_row b2) by (subst b3; destruct nf; [|reflexivity]; apply put_keep; [apply Ff2; reflexivity|reflexivity]). split.
    - intros p ->. rewrite V. subst b2. cbn [put_opt]. rewrite (put_vals (put_nor F) p b1 _ _ (fun x => x)) by (try reflexivity; apply Fn1; reflexivity).
      rewrite (map_ext (map (fun x : vec3 => x)) (fun x => x)) by apply map_id. rewrite map_id, Es. reflexivity.
    - intros ->. rewrite V. subst b2 b1. cbn [put_opt]. apply put_keep; [repeat split; assumption|reflexivity]. }
  assert (Vf : (forall p, nf = Some p -> vals fea fzero b3 = headn (rows p) (sizes (clouds a))) /\ (nf = None -> vals fea fzero b3 = vals fea fzero (clouds a))).
  { split.
    - intros p ->. subst b3. cbn [put_opt]. rewrite (put_vals (put_fea F) p b2 _ _ (fun x => x)) by (try reflexivity; apply Ff2; reflexivity).
      rewrite (map_ext (map (fun x : F => x)) (fun x => x)) by apply map_id. rewrite map_id, Es2. reflexivity.
    - intros ->. subst b3. cbn [put_opt]. transitivity (vals fea fzero b1).
      + subst b2. destruct nn; [|reflexivity]. apply put_keep; [apply Fn1; reflexivity|reflexivity].
      + subst b1. apply put_keep; [repeat split; assumption|reflexivity]. }
  split.
  - constructor; cbn [clouds ppad npad fpad].
    + exact Un.
    + exact Uf.
    + eapply alike_point; [exact Es3|apply Hw].
    + apply rest_pads; [exact Es3|repeat split; assumption].
    + destruct nn as [p|]; cbn; [apply rest_pads; [exact Es3|apply Fn; reflexivity]|]. eapply alike_pads; [exact Es3|apply Hw].
    + destruct nf as [p|]; cbn; [apply rest_pads; [exact Es3|apply Ff; reflexivity]|]. eapply alike_pads; [exact Es3|apply Hw].
  - assert (L : length b3 = length (clouds a)) by (rewrite <- !(sizes_length F), Es3; reflexivity).
    assert (Lg : largest b3 = largest (clouds a)) by (unfold largest; rewrite Es3; reflexivity).
    constructor; cbn [clouds ppad npad fpad cN cP cvalid counts pts_l pts_p nrm fts cpk cp2p].
    + symmetry; exact L.
    + symmetry; exact Lg.
    + rewrite (q_valid _ _ _ _ _ _ R), <- !(map_map (@length row) (fun k => negb (k =? 0))). fold (sizes (clouds a)) (sizes b3). rewrite Es3. reflexivity.
    + rewrite Es3. apply R.
    + auto.
    + right. rewrite Vp, Lg, rest_sizes, head_rest by (rewrite L1; symmetry; apply sizes_length). rewrite <- L2. destruct np; reflexivity.
    + apply (new_aux_ok nor zero_row hn nn (clouds a) b3 (npad a) (is_pad (pts_p c)) (nrm c)); [exact Es3|exact Fn|apply Vn|apply Vn| |apply R].
      intros E1 E2. specialize (Gn E1 E2). destruct (pts_p c); [reflexivity|contradiction].
    + apply (new_aux_ok fea fzero hf nf (clouds a) b3 (fpad a) (is_pad (pts_p c)) (fts c)); [exact Es3|exact Ff|apply Vf|apply Vf| |apply R].
      intros E1 E2. specialize (Gf E1 E2). destruct (pts_p c); [reflexivity|contradiction].
    + auto.
    + unfold p2p_clouds. rewrite Lg, Es3, L. destruct (q_i _ _ _ _ _ _ R) as [->| ->]; cbn; auto.
Qed.

(* ---- estimate_normals(assign_to_self=True) ---- *)
Lemma assign_ok a hn hf (c : pc) est : cwf a hn hf -> crepr fzero a hn hf c -> fits est (clouds a) ->
  exists c', assign_normals F fzero est c = Ok c' /\ cwf (CS (put (put_nor F) est (clouds a)) (ppad a) (rest est (clouds a)) (fpad a)) true hf /\
    crepr fzero (CS (put (put_nor F) est (clouds a)) (ppad a) (rest est (clouds a)) (fpad a)) true hf c'.
Proof.
  intros Hw R Fe. pose proof (point_nonempty F _ (w_pt _ _ _ _ Hw)) as Hb.
  destruct (cloud_padded_ok F fzero a hn hf c Hw R) as (c1 & E1 & R1 & P1 & _). unfold assign_normals. rewrite E1. cbn [rbind].
  set (b' := put (put_nor F) est (clouds a)). assert (Es : sizes b' = sizes (clouds a)) by (apply put_sizes; exact Fe).
  assert (Lg : largest b' = largest (clouds a)) by (unfold largest; rewrite Es; reflexivity).
  assert (L : length b' = length (clouds a)) by (rewrite <- !(sizes_length F), Es; reflexivity).
  assert (Vp : points_of b' = points_of (clouds a)) by (apply (put_keep (put_nor F) est (clouds a) (fun r => Some (pos r)) zero_row); [exact Fe|reflexivity]).
  assert (Vf : vals fea fzero b' = vals fea fzero (clouds a)) by (apply put_keep; [exact Fe|reflexivity]).
  assert (Vn : vals nor zero_row b' = headn (rows est) (sizes (clouds a))).
  { subst b'. rewrite (put_vals (put_nor F) est (clouds a) _ _ (fun x => x)) by (try reflexivity; exact Fe).
    rewrite (map_ext (map (fun x : vec3 => x)) (fun x => x)) by apply map_id. apply map_id. }
  assert (W : cwf (CS b' (ppad a) (rest est (clouds a)) (fpad a)) true hf).
  { constructor; cbn.
    - eapply put_uni with (k := fun x => x); reflexivity.
    - apply put_keep_uni; [reflexivity|apply Hw].
    - eapply alike_point; [exact Es|apply Hw].
    - eapply alike_pads; [exact Es|apply Hw].
    - apply rest_pads; [exact Es|exact Fe].
    - eapply alike_pads; [exact Es|apply Hw]. }
  assert (Pe : Pad (largest b') (zip_app (vals nor zero_row b') (rest est (clouds a))) = est).
  { destruct Fe as (L1 & L2 & L3). rewrite Vn, rest_sizes, head_rest, Lg, <- L2 by (rewrite L1; symmetry; apply sizes_length). destruct est; reflexivity. }
  unfold parse_aux. rewrite (q_N _ _ _ _ _ _ R1), (q_P _ _ _ _ _ _ R1). replace (length (clouds a) =? 0) with false by (destruct (clouds a); [contradiction|reflexivity]).
  destruct Fe as (L1 & L2 & L3). rewrite L1, L2, !Nat.eqb_refl. cbn [negb rbind aux_p].
  (* without the packed normals *)
  assert (G : forall k nl, (nl = None \/ nl = Some (vals nor zero_row b')) -> (k = None \/ (k = Some (packed_clouds F fzero true hf b') /\ pts_l c1 = Some (points_of b'))) ->
    crepr fzero (CS b' (ppad a) (rest est (clouds a)) (fpad a)) true hf (with_pk F k (with_nrm F (Aux nl (Some est)) c1))).
  { intros k nl Hnl Hk. pose proof R1 as R1'. destruct R1. constructor; cbn [clouds ppad npad fpad cN cP cvalid counts pts_l pts_p nrm fts cpk cp2p with_pk with_nrm].
    - rewrite L. assumption.
    - rewrite Lg. assumption.
    - rewrite q_valid, <- !(map_map (@length row) (fun k => negb (k =? 0))). fold (sizes (clouds a)) (sizes b'). rewrite Es. reflexivity.
    - rewrite Es. assumption.
    - rewrite Vp. assumption.
    - right. rewrite Vp, Lg. exact P1.
    - rewrite P1. unfold aux_ok. cbn [is_pad is_none negb aux_l aux_p]. split; [exact Hnl|]. rewrite Pe. reflexivity.
    - unfold aux_ok. rewrite Lg, Vf, Es. exact q_f.
    - exact Hk.
    - unfold p2p_clouds. rewrite Lg, Es, L. assumption. }
  destruct (q_l _ _ _ _ _ _ R1) as [El|El].
  - change (pts_l (with_nrm F (Aux None (Some est)) c1)) with (pts_l c1). rewrite El. cbn [rbind]. change (cpk (with_nrm F (Aux None (Some est)) c1)) with (cpk c1).
    destruct (q_k _ _ _ _ _ _ R1) as [K|(K & K')]; [|congruence]. rewrite K. eexists. split; [reflexivity|]. split; [exact W|].
    specialize (G None None (or_introl eq_refl) (or_introl eq_refl)). unfold with_pk, with_nrm in *. cbn in G. rewrite <- K in G. exact G.
  - change (pts_l (with_nrm F (Aux None (Some est)) c1)) with (pts_l c1). rewrite El.
    assert (En : normals_list (with_nrm F (Aux None (Some est)) c1) = Ok (Some (vals nor zero_row b'), with_nrm F (Aux (Some (vals nor zero_row b')) (Some est)) c1)).
    { unfold normals_list. cbn [with_nrm nrm counts aux_list aux_l aux_p]. rewrite <- Pe at 1. rewrite (q_cnt _ _ _ _ _ _ R1), <- Es, <- (sizes_vals F nor zero_row b'), unpad_zip.
      2:{ rewrite vals_length, L. rewrite rest_sizes. unfold restn. rewrite map_length, combine_length, sizes_length. lia. }
      cbn [rbind fst snd]. reflexivity. }
    rewrite En. cbn [rbind snd]. change (cpk (with_nrm F (Aux (Some (vals nor zero_row b')) (Some est)) c1)) with (cpk c1).
    destruct (q_k _ _ _ _ _ _ R1) as [K|(K & _)]; rewrite K.
    + eexists. split; [reflexivity|]. split; [exact W|]. specialize (G None _ (or_intror eq_refl) (or_introl eq_refl)). unfold with_pk, with_nrm in *. cbn in G. rewrite <- K in G. exact G.
    + cbn [with_nrm nrm aux_l]. destruct (vals nor zero_row b') as [|v l] eqn:Ev; [apply (f_equal (@length _)) in Ev; rewrite vals_length, L in Ev; destruct (clouds a); [contradiction|discriminate]|].
      rewrite <- Ev. eexists. split; [reflexivity|]. split; [exact W|].
      replace (CPacked F _ _ _ _ _) with (packed_clouds F fzero true hf b').
      * apply G; [right; f_equal; exact Ev|]. right. split; [reflexivity|]. rewrite Vp. exact El.
      * unfold packed_clouds, col. cbn. rewrite Vp, Es, Vf. reflexivity.
Qed.
End Features.
