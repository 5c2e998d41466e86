From Verif Require Import Base Packing PackingProofs PackOpsProofs RBase Geom FaceAreas FaceAreasSpec Meshes MeshesSpec MeshesHistSpec Pointclouds PointcloudsSpec.
From Verif Require Import MeshesProofs MeshesProofs4 MeshesProofs6 MeshesProofs7 MeshesProofs8 PointcloudsProofs PointcloudsProofs2 PointcloudsProofs3 PointcloudsProofs4.
Local Open Scope nat_scope.

Section Features.
Variable F : Type.
Variable fzero : F.
Notation row := (row F). Notation cloud := (cloud F). Notation pc := (pointclouds F). Notation cstate := (cstate F).
Local Arguments cN {F} _. Local Arguments cP {F} _. Local Arguments ceq {F} _. Local Arguments cvalid {F} _. Local Arguments counts {F} _.
Local Arguments pts_l {F} _. Local Arguments pts_p {F} _. Local Arguments nrm {F} _. Local Arguments fts {F} _. Local Arguments cpk {F} _. Local Arguments cp2p {F} _.
Local Arguments pos {F} _. Local Arguments nor {F} _. Local Arguments fea {F} _. Local Arguments sizes {F} _. Local Arguments largest {F} _. Local Arguments points_of {F} _.
Local Arguments column {F A} _ _ _. Local Arguments has_a_point {F} _. Local Arguments clouds {F} _. Local Arguments ppad {F} _. Local Arguments npad {F} _. Local Arguments fpad {F} _.
Local Arguments CS {F} _ _ _ _. Local Arguments points_list {F} _. Local Arguments normals_list {F} _. Local Arguments features_list {F} _.
Local Arguments vals {F A} _ _ _. Local Arguments col {F A} _ _ _ _. Local Arguments uni {F A} _ _ _. Local Arguments pads {F A} _ _.
Local Arguments cwf {F} _ _ _. Local Arguments crepr {F} _ _ _ _ _. Local Arguments aux_ok {F A} _ _ _ _ _ _ _. Local Arguments put {F A} _ _ _. Local Arguments rest {F A} _ _. Local Arguments fits {F A} _ _.
Local Arguments list_arg {F A} _ _ _. Local Arguments pad_arg {F A} _ _ _. Local Arguments full_batch {F} _.

Lemma f2len {A B} {P : A -> B -> Prop} {l l'} (H : Forall2 P l l') : length l = length l'.
Proof. induction H; cbn; congruence. Qed.
Local Arguments moved {F} _ _. Local Arguments fresh {F} _ _ _ _. Local Arguments updated {F} _ _ _ _. Local Arguments fits_opt {F A} _ _.
Local Arguments sampled {F} _ _ _ _. Local Arguments sampled_all {F} _ _ _ _.

(* ---- new objects ---- *)
Definition built (o : pc) (b : list cloud) (hn hf : bool) : Prop :=
  new_clouds F (points_of b) (given (col nor zero_row hn b)) (given (col fea fzero hf b)) = Ok o.
Lemma built_exists b hn hf : exists o, built o b hn hf.
Proof.
  unfold built. destruct b as [|c b]; [|rewrite new_given by discriminate; eauto]. unfold new_clouds, parse_aux. cbn. eauto.
Qed.
Lemma built_repr o b hn hf : has_a_point b -> uni nor hn b -> uni fea hf b -> built o b hn hf ->
  cwf (of_lists F fzero b) hn hf /\ crepr fzero (of_lists F fzero b) hn hf o.
Proof.
  intros Hp Hn Hf H. unfold built in H. rewrite new_given in H by (apply (point_nonempty F); exact Hp). injection H as <-. apply fresh_repr; assumption.
Qed.
Definition listed (c : pc) (b : list cloud) (hn hf : bool) : Prop :=
  (exists c', points_list c = Ok (points_of b, c')) /\ (exists c', normals_list c = Ok (col nor zero_row hn b, c')) /\ (exists c', features_list c = Ok (col fea fzero hf b, c')).
Lemma built_listed o b hn hf : b <> [] -> built o b hn hf -> listed o b hn hf.
Proof.
  intros Hb H. unfold built in H. rewrite new_given in H by exact Hb. injection H as <-. repeat split; cbn; eauto.
  - unfold normals_list. cbn. destruct hn; cbn; eauto.
  - unfold features_list. cbn. destruct hf; cbn; eauto.
Qed.
Lemma listed_shows c b hn hf : uni nor hn b -> uni fea hf b -> listed c b hn hf -> cshows F c b.
Proof.
  intros Un Uf ((c1 & E1) & (c2 & E2) & (c3 & E3)). exists c1, c2, c3, (col nor zero_row hn b), (col fea fzero hf b). repeat split; auto; apply col_column; assumption.
Qed.
Lemma built_shows o b hn hf : uni nor hn b -> uni fea hf b -> built o b hn hf -> cshows F o b.
Proof.
  intros Un Uf H. destruct b as [|c b].
  - unfold built, new_clouds, parse_aux in H. cbn in H. injection H as <-. do 5 eexists. unfold points_list, normals_list, features_list. cbn.
    split; [reflexivity|]. split; [reflexivity|]. split; [cbn; constructor|]. split; [reflexivity|]. cbn. constructor.
  - eapply listed_shows; [exact Un|exact Uf|]. apply built_listed; [discriminate|exact H].
Qed.
Lemma repr_listed a hn hf (c : pc) : cwf a hn hf -> crepr fzero a hn hf c -> listed c (clouds a) hn hf.
Proof.
  intros Hw R. split; [|split].
  - destruct (points_list_ok F fzero a hn hf c Hw R) as (c' & E & _). eauto.
  - destruct (normals_list_ok F fzero a hn hf c Hw R) as (c' & E & _). eauto.
  - destruct (features_list_ok F fzero a hn hf c Hw R) as (c' & E & _). eauto.
Qed.

(* ---- indexing ---- *)
Lemma pick_col {A} (f : row -> option A) z h b ix b' : pick b ix = Ok b' -> pick_opt (col f z h b) ix = Ok (col f z h b').
Proof. intros H. destruct h; [|reflexivity]. cbn. unfold vals, PointcloudsSpec.cloud in *. rewrite pick_map. rewrite H. reflexivity. Qed.
Lemma pick_points (b : list cloud) ix b' : pick b ix = Ok b' -> pick (points_of b) ix = Ok (points_of b').
Proof. intros H. unfold points_of, PointcloudsSpec.cloud in *. rewrite pick_map, H. reflexivity. Qed.
Lemma getitem_ok a hn hf (c : pc) ix b' : cwf a hn hf -> crepr fzero a hn hf c -> selected ix (clouds a) b' ->
  exists o c', cloud_getitem F ix c = Ok (o, c') /\ built o b' hn hf /\ crepr fzero a hn hf c'.
Proof.
  intros Hw R H. apply pick_selected in H. unfold cloud_getitem.
  destruct (normals_list_ok F fzero a hn hf c Hw R) as (c1 & E1 & R1 & _). rewrite E1. cbn [rbind].
  destruct (features_list_ok F fzero a hn hf c1 Hw R1) as (c2 & E2 & R2 & _). rewrite E2. cbn [rbind].
  destruct (points_list_ok F fzero a hn hf c2 Hw R2) as (c3 & E3 & R3 & _). rewrite E3. cbn [rbind].
  rewrite (pick_points _ _ _ H). cbn [rbind]. rewrite (pick_col nor _ _ _ _ _ H). cbn [rbind]. rewrite (pick_col fea _ _ _ _ _ H). cbn [rbind].
  destruct (built_exists b' hn hf) as (o & Ho). unfold built in Ho. rewrite Ho. cbn [rbind]. exists o, c3. auto.
Qed.
Lemma getitem_fail a hn hf (c : pc) ix : cwf a hn hf -> crepr fzero a hn hf c -> (forall b', ~ selected ix (clouds a) b') -> cloud_getitem F ix c = Fail EIndex.
Proof.
  intros Hw R H. unfold cloud_getitem.
  destruct (normals_list_ok F fzero a hn hf c Hw R) as (c1 & E1 & R1 & _). rewrite E1. cbn [rbind].
  destruct (features_list_ok F fzero a hn hf c1 Hw R1) as (c2 & E2 & R2 & _). rewrite E2. cbn [rbind].
  destruct (points_list_ok F fzero a hn hf c2 Hw R2) as (c3 & E3 & R3 & _). rewrite E3. cbn [rbind].
  unfold points_of, PointcloudsSpec.cloud in *. rewrite pick_map. destruct (pick (A := list row) (clouds a) ix) as [b'|e] eqn:E.
  - exfalso. apply (H b'). apply pick_selected, E.
  - cbn [rbind]. rewrite (pick_fail _ _ _ E). reflexivity.
Qed.
Lemma uni_incl {A} (f : row -> option A) h (b b' : list cloud) : (forall x, In x b' -> In x b) -> uni f h b -> uni f h b'.
Proof. intros H. apply Forall_incl, H. Qed.

(* ---- extend ---- *)
Lemma extend_ok a hn hf (c : pc) n : cwf a hn hf -> crepr fzero a hn hf c -> (0 < n)%Z ->
  exists o c', cloud_extend F n c = Ok (o, c') /\ built o (flat_map (fun k => repeat k (Z.to_nat n)) (clouds a)) hn hf /\ crepr fzero a hn hf c'.
Proof.
  intros Hw R Hn. unfold cloud_extend. replace (n <=? 0)%Z with false by (symmetry; apply Z.leb_gt; lia).
  destruct (lists_all F fzero a hn hf c Hw R) as (c1 & c2 & c3 & E1 & E2 & E3 & R3 & _). rewrite E1. cbn [rbind]. rewrite E2. cbn [rbind]. rewrite E3. cbn [rbind].
  set (b' := flat_map (fun k => repeat k (Z.to_nat n)) (clouds a)).
  assert (Ep : repeat_each (Z.to_nat n) (points_of (clouds a)) = points_of b').
  { unfold repeat_each, points_of, b'. rewrite <- flat_map_map. rewrite (flat_map_concat_map (fun x => repeat x (Z.to_nat n)) (map (map pos) (clouds a))), map_map, <- flat_map_concat_map. reflexivity. }
  assert (Ec : forall A (f : row -> option A) z h, option_map (repeat_each (Z.to_nat n)) (col f z h (clouds a)) = col f z h b').
  { intros A f z h. destruct h; [|reflexivity]. cbn. f_equal. unfold repeat_each, vals, b'. rewrite <- flat_map_map.
    rewrite (flat_map_concat_map (fun x => repeat x (Z.to_nat n)) (map (map (fun r => dflt z (f r))) (clouds a))), map_map, <- flat_map_concat_map. reflexivity. }
  rewrite Ep, !Ec. destruct (built_exists b' hn hf) as (o & Ho). unfold built in Ho. rewrite Ho. cbn [rbind]. exists o, c3. auto.
Qed.
Lemma extend_point n (b : list cloud) : 0 < n -> has_a_point b -> has_a_point (flat_map (fun k => repeat k n) b).
Proof.
  intros Hn (c & Hc & Hne). exists c. split; [|exact Hne]. apply in_flat_map. exists c. split; [exact Hc|]. destruct n; [lia|left; reflexivity].
Qed.
Lemma extend_in n (b : list cloud) x : In x (flat_map (fun k => repeat k n) b) -> In x b.
Proof. intros H. apply in_flat_map in H. destruct H as (y & Hy & H). apply repeat_spec in H. subst. exact Hy. Qed.

(* ---- subsample ---- *)
Lemma keep_rows_map {A B} (g : A -> B) n mx keep l : keep_rows n mx keep (map g l) = (r <- keep_rows n mx keep l ;; Ok (map g r)).
Proof.
  unfold keep_rows. destruct (mx <? n); [|reflexivity]. rewrite <- rmap_map_result. apply rmap_ext. intros i. rewrite nth_error_map. destruct (nth_error l i); reflexivity.
Qed.
Lemma keep_each_map {A B} (g : A -> B) : forall cnt mx keeps l, keep_each cnt mx keeps (map (map g) l) = (r <- keep_each cnt mx keeps l ;; Ok (map (map g) r)).
Proof.
  induction cnt as [|n cnt IH]; intros [|m mx] [|k keeps] [|x l]; try reflexivity. cbn [map keep_each]. rewrite keep_rows_map.
  destruct (keep_rows n m k x) as [y|]; [|reflexivity]. cbn [rbind]. rewrite IH. destruct (keep_each cnt mx keeps l); reflexivity.
Qed.
Lemma sampled_keep mx keeps (b b' : list cloud) : sampled_all mx keeps b b' -> keep_each (sizes b) mx keeps b = Ok b'.
Proof.
  induction 1 as [|m mx k keeps c b c' b' H _ IH]; [reflexivity|]. change (sizes (c :: b)) with (@length row c :: sizes b). cbn [keep_each].
  assert (E : keep_rows (@length row c) m k c = Ok c').
  { unfold keep_rows. destruct H as [(H & ->)|(H & _ & _ & Hk)].
    - replace (m <? @length row c) with false by (symmetry; apply Nat.ltb_ge; exact H). reflexivity.
    - replace (m <? @length row c) with true by (symmetry; apply Nat.ltb_lt; exact H). clear - Hk. induction Hk as [|i r keep c' Hi _ IH]; [reflexivity|]. cbn. rewrite Hi. cbn. rewrite IH. reflexivity. }
  rewrite E. cbn [rbind]. rewrite IH. reflexivity.
Qed.
Lemma sampled_length mx keeps (b b' : list cloud) : sampled_all mx keeps b b' -> length mx = length b.
Proof. induction 1; cbn; congruence. Qed.
Lemma all_small (b : list cloud) mx : length mx = length b ->
  forallb (fun p : nat * nat => fst p <=? snd p) (combine (sizes b) mx) = true <-> Forall2 (fun c m => @length row c <= m) b mx.
Proof.
  revert mx. induction b as [|c b IH]; intros [|m mx] H; try discriminate; [split; constructor|]. change (sizes (c :: b)) with (@length row c :: sizes b). cbn [combine forallb fst snd].
  rewrite andb_true_iff, Nat.leb_le, IH by (injection H; auto). split; [intros (H1 & H2); constructor; assumption|inversion 1; auto].
Qed.
Lemma sampled_incl mx keeps (b b' : list cloud) {A} (f : row -> option A) h : sampled_all mx keeps b b' -> uni f h b -> uni f h b'.
Proof.
  induction 1 as [|m mx k keeps c b c' b' H _ IH]; intros U; [constructor|]. apply Forall_cons_iff in U. destruct U as (Uc & U). constructor; [|apply IH; exact U].
  destruct H as [(_ & ->)|(_ & _ & _ & Hk)]; [exact Uc|]. rewrite Forall_forall in Uc. clear - Hk Uc. induction Hk as [|i r keep c' Hi _ IH]; constructor; [|exact IH].
  apply Uc. eapply nth_error_In. exact Hi.
Qed.
Lemma sampled_small mx keeps (b b' : list cloud) : sampled_all mx keeps b b' -> Forall2 (fun k m => @length row k <= m) b mx -> b' = b.
Proof.
  induction 1 as [|m mx k keeps c b c' b' H _ IH]; intros S; [reflexivity|]. inversion S; subst. rewrite IH by assumption. destruct H as [(_ & ->)|(H & _)]; [reflexivity|].
  unfold PointcloudsSpec.cloud in *. lia.
Qed.
Lemma subsample_ok a hn hf (c : pc) mx keeps b' : cwf a hn hf -> crepr fzero a hn hf c -> sampled_all (maxima F mx (clouds a)) keeps (clouds a) b' ->
  exists o c', subsample F mx keeps c = Ok (o, c') /\ crepr fzero a hn hf c' /\
    ((Forall2 (fun k m => @length row k <= m) (clouds a) (maxima F mx (clouds a)) /\ o = c /\ b' = clouds a) \/
     (~ Forall2 (fun k m => @length row k <= m) (clouds a) (maxima F mx (clouds a)) /\ built o b' hn hf)).
Proof.
  intros Hw R H. unfold subsample.
  replace (match mx with MaxOne k => repeat k (cN c) | MaxEach l => l end) with (maxima F mx (clouds a)) by (unfold maxima; rewrite (q_N _ _ _ _ _ _ R); reflexivity).
  pose proof (sampled_length _ _ _ _ H) as L. rewrite (q_N _ _ _ _ _ _ R), L, Nat.eqb_refl, (q_cnt _ _ _ _ _ _ R). cbn [negb]. pose proof (all_small _ _ L) as S.
  destruct (forallb (fun p : nat * nat => fst p <=? snd p) (combine (sizes (clouds a)) (maxima F mx (clouds a)))) eqn:Es.
  - exists c, c. split; [reflexivity|]. split; [exact R|]. left. split; [apply S; reflexivity|]. split; [reflexivity|]. exact (sampled_small _ _ _ _ H (proj1 S eq_refl)).
  - destruct (points_list_ok F fzero a hn hf c Hw R) as (c1 & E1 & R1 & _). rewrite E1. cbn [rbind].
    destruct (features_list_ok F fzero a hn hf c1 Hw R1) as (c2 & E2 & R2 & _). rewrite E2. cbn [rbind].
    destruct (normals_list_ok F fzero a hn hf c2 Hw R2) as (c3 & E3 & R3 & _). rewrite E3. cbn [rbind].
    rewrite (q_cnt _ _ _ _ _ _ R3). pose proof (sampled_keep _ _ _ _ H) as K.
    assert (Kc : forall A (f : row -> option A) z h, keep_opt (sizes (clouds a)) (maxima F mx (clouds a)) keeps (col f z h (clouds a)) = Ok (col f z h b')).
    { intros A f z h. destruct h; [|reflexivity]. cbn. unfold vals. unfold PointcloudsSpec.cloud in *. rewrite keep_each_map, K. reflexivity. }
    unfold points_of at 1. unfold PointcloudsSpec.cloud in *. rewrite keep_each_map, K. cbn [rbind]. repeat (rewrite Kc; cbn [rbind]).
    destruct (built_exists b' hn hf) as (o & Ho). unfold built in Ho. fold (points_of b'). rewrite Ho. cbn [rbind]. exists o, c3. split; [reflexivity|]. split; [exact R3|]. right. split; [|exact Ho].
    intros S'. apply S in S'. discriminate.
Qed.
End Features.
