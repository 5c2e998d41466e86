(* C08, C09: the Pointclouds container. F is the type of one row of features. *)
From Verif Require Import Base Packing RBase Geom FaceAreas Meshes MeshesSpec MeshesHistSpec Pointclouds PointcloudsSpec.
From Verif Require PointcloudsProofs PointcloudsProofs2 PointcloudsProofs3 PointcloudsProofs4 PointcloudsProofs5 PointcloudsProofs6 PointcloudsProofs7.
Local Open Scope nat_scope.

(* ---- C08: accessors ---- *)
(* whatever was done with an object, and in whichever order it is asked, every accessor answers as the
   batch it stands for says; no call in between fails *)
Theorem clouds_accessors_agree : forall F fzero c a, creachable F fzero c a -> cbehaves F fzero c a.
Proof. exact PointcloudsProofs6.reachable_behaves. Qed.
Print Assumptions clouds_accessors_agree.
(* and what the batch says is one answer only *)
Theorem clouds_answers_determined : forall F (fzero : F) q a r r', has_a_point F (clouds F a) -> ctell F q a r -> ctell F q a r' -> r = r'.
Proof. exact PointcloudsProofs6.ctell_unique. Qed.
Print Assumptions clouds_answers_determined.

Theorem clouds_from_lists : forall F fzero b gn gf, has_a_point F b -> list_arg F (nor F) b gn -> list_arg F (fea F) b gf ->
  exists c, new_clouds F (points_of F b) gn gf = Ok c /\ cbehaves F fzero c (of_lists F fzero b).
Proof.
  intros F fzero b gn gf H1 H2 H3. destruct (PointcloudsProofs2.new_args F fzero b gn gf H1 H2 H3) as (hn & hf & Un & Uf & E). eexists. split; [exact E|].
  destruct (PointcloudsProofs2.fresh_repr F fzero hn hf b H1 Un Uf) as (W & R). exact (PointcloudsProofs6.repr_behaves F fzero _ _ _ _ W R).
Qed.
Print Assumptions clouds_from_lists.
Theorem clouds_from_padded : forall F fzero b gn gf, has_a_point F b -> full_batch F b -> pad_arg F (nor F) b gn -> pad_arg F (fea F) b gf ->
  exists c, new_clouds_padded F (Pad (largest F b) (points_of F b)) gn gf = Ok c /\ cbehaves F fzero c (no_pad F b).
Proof.
  intros F fzero b gn gf H1 H2 H3 H4. destruct (PointcloudsProofs2.new_padded F fzero b gn gf H1 H2 H3 H4) as (hn & hf & c & E & W & R). exists c. split; [exact E|].
  exact (PointcloudsProofs6.repr_behaves F fzero _ _ _ _ W R).
Qed.
Print Assumptions clouds_from_padded.
(* clone gives a second object with the same contents and does not change what the first one says *)
Theorem clouds_clone : forall F fzero c a, creachable F fzero c a ->
  exists c1 c2, cloud_clone F c = Ok (c1, c2) /\ cbehaves F fzero c1 a /\ cbehaves F fzero c2 a.
Proof.
  intros F fzero c a H. destruct (PointcloudsProofs6.reachable_repr F fzero c a H) as (hn & hf & W & R).
  destruct (PointcloudsProofs3.clone_ok F fzero a hn hf c W R) as (c1 & c2 & E & R1 & R2). exists c1, c2. split; [exact E|]. split; [exact (PointcloudsProofs6.repr_behaves F fzero _ _ _ _ W R1)|exact (PointcloudsProofs6.repr_behaves F fzero _ _ _ _ W R2)].
Qed.
Print Assumptions clouds_clone.

(* what does not hold *)
Definition one_normal : list (cloud R) := [[Row R (V3 0 0 0) (Some (V3 0 0 1)) None]]%R.
(* points as a list, normals as a tensor: normals_list() answers until points_padded() is called *)
Theorem mixed_list_padded_refuted : exists c l c1 p c2 c3,
  new_clouds R (points_of R one_normal) (GPad (Pad 1 [[V3 0 0 1]])) GNone = Ok c /\
  normals_list R c = Ok (Some l, c1) /\ points_padded R 0%R c = Ok (p, c2) /\ normals_list R c2 = Ok (None, c3).
Proof. do 6 eexists. cbn. split; [reflexivity|]. split; [reflexivity|]. split; [reflexivity|]. reflexivity. Qed.
Print Assumptions mixed_list_padded_refuted.
(* points as a tensor, normals as a list: normals_padded() answers None *)
Theorem mixed_padded_list_refuted : exists c l c1 c2,
  new_clouds_padded R (Pad 1 (points_of R one_normal)) (GList [Some [V3 0 0 1]]) GNone = Ok c /\
  normals_list R c = Ok (Some l, c1) /\ normals_padded R 0%R c = Ok (None, c2).
Proof. do 4 eexists. split; [reflexivity|]. split; reflexivity. Qed.
Print Assumptions mixed_padded_list_refuted.
(* update_padded(points) before the padded tensors were computed: normals_padded() of the result
   answers None, and a clone of the result has no normals at all *)
Theorem update_before_padded_refuted : exists c u l c1 c2 k ku c3,
  new_clouds R (points_of R one_normal) (GList [Some [V3 0 0 1]]) GNone = Ok c /\
  cloud_update R (Pad 1 [[V3 1 1 1]]) None None c = Ok u /\
  normals_list R u = Ok (Some l, c1) /\ normals_padded R 0%R u = Ok (None, c2) /\
  cloud_clone R u = Ok (k, ku) /\ normals_list R k = Ok (None, c3).
Proof. do 8 eexists. split; [reflexivity|]. split; [reflexivity|]. split; [reflexivity|]. split; [reflexivity|]. split; [reflexivity|]. reflexivity. Qed.
Print Assumptions update_before_padded_refuted.
(* clouds without any point: there is not one first index for every cloud *)
Theorem no_points_first_idx_refuted : exists c l c1, new_clouds R [[]; []] GNone GNone = Ok c /\ cN R c = 2 /\
  cloud_to_packed_first_idx R c = Ok (l, c1) /\ length l <> 2.
Proof. do 3 eexists. split; [reflexivity|]. split; [reflexivity|]. split; [reflexivity|]. discriminate. Qed.
Print Assumptions no_points_first_idx_refuted.

(* ---- C09: batches ---- *)
Theorem clouds_index_selects : forall F fzero c a ix b', creachable F fzero c a -> selected ix (clouds F a) b' ->
  exists o c', cloud_getitem F ix c = Ok (o, c') /\ cshows F o b' /\ (has_a_point F b' -> cbehaves F fzero o (of_lists F fzero b')) /\ cbehaves F fzero c' a.
Proof.
  intros F fzero c a ix b' H Hs. destruct (PointcloudsProofs6.reachable_repr F fzero c a H) as (hn & hf & W & R).
  destruct (PointcloudsProofs5.getitem_ok F fzero a hn hf c ix b' W R Hs) as (o & c' & E & B & R').
  assert (I : forall x, In x b' -> In x (clouds F a)) by (intros x; apply (MeshesProofs7.selected_in ix _ _ _ Hs)).
  assert (Un : PointcloudsProofs.uni F (nor F) hn b') by (eapply PointcloudsProofs5.uni_incl; [exact I|apply W]).
  assert (Uf : PointcloudsProofs.uni F (fea F) hf b') by (eapply PointcloudsProofs5.uni_incl; [exact I|apply W]).
  exists o, c'. split; [exact E|]. split; [exact (PointcloudsProofs5.built_shows F fzero o b' hn hf Un Uf B)|]. split.
  - intros Hp. destruct (PointcloudsProofs5.built_repr F fzero o b' hn hf Hp Un Uf B) as (W' & Ro). exact (PointcloudsProofs6.repr_behaves F fzero _ _ _ _ W' Ro).
  - exact (PointcloudsProofs6.repr_behaves F fzero _ _ _ _ W R').
Qed.
Print Assumptions clouds_index_selects.
Theorem clouds_index_out_of_range : forall F fzero c a ix, creachable F fzero c a -> (forall b', ~ selected ix (clouds F a) b') -> cloud_getitem F ix c = Fail EIndex.
Proof.
  intros F fzero c a ix H. destruct (PointcloudsProofs6.reachable_repr F fzero c a H) as (hn & hf & W & R). exact (PointcloudsProofs5.getitem_fail F fzero a hn hf c ix W R).
Qed.
Print Assumptions clouds_index_out_of_range.
Theorem clouds_extend_repeats : forall F fzero c a n, creachable F fzero c a ->
  ((0 < n)%Z -> exists o c', cloud_extend F n c = Ok (o, c') /\ cbehaves F fzero o (of_lists F fzero (flat_map (fun k => repeat k (Z.to_nat n)) (clouds F a))) /\ cbehaves F fzero c' a) /\
  ((n <= 0)%Z -> cloud_extend F n c = Fail EValue).
Proof.
  intros F fzero c a n H. destruct (PointcloudsProofs6.reachable_repr F fzero c a H) as (hn & hf & W & R). split.
  - intros Hn. destruct (PointcloudsProofs5.extend_ok F fzero a hn hf c n W R Hn) as (o & c' & E & B & R'). exists o, c'. split; [exact E|]. split; [|exact (PointcloudsProofs6.repr_behaves F fzero _ _ _ _ W R')].
    assert (Hp : has_a_point F (flat_map (fun k => repeat k (Z.to_nat n)) (clouds F a))) by (apply PointcloudsProofs5.extend_point; [lia|apply W]).
    assert (Un : PointcloudsProofs.uni F (nor F) hn (flat_map (fun k => repeat k (Z.to_nat n)) (clouds F a))) by (eapply PointcloudsProofs5.uni_incl; [intros x; apply PointcloudsProofs5.extend_in|apply W]).
    assert (Uf : PointcloudsProofs.uni F (fea F) hf (flat_map (fun k => repeat k (Z.to_nat n)) (clouds F a))) by (eapply PointcloudsProofs5.uni_incl; [intros x; apply PointcloudsProofs5.extend_in|apply W]).
    destruct (PointcloudsProofs5.built_repr F fzero o _ hn hf Hp Un Uf B) as (W' & Ro). exact (PointcloudsProofs6.repr_behaves F fzero _ _ _ _ W' Ro).
  - intros Hn. unfold cloud_extend. apply Z.leb_le in Hn. rewrite Hn. reflexivity.
Qed.
Print Assumptions clouds_extend_repeats.

(* split cuts the batch into consecutive parts; joining them gives the batch back *)
Theorem clouds_split_parts : forall F fzero c a sz, creachable F fzero c a ->
  exists os c', cloud_split F sz c = Ok (os, c') /\ Forall2 (cshows F) os (chunks sz (clouds F a)) /\ cbehaves F fzero c' a.
Proof.
  intros F fzero c a sz H. destruct (PointcloudsProofs6.reachable_repr F fzero c a H) as (hn & hf & W & R).
  destruct (PointcloudsProofs6.split_ok F fzero sz 0 a hn hf c W R) as (os & c' & E & R' & Hf). exists os, c'. split; [exact E|]. split; [|exact (PointcloudsProofs6.repr_behaves F fzero _ _ _ _ W R')].
  cbn [skipn] in Hf. exact (PointcloudsProofs7.parts_show F fzero sz hn hf os _ (PointcloudsProofs.w_nor _ _ _ _ W) (PointcloudsProofs.w_fea _ _ _ _ W) Hf).
Qed.
Print Assumptions clouds_split_parts.
Theorem clouds_split_then_join : forall F fzero c a sz, creachable F fzero c a -> Forall (fun n => 0 < n) sz -> sum_nat sz = length (clouds F a) ->
  exists os c' o, cloud_split F sz c = Ok (os, c') /\ map (cN F) os = sz /\ join_clouds F os = Ok o /\ cbehaves F fzero o (of_lists F fzero (clouds F a)).
Proof.
  intros F fzero c a sz H Hz Hs. destruct (PointcloudsProofs6.reachable_repr F fzero c a H) as (hn & hf & W & R).
  exact (PointcloudsProofs7.split_join F fzero sz a hn hf c W R Hz Hs).
Qed.
Print Assumptions clouds_split_then_join.
(* an empty part has lost its (empty) normals, and the parts cannot be joined *)
Theorem split_then_join_empty_part_refuted : exists c os c', new_clouds R (points_of R one_normal) (GList [Some [V3 0 0 1]]) GNone = Ok c /\
  cloud_split R [1; 0] c = Ok (os, c') /\ join_clouds R os = Fail EValue.
Proof. do 3 eexists. split; [reflexivity|]. split; [reflexivity|]. reflexivity. Qed.
Print Assumptions split_then_join_empty_part_refuted.

Theorem clouds_shown : forall F fzero c a, creachable F fzero c a -> cshows F c (clouds F a).
Proof.
  intros F fzero c a H. destruct (PointcloudsProofs6.reachable_repr F fzero c a H) as (hn & hf & W & R).
  exact (PointcloudsProofs5.listed_shows F fzero c _ hn hf (PointcloudsProofs.w_nor _ _ _ _ W) (PointcloudsProofs.w_fea _ _ _ _ W) (PointcloudsProofs5.repr_listed F fzero a hn hf c W R)).
Qed.
Print Assumptions clouds_shown.
Theorem clouds_join_concat : forall F fzero l bs, l <> [] -> Forall2 (cshows F) l bs -> Forall (has_a_point F) bs -> uniform F (concat bs) ->
  exists o, join_clouds F l = Ok o /\ cbehaves F fzero o (of_lists F fzero (concat bs)).
Proof. exact PointcloudsProofs6.join_shows. Qed.
Print Assumptions clouds_join_concat.
(* joining objects of which only some have normals (features) is refused *)
Theorem clouds_join_mixed_rejected : forall F (fzero : F) l bs, Forall2 (cshows F) l bs -> ~ uniform F (concat bs) -> join_clouds F l = Fail EValue.
Proof. exact PointcloudsProofs6.join_mixed. Qed.
Print Assumptions clouds_join_mixed_rejected.
Theorem clouds_scene_one_cloud : forall F fzero c a, creachable F fzero c a -> exists o, join_clouds_scene F c = Ok o /\
  cbehaves F fzero o (if length (clouds F a) =? 1 then a else no_pad F [concat (clouds F a)]).
Proof.
  intros F fzero c a H. destruct (PointcloudsProofs6.reachable_repr F fzero c a H) as (hn & hf & W & R). exact (PointcloudsProofs6.scene_ok F fzero a hn hf c W R).
Qed.
Print Assumptions clouds_scene_one_cloud.

(* every outcome of the random choice (max_points different positions of a cloud that has more) gives
   clouds of min(n, max_points) rows of the batch, points with their normals and features *)
Theorem subsample_keeps_rows : forall F fzero c a mx keeps, creachable F fzero c a ->
  length (maxima F mx (clouds F a)) = length (clouds F a) -> length keeps = length (clouds F a) ->
  (forall i k m p, nth_error (clouds F a) i = Some k -> nth_error (maxima F mx (clouds F a)) i = Some m -> nth_error keeps i = Some p -> m < @length (row F) k ->
     length p = m /\ NoDup p /\ Forall (fun j => j < @length (row F) k) p) ->
  exists b' o c', sampled_all F (maxima F mx (clouds F a)) keeps (clouds F a) b' /\
    sizes F b' = map (fun q => Nat.min (@length (row F) (fst q)) (snd q)) (combine (clouds F a) (maxima F mx (clouds F a))) /\
    subsample F mx keeps c = Ok (o, c') /\ cshows F o b' /\
    (has_a_point F b' -> exists a', clouds F a' = b' /\ cbehaves F fzero o a') /\ cbehaves F fzero c' a.
Proof.
  intros F fzero c a mx keeps H L1 L2 Hk. destruct (PointcloudsProofs6.reachable_repr F fzero c a H) as (hn & hf & W & R).
  exact (PointcloudsProofs7.subsample_all F fzero a hn hf c mx keeps W R L1 L2 Hk).
Qed.
Print Assumptions subsample_keeps_rows.
Theorem subsample_wrong_count : forall F fzero c a mx keeps, creachable F fzero c a ->
  length (maxima F mx (clouds F a)) <> length (clouds F a) -> subsample F mx keeps c = Fail EValue.
Proof.
  intros F fzero c a mx keeps H L. destruct (PointcloudsProofs6.reachable_repr F fzero c a H) as (hn & hf & W & R).
  exact (PointcloudsProofs7.subsample_bad F fzero a hn hf c mx keeps R L).
Qed.
Print Assumptions subsample_wrong_count.

(* offset_, scale_, update_padded and estimate_normals on any reachable object: the points move (or are
   replaced), each keeps its own normal and features *)
Theorem clouds_edits_aligned : forall F fzero o c a a', creachable F fzero c a -> cdoes F fzero o a a' ->
  exists c', capply F fzero o c = Ok c' /\ cbehaves F fzero c' a'.
Proof.
  intros F fzero o c a a' H Hd. destruct (PointcloudsProofs6.reachable_repr F fzero c a H) as (hn & hf & W & R).
  destruct (PointcloudsProofs6.cstep_ok F fzero o a a' hn hf c W R Hd) as (c' & hn' & hf' & E & W' & R'). exists c'. split; [exact E|]. exact (PointcloudsProofs6.repr_behaves F fzero _ _ _ _ W' R').
Qed.
Print Assumptions clouds_edits_aligned.
(* the out of place versions leave the original alone *)
Theorem clouds_out_of_place : forall F fzero c a, creachable F fzero c a ->
  (forall o a', cdoes F fzero (COffset F o) a a' -> exists n c', cloud_offset F o c = Ok (n, c') /\ cbehaves F fzero n a' /\ cbehaves F fzero c' a) /\
  (forall s a', cdoes F fzero (CScale F s) a a' -> exists n c', cloud_scale F s c = Ok (n, c') /\ cbehaves F fzero n a' /\ cbehaves F fzero c' a).
Proof.
  intros F fzero c a H. destruct (PointcloudsProofs6.reachable_repr F fzero c a H) as (hn & hf & W & R).
  destruct (PointcloudsProofs3.clone_ok F fzero a hn hf c W R) as (c1 & c2 & E & R1 & R2). split.
  - intros o a' Hd. destruct (PointcloudsProofs6.cstep_ok F fzero (COffset F o) a a' hn hf c1 W R1 Hd) as (n & hn' & hf' & E' & W' & R'). cbn [capply] in E'.
    unfold cloud_offset. rewrite E. cbn [rbind fst snd]. rewrite E'. exists n, c2. split; [reflexivity|]. split; [exact (PointcloudsProofs6.repr_behaves F fzero _ _ _ _ W' R')|exact (PointcloudsProofs6.repr_behaves F fzero _ _ _ _ W R2)].
  - intros s a' Hd. destruct (PointcloudsProofs6.cstep_ok F fzero (CScale F s) a a' hn hf c1 W R1 Hd) as (n & hn' & hf' & E' & W' & R'). cbn [capply] in E'.
    unfold cloud_scale. rewrite E. cbn [rbind fst snd]. rewrite E'. exists n, c2. split; [reflexivity|]. split; [exact (PointcloudsProofs6.repr_behaves F fzero _ _ _ _ W' R')|exact (PointcloudsProofs6.repr_behaves F fzero _ _ _ _ W R2)].
Qed.
Print Assumptions clouds_out_of_place.

Theorem get_cloud_returns : forall F fzero c a i, creachable F fzero c a ->
  (forall k, (0 <= i)%Z -> nth_error (clouds F a) (Z.to_nat i) = Some k -> exists n f, get_cloud F i c = Ok (map (pos F) k, n, f) /\
     column F (nor F) [k] (option_map (fun l => [l]) n) /\ column F (fea F) [k] (option_map (fun l => [l]) f)) /\
  ((i < 0 \/ Z.of_nat (length (clouds F a)) < i)%Z -> get_cloud F i c = Fail EValue) /\
  (i = Z.of_nat (length (clouds F a)) -> get_cloud F i c = Fail EIndex).   (* one past the end passes the range check *)
Proof.
  intros F fzero c a i H. destruct (PointcloudsProofs6.reachable_repr F fzero c a H) as (hn & hf & W & R).
  split; [|exact (PointcloudsProofs6.get_cloud_out F fzero a hn hf c i W R)]. intros k Hi Hk.
  exact (PointcloudsProofs7.get_cloud_columns F fzero a hn hf c i k W R Hi Hk).
Qed.
Print Assumptions get_cloud_returns.
Theorem clouds_bounding_boxes : forall F fzero c a, creachable F fzero c a -> Forall (fun k => k <> []) (clouds F a) ->
  exists boxes, cloud_boxes F c = Ok boxes /\ Forall2 (fun k box => box_of (map (pos F) k) box) (clouds F a) boxes.
Proof.
  intros F fzero c a H. destruct (PointcloudsProofs6.reachable_repr F fzero c a H) as (hn & hf & W & R). exact (PointcloudsProofs6.cloud_boxes_ok F fzero a hn hf c W R).
Qed.
Print Assumptions clouds_bounding_boxes.
(* inside_box: one answer for every point, true iff the point is in the box of its cloud *)
Theorem inside_box_decides : forall F fzero c a g, creachable F fzero c a ->
  let bs := match g with BoxOne b => [b] | BoxEach l => l end in
  ((length bs = 1 \/ length bs = length (clouds F a)) -> Forall proper_box bs ->
     exists ls c', inside_box F g c = Ok (concat ls, c') /\ cbehaves F fzero c' a /\ length (boxes_for F g (clouds F a)) = length (clouds F a) /\
       Forall2 (fun q l => Forall2 (fun r v => v = true <-> inside (snd q) (pos F r)) (fst q) l) (combine (clouds F a) (boxes_for F g (clouds F a))) ls) /\
  ((length bs <> 1 /\ length bs <> length (clouds F a)) \/ Exists (fun b => ~ proper_box b) bs -> inside_box F g c = Fail EValue).
Proof.
  intros F fzero c a g H bs. destruct (PointcloudsProofs6.reachable_repr F fzero c a H) as (hn & hf & W & R). split.
  - intros H1 H2. destruct (PointcloudsProofs6.inside_box_ok F fzero a hn hf c g W R H1 H2) as (c' & E & R'). eexists _, c'. split; [exact E|]. split; [exact (PointcloudsProofs6.repr_behaves F fzero _ _ _ _ W R')|].
    split; [|apply PointcloudsProofs6.answers_ok]. exact (PointcloudsProofs7.boxes_for_length F g (clouds F a) (PointcloudsProofs.point_nonempty F _ (PointcloudsProofs.w_pt _ _ _ _ W)) H1).
  - exact (PointcloudsProofs6.inside_box_bad F fzero a hn hf c g R).
Qed.
Print Assumptions inside_box_decides.

(* ---- the hypotheses can be met ---- *)
Definition two_clouds : list (cloud R) :=
  [[Row R (V3 0 0 0) (Some (V3 0 0 1)) (Some 5); Row R (V3 1 0 0) (Some (V3 0 1 0)) (Some 6)]; []; [Row R (V3 2 0 0) (Some (V3 1 0 0)) (Some 7)]]%R.
Example two_clouds_point : has_a_point R two_clouds.
Proof. eexists. split; [left; reflexivity|discriminate]. Qed.
Example two_clouds_args : list_arg R (nor R) two_clouds (GList [Some [V3 0 0 1; V3 0 1 0]; None; Some [V3 1 0 0]]%R) /\
  list_arg R (fea R) two_clouds (GList [Some [5; 6]; Some []; Some [7]]%R).
Proof.
  split; right; eexists; (split; [reflexivity|]).
  - exists [[V3 0 0 1; V3 0 1 0]; []; [V3 1 0 0]]%R. split; [repeat constructor|]. constructor; [left; reflexivity|]. constructor; [right; split; reflexivity|]. constructor; [left; reflexivity|constructor].
  - exists [[5; 6]; []; [7]]%R. split; repeat constructor.
Qed.
Example two_clouds_history : exists c a, creachable R 0%R c a /\ length (clouds R a) = 3 /\ sizes R (clouds R a) = [2; 0; 1].
Proof.
  destruct (clouds_from_lists R 0%R two_clouds _ _ two_clouds_point (proj1 two_clouds_args) (proj2 two_clouds_args)) as (c & E & B).
  destruct (clouds_edits_aligned R 0%R (COffset R (OneOffset (V3 1 1 1)%R)) c _ _ (made_lists _ _ _ _ _ _ two_clouds_point (proj1 two_clouds_args) (proj2 two_clouds_args) E) eq_refl) as (c' & E' & _).
  eexists c', _. split; [eapply (used _ _ (COffset R (OneOffset (V3 1 1 1)%R))); [|exact eq_refl|exact E']; eapply made_lists; [exact two_clouds_point|exact (proj1 two_clouds_args)|exact (proj2 two_clouds_args)|exact E]|]. split; reflexivity.
Qed.
Example two_clouds_update : fits R (Pad 2 [[V3 1 1 1; V3 2 2 2]; [V3 0 0 0; V3 0 0 0]; [V3 3 3 3; V3 9 9 9]]%R) two_clouds.
Proof. repeat split; repeat constructor. Qed.
Example full_clouds : full_batch R [[Row R (V3 0 0 0) None (Some 1)]; [Row R (V3 1 0 0) None (Some 2)]]%R /\
  pad_arg R (fea R) [[Row R (V3 0 0 0) None (Some 1)]; [Row R (V3 1 0 0) None (Some 2)]]%R (GPad (Pad 1 [[1]; [2]]%R)).
Proof.
  split; [intros c [<-|[<-|[]]]; reflexivity|]. right. exists [[1]; [2]]%R. split; [repeat constructor|reflexivity].
Qed.
Example sample_outcome : sampled_all R [1; 1; 1] [[1]; []; []] two_clouds [[Row R (V3 1 0 0) (Some (V3 0 1 0)) (Some 6)]; []; [Row R (V3 2 0 0) (Some (V3 1 0 0)) (Some 7)]]%R.
Proof.
  constructor; [right; cbn; repeat split; [lia|repeat constructor; auto|repeat constructor]|]. constructor; [left; cbn; split; [lia|reflexivity]|].
  constructor; [left; cbn; split; [lia|reflexivity]|]. constructor.
Qed.
Example mixed_not_uniform : ~ uniform R [[Row R (V3 0 0 0) None (Some 1)]; [Row R (V3 1 0 0) None None]]%R.
Proof.
  intros (_ & [ls|] & H); cbn in H.
  - inversion H as [|? ? ? ? _ H2]; subst. inversion H2 as [|? yy ? ? H3 _]; subst. destruct yy; discriminate.
  - apply Forall_cons_iff in H. destruct H as (H & _). apply Forall_cons_iff in H. destruct H as (H & _). discriminate.
Qed.
