From Verif Require Import Base RBase Geom LinAlg Transform TransformSpec TransformProofs TransformProofs2 Volumes VolumesSpec VolumesProofs.
Local Open Scope R_scope.

Lemma update_repr v a dens feats v' : repr v a -> update_padded v dens feats = Ok v' ->
  repr v' (Batch (elements dens) (option_map elements feats) (a_voxel a) (a_trans a) (a_align a)).
Proof.
  intros Rv H. destruct Rv as [Hd Hf Hsm Hs Hp Lv Lt Hr Hx Ha Hw Hk Hm]. unfold update_padded in H.
  destruct (checked (get_grid_sizes v) dens) as [d|] eqn:Ed; [|discriminate]. cbn [rbind] in H.
  destruct (match feats with None => Ok None | Some x => y <- checked (get_grid_sizes v) x ;; Ok (Some y) end) as [f|] eqn:Ef; [|discriminate]. cbn [rbind] in H. injection H as <-.
  destruct (checked_ok _ _ _ Ed) as [Hd' Sd].
  assert (NE : get_grid_sizes v <> []) by (rewrite Hs; intros E; apply map_eq_nil in E; congruence).
  assert (LD : length (elements dens) = length (a_dens a)) by (rewrite <- (map_length dims (elements dens)), Sd, Hs, map_length; reflexivity).
  constructor; cbn; try assumption.
  - destruct feats as [x|]; [|injection Ef as <-; exact I]. destruct (checked _ x) as [y|] eqn:Ex; [|discriminate]. cbn in Ef. injection Ef as <-. cbn. destruct (checked_ok _ _ _ Ex) as [A B]. split; [exact A|congruence].
  - destruct feats as [x|]; [|injection Ef as <-; exact I]. destruct (checked _ x) as [y|] eqn:Ex; [|discriminate]. cbn in Ef. injection Ef as <-. rewrite (checked_res _ _ _ Ex NE), (checked_res _ _ _ Ed NE). reflexivity.
  - symmetry. exact Sd.
  - intros E. rewrite E in LD. destruct (a_dens a); [congruence|discriminate].
  - congruence.
  - congruence.
  - rewrite Hm. unfold frames. cbn. rewrite Sd, Hs. reflexivity.
Qed.
Lemma vgetitem_empty v a ix a' : repr v a -> selects ix a a' -> a_dens a' = [] -> vgetitem v (VIndex ix) = Fail EIndex.
Proof.
  intros Rv (ps & C & GD & GV & GT & GF) NE. destruct Rv as [Hd Hf Hsm Hs Hp Lv Lt Hr Hx Ha Hw Hk Hm].
  destruct (take5_holds _ _ ix ps _ Hd C GD) as (d' & Ed & Hd' & _ & Rd & Ld). rewrite NE in GD. apply gets_length in GD. cbn in GD. rewrite <- GD in Ld.
  cbn [vgetitem]. fold (norm_ix ix).
  assert (F : exists f, (match features v with None => Ok None | Some f => y <- take5 f (norm_ix ix) ;; Ok (Some (ATensor y)) end) = Ok f).
  { destruct (features v) as [f|]; [|eexists; reflexivity]. destruct (a_feats a) as [lf|]; [|contradiction]. destruct Hf as [Hf Sf].
    assert (LF : length lf = length (a_dens a)) by (rewrite <- (map_length dims lf), Sf; apply map_length). destruct (a_feats a') as [lf'|]; [|contradiction].
    destruct (take5_holds _ _ ix ps lf' Hf) as (t' & Et & _); [rewrite LF; exact C|exact GF|]. rewrite Et. eexists. reflexivity. }
  destruct F as (f & ->). cbn [rbind]. rewrite Ed. cbn [rbind]. unfold new_volumes. cbn [convert rbind]. rewrite Ld. reflexivity.
Qed.
Lemma reachable_repr v a : reachable v a -> repr v a.
Proof.
  intros H. induction H as [dens feats voxel trans align v vs ts E V T|v a ix v' a' _ IH E S A|v a dens feats v' _ IH E].
  - eapply new_repr; eassumption.
  - destruct (a_dens a') as [|y l] eqn:ED; [rewrite (vgetitem_empty v a ix a' IH S ED) in E; discriminate|].
    destruct (vgetitem_repr v a ix a' IH S) as (v0 & E0 & R0); [rewrite ED; discriminate|]. rewrite E in E0. injection E0 as <-. destruct a' as [x1 x2 x3 x4 x5]. cbn in *. subst x5. exact R0.
  - eapply update_repr; eassumption.
Qed.

Lemma volumes_hold v a : reachable v a ->
  len v = length (a_dens a) /\ get_grid_sizes v = map dims (a_dens a) /\ get_align_corners v = a_align a /\
  (exists l, densities_list v = Ok l /\ same_lists l (a_dens a)) /\
  match a_feats a with None => features_list v = Ok None | Some f => exists l, features_list v = Ok (Some l) /\ same_lists l f end.
Proof.
  intros H. apply reachable_repr in H. destruct H as [Hd Hf Hsm Hs Hp Lv Lt Hr Hx Ha Hw Hk Hm]. split; [apply (holds_length _ _ Hd)|]. split; [exact Hs|]. split; [exact Ha|]. split.
  - unfold densities_list. rewrite Hs. apply to_list_holds, Hd.
  - unfold features_list. destruct (features v) as [t|], (a_feats a) as [l|]; try contradiction; [|reflexivity]. destruct Hf as [Hf Sf]. rewrite Hs, <- Sf.
    destruct (to_list_holds _ _ Hf) as (m & -> & Hm'). exists m. split; [reflexivity|exact Hm'].
Qed.
Lemma volumes_constructed dens feats voxel trans align vs ts :
  good_arg dens -> (forall f, feats = Some f -> fits f (map dims (elements dens))) ->
  voxel_sizes (length (elements dens)) voxel vs -> vectors (length (elements dens)) trans ts ->
  exists v, new_volumes dens feats voxel trans align = Ok v /\ reachable v (Batch (elements dens) (option_map elements feats) vs ts align).
Proof. intros G F V T. destruct (new_total dens feats voxel trans align vs ts G F V T) as (v & E). exists v. split; [exact E|]. econstructor; eassumption. Qed.
Lemma volumes_indexed v a ix ps : reachable v a -> chosen (length (a_dens a)) ix ps -> ps <> [] ->
  exists v' a', vgetitem v (VIndex ix) = Ok v' /\ selects ix a a' /\ a_align a' = true /\ reachable v' a'.
Proof.
  intros H C NE. pose proof (reachable_repr _ _ H) as Rv. destruct Rv as [Hd Hf Hsm Hs Hp Lv Lt Hr Hx Ha Hw Hk Hm]. pose proof (chosen_lt _ _ _ C) as Lp.
  destruct (gets_exists ps (a_dens a) Lp) as (l1 & G1). destruct (gets_exists ps (a_voxel a)) as (l2 & G2); [rewrite Lv; exact Lp|]. destruct (gets_exists ps (a_trans a)) as (l3 & G3); [rewrite Lt; exact Lp|].
  assert (F : exists of, match a_feats a, of with Some f, Some f' => gets ps f f' | None, None => True | _, _ => False end).
  { destruct (a_feats a) as [f|]; [|exists None; exact I]. destruct (features v) as [t|]; [|contradiction]. destruct Hf as [_ Sf]. destruct (gets_exists ps f) as (l4 & G4); [|exists (Some l4); exact G4].
    rewrite <- (map_length dims f), Sf, map_length. exact Lp. }
  destruct F as (of & GF). assert (S : selects ix a (Batch l1 of l2 l3 true)) by (exists ps; cbn; repeat split; assumption).
  destruct (vgetitem_repr v a ix _ (reachable_repr _ _ H) S) as (v' & E & _).
  { cbn. intros ->. apply gets_length in G1. destruct ps; [congruence|discriminate]. }
  exists v', (Batch l1 of l2 l3 true). split; [exact E|]. split; [exact S|]. split; [reflexivity|]. eapply indexed; [exact H|exact E|exact S|reflexivity].
Qed.
Lemma volumes_index_nothing v a ix : reachable v a -> chosen (length (a_dens a)) ix [] -> vgetitem v (VIndex ix) = Fail EIndex.
Proof.
  intros H C. pose proof (reachable_repr _ _ H) as Rv. apply (vgetitem_empty v a ix (Batch [] (match a_feats a with None => None | Some _ => Some [] end) [] [] true) Rv); [|reflexivity].
  exists []. cbn. split; [exact C|]. repeat (split; [constructor|]). destruct (a_feats a); constructor.
Qed.
Lemma tuple_index v i : exists e, vgetitem v (VTuple1 i) = Fail e.
Proof. cbn. destruct (index1 (len v) i); eexists; reflexivity. Qed.
Lemma volumes_updated v a dens feats : reachable v a -> fits dens (map dims (a_dens a)) -> (forall f, feats = Some f -> fits f (map dims (a_dens a))) ->
  exists v', update_padded v dens feats = Ok v' /\ reachable v' (Batch (elements dens) (option_map elements feats) (a_voxel a) (a_trans a) (a_align a)).
Proof.
  intros H Fd Ff. pose proof (r_sizes _ _ (reachable_repr _ _ H)) as Hs. rewrite <- Hs in Fd, Ff. destruct (checked_total _ _ Fd) as (t & E).
  assert (EU : exists v', update_padded v dens feats = Ok v').
  { unfold update_padded. rewrite E. cbn [rbind]. destruct feats as [f|]; [|eexists; reflexivity]. destruct (checked_total _ _ (Ff f eq_refl)) as (u & ->). eexists. reflexivity. }
  destruct EU as (v' & EU). exists v'. split; [exact EU|]. eapply updated; eassumption.
Qed.
Lemma volumes_update_wrong v a dens feats : reachable v a -> good_arg dens -> map dims (elements dens) <> map dims (a_dens a) -> update_padded v dens feats = Fail EValue.
Proof. intros H G N. pose proof (r_sizes _ _ (reachable_repr _ _ H)) as Hs. rewrite <- Hs in N. unfold update_padded. rewrite (checked_wrong _ _ G N). reflexivity. Qed.
Lemma volumes_update_wrong_feats v a dens f : reachable v a -> fits dens (map dims (a_dens a)) -> good_arg f -> map dims (elements f) <> map dims (a_dens a) -> update_padded v dens (Some f) = Fail EValue.
Proof.
  intros H Fd G N. pose proof (r_sizes _ _ (reachable_repr _ _ H)) as Hs. rewrite <- Hs in N, Fd. destruct (checked_total _ _ Fd) as (t & E). unfold update_padded. rewrite E. cbn [rbind]. rewrite (checked_wrong _ _ G N). reflexivity.
Qed.

(* ---- coordinates ---- *)
Lemma frames_length v a : repr v a -> length (frames a) = length (a_dens a).
Proof. intros Rv. unfold frames. rewrite !combine_length, map_length, (r_voxel _ _ Rv), (r_trans _ _ Rv). lia. Qed.
Lemma zip_tp (fs : list (shape3 * vec3 * vec3)) : forall pts, length pts = length fs ->
  map (fun p => tpf None (fst p) (snd p)) (combine pts (map mat_of fs)) = map (fun q => map (fun p => Some (world_of (fst q) p)) (snd q)) (combine fs pts).
Proof.
  induction fs as [|f fs IH]; intros [|p pts] L; try discriminate; [reflexivity|]. cbn [map combine fst snd]. f_equal; [|apply IH; cbn in L; lia].
  unfold tpf. apply map_ext. intros q. apply mat_point.
Qed.
Lemma ltw_tp v a pts : repr v a -> length pts = length (a_dens a) -> exists oq, transform_points None (l_tf (loc v)) (P3 pts) = Ok oq /\ as_batch oq = each world_of a pts.
Proof.
  intros Rv L. eexists. split.
  - apply transform_points_ok. exists (map mat_of (frames a)). eexists. split; [apply (r_mat _ _ Rv)|]. split; [|reflexivity]. cbn [as_batch].
    rewrite broadcast_zip by (rewrite map_length, (frames_length v a Rv); exact L). reflexivity.
  - rewrite as_batch_reshape. rewrite zip_tp by (rewrite (frames_length v a Rv); exact L). reflexivity.
Qed.
Lemma each_length g a pts : length pts = length (frames a) -> length (each g a pts) = length pts.
Proof. intros L. unfold each. rewrite map_length, combine_length, L. apply Nat.min_id. Qed.
Lemma local_to_world_value v a pts : reachable v a -> length pts = length (a_dens a) -> concat pts <> [] -> local_to_world_coords v pts = Ok (each world_of a pts).
Proof.
  intros H L NE. apply reachable_repr in H. unfold local_to_world_coords, apply_transform. destruct (concat pts) eqn:E; [congruence|]. destruct (ltw_tp v a pts H L) as (oq & -> & B). cbn [rbind].
  rewrite B, each_length by (rewrite (frames_length v a H); exact L). rewrite Nat.eqb_refl. reflexivity.
Qed.
Definition scales (f : shape3 * vec3 * vec3) : vec3 := scale_row (fst f).
Lemma det_mat f : det4 (mat_of f) = x3 (scales f) * y3 (scales f) * z3 (scales f).
Proof. destruct f as [[[[d h] w] [vx vy vz]] [tx ty tz]]. unfold mat_of, scales. cbn. unfold det4, mul4, scale_mat, translate_mat. cbn. unfold det3. cbn. ring. Qed.
Lemma INR_minus_one n : INR n - 1 = 0 <-> n = 1%nat.
Proof. split; [intros E|intros ->; cbn; lra]. apply INR_eq. cbn. lra. Qed.
Lemma det_invertible f : det4 (mat_of f) <> 0 <-> invertible f.
Proof.
  rewrite det_mat. destruct f as [[[[d h] w] [vx vy vz]] t]. unfold scales. cbn. split.
  - intros N. split; [|repeat split; intros E; apply N; rewrite E; ring]. repeat split; intros ->; apply N; cbn; ring.
  - intros ((Dd & Dh & Dw) & X & Y & Z). repeat apply Rmult_integral_contrapositive_currified; try assumption; try lra; intros E; apply INR_minus_one in E; congruence.
Qed.
Lemma world_local f p : invertible f -> world_of f (local_of f p) = p.
Proof.
  destruct f as [[[[d h] w] [vx vy vz]] [tx ty tz]], p as [x y z]. cbn. intros ((Dd & Dh & Dw) & X & Y & Z).
  assert (INR d - 1 <> 0 /\ INR h - 1 <> 0 /\ INR w - 1 <> 0) as (A & B & C) by (repeat split; intros E; apply INR_minus_one in E; congruence). f_equal; field; split; assumption.
Qed.
Lemma local_world f p : invertible f -> local_of f (world_of f p) = p.
Proof.
  destruct f as [[[[d h] w] [vx vy vz]] [tx ty tz]], p as [x y z]. cbn. intros ((Dd & Dh & Dw) & X & Y & Z).
  assert (INR d - 1 <> 0 /\ INR h - 1 <> 0 /\ INR w - 1 <> 0) as (A & B & C) by (repeat split; intros E; apply INR_minus_one in E; congruence). f_equal; field; split; assumption.
Qed.
Lemma wtl_tp v a pts : repr v a -> List.Forall invertible (frames a) -> length pts = length (a_dens a) ->
  exists u r, inverse false (l_tf (loc v)) = Ok u /\ transform_points None u (P3 pts) = Ok r /\ as_batch r = each local_of a pts.
Proof.
  intros Rv Inv L. pose proof (frames_length v a Rv) as LF.
  assert (NE : map mat_of (frames a) <> []) by (intros E; apply map_eq_nil in E; rewrite E in LF; destruct (a_dens a) eqn:ED; [apply (r_pos _ _ Rv ED)|discriminate]).
  destruct (proj2 (inverse_defined_iff false _ _ (r_wf _ _ Rv) (r_mat _ _ Rv) NE)) as (u & Eu).
  { intros m Hm. apply in_map_iff in Hm. destruct Hm as (f & <- & Hf). apply det_invertible. rewrite Forall_forall in Inv. apply Inv, Hf. }
  set (loc_ := map (fun q => map (local_of (fst q)) (snd q)) (combine (frames a) pts)).
  assert (LL : length loc_ = length (a_dens a)) by (unfold loc_; rewrite map_length, combine_length; lia).
  destruct (ltw_tp v a loc_ Rv LL) as (oq & Eq & Bq).
  assert (BP : as_batch oq = map (map Some) pts).
  { rewrite Bq. unfold loc_, each. clear - Inv L LF. rewrite <- LF in L. clear LF. revert pts L. induction Inv as [|f fs If Fs IH]; intros [|p pts] L; try discriminate; [reflexivity|].
    cbn [combine map fst snd]. f_equal; [|apply IH; cbn in L; lia]. rewrite map_map. apply map_ext. intros q. rewrite world_local by exact If. reflexivity. }
  assert (AF : all_finite oq (P3 pts)).
  { apply transform_points_ok in Eq. destruct Eq as (m & o & _ & _ & ->). rewrite as_batch_reshape in BP. cbn. exact BP. }
  destruct (inverse_points false _ _ _ _ _ (r_wf _ _ Rv) Eu Eq AF) as (r & Er & Br). exists u, r. split; [exact Eu|]. split; [exact Er|]. rewrite Br. cbn [as_batch].
  assert (EX : expand_batch (length pts) loc_ = loc_).
  { rewrite L, <- LL. destruct loc_ as [|x [|y l]]; reflexivity. }
  rewrite EX. unfold loc_, each. rewrite map_map. apply map_ext. intros q. rewrite map_map. reflexivity.
Qed.
Lemma world_to_local_value v a pts : reachable v a -> List.Forall invertible (frames a) -> length pts = length (a_dens a) -> concat pts <> [] ->
  world_to_local_coords v pts = Ok (each local_of a pts).
Proof.
  intros H Inv L NE. apply reachable_repr in H. destruct (wtl_tp v a pts H Inv L) as (u & r & Eu & Er & Br). unfold world_to_local_coords, apply_transform. rewrite Eu. cbn [rbind].
  destruct (concat pts) eqn:E; [congruence|]. rewrite Er. cbn [rbind]. rewrite Br, each_length by (rewrite (frames_length v a H); exact L). rewrite Nat.eqb_refl. reflexivity.
Qed.
Lemma each_some g a pts : each g a pts = map (map Some) (map (fun q => map (g (fst q)) (snd q)) (combine (frames a) pts)).
Proof. unfold each. rewrite map_map. apply map_ext. intros q. rewrite map_map. reflexivity. Qed.
Lemma some_inj (a b : list (list vec3)) : map (map Some) a = map (map Some) b -> a = b.
Proof.
  revert b. induction a as [|x a IH]; intros [|y b] E; try discriminate; [reflexivity|]. cbn in E. injection E as E1 E2. f_equal; [|apply IH; exact E2].
  clear - E1. revert y E1. induction x as [|p x IH]; intros [|q y] E; try discriminate; [reflexivity|]. cbn in E. injection E as -> E. f_equal. apply IH, E.
Qed.
Lemma concat_zip (g : shape3 * vec3 * vec3 -> vec3 -> vec3) (fs : list (shape3 * vec3 * vec3)) : forall pts, length pts = length fs -> concat pts <> [] -> concat (map (fun q => map (g (fst q)) (snd q)) (combine fs pts)) <> ([] : list vec3).
Proof.
  induction fs as [|f fs IH]; intros [|p pts] L NE; try discriminate; [exact NE|]. cbn [combine map concat fst snd] in *. destruct p as [|x p]; [|discriminate].
  cbn [map app] in *. apply IH; [cbn in L; lia|exact NE].
Qed.
Lemma there_and_back v a pts out : reachable v a -> List.Forall invertible (frames a) -> length pts = length (a_dens a) -> concat pts <> [] ->
  (plain out pts -> exists w o, local_to_world_coords v pts = Ok o /\ plain o w /\ world_to_local_coords v w = Ok out) /\
  (plain out pts -> exists w o, world_to_local_coords v pts = Ok o /\ plain o w /\ local_to_world_coords v w = Ok out).
Proof.
  intros H Inv L NE. pose proof (frames_length v a (reachable_repr _ _ H)) as LF. assert (LP : length pts = length (frames a)) by congruence.
  split; intros ->.
  - exists (map (fun q => map (world_of (fst q)) (snd q)) (combine (frames a) pts)), (each world_of a pts). split; [apply local_to_world_value; assumption|]. split; [apply each_some|].
    rewrite (world_to_local_value v a); [|exact H|exact Inv|rewrite map_length, combine_length; lia|apply concat_zip; assumption]. f_equal. unfold each. clear - Inv LP. revert pts LP.
    induction Inv as [|f fs If Fs IH]; intros [|p pts] L; try discriminate; [reflexivity|]. cbn [combine map fst snd]. f_equal; [|apply IH; cbn in L; lia]. rewrite map_map. apply map_ext. intros q. rewrite local_world by exact If. reflexivity.
  - exists (map (fun q => map (local_of (fst q)) (snd q)) (combine (frames a) pts)), (each local_of a pts). split; [apply world_to_local_value; assumption|]. split; [apply each_some|].
    rewrite (local_to_world_value v a); [|exact H|rewrite map_length, combine_length; lia|apply concat_zip; assumption]. f_equal. unfold each. clear - Inv LP. revert pts LP.
    induction Inv as [|f fs If Fs IH]; intros [|p pts] L; try discriminate; [reflexivity|]. cbn [combine map fst snd]. f_equal; [|apply IH; cbn in L; lia]. rewrite map_map. apply map_ext. intros q. rewrite world_local by exact If. reflexivity.
Qed.
Lemma no_inverse v a pts : reachable v a -> ~ List.Forall invertible (frames a) -> exists e, world_to_local_coords v pts = Fail e.
Proof.
  intros H N. apply reachable_repr in H. pose proof (frames_length v a H) as LF.
  assert (NE : map mat_of (frames a) <> []) by (intros E; apply map_eq_nil in E; rewrite E in LF; destruct (a_dens a) eqn:ED; [apply (r_pos _ _ H ED)|discriminate]).
  unfold world_to_local_coords. destruct (inverse false (l_tf (loc v))) as [u|e] eqn:E; [|exists e; reflexivity]. exfalso. apply N.
  apply Forall_forall. intros f Hf. apply det_invertible. apply (proj1 (inverse_defined_iff false _ _ (r_wf _ _ H) (r_mat _ _ H) NE)); [exists u; exact E|]. apply in_map. exact Hf.
Qed.
