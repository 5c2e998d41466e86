From Verif Require Import Base RBase Geom LinAlg Transform TransformSpec TransformProofs TransformProofs2 Volumes VolumesSpec VolumesProofs VolumesProofs2.
Local Open Scope R_scope.

Lemma nth_flat {A B} (f : A -> list B) m l q x r : (forall y, In y l -> length (f y) = m) -> nth_error l q = Some x -> (r < m)%nat ->
  nth_error (flat_map f l) (q * m + r) = nth_error (f x) r.
Proof.
  intros H. revert q. induction l as [|y l IH]; intros [|q] E Hr; try discriminate; cbn [flat_map].
  - injection E as ->. cbn. rewrite nth_error_app1; [reflexivity|]. rewrite (H x (or_introl eq_refl)). exact Hr.
  - rewrite nth_error_app2; rewrite (H y (or_introl eq_refl)); [|cbn; lia]. replace (S q * m + r - m)%nat with (q * m + r)%nat by (cbn; lia). apply IH; [|exact E|exact Hr]. intros z Hz. apply H. right. exact Hz.
Qed.
Lemma flat_len {A B} (f : A -> list B) m l : (forall y, In y l -> length (f y) = m) -> length (flat_map f l) = (length l * m)%nat.
Proof. induction l as [|y l IH]; intros H; [reflexivity|]. cbn. rewrite app_length, (H y (or_introl eq_refl)), IH; [lia|]. intros z Hz. apply H. right. exact Hz. Qed.
Lemma seq_at n q : (q < n)%nat -> nth_error (seq 0 n) q = Some q.
Proof. intros H. rewrite (nth_error_nth' _ 0%nat) by (rewrite seq_length; exact H). rewrite seq_nth by exact H. reflexivity. Qed.
Lemma cells_at r c : inside r c -> nth_error (cells3 r) (offset r c) = Some c.
Proof.
  destruct r as [[D H] W], c as [[k j] i]. cbn. intros (Lk & Lj & Li).
  replace ((k * H + j) * W + i)%nat with (k * (H * W) + (j * W + i))%nat by lia.
  assert (I : forall k' : nat, length (flat_map (fun j => map (fun i => (k', j, i)) (seq 0 W)) (seq 0 H)) = (H * W)%nat).
  { intros k'. rewrite (flat_len _ W) by (intros; rewrite map_length, seq_length; reflexivity). rewrite seq_length. reflexivity. }
  rewrite (nth_flat _ (H * W) _ k k); [|intros; apply I|apply seq_at, Lk|].
  - rewrite (nth_flat _ W _ j j); [|intros; rewrite map_length, seq_length; reflexivity|apply seq_at, Lj|exact Li]. rewrite nth_error_map, (seq_at W i Li). reflexivity.
  - apply Nat.lt_le_trans with (S j * W)%nat; [cbn; lia|apply Nat.mul_le_mono_r; lia].
Qed.
Lemma inside_mono s r c : le3 s r -> inside s c -> inside r c.
Proof. destruct s as [[s1 s2] s3], r as [[r1 r2] r3], c as [[k j] i]. cbn. lia. Qed.

Lemma minus_one_pos n : (2 <= n)%nat -> INR n - 1 <> 0.
Proof. intros H E. apply INR_minus_one in E. lia. Qed.
Lemma INR_pos n : (1 <= n)%nat -> INR n <> 0.
Proof. intros H. apply not_0_INR. lia. Qed.
Lemma is_one_eq r s : (2 <= s)%nat -> is_one (relative r s) = true -> r = s.
Proof.
  intros H. unfold relative. destruct (Nat.eqb_spec s 1); [lia|]. cbn. destruct (Reqb_spec ((INR r - 1) / (INR s - 1)) 1) as [E|]; [|discriminate]. intros _. apply INR_eq.
  apply (f_equal (fun x => x * (INR s - 1))) in E. unfold Rdiv in E. rewrite Rmult_assoc, Rinv_l in E by (apply minus_one_pos, H). lra.
Qed.
Lemma is_one_self s : (2 <= s)%nat -> is_one (relative s s) = true.
Proof. intros H. unfold relative. destruct (Nat.eqb_spec s 1); [lia|]. cbn. destruct (Reqb_spec ((INR s - 1) / (INR s - 1)) 1) as [|N]; [reflexivity|]. exfalso. apply N. field. apply minus_one_pos, H. Qed.
Lemma axis_aligned adjust r s i : (2 <= s)%nat -> (s <= r)%nat -> (adjust = false -> r = s) -> rescaled adjust (relative r s) (axis_coord true r i) = Some (centre true s i).
Proof.
  intros Hs Hr E. unfold rescaled, relative, axis_coord, linspace, centre. destruct (Nat.eqb_spec s 1); [lia|]. destruct (Nat.eqb_spec r 1); [lia|].
  pose proof (minus_one_pos s Hs) as A. pose proof (minus_one_pos r ltac:(lia)) as B. destruct adjust; f_equal; [field; split; assumption|]. rewrite (E eq_refl). field. exact A.
Qed.
Lemma axis_sides s i : (2 <= s)%nat -> rescaled false (relative s s) (axis_coord false s i) = Some (centre false s i).
Proof.
  intros Hs. unfold rescaled, axis_coord, linspace, centre. destruct (Nat.eqb_spec s 1); [lia|]. pose proof (minus_one_pos s Hs) as A. pose proof (INR_pos s ltac:(lia)) as B. f_equal. field. split; assumption.
Qed.
Definition some3 (p : vec3) : coord3 := (Some (x3 p), Some (y3 p), Some (z3 p)).
Lemma same_sizes_eq r s : big s -> same_sizes r s = true -> r = s.
Proof.
  destruct r as [[D H] W], s as [[d h] w]. cbn. intros (Bd & Bh & Bw) E. apply andb_prop in E. destruct E as [E E3]. apply andb_prop in E. destruct E as [E1 E2].
  rewrite (is_one_eq _ _ Bd E1), (is_one_eq _ _ Bh E2), (is_one_eq _ _ Bw E3). reflexivity.
Qed.
Lemma same_sizes_refl s : big s -> same_sizes s s = true.
Proof. destruct s as [[d h] w]. cbn. intros (Bd & Bh & Bw). rewrite !is_one_self by assumption. reflexivity. Qed.

Lemma frames_at a n f : nth_error (frames a) n = Some f -> nth_error (map dims (a_dens a)) n = Some (fst (fst f)).
Proof.
  unfold frames. destruct f as [[s v] t]. cbn [fst]. generalize (map dims (a_dens a)) (a_voxel a) (a_trans a). intros l1 l2 l3. revert l2 l3 n. induction l1 as [|x l1 IH]; intros [|y l2] [|z l3] [|n] E; try discriminate; cbn in *.
  - injection E as -> -> ->. reflexivity.
  - eapply IH; eassumption.
Qed.
Lemma local_entry v a n f c : reachable v a -> List.Forall big (map dims (a_dens a)) -> (a_align a = false -> all_equal (map dims (a_dens a))) ->
  nth_error (frames a) n = Some f -> inside (get_resolution v) c -> exists adjust, 
  (adjust = false -> get_resolution v = fst (fst f)) /\ (a_align a = false -> adjust = false) /\
  grid_at (get_resolution v) (local_coord_grid v) n c = Some (local_coord (a_align a) adjust (get_resolution v) (fst (fst f)) c).
Proof.
  intros H B AE EF I. pose proof (reachable_repr _ _ H) as Rv. pose proof (r_sizes _ _ Rv) as Hs. apply frames_at in EF. rewrite <- Hs in *.
  unfold grid_at, local_coord_grid. change (l_res (loc v)) with (get_resolution v). change (l_sizes (loc v)) with (get_grid_sizes v). change (l_align (loc v)) with (get_align_corners v).
  set (adj := existsb (fun s => negb (same_sizes (get_resolution v) s)) (get_grid_sizes v)). exists adj.
  rewrite Forall_forall in B. pose proof (nth_error_In _ _ EF) as Hin. split; [|split].
  - intros EA. assert (X : forall s, In s (get_grid_sizes v) -> negb (same_sizes (get_resolution v) s) = false).
    { intros s Hi. destruct (negb (same_sizes (get_resolution v) s)) eqn:E; [|reflexivity]. exfalso. assert (Y : adj = true) by (apply existsb_exists; exists s; split; [exact Hi|exact E]). congruence. }
    specialize (X _ Hin). apply negb_false_iff in X. apply same_sizes_eq; [apply B, Hin|exact X].
  - intros EA. specialize (AE EA). assert (RE : get_resolution v = fst (fst f)).
    { unfold get_resolution. rewrite (r_max _ _ Rv) by (rewrite (r_align _ _ Rv); exact EA). destruct (get_grid_sizes v) as [|s l] eqn:EG; [destruct Hin|].
      assert (X : s :: l = repeat (fst (fst f)) (length (s :: l))) by (apply Forall_eq_repeat, Forall_forall; intros x Hx; apply AE; [exact Hin|exact Hx]).
      rewrite X. apply max3_repeat. cbn. lia. }
    unfold adj. apply not_true_is_false. intros E. apply existsb_exists in E. destruct E as (s & Hi & E). rewrite RE, (AE _ _ Hi Hin) in E. rewrite same_sizes_refl in E; [discriminate|apply B, Hin].
  - rewrite nth_error_map, EF. cbn [option_map]. rewrite nth_error_map, cells_at by exact I. cbn [option_map]. rewrite (r_align _ _ Rv). reflexivity.
Qed.
Lemma voxel_positions v a n f c : reachable v a -> List.Forall big (map dims (a_dens a)) -> (a_align a = false -> all_equal (map dims (a_dens a))) ->
  nth_error (frames a) n = Some f -> inside (fst (fst f)) c ->
  grid_at (get_resolution v) (local_coord_grid v) n c = Some (some3 (voxel_centre (a_align a) (fst (fst f)) c)).
Proof.
  intros H B AE EF I. pose proof (reachable_repr _ _ H) as Rv. pose proof (r_sizes _ _ Rv) as Hs.
  assert (Hin : In (fst (fst f)) (map dims (a_dens a))) by (apply frames_at in EF; eapply nth_error_In; exact EF).
  assert (LE : le3 (fst (fst f)) (get_resolution v)) by (pose proof (r_res _ _ Rv) as G; rewrite Forall_forall in G; apply G; rewrite Hs; exact Hin).
  destruct (local_entry v a n f c H B AE EF (inside_mono _ _ _ LE I)) as (adj & E1 & E2 & ->). f_equal. rewrite Forall_forall in B. specialize (B _ Hin).
  destruct (a_align a) eqn:EA.
  - destruct (get_resolution v) as [[D H0] W], (fst (fst f)) as [[d h] w], c as [[k j] i]. cbn in *. unfold some3. cbn [x3 y3 z3].
    destruct B as (Bd & Bh & Bw), LE as (Ld & Lh & Lw). rewrite !axis_aligned; try assumption; try reflexivity; intros EQ; specialize (E1 EQ); congruence.
  - specialize (E2 eq_refl). subst adj. rewrite (E1 eq_refl). destruct (fst (fst f)) as [[d h] w], c as [[k j] i]. destruct B as (Bd & Bh & Bw). cbn [local_coord voxel_centre]. unfold some3. cbn [x3 y3 z3].
    rewrite !axis_sides by assumption. reflexivity.
Qed.

(* ---- the world grid ---- *)
Lemma grid_finite align adj r s c : big s -> exists p, local_coord align adj r s c = some3 p.
Proof.
  destruct r as [[D H] W], s as [[d h] w], c as [[k j] i]. cbn. intros (Bd & Bh & Bw). unfold relative. destruct (Nat.eqb_spec d 1); [lia|]. destruct (Nat.eqb_spec h 1); [lia|]. destruct (Nat.eqb_spec w 1); [lia|].
  destruct adj; cbn; eexists (V3 _ _ _); unfold some3; cbn; reflexivity.
Qed.
Lemma cells_length r : length (cells3 r) = (fst (fst r) * (snd (fst r) * snd r))%nat.
Proof.
  destruct r as [[D H] W]. unfold cells3. cbn [fst snd]. rewrite (flat_len _ (H * W)%nat), seq_length; [reflexivity|]. intros k _. rewrite (flat_len _ W), seq_length; [reflexivity|]. intros j _. rewrite map_length, seq_length. reflexivity.
Qed.
Lemma nth_combine2 {A B} (l : list A) (m : list B) n x y : nth_error l n = Some x -> nth_error m n = Some y -> nth_error (combine l m) n = Some (x, y).
Proof. revert m n. induction l as [|a l IH]; intros [|b m] [|n] E F; try discriminate; cbn in *; [injection E as ->; injection F as ->; reflexivity|apply IH; assumption]. Qed.
Lemma world_positions v a n f c : reachable v a -> List.Forall big (map dims (a_dens a)) -> (a_align a = false -> all_equal (map dims (a_dens a))) ->
  nth_error (frames a) n = Some f -> inside (fst (fst f)) c ->
  exists g, world_coord_grid v = Ok g /\ grid_at (get_resolution v) g n c = Some (Some (world_of f (voxel_centre (a_align a) (fst (fst f)) c))).
Proof.
  intros H B AE EF I. pose proof (reachable_repr _ _ H) as Rv. pose proof (r_sizes _ _ Rv) as Hs. pose proof (voxel_positions v a n f c H B AE EF I) as VP.
  set (g := map (map finite) (local_coord_grid v)). set (pts := map (map or_zero) g).
  assert (LP : length pts = length (a_dens a)) by (unfold pts, g, local_coord_grid; rewrite !map_length; fold (get_grid_sizes v); rewrite Hs, map_length; reflexivity).
  unfold grid_at in VP. destruct (nth_error (local_coord_grid v) n) as [row|] eqn:ER; [|discriminate].
  assert (EP : nth_error pts n = Some (map or_zero (map finite row))) by (unfold pts, g; rewrite !nth_error_map, ER; reflexivity).
  assert (NE : concat pts <> []).
  { intros E. apply nth_error_In in EP. apply in_split in EP. destruct EP as (l1 & l2 & EP). rewrite EP, concat_app in E. cbn in E. apply app_eq_nil in E. destruct E as [_ E]. apply app_eq_nil in E. destruct E as [E _].
    apply map_eq_nil, map_eq_nil in E. rewrite E in VP. destruct (offset (get_resolution v) c); discriminate. }
  pose proof (local_to_world_value v a pts H LP NE) as LW.
  exists (map (fun p => map (fun q => match fst q with Some _ => snd q | None => None end) (combine (fst p) (snd p))) (combine g (each world_of a pts))). split.
  - unfold world_coord_grid. fold g. fold pts. rewrite LW. reflexivity.
  - unfold grid_at. rewrite nth_error_map. assert (E1 : nth_error g n = Some (map finite row)) by (unfold g; rewrite nth_error_map, ER; reflexivity).
    assert (E2 : nth_error (each world_of a pts) n = Some (map (fun p => Some (world_of f p)) (map or_zero (map finite row)))).
    { unfold each. rewrite nth_error_map, (nth_combine2 _ _ n _ _ EF EP). reflexivity. }
    rewrite (nth_combine2 _ _ n _ _ E1 E2). cbn [option_map fst snd]. rewrite nth_error_map.
    set (o := offset (get_resolution v) c) in *. set (p := voxel_centre (a_align a) (fst (fst f)) c) in *.
    assert (E3 : nth_error (map finite row) o = Some (Some p)) by (rewrite nth_error_map, VP; cbn; destruct p; reflexivity).
    rewrite (nth_combine2 _ _ o (Some p) (Some (world_of f p))); [reflexivity|exact E3|]. rewrite nth_error_map, nth_error_map, E3. reflexivity.
Qed.
Lemma aligned_world f c : big (fst (fst f)) -> world_of f (voxel_centre true (fst (fst f)) c) = voxel_world f c.
Proof.
  destruct f as [[[[d h] w] [vx vy vz]] [tx ty tz]], c as [[k j] i]. cbn [fst]. intros (Bd & Bh & Bw). cbn. unfold centre. pose proof (minus_one_pos d Bd). pose proof (minus_one_pos h Bh). pose proof (minus_one_pos w Bw). f_equal; field; assumption.
Qed.
Lemma aligned_world_positions v a n f c : reachable v a -> List.Forall big (map dims (a_dens a)) -> a_align a = true ->
  nth_error (frames a) n = Some f -> inside (fst (fst f)) c ->
  exists g, world_coord_grid v = Ok g /\ grid_at (get_resolution v) g n c = Some (Some (voxel_world f c)).
Proof.
  intros H B A EF I. destruct (world_positions v a n f c H B) as (g & E & G); [congruence|exact EF|exact I|]. exists g. split; [exact E|]. rewrite G, A, aligned_world; [reflexivity|].
  rewrite Forall_forall in B. apply B. apply frames_at in EF. eapply nth_error_In, EF.
Qed.
Lemma grid_shape v a : reachable v a -> length (local_coord_grid v) = length (a_dens a) /\ forall row, In row (local_coord_grid v) -> length row = (fst (fst (get_resolution v)) * (snd (fst (get_resolution v)) * snd (get_resolution v)))%nat.
Proof.
  intros H. pose proof (reachable_repr _ _ H) as Rv. split; [unfold local_coord_grid; rewrite map_length; fold (get_grid_sizes v); rewrite (r_sizes _ _ Rv), map_length; reflexivity|].
  intros row Hr. unfold local_coord_grid in Hr. apply in_map_iff in Hr. destruct Hr as (s & <- & _). rewrite map_length. apply cells_length.
Qed.
Lemma resolution_covers v a s : reachable v a -> In s (map dims (a_dens a)) -> forall c, inside s c -> inside (get_resolution v) c.
Proof. intros H Hs c I. pose proof (reachable_repr _ _ H) as Rv. pose proof (r_res _ _ Rv) as G. rewrite (r_sizes _ _ Rv), Forall_forall in G. eapply inside_mono; [apply G, Hs|exact I]. Qed.

(* ---- what goes wrong ---- *)
Lemma index_drops_align v ix v' : vgetitem v ix = Ok v' -> get_align_corners v' = true.
Proof.
  destruct ix as [ix|i]; cbn [vgetitem]; [|destruct (index1 (len v) i); discriminate]. fold (norm_ix ix).
  destruct (match features v with None => _ | Some _ => _ end) as [f|]; [|discriminate]. cbn [rbind]. destruct (take5 (densities v) (norm_ix ix)) as [d|]; [|discriminate]. cbn [rbind].
  destruct (new_volumes (ATensor d) f (SNum 1) (SSeq [0; 0; 0]) true) as [v0|] eqn:E; [|discriminate]. cbn [rbind].
  destruct (take_index (get_grid_sizes v) (norm_ix ix)) as [s|]; [|discriminate]. cbn [rbind]. destruct (getitem (l_tf (loc v)) (norm_ix ix)) as [t|]; [|discriminate]. cbn [rbind]. intros H. injection H as <-. unfold get_align_corners. cbn.
  unfold new_volumes in E. cbn [convert rbind] in E. destruct (new_locator _ _ _ _ true) as [l|] eqn:EL; [|discriminate]. cbn [rbind] in E. destruct (match f with None => _ | Some _ => _ end); [|discriminate]. cbn [rbind] in E. injection E as <-. cbn.
  unfold new_locator in EL. destruct (repeat (res d) (length (items d))); [discriminate|]. destruct (handle_voxel_size _ _); [|discriminate]. cbn [rbind] in EL. destruct (convert_property _ _); [|discriminate]. cbn [rbind] in EL. destruct (local_to_world _ _ _); [|discriminate]. cbn [rbind] in EL. injection EL as <-. reflexivity.
Qed.
Lemma own_padded v a feats : reachable v a -> ~ all_equal (map dims (a_dens a)) -> update_padded v (ATensor (densities v)) feats = Fail EValue.
Proof.
  intros H N. pose proof (reachable_repr _ _ H) as Rv. pose proof (holds_length _ _ (r_dens _ _ Rv)) as L. apply (volumes_update_wrong v a); [exact H| |].
  - split; [cbn; intros E; apply map_eq_nil in E; rewrite E in L; destruct (a_dens a) eqn:ED; [apply (r_pos _ _ Rv ED)|discriminate]|]. exists (chans (densities v)). split; [|exact I]. cbn. apply Forall_map, Forall_forall. reflexivity.
  - intros E. apply N. rewrite <- E. intros x y Hx Hy. cbn in Hx, Hy. rewrite map_map in Hx, Hy. cbn in Hx, Hy. apply in_map_iff in Hx, Hy. destruct Hx as (? & <- & _), Hy as (? & <- & _). reflexivity.
Qed.
Lemma flat_coordinates v a n s c q : reachable v a -> nth_error (map dims (a_dens a)) n = Some s -> (fst (fst s) = 1 \/ snd (fst s) = 1 \/ snd s = 1)%nat ->
  grid_at (get_resolution v) (local_coord_grid v) n c = Some q -> finite q = None.
Proof.
  intros H EN F. pose proof (reachable_repr _ _ H) as Rv. pose proof (r_sizes _ _ Rv) as Hs. rewrite <- Hs in EN.
  unfold grid_at, local_coord_grid. change (l_res (loc v)) with (get_resolution v). change (l_sizes (loc v)) with (get_grid_sizes v).
  assert (EA : existsb (fun s => negb (same_sizes (get_resolution v) s)) (get_grid_sizes v) = true).
  { apply existsb_exists. exists s. split; [eapply nth_error_In, EN|]. destruct s as [[d h] w], (get_resolution v) as [[D H0] W]. cbn in *. destruct F as [->|[->| ->]]; cbn; [reflexivity|rewrite andb_false_r; reflexivity|rewrite andb_false_r; reflexivity]. }
  rewrite EA, nth_error_map, EN. cbn [option_map]. rewrite nth_error_map. destruct (nth_error (cells3 (get_resolution v)) (offset (get_resolution v) c)) as [c'|]; [|discriminate]. cbn [option_map]. intros E. injection E as <-.
  destruct s as [[d h] w], (get_resolution v) as [[D H0] W], c' as [[k j] i]. cbn in *. destruct F as [->|[->| ->]]; cbn.
  - destruct (relative W w), (relative H0 h); reflexivity.
  - destruct (relative W w); reflexivity.
  - reflexivity.
Qed.
Lemma one_number_translation dens feats voxel align t vs : good_arg dens -> voxel_sizes (length (elements dens)) voxel vs -> new_volumes dens feats voxel (STen1 [t]) align = Fail EIndex.
Proof.
  intros G V. destruct (convert_total _ G) as (u & E). unfold new_volumes. rewrite E. cbn [rbind]. apply convert_holds in E. destruct E as [Hd _]. rewrite (holds_length _ _ Hd).
  assert (P : (0 < length (elements dens))%nat) by (destruct G as [NE _]; destruct (elements dens); [congruence|cbn; lia]).
  unfold new_locator. destruct (map dims (elements dens)); [reflexivity|]. destruct (voxel_ok _ _ _ P V) as [-> _]. reflexivity.
Qed.
Definition grid (s : shape3) : tensor4 := {| chan := 1; dims := s; value := fun c k j i => INR (100 * k + 10 * j + i) |}.
Definition ragged : list tensor4 := [grid (2, 2, 2)%nat; grid (3, 3, 3)%nat].
Lemma good_grids l : l <> [] -> good_arg (AList (map grid l)).
Proof. intros N. split; [cbn; intros E; apply map_eq_nil in E; congruence|]. exists 1%nat. split; [|lia]. cbn. apply Forall_map, Forall_forall. reflexivity. Qed.
Lemma some_ragged align : exists v, reachable v (Batch ragged None [V3 1 1 1; V3 1 1 1] [V3 0 0 0; V3 0 0 0] align).
Proof.
  destruct (volumes_constructed (AList ragged) None (SNum 1) (SSeq [0; 0; 0]) align [V3 1 1 1; V3 1 1 1] [V3 0 0 0; V3 0 0 0]) as (v & _ & H).
  - apply (good_grids [(2, 2, 2)%nat; (3, 3, 3)%nat]). discriminate.
  - discriminate.
  - apply (number 2).
  - apply (three_numbers 2).
  - exists v. exact H.
Qed.
Lemma ragged_sides : exists v a n f c, reachable v a /\ a_align a = false /\ List.Forall big (map dims (a_dens a)) /\ nth_error (frames a) n = Some f /\ inside (fst (fst f)) c /\
  grid_at (get_resolution v) (local_coord_grid v) n c <> Some (some3 (voxel_centre false (fst (fst f)) c)).
Proof.
  destruct (some_ragged false) as (v & H). exists v. eexists. exists 0%nat. eexists. exists (0, 0, 0)%nat. split; [exact H|]. split; [reflexivity|]. split; [repeat constructor|]. split; [reflexivity|]. split; [cbn; lia|].
  pose proof (reachable_repr _ _ H) as Rv. pose proof (r_sizes _ _ Rv) as Hs. cbn in Hs. assert (HR : get_resolution v = (3, 3, 3)%nat) by (unfold get_resolution; rewrite (r_max _ _ Rv) by apply (r_align _ _ Rv); rewrite Hs; reflexivity).
  unfold grid_at, local_coord_grid. change (l_res (loc v)) with (get_resolution v). change (l_sizes (loc v)) with (get_grid_sizes v). change (l_align (loc v)) with (get_align_corners v). rewrite (r_align _ _ Rv), HR, Hs.
  assert (EA : existsb (fun s => negb (same_sizes (3, 3, 3)%nat s)) [(2, 2, 2)%nat; (3, 3, 3)%nat] = true).
  { apply existsb_exists. exists (2, 2, 2)%nat. split; [left; reflexivity|]. apply negb_true_iff, not_true_is_false. intros E. apply same_sizes_eq in E; [discriminate|cbn; lia]. }
  rewrite EA. cbn. intros E. injection E as E _ _. unfold axis_coord, linspace, centre in E. cbn in E. lra.
Qed.
Lemma sides_spacing f k j i : big (fst (fst f)) ->
  x3 (world_of f (voxel_centre false (fst (fst f)) (k, j, S i))) - x3 (world_of f (voxel_centre false (fst (fst f)) (k, j, i))) = x3 (snd (fst f)) * (INR (snd (fst (fst f))) - 1) / INR (snd (fst (fst f))).
Proof.
  destruct f as [[[[d h] w] [vx vy vz]] [tx ty tz]]. cbn [fst snd]. intros (Bd & Bh & Bw). cbn [voxel_centre world_of x3 y3 z3]. unfold centre. rewrite S_INR. field. apply INR_pos. lia.
Qed.
