From Verif Require Import Base Packing PackingProofs PackOpsProofs RBase Geom FaceAreas FaceAreasSpec Meshes MeshesSpec MeshesHistSpec Pointclouds PointcloudsSpec.
From Verif Require Import MeshesProofs MeshesProofs6 MeshesProofs7.
Local Open Scope nat_scope.

Section Features.
Variable F : Type.
Variable fzero : F.
Notation row := (row F). Notation cloud := (cloud F). Notation pc := (pointclouds F). Notation cstate := (cstate F).
Local Arguments cN {F} _. Local Arguments cP {F} _. Local Arguments ceq {F} _. Local Arguments cvalid {F} _. Local Arguments counts {F} _.
Local Arguments pts_l {F} _. Local Arguments pts_p {F} _. Local Arguments nrm {F} _. Local Arguments fts {F} _. Local Arguments cpk {F} _. Local Arguments cp2p {F} _.
Local Arguments pos {F} _. Local Arguments nor {F} _. Local Arguments fea {F} _. Local Arguments sizes {F} _. Local Arguments largest {F} _. Local Arguments points_of {F} _.
Local Arguments column {F A} _ _ _. Local Arguments has_a_point {F} _. Local Arguments clouds {F} _. Local Arguments ppad {F} _. Local Arguments npad {F} _. Local Arguments fpad {F} _.
Local Arguments CS {F} _ _ _ _. Local Arguments points_list {F} _. Local Arguments normals_list {F} _. Local Arguments features_list {F} _.

(* ---- columns as functions ---- *)
Definition dflt {A} (z : A) (o : option A) : A := match o with Some x => x | None => z end.
Definition vals {A} (f : row -> option A) (z : A) (b : list cloud) : list (list A) := map (map (fun r => dflt z (f r))) b.
Definition col {A} (f : row -> option A) (z : A) (h : bool) (b : list cloud) : option (list (list A)) :=
  if h then Some (vals f z b) else None.
Definition uni {A} (f : row -> option A) (h : bool) (b : list cloud) : Prop :=
  Forall (Forall (fun r => is_none (f r) = negb h)) b.

Lemma column_col {A} (f : row -> option A) z b o : column f b o <-> exists h, uni f h b /\ o = col f z h b.
Proof.
  split.
  - destruct o as [ls|]; intros H; cbn in H.
    + exists true. unfold col. assert (G : uni f true b /\ ls = vals f z b); [|destruct G as (G & ->); auto].
      induction H as [|c l b ls Hc _ (IH1 & IH2)]; [split; [constructor|reflexivity]|]. split.
      * constructor; [|exact IH1]. clear - Hc. revert l Hc. induction c as [|r c IH]; intros [|x l] H; try discriminate; constructor.
        -- cbn in H. injection H as -> _. reflexivity.
        -- cbn in H. injection H as _ H. eapply IH. exact H.
      * cbn. f_equal; [|exact IH2]. clear - Hc. revert l Hc. induction c as [|r c IH]; intros [|x l] H; try discriminate; [reflexivity|].
        cbn in H. injection H as H1 H2. cbn. rewrite H1. cbn. f_equal. apply IH. exact H2.
    + exists false. split; [|reflexivity]. unfold uni. eapply Forall_impl; [|exact H]. intros c Hc. eapply Forall_impl; [|exact Hc].
      intros r ->. reflexivity.
  - intros (h & H & ->). destruct h; cbn.
    + induction b as [|c b IH]; cbn; [constructor|]. apply Forall_cons_iff in H. destruct H as (Hc & H). constructor; [|apply IH; exact H].
      clear - Hc. induction c as [|r c IH]; [reflexivity|]. apply Forall_cons_iff in Hc. destruct Hc as (Hr & Hc). cbn. f_equal; [|apply IH, Hc].
      destruct (f r); [reflexivity|discriminate].
    + eapply Forall_impl; [|exact H]. intros c Hc. eapply Forall_impl; [|exact Hc]. intros r E. cbn in E |- *. destruct (f r); cbn in E; [discriminate E|reflexivity].
Qed.
Lemma col_column {A} (f : row -> option A) z h b : uni f h b -> column f b (col f z h b).
Proof. intros H. apply (column_col f z). exists h. auto. Qed.
Lemma uni_unique {A} (f : row -> option A) h h' b : has_a_point b -> uni f h b -> uni f h' b -> h = h'.
Proof.
  intros (c & Hc & Hne) H H'. unfold uni in *. rewrite Forall_forall in H, H'. specialize (H c Hc). specialize (H' c Hc).
  destruct c as [|r c]; [contradiction|]. apply Forall_cons_iff in H, H'. destruct H as (H & _), H' as (H' & _). rewrite H in H'.
  destruct h, h'; cbn in H'; congruence.
Qed.
Lemma column_unique {A} (f : row -> option A) (z : A) b o o' : has_a_point b -> column f b o -> column f b o' -> o = o'.
Proof.
  intros Hp H H'. apply (column_col f z) in H, H'. destruct H as (h & H & ->), H' as (h' & H' & ->).
  rewrite (uni_unique f h h' b Hp H H'). reflexivity.
Qed.
Lemma column_uni {A} (f : row -> option A) (z : A) b : (exists o, column f b o) -> exists h, uni f h b.
Proof. intros (o & H). apply (column_col f z) in H. destruct H as (h & H & _). eauto. Qed.

Lemma sizes_vals {A} (f : row -> option A) z b : map (@length A) (vals f z b) = sizes b.
Proof. unfold vals, sizes. rewrite map_map. apply map_ext. intros c. apply map_length. Qed.
Lemma sizes_points (b : list cloud) : map (@length vec3) (points_of b) = sizes b.
Proof. unfold points_of, sizes. rewrite map_map. apply map_ext. intros c. apply map_length. Qed.
Lemma sizes_length (b : list cloud) : length (sizes b) = length b. Proof. apply map_length. Qed.
Lemma vals_length {A} (f : row -> option A) z b : length (vals f z b) = length b. Proof. apply map_length. Qed.
Lemma points_length (b : list cloud) : length (points_of b) = length b. Proof. apply map_length. Qed.
Lemma point_nonempty (b : list cloud) : has_a_point b -> b <> [].
Proof. intros (c & H & _) ->. destruct H. Qed.

(* ---- the representation invariant ---- *)
Definition pads {A} (b : list cloud) (t : list (list A)) : Prop := Forall2 (fun n x => n + length x = largest b) (sizes b) t.
Record cwf (a : cstate) (hn hf : bool) : Prop := {
  w_nor : uni nor hn (clouds a); w_fea : uni fea hf (clouds a); w_pt : has_a_point (clouds a);
  w_pp : pads (clouds a) (ppad a); w_np : pads (clouds a) (npad a); w_fp : pads (clouds a) (fpad a) }.

Definition aux_ok {A} (f : row -> option A) (z : A) (h : bool) (b : list cloud) (t : list (list A)) (pd : bool) (x : aux A) : Prop :=
  if h then
    (aux_l x = None \/ aux_l x = Some (vals f z b)) /\
    (if pd then aux_p x = Some (Pad (largest b) (zip_app (vals f z b) t))
     else aux_p x = None /\ aux_l x = Some (vals f z b) /\ t = tails (largest b) z (sizes b))
  else x = Aux None None.
Definition is_pad {A} (o : option A) : bool := negb (is_none o).
Definition packed_clouds (hn hf : bool) (b : list cloud) : cpacked F :=
  CPacked F (concat (points_of b)) (owners 0 (sizes b)) (firsts 0 (sizes b))
    (option_map (@concat _) (col nor zero_row hn b)) (option_map (@concat _) (col fea fzero hf b)).
Definition p2p_clouds (b : list cloud) : list nat :=
  concat (map (fun i => seq (i * largest b) (nth i (sizes b) 0)) (seq 0 (length b))).

Record crepr (a : cstate) (hn hf : bool) (c : pc) : Prop := {
  q_N : cN c = length (clouds a);
  q_P : cP c = largest (clouds a);
  q_valid : cvalid c = map (fun k => negb (length k =? 0)) (clouds a);
  q_cnt : counts c = sizes (clouds a);
  q_l : pts_l c = None \/ pts_l c = Some (points_of (clouds a));
  q_p : (pts_p c = None /\ pts_l c = Some (points_of (clouds a)) /\ (ceq c = true -> all_same (sizes (clouds a)) = true) /\
         ppad a = tails (largest (clouds a)) zero_row (sizes (clouds a)))
        \/ pts_p c = Some (Pad (largest (clouds a)) (zip_app (points_of (clouds a)) (ppad a)));
  q_n : aux_ok nor zero_row hn (clouds a) (npad a) (is_pad (pts_p c)) (nrm c);
  q_f : aux_ok fea fzero hf (clouds a) (fpad a) (is_pad (pts_p c)) (fts c);
  q_k : cpk c = None \/ (cpk c = Some (packed_clouds hn hf (clouds a)) /\ pts_l c = Some (points_of (clouds a)));
  q_i : cp2p c = None \/ cp2p c = Some (p2p_clouds (clouds a))
}.

Lemma pads_length {A} b (t : list (list A)) : pads b t -> length t = length b.
Proof. intros H. rewrite <- (sizes_length b). symmetry. eapply Forall2_length. exact H. Qed.

Lemma has_points a hn hf c : cwf a hn hf -> crepr a hn hf c -> no_points F c = false.
Proof.
  intros Hw R. destruct (w_pt _ _ _ Hw) as (p & Hp & Hs). unfold no_points, no_valid. rewrite (q_N _ _ _ _ R), (q_valid _ _ _ _ R).
  destruct (clouds a) as [|x l] eqn:E; [destruct Hp|]. rewrite <- E in *.
  replace (length (clouds a) =? 0) with false by (rewrite E; reflexivity). cbn [orb].
  apply Bool.not_true_is_false. intros G. rewrite forallb_forall in G. specialize (G true). discriminate G.
  apply in_map_iff. exists p. split; [|exact Hp]. destruct p; [contradiction|reflexivity].
Qed.

(* ---- lists ---- *)
Lemma points_list_ok a hn hf c : cwf a hn hf -> crepr a hn hf c -> exists c', points_list c = Ok (points_of (clouds a), c') /\
  crepr a hn hf c' /\ pts_l c' = Some (points_of (clouds a)) /\ pts_p c' = pts_p c /\ cpk c' = cpk c /\ nrm c' = nrm c /\ fts c' = fts c /\ ceq c' = ceq c.
Proof.
  intros Hw R. unfold points_list. destruct (q_l _ _ _ _ R) as [E|E]; rewrite E.
  - destruct (q_p _ _ _ _ R) as [(_ & E' & _)|Ep]; [congruence|]. rewrite Ep. rewrite (q_cnt _ _ _ _ R), <- sizes_points, unpad_zip.
    2:{ rewrite points_length. apply pads_length, Hw. }
    cbn [rbind]. eexists. split; [reflexivity|]. split; [|cbn; auto 10]. destruct R. constructor; cbn; auto; try (rewrite Ep in *; auto; fail). destruct q_k0 as [K|(K & _)]; auto.
  - exists c. auto 10.
Qed.

Lemma aux_list_ok {A} (f : row -> option A) z h b t pd x cnt : pads b t -> cnt = sizes b -> aux_ok f z h b t pd x ->
  exists x', aux_list cnt x = Ok (col f z h b, x') /\ aux_ok f z h b t pd x' /\ aux_p x' = aux_p x /\ aux_l x' = col f z h b.
Proof.
  intros Ht -> H. unfold aux_list, col. destruct h; cbn in H.
  - destruct H as ([E|E] & H); rewrite E.
    + destruct pd; [|destruct H as (_ & H & _); congruence]. rewrite H. rewrite <- (sizes_vals f z b), unpad_zip by (rewrite vals_length; apply pads_length, Ht).
      cbn [rbind]. eexists. split; [reflexivity|]. cbn. auto.
    + exists x. repeat split; auto.
  - subst x. cbn. eexists. repeat split; auto.
Qed.
Lemma normals_list_ok a hn hf c : cwf a hn hf -> crepr a hn hf c -> exists c', normals_list c = Ok (col nor zero_row hn (clouds a), c') /\
  crepr a hn hf c' /\ pts_l c' = pts_l c /\ pts_p c' = pts_p c /\ cpk c' = cpk c /\ fts c' = fts c /\ aux_p (nrm c') = aux_p (nrm c) /\ aux_l (nrm c') = col nor zero_row hn (clouds a).
Proof.
  intros Hw R. unfold normals_list.
  destruct (aux_list_ok nor zero_row hn _ (npad a) _ (nrm c) (counts c) (w_np _ _ _ Hw) (q_cnt _ _ _ _ R) (q_n _ _ _ _ R)) as (x' & E & H & Hp & Hl).
  rewrite E. cbn [rbind fst snd]. eexists. split; [reflexivity|]. split; [|cbn; auto 10]. destruct R. constructor; cbn; auto.
Qed.
Lemma features_list_ok a hn hf c : cwf a hn hf -> crepr a hn hf c -> exists c', features_list c = Ok (col fea fzero hf (clouds a), c') /\
  crepr a hn hf c' /\ pts_l c' = pts_l c /\ pts_p c' = pts_p c /\ cpk c' = cpk c /\ nrm c' = nrm c /\ aux_p (fts c') = aux_p (fts c) /\ aux_l (fts c') = col fea fzero hf (clouds a).
Proof.
  intros Hw R. unfold features_list.
  destruct (aux_list_ok fea fzero hf _ (fpad a) _ (fts c) (counts c) (w_fp _ _ _ Hw) (q_cnt _ _ _ _ R) (q_f _ _ _ _ R)) as (x' & E & H & Hp & Hl).
  rewrite E. cbn [rbind fst snd]. eexists. split; [reflexivity|]. split; [|cbn; auto 10]. destruct R. constructor; cbn; auto.
Qed.
Lemma lists_all a hn hf c : cwf a hn hf -> crepr a hn hf c -> exists c1 c2 c3,
  points_list c = Ok (points_of (clouds a), c1) /\ normals_list c1 = Ok (col nor zero_row hn (clouds a), c2) /\
  features_list c2 = Ok (col fea fzero hf (clouds a), c3) /\ crepr a hn hf c3 /\ pts_l c3 = Some (points_of (clouds a)) /\ pts_p c3 = pts_p c /\ cpk c3 = cpk c.
Proof.
  intros Hw R. destruct (points_list_ok a hn hf c Hw R) as (c1 & E1 & R1 & L1 & P1 & K1 & _).
  destruct (normals_list_ok a hn hf c1 Hw R1) as (c2 & E2 & R2 & L2 & P2 & K2 & _).
  destruct (features_list_ok a hn hf c2 Hw R2) as (c3 & E3 & R3 & L3 & P3 & K3 & _).
  exists c1, c2, c3. do 3 (split; [assumption|]). split; [exact R3|]. split; [congruence|]. split; congruence.
Qed.

(* ---- padded ---- *)
Lemma pad_aux_ok {A} (f : row -> option A) z h b t x e : aux_ok f z h b t false x -> b <> [] ->
  (e = true -> all_same (sizes b) = true) ->
  exists x', pad_aux e (largest b) z (sizes b) x = Ok x' /\ aux_ok f z h b t true x'.
Proof.
  intros H Hne He. unfold pad_aux. destruct h; cbn in H.
  - destruct H as (_ & H1 & H2 & H3). unfold aux_list. cbn [aux_l aux_p]. rewrite H2. cbn [rbind fst snd aux_l].
    unfold largest. rewrite <- (sizes_vals f z b). rewrite pad_rows_tails.
    + cbn [rbind]. eexists. split; [reflexivity|]. cbn. split; [right; reflexivity|]. rewrite H3. unfold largest. rewrite sizes_vals. reflexivity.
    + destruct b; [contradiction|discriminate].
    + rewrite sizes_vals. exact He.
  - subst x. cbn. eexists. split; reflexivity.
Qed.

Lemma pad_points (b : list cloud) e : b <> [] -> (e = true -> all_same (sizes b) = true) ->
  Meshes.pad_rows e (largest b) zero_row (points_of b) = Ok (Pad (largest b) (zip_app (points_of b) (tails (largest b) zero_row (sizes b)))).
Proof.
  intros H He. unfold largest. rewrite <- (sizes_points b) in *. apply pad_rows_tails; [|exact He]. destruct b; [contradiction|discriminate].
Qed.

Lemma cloud_padded_ok a hn hf c : cwf a hn hf -> crepr a hn hf c -> exists c', cloud_padded F fzero c = Ok c' /\ crepr a hn hf c' /\
  pts_p c' = Some (Pad (largest (clouds a)) (zip_app (points_of (clouds a)) (ppad a))) /\ pts_l c' = pts_l c /\ cpk c' = cpk c.
Proof.
  intros Hw R. unfold cloud_padded. destruct (q_p _ _ _ _ R) as [(Ep & El & Ee & Et)|Ep]; rewrite Ep.
  2:{ exists c. auto. }
  pose proof (point_nonempty _ (w_pt _ _ _ Hw)) as Hne.
  rewrite (has_points a hn hf c Hw R). unfold points_list. rewrite El. cbn [rbind].
  rewrite (q_P _ _ _ _ R), (q_cnt _ _ _ _ R). rewrite pad_points by assumption.
  cbn [rbind]. pose proof (q_n _ _ _ _ R) as Hn. pose proof (q_f _ _ _ _ R) as Hf. rewrite Ep in Hn, Hf. cbn in Hn, Hf.
  destruct (pad_aux_ok _ _ _ _ _ _ _ Hn Hne Ee) as (xn & En & On). rewrite En. cbn [rbind].
  destruct (pad_aux_ok _ _ _ _ _ _ _ Hf Hne Ee) as (xf & Ef & Of). rewrite Ef. cbn [rbind].
  rewrite <- Et.
  eexists. split; [reflexivity|]. split; [|cbn; auto]. destruct R. constructor; cbn; auto.
Qed.

(* ---- packed ---- *)
Lemma pack_col {A} (f : row -> option A) z h b : b <> [] -> pack_aux (col f z h b) = Ok (option_map (@concat A) (col f z h b)).
Proof.
  intros H. destruct h; [|reflexivity]. cbn [col pack_aux]. rewrite list_to_packed_value; [reflexivity|]. destruct b; [contradiction|discriminate].
Qed.
Lemma cloud_packed_ok a hn hf c : cwf a hn hf -> crepr a hn hf c -> exists c', cloud_packed F c = Ok c' /\ crepr a hn hf c' /\
  cpk c' = Some (packed_clouds hn hf (clouds a)) /\ pts_p c' = pts_p c.
Proof.
  intros Hw R. unfold cloud_packed. destruct (q_k _ _ _ _ R) as [E|(E & _)]; rewrite E.
  2:{ exists c. auto. }
  destruct (lists_all a hn hf c Hw R) as (c1 & c2 & c3 & E1 & E2 & E3 & R3 & L3 & P3 & _). rewrite E1. cbn [rbind]. rewrite E2. cbn [rbind]. rewrite E3. cbn [rbind].
  rewrite (has_points a hn hf c3 Hw R3). pose proof (point_nonempty _ (w_pt _ _ _ Hw)) as Hne.
  rewrite list_to_packed_value by (destruct (clouds a); [contradiction|discriminate]). cbn [rbind].
  rewrite sizes_points, (q_cnt _ _ _ _ R3), eqb_refl_list. cbn [negb]. rewrite pack_col by exact Hne. cbn [rbind]. rewrite pack_col by exact Hne. cbn [rbind].
  eexists. split; [reflexivity|]. split; [|split; [reflexivity|exact P3]]. destruct R3. constructor; cbn; auto.
Qed.
Lemma from_packed_ok {A} a hn hf c (k : cpacked F -> A) : cwf a hn hf -> crepr a hn hf c -> exists c',
  from_packed F c k = Ok (k (packed_clouds hn hf (clouds a)), c') /\ crepr a hn hf c' /\ cpk c' = Some (packed_clouds hn hf (clouds a)) /\ pts_p c' = pts_p c.
Proof.
  intros Hw R. destruct (cloud_packed_ok a hn hf c Hw R) as (c' & E & R' & K & P). exists c'. unfold from_packed. rewrite E. cbn [rbind]. rewrite K. auto.
Qed.
Lemma p2p_seqs M (c : list nat) :
  concat (map (fun iv => map (fun j => j + fst iv * M) (seq 0 (snd iv))) (combine (seq 0 (length c)) c)) =
  concat (map (fun i => seq (i * M) (nth i c 0)) (seq 0 (length c))).
Proof.
  f_equal. apply nth_error_ext_len; [rewrite !map_length, combine_length, seq_length; lia|].
  intros i Hi. rewrite map_length, combine_length, seq_length, Nat.min_id in Hi.
  rewrite !nth_error_map_iff, combine_seq_nth, nth_error_seq_lt by exact Hi.
  destruct (nth_error c i) as [n|] eqn:E; [|apply nth_error_None in E; lia]. cbn [option_map fst snd]. rewrite Nat.add_0_l.
  rewrite (nth_error_nth _ _ _ E), seq_plus. reflexivity.
Qed.

Lemma col_tell {A} (f : row -> option A) z h b : uni f h b -> column f b (col f z h b). Proof. apply col_column. Qed.

Theorem cask_tell q a hn hf c : cwf a hn hf -> crepr a hn hf c -> exists r c', cask F fzero q c = Ok (r, c') /\ ctell F q a r /\ crepr a hn hf c'.
Proof.
  intros Hw R. pose proof (point_nonempty _ (w_pt _ _ _ Hw)) as Hne.
  pose proof (col_tell nor zero_row hn _ (w_nor _ _ _ Hw)) as Hn. pose proof (col_tell fea fzero hf _ (w_fea _ _ _ Hw)) as Hf.
  destruct q; cbn [cask].
  - eexists; exists c. split; [reflexivity|]. split; [cbn; rewrite (q_N _ _ _ _ R); reflexivity|exact R].
  - eexists; exists c. split; [reflexivity|]. split; [cbn; apply R|exact R].
  - eexists; exists c. split; [reflexivity|]. split; [cbn; rewrite (has_points a hn hf c Hw R); reflexivity|exact R].
  - destruct (points_list_ok a hn hf c Hw R) as (c' & E & R' & _). rewrite E. eexists; exists c'. split; [reflexivity|]. split; [reflexivity|exact R'].
  - destruct (normals_list_ok a hn hf c Hw R) as (c' & E & R' & _). rewrite E. eexists; exists c'. split; [reflexivity|]. split; [exact Hn|exact R'].
  - destruct (features_list_ok a hn hf c Hw R) as (c' & E & R' & _). rewrite E. eexists; exists c'. split; [reflexivity|]. split; [exact Hf|exact R'].
  - eexists; exists c. split; [reflexivity|]. split; [cbn; apply R|exact R].
  - destruct (from_packed_ok a hn hf c (cp_points F) Hw R) as (c' & E & R' & _). unfold points_packed. rewrite E. eexists; exists c'. split; [reflexivity|]. split; [reflexivity|exact R'].
  - destruct (from_packed_ok a hn hf c (cp_normals F) Hw R) as (c' & E & R' & _). unfold normals_packed. rewrite E. eexists; exists c'. split; [reflexivity|]. split; [cbn; eauto|exact R'].
  - destruct (from_packed_ok a hn hf c (cp_feats F) Hw R) as (c' & E & R' & _). unfold features_packed. rewrite E. eexists; exists c'. split; [reflexivity|]. split; [cbn; eauto|exact R'].
  - destruct (from_packed_ok a hn hf c (cp_idx F) Hw R) as (c' & E & R' & _). unfold packed_to_cloud_idx. rewrite E. eexists; exists c'. split; [reflexivity|]. split; [reflexivity|exact R'].
  - destruct (from_packed_ok a hn hf c (cp_first F) Hw R) as (c' & E & R' & _). unfold cloud_to_packed_first_idx. rewrite E. eexists; exists c'. split; [reflexivity|].
    split; [cbn; rewrite firsts_starts, sizes_length; reflexivity|exact R'].
  - destruct (cloud_padded_ok a hn hf c Hw R) as (c' & E & R' & Ep & _). unfold points_padded. rewrite E. cbn [rbind]. rewrite Ep. eexists; exists c'. split; [reflexivity|]. split; [reflexivity|exact R'].
  - destruct (cloud_padded_ok a hn hf c Hw R) as (c' & E & R' & Ep & _). unfold normals_padded. rewrite E. cbn [rbind fst snd]. eexists; exists c'. split; [reflexivity|].
    split; [|exact R']. cbn. eexists. split; [exact Hn|]. pose proof (q_n _ _ _ _ R') as H. rewrite Ep in H. cbn in H. unfold aux_ok in H. destruct hn; cbn; [apply H|rewrite H; reflexivity].
  - destruct (cloud_padded_ok a hn hf c Hw R) as (c' & E & R' & Ep & _). unfold features_padded. rewrite E. cbn [rbind fst snd]. eexists; exists c'. split; [reflexivity|].
    split; [|exact R']. cbn. eexists. split; [exact Hf|]. pose proof (q_f _ _ _ _ R') as H. rewrite Ep in H. cbn in H. unfold aux_ok in H. destruct hf; cbn; [apply H|rewrite H; reflexivity].
  - unfold padded_to_packed_idx. destruct (q_i _ _ _ _ R) as [E|E]; rewrite E.
    + rewrite (q_cnt _ _ _ _ R), (q_P _ _ _ _ R), p2p_seqs, sizes_length. fold (p2p_clouds (clouds a)).
      eexists; eexists. split; [reflexivity|]. split; [reflexivity|]. destruct R. constructor; cbn; auto.
    + eexists; exists c. split; [reflexivity|]. split; [reflexivity|exact R].
Qed.
End Features.
