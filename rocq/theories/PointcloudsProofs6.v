From Verif Require Import Base Packing PackingProofs PackOpsProofs RBase Geom FaceAreas FaceAreasSpec Meshes MeshesSpec MeshesHistSpec Pointclouds PointcloudsSpec.
From Verif Require Import MeshesProofs MeshesProofs4 MeshesProofs6 MeshesProofs7 MeshesProofs8 MeshesProofs9 PointcloudsProofs PointcloudsProofs2 PointcloudsProofs3 PointcloudsProofs4 PointcloudsProofs5.
Local Open Scope nat_scope.

Section Features.
Variable F : Type.
Variable fzero : F.
Notation row := (row F). Notation cloud := (cloud F). Notation pc := (pointclouds F). Notation cstate := (cstate F).
Local Arguments cN {F} _. Local Arguments cP {F} _. Local Arguments ceq {F} _. Local Arguments cvalid {F} _. Local Arguments counts {F} _.
Local Arguments pts_l {F} _. Local Arguments pts_p {F} _. Local Arguments nrm {F} _. Local Arguments fts {F} _. Local Arguments cpk {F} _. Local Arguments cp2p {F} _.
Local Arguments pos {F} _. Local Arguments nor {F} _. Local Arguments fea {F} _. Local Arguments sizes {F} _. Local Arguments largest {F} _. Local Arguments points_of {F} _.
Local Arguments column {F A} _ _ _. Local Arguments has_a_point {F} _. Local Arguments clouds {F} _. Local Arguments ppad {F} _. Local Arguments npad {F} _. Local Arguments fpad {F} _.
Local Arguments CS {F} _ _ _ _. Local Arguments points_list {F} _. Local Arguments normals_list {F} _. Local Arguments features_list {F} _.
Local Arguments vals {F A} _ _ _. Local Arguments col {F A} _ _ _ _. Local Arguments uni {F A} _ _ _. Local Arguments pads {F A} _ _.
Local Arguments cwf {F} _ _ _. Local Arguments crepr {F} _ _ _ _ _. Local Arguments aux_ok {F A} _ _ _ _ _ _ _. Local Arguments put {F A} _ _ _. Local Arguments rest {F A} _ _. Local Arguments fits {F A} _ _.
Local Arguments list_arg {F A} _ _ _. Local Arguments pad_arg {F A} _ _ _. Local Arguments full_batch {F} _.

Lemma f2len {A B} {P : A -> B -> Prop} {l l'} (H : Forall2 P l l') : length l = length l'.
Proof. induction H; cbn; congruence. Qed.
Local Arguments moved {F} _ _. Local Arguments fresh {F} _ _ _ _. Local Arguments updated {F} _ _ _ _. Local Arguments fits_opt {F A} _ _.
Local Arguments sampled {F} _ _ _ _. Local Arguments sampled_all {F} _ _ _ _. Local Arguments built {F} _ _ _ _ _. Local Arguments listed {F} _ _ _ _ _.

(* ---- every operation ---- *)
Theorem cstep_ok o a a' hn hf (c : pc) : cwf a hn hf -> crepr fzero a hn hf c -> cdoes F fzero o a a' ->
  exists c' hn' hf', capply F fzero o c = Ok c' /\ cwf a' hn' hf' /\ crepr fzero a' hn' hf' c'.
Proof.
  intros Hw R H. destruct o; cbn [cdoes capply] in *.
  - subst a'. destruct (cask_tell F fzero q a hn hf c Hw R) as (r & c' & E & _ & R'). rewrite E. exists c', hn, hf. auto.
  - destruct o as [v|l].
    + subst a'. assert (Hm : moved (clouds a) (map (map (move_to F (fun x => add3 x v))) (clouds a))) by apply (moved_map F (fun x => add3 x v)).
      destruct (offset_ok F fzero a hn hf c (OneOffset v) _ (map (map (move_to F (fun x => add3 x v))) (clouds a)) Hw R eq_refl) as (c' & E & R').
      * rewrite repeat_length, length_concat_sum, sizes_points. reflexivity.
      * exact Hm.
      * apply move_one_rows.
      * exists c', hn, hf. split; [exact E|]. split; [|exact R']. apply moved_wf; assumption.
    + destruct H as (Hl & ->). assert (Hm := moved_all F (clouds a) l Hl).
      destruct (offset_ok F fzero a hn hf c (AllOffsets l) _ (move_all F l (clouds a)) Hw R eq_refl) as (c' & E & R').
      * exact Hl.
      * exact Hm.
      * apply move_all_rows, Hl.
      * exists c', hn, hf. split; [exact E|]. split; [|exact R']. apply moved_wf; assumption.
  - destruct H as (Hs & ->). destruct (scale_ok F fzero a hn hf c s Hw R Hs) as (c' & E & R'). exists c', hn, hf. split; [exact E|]. split; [|exact R'].
    apply moved_wf; [exact Hw|]. apply moved_scaled, Hs.
  - subst a'. destruct (clone_ok F fzero a hn hf c Hw R) as (c1 & c2 & E & R1 & R2). rewrite E. exists c1, hn, hf. auto.
  - destruct H as (F1 & F2 & F3 & G1 & G2 & ->).
    destruct (update_ok F fzero a hn hf c np nn nf Hw R F1 F2 F3) as (c' & E & W' & R').
    + intros E1 E2. exfalso. specialize (G1 E1). apply (column_col F nor zero_row) in G1. destruct G1 as (h & U & Eh). destruct h; [discriminate|].
      rewrite (uni_unique F nor hn false _ (w_pt _ _ _ _ Hw) (w_nor _ _ _ _ Hw) U) in E2. discriminate.
    + intros E1 E2. exfalso. specialize (G2 E1). apply (column_col F fea fzero) in G2. destruct G2 as (h & U & Eh). destruct h; [discriminate|].
      rewrite (uni_unique F fea hf false _ (w_pt _ _ _ _ Hw) (w_fea _ _ _ _ Hw) U) in E2. discriminate.
    + eauto 10.
  - destruct H as (F1 & F2 & F3 & ->). destruct (cloud_padded_ok F fzero a hn hf c Hw R) as (c1 & E1 & R1 & P1 & _).
    unfold points_padded. rewrite E1. cbn [rbind]. rewrite P1. cbn [rbind snd].
    destruct (update_ok F fzero a hn hf c1 np nn nf Hw R1 F1 F2 F3) as (c' & E & W' & R'); try (intros; congruence). eauto 10.
  - destruct H as (b' & Hs & Hp & ->). destruct (getitem_ok F fzero a hn hf c ix b' Hw R Hs) as (o & c' & E & B & _). rewrite E. cbn.
    exists o, hn, hf. split; [reflexivity|]. assert (I : forall x, In x b' -> In x (clouds a)) by (intros x; apply (selected_in ix _ _ _ Hs)).
    apply built_repr; try assumption; eapply uni_incl; try exact I; apply Hw.
  - destruct H as (Hn & ->). destruct (extend_ok F fzero a hn hf c n Hw R Hn) as (o & c' & E & B & _). rewrite E. cbn [rbind fst].
    exists o, hn, hf. split; [reflexivity|]. apply built_repr; try assumption.
    + apply extend_point; [lia|apply Hw].
    + eapply uni_incl; [intros x; apply extend_in|apply Hw].
    + eapply uni_incl; [intros x; apply extend_in|apply Hw].
  - destruct H as (b' & Hs & Hp & D). destruct (subsample_ok F fzero a hn hf c mx keeps b' Hw R Hs) as (o & c' & E & R' & K). rewrite E. cbn [rbind fst].
    destruct D as [(-> & S & ->)|(S & ->)]; destruct K as [(S' & -> & E')|(S' & B)]; try contradiction.
    + exists c, hn, hf. auto.
    + exists o, hn, hf. split; [reflexivity|]. apply built_repr; try assumption; eapply sampled_incl; try exact Hs; apply Hw.
  - destruct H as (Fe & ->). destruct (assign_ok F fzero a hn hf c est Hw R Fe) as (c' & E & W' & R'). eauto 10.
Qed.
Theorem crun_ok os a a' : chistory F fzero os a a' -> forall hn hf (c : pc), cwf a hn hf -> crepr fzero a hn hf c ->
  exists c' hn' hf', crun F fzero os c = Ok c' /\ cwf a' hn' hf' /\ crepr fzero a' hn' hf' c'.
Proof.
  induction 1 as [a|o os a a' a'' Hd _ IH]; intros hn hf c Hw R; cbn [crun].
  - exists c, hn, hf. auto.
  - destruct (cstep_ok o a a' hn hf c Hw R Hd) as (c' & hn' & hf' & E & W' & R'). rewrite E. cbn [rbind]. eapply IH; eassumption.
Qed.
Theorem repr_behaves a hn hf (c : pc) : cwf a hn hf -> crepr fzero a hn hf c -> cbehaves F fzero c a.
Proof.
  intros Hw R os a' Hh. destruct (crun_ok os a a' Hh hn hf c Hw R) as (c' & hn' & hf' & E & W' & R'). exists c'. split; [exact E|].
  intros q. destruct (cask_tell F fzero q a' hn' hf' c' W' R') as (r & c'' & Eq & T & _). eauto.
Qed.
Theorem reachable_repr (c : pc) a : creachable F fzero c a -> exists hn hf, cwf a hn hf /\ crepr fzero a hn hf c.
Proof.
  induction 1 as [b gn gf c Hp Hn Hf E|b gn gf c Hp Hfull Hn Hf E|o c a c' a' _ (hn & hf & Hw & R) Hd E].
  - destruct (new_args F fzero b gn gf Hp Hn Hf) as (hn & hf & Un & Uf & E'). assert (c = fresh fzero hn hf b) as -> by congruence. exists hn, hf. apply fresh_repr; assumption.
  - destruct (new_padded F fzero b gn gf Hp Hfull Hn Hf) as (hn & hf & c' & E' & W & R). assert (c = c') as -> by congruence. eauto.
  - destruct (cstep_ok o a a' hn hf c Hw R Hd) as (c1 & hn' & hf' & E1 & W' & R'). assert (c' = c1) as -> by congruence. eauto.
Qed.
Theorem reachable_behaves (c : pc) a : creachable F fzero c a -> cbehaves F fzero c a.
Proof. intros H. destruct (reachable_repr c a H) as (hn & hf & Hw & R). eapply repr_behaves; eassumption. Qed.

Theorem ctell_unique q (a : cstate) r r' : has_a_point (clouds a) -> ctell F q a r -> ctell F q a r' -> r = r'.
Proof.
  intros Hp. assert (Un : forall o o', column nor (clouds a) o -> column nor (clouds a) o' -> o = o') by (intros o o'; apply (column_unique F nor zero_row); exact Hp).
  assert (Uf : forall o o', column fea (clouds a) o -> column fea (clouds a) o' -> o = o') by (intros o o'; apply (column_unique F fea fzero); exact Hp).
  destruct q, r; cbn; try contradiction; destruct r'; cbn; try contradiction; try congruence; try (intros H H'; f_equal; auto; fail);
    intros (o1 & H1 & ->) (o2 & H2 & ->); f_equal; first [rewrite (Un o1 o2 H1 H2)|rewrite (Uf o1 o2 H1 H2)]; reflexivity.
Qed.

(* ---- split ---- *)
Lemma split_ok sz : forall cur a hn hf (c : pc), cwf a hn hf -> crepr fzero a hn hf c ->
  exists os c', cloud_split_from F cur sz c = Ok (os, c') /\ crepr fzero a hn hf c' /\
    Forall2 (fun o b => built fzero o b hn hf) os (chunks sz (skipn cur (clouds a))).
Proof.
  induction sz as [|n sz IH]; intros cur a hn hf c Hw R; cbn [cloud_split_from chunks].
  - exists [], c. auto.
  - destruct (getitem_ok F fzero a hn hf c (XSlice cur (cur + n)) (firstn n (skipn cur (clouds a))) Hw R) as (o & c1 & E & B & R1).
    { cbn. f_equal. lia. }
    rewrite E. cbn [rbind]. destruct (IH (cur + n) a hn hf c1 Hw R1) as (os & c' & E' & R' & Hf). rewrite E'. cbn [rbind]. exists (o :: os), c'. split; [reflexivity|].
    split; [exact R'|]. constructor; [exact B|]. rewrite skip_skip, Nat.add_comm. exact Hf.
Qed.

(* ---- join ---- *)
Lemma join_col {A} (f : row -> option A) z h (bs : list (list cloud)) : bs <> [] -> join_field (map (col f z h) bs) = Ok (col f z h (concat bs)).
Proof.
  intros Hb. unfold join_field. destruct h.
  - replace (existsb is_none (map (col f z true) bs)) with false.
    + unfold col. f_equal. f_equal. unfold vals. rewrite concat_map, map_map. reflexivity.
    + symmetry. induction bs as [|b bs IH]; [contradiction|]. destruct bs; [reflexivity|]. cbn [map existsb]. cbn [col is_none orb]. apply IH. discriminate.
  - replace (existsb is_none (map (col f z false) bs)) with true by (destruct bs; [contradiction|reflexivity]).
    replace (forallb is_none (map (col f z false) bs)) with true; [reflexivity|]. symmetry. clear Hb. induction bs as [|b bs IH]; [reflexivity|]. cbn in *. exact IH.
Qed.
Lemma join_ok (l : list pc) (bs : list (list cloud)) hn hf : l <> [] -> Forall2 (fun c b => listed fzero c b hn hf) l bs ->
  exists o, join_clouds F l = Ok o /\ built fzero o (concat bs) hn hf.
Proof.
  intros Hl H. assert (Hb : bs <> []) by (intros ->; inversion H; subst; contradiction).
  assert (E1 : rmap (fun c => r <- points_list c ;; Ok (fst r)) l = Ok (map points_of bs)).
  { clear Hl Hb. induction H as [|c b l bs ((c1 & E1) & _ & _) _ IH]; [reflexivity|]. cbn [rmap map]. rewrite E1. cbn [rbind fst]. rewrite IH. reflexivity. }
  assert (E2 : rmap (fun c => r <- normals_list c ;; Ok (fst r)) l = Ok (map (col nor zero_row hn) bs)).
  { clear Hl Hb E1. induction H as [|c b l bs (_ & (c1 & E1) & _) _ IH]; [reflexivity|]. cbn [rmap map]. rewrite E1. cbn [rbind fst]. rewrite IH. reflexivity. }
  assert (E3 : rmap (fun c => r <- features_list c ;; Ok (fst r)) l = Ok (map (col fea fzero hf) bs)).
  { clear Hl Hb E1 E2. induction H as [|c b l bs (_ & _ & (c1 & E1)) _ IH]; [reflexivity|]. cbn [rmap map]. rewrite E1. cbn [rbind fst]. rewrite IH. reflexivity. }
  destruct (built_exists F fzero (concat bs) hn hf) as (o & B). exists o. split; [|exact B]. unfold join_clouds. destruct l as [|c0 l0]; [contradiction|]. 
  rewrite E1. cbn [rbind]. rewrite E2. cbn [rbind]. rewrite join_col by exact Hb. cbn [rbind]. rewrite E3. cbn [rbind]. rewrite join_col by exact Hb. cbn [rbind].
  unfold built in B. rewrite <- B. f_equal. unfold points_of. rewrite concat_map. reflexivity.
Qed.
Lemma shows_listed (c : pc) b hn hf : cshows F c b -> has_a_point b -> uni nor hn b -> uni fea hf b -> listed fzero c b hn hf.
Proof.
  intros (c1 & c2 & c3 & n & f & E1 & E2 & H2 & E3 & H3) Hp Un Uf.
  assert (n = col nor zero_row hn b) as -> by (eapply (column_unique F nor zero_row); [exact Hp|exact H2|apply col_column; exact Un]).
  assert (f = col fea fzero hf b) as -> by (eapply (column_unique F fea fzero); [exact Hp|exact H3|apply col_column; exact Uf]).
  split; [|split]; eauto.
Qed.
Lemma join_shows (l : list pc) (bs : list (list cloud)) : l <> [] -> Forall2 (cshows F) l bs -> Forall has_a_point bs -> uniform F (concat bs) ->
  exists o, join_clouds F l = Ok o /\ cbehaves F fzero o (of_lists F fzero (concat bs)).
Proof.
  intros Hl H Hp (Un & Uf). apply (column_uni F nor zero_row) in Un. apply (column_uni F fea fzero) in Uf. destruct Un as (hn & Un), Uf as (hf & Uf).
  assert (L : Forall2 (fun c b => listed fzero c b hn hf) l bs).
  { clear Hl. induction H as [|c b l bs Hc _ IH]; constructor; apply Forall_cons_iff in Hp; destruct Hp as (Hp1 & Hp2).
    - apply shows_listed; auto; unfold uni in *; cbn [concat] in *; [apply Forall_app in Un; apply Un|apply Forall_app in Uf; apply Uf].
    - apply IH; auto; unfold uni in *; cbn [concat] in *; [apply Forall_app in Un; apply Un|apply Forall_app in Uf; apply Uf]. }
  destruct (join_ok l bs hn hf Hl L) as (o & E & B). exists o. split; [exact E|].
  assert (P : has_a_point (concat bs)).
  { destruct H as [|c b l bs _ _]; [contradiction|]. apply Forall_cons_iff in Hp. destruct Hp as ((x & Hx & Hn) & _). exists x. split; [|exact Hn]. cbn. apply in_or_app. left. exact Hx. }
  destruct (built_repr F fzero o (concat bs) hn hf P Un Uf B) as (W & R). eapply repr_behaves; eassumption.
Qed.
(* objects with and without normals (features) cannot be joined *)
Lemma join_field_cases {A} (f : row -> option A) (z : A) (bs : list (list cloud)) os : Forall2 (column f) bs os ->
  join_field os = Fail EValue \/ exists o o', join_field os = Ok o /\ column f (concat bs) o'.
Proof.
  intros H. unfold join_field. destruct (existsb is_none os) eqn:E.
  - destruct (forallb is_none os) eqn:G; [|left; reflexivity]. right. exists None, None. split; [reflexivity|]. cbn. clear E. induction H as [|b o bs os Hb _ IH]; [constructor|].
    cbn in G. apply andb_true_iff in G. destruct G as (G1 & G2). destruct o; [discriminate|]. cbn. apply Forall_app. split; [exact Hb|apply IH; exact G2].
  - right. eexists. exists (Some (concat (map (fun o => match o with Some x => x | None => [] end) os))). split; [reflexivity|]. cbn.
    induction H as [|b o bs os Hb _ IH]; [constructor|]. cbn in E. apply orb_false_iff in E. destruct E as (E1 & E2). destruct o as [ls|]; [|discriminate]. cbn. apply Forall2_app; [exact Hb|apply IH; exact E2].
Qed.
Lemma join_mixed (l : list pc) (bs : list (list cloud)) : Forall2 (cshows F) l bs -> ~ uniform F (concat bs) -> join_clouds F l = Fail EValue.
Proof.
  intros H HU.
  assert (E1 : rmap (fun c => r <- points_list c ;; Ok (fst r)) l = Ok (map points_of bs)).
  { clear HU. induction H as [|c b l bs (c1 & c2 & c3 & n & f & E1 & _) _ IH]; [reflexivity|]. cbn [rmap map]. rewrite E1. cbn [rbind fst]. rewrite IH. reflexivity. }
  assert (E2 : exists ns, rmap (fun c => r <- normals_list c ;; Ok (fst r)) l = Ok ns /\ Forall2 (column nor) bs ns).
  { clear HU E1. induction H as [|c b l bs (c1 & c2 & c3 & n & f & E1 & E2 & H2 & E3 & H3) _ IH]; [exists []; auto|]. destruct IH as (ns & E & Hn). exists (n :: ns). cbn [rmap map]. rewrite E2. cbn [rbind fst]. rewrite E. auto. }
  assert (E3 : exists fs, rmap (fun c => r <- features_list c ;; Ok (fst r)) l = Ok fs /\ Forall2 (column fea) bs fs).
  { clear HU E1 E2. induction H as [|c b l bs (c1 & c2 & c3 & n & f & E1 & E2 & H2 & E3 & H3) _ IH]; [exists []; auto|]. destruct IH as (ns & E & Hn). exists (f :: ns). cbn [rmap map]. rewrite E3. cbn [rbind fst]. rewrite E. auto. }
  destruct E2 as (ns & E2 & Hn). destruct E3 as (fs & E3 & Hf). unfold join_clouds. destruct l as [|c0 l0].
  - exfalso. apply HU. inversion H; subst. split; exists None; constructor.
  - rewrite E1. cbn [rbind]. rewrite E2. cbn [rbind]. destruct (join_field_cases nor zero_row bs ns Hn) as [->|(o & o' & -> & Cn)]; [reflexivity|]. cbn [rbind].
    rewrite E3. cbn [rbind]. destruct (join_field_cases fea fzero bs fs Hf) as [->|(p & p' & -> & Cf)]; [reflexivity|]. exfalso. apply HU. split; eauto.
Qed.

(* ---- scene ---- *)
Lemma one_pad {A} (f : row -> option A) z h (b : list cloud) : uni f h b ->
  pad_arg f [concat b] (match option_map (@concat A) (col f z h b) with None => GNone | Some l => GPad (Pad (length l) [l]) end).
Proof.
  intros U. assert (U1 : uni f h [concat b]).
  { constructor; [|constructor]. induction U as [|c b Hc _ IH]; [constructor|]. cbn. apply Forall_app. split; [exact Hc|exact IH]. }
  destruct h; cbn [col option_map].
  - right. exists (vals f z [concat b]). split; [apply (col_column F f z true _ U1)|]. unfold vals. cbn [map]. rewrite concat_map. f_equal. f_equal.
    unfold largest, sizes. cbn. rewrite Nat.max_0_r. rewrite <- concat_map, map_length. reflexivity.
  - left. split; [reflexivity|]. apply (col_column F f z false _ U1).
Qed.
Lemma scene_ok a hn hf (c : pc) : cwf a hn hf -> crepr fzero a hn hf c ->
  exists o, join_clouds_scene F c = Ok o /\
    cbehaves F fzero o (if length (clouds a) =? 1 then a else no_pad F [concat (clouds a)]).
Proof.
  intros Hw R. unfold join_clouds_scene. rewrite (q_N _ _ _ _ _ _ R). destruct (length (clouds a) =? 1); [exists c; split; [reflexivity|]; eapply repr_behaves; eassumption|].
  unfold points_packed, features_packed, normals_packed.
  destruct (from_packed_ok F fzero a hn hf c (cp_points F) Hw R) as (c1 & E1 & R1 & _). rewrite E1. cbn [rbind].
  destruct (from_packed_ok F fzero a hn hf c1 (cp_feats F) Hw R1) as (c2 & E2 & R2 & _). rewrite E2. cbn [rbind].
  destruct (from_packed_ok F fzero a hn hf c2 (cp_normals F) Hw R2) as (c3 & E3 & R3 & _). rewrite E3. cbn [rbind packed_clouds cp_points cp_feats cp_normals].
  assert (Ep : Pad (length (concat (points_of (clouds a)))) [concat (points_of (clouds a))] = Pad (largest [concat (clouds a)]) (points_of [concat (clouds a)])).
  { unfold largest, sizes, points_of. cbn. rewrite <- concat_map, map_length, Nat.max_0_r. reflexivity. }
  destruct (w_pt _ _ _ _ Hw) as (k & Hk & Hne).
  assert (P : has_a_point [concat (clouds a)]).
  { exists (concat (clouds a)). split; [left; reflexivity|]. intros Z. apply Hne. destruct k as [|r k]; [reflexivity|]. exfalso.
    assert (I : In r (concat (clouds a))) by (apply in_concat; exists (r :: k); split; [exact Hk|left; reflexivity]). unfold PointcloudsSpec.cloud in *. rewrite Z in I. destruct I. }
  assert (Fu : full_batch [concat (clouds a)]).
  { intros x [<-|[]]. unfold largest, sizes. cbn. rewrite Nat.max_0_r. reflexivity. }
  destruct (new_padded F fzero [concat (clouds a)] _ _ P Fu (one_pad nor zero_row hn (clouds a) (w_nor _ _ _ _ Hw)) (one_pad fea fzero hf (clouds a) (w_fea _ _ _ _ Hw))) as (hn' & hf' & o & E & W & R').
  rewrite Ep. exists o. split; [exact E|]. eapply repr_behaves; eassumption.
Qed.

(* ---- get_cloud, boxes ---- *)
Lemma py_nth_ok {T} (l : list T) i x : (0 <= i)%Z -> nth_error l (Z.to_nat i) = Some x -> py_nth l i = Ok x.
Proof. intros H E. apply py_nth_index. left. auto. Qed.
Lemma get_cloud_ok a hn hf (c : pc) i k : cwf a hn hf -> crepr fzero a hn hf c -> (0 <= i)%Z -> nth_error (clouds a) (Z.to_nat i) = Some k ->
  get_cloud F i c = Ok (map pos k, option_map (fun b => concat b) (col nor zero_row hn [k]), option_map (fun b => concat b) (col fea fzero hf [k])).
Proof.
  intros Hw R Hi Hk. unfold get_cloud. assert (L : Z.to_nat i < length (clouds a)) by (apply nth_error_Some; congruence).
  rewrite (q_N _ _ _ _ _ _ R). replace (i <? 0)%Z with false by (symmetry; apply Z.ltb_ge; lia). replace (Z.of_nat (length (clouds a)) <? i)%Z with false by (symmetry; apply Z.ltb_ge; lia). cbn [orb].
  destruct (lists_all F fzero a hn hf c Hw R) as (c1 & c2 & c3 & E1 & E2 & E3 & _).
  rewrite E1. cbn [rbind]. rewrite (py_nth_ok (points_of (clouds a)) i (map pos k) Hi) by (unfold points_of; apply map_nth_error; exact Hk). cbn [rbind].
  assert (N : forall A (f : row -> option A) z h, nth_opt (col f z h (clouds a)) i = Ok (option_map (fun b => concat b) (col f z h [k]))).
  { intros A f z h. destruct h; [|reflexivity]. cbn [col nth_opt]. rewrite (py_nth_ok (vals f z (clouds a)) i (map (fun r => dflt z (f r)) k) Hi) by (unfold vals; apply (map_nth_error (map (fun r => dflt z (f r)))); exact Hk).
    cbn. rewrite app_nil_r. reflexivity. }
  rewrite E2. cbn [rbind]. rewrite N. cbn [rbind]. rewrite E3. cbn [rbind]. rewrite N. reflexivity.
Qed.
Lemma get_cloud_out a hn hf (c : pc) i : cwf a hn hf -> crepr fzero a hn hf c ->
  ((i < 0 \/ Z.of_nat (length (clouds a)) < i)%Z -> get_cloud F i c = Fail EValue) /\ (i = Z.of_nat (length (clouds a)) -> get_cloud F i c = Fail EIndex).
Proof.
  intros Hw R. unfold get_cloud. rewrite (q_N _ _ _ _ _ _ R). split.
  - intros H. replace ((i <? 0)%Z || (Z.of_nat (length (clouds a)) <? i)%Z) with true; [reflexivity|]. symmetry. apply orb_true_iff. destruct H; [left; apply Z.ltb_lt|right; apply Z.ltb_lt]; lia.
  - intros ->. replace (Z.of_nat (length (clouds a)) <? 0)%Z with false by (symmetry; apply Z.ltb_ge; lia). rewrite Z.ltb_irrefl. cbn [orb].
    destruct (lists_all F fzero a hn hf c Hw R) as (c1 & c2 & c3 & E1 & _). rewrite E1. cbn [rbind].
    destruct (py_nth (points_of (clouds a)) (Z.of_nat (length (clouds a)))) as [x|e] eqn:E.
    + exfalso. apply py_nth_index in E. destruct E as [(_ & E)|(E & _)]; [|lia]. assert (H : Z.to_nat (Z.of_nat (length (clouds a))) < length (points_of (clouds a))) by (apply nth_error_Some; congruence).
      rewrite points_length in H. lia.
    + apply py_nth_fail in E. subst. reflexivity.
Qed.
Lemma cloud_boxes_ok a hn hf (c : pc) : cwf a hn hf -> crepr fzero a hn hf c -> Forall (fun k => k <> []) (clouds a) ->
  exists boxes, cloud_boxes F c = Ok boxes /\ Forall2 (fun k box => box_of (map pos k) box) (clouds a) boxes.
Proof.
  intros Hw R Hne. destruct (points_list_ok F fzero a hn hf c Hw R) as (c1 & E1 & _). unfold cloud_boxes. rewrite E1. cbn [rbind fst].
  assert (G : exists boxes, rmap bbox (points_of (clouds a)) = Ok boxes /\ Forall2 (fun k box => box_of (map pos k) box) (clouds a) boxes).
  { unfold points_of. clear - Hne. induction Hne as [|k b Hk _ IH]; [exists []; auto|]. destruct IH as (boxes & E & H). destruct (bbox_ok (map pos k)) as (box & Eb & Hb); [destruct k; [contradiction|discriminate]|].
    exists (box :: boxes). cbn [map rmap]. rewrite Eb. cbn [rbind]. rewrite E. auto. }
  destruct G as (boxes & E & H). exists boxes. split; [|exact H]. pose proof (point_nonempty F _ (w_pt _ _ _ _ Hw)). destruct (points_of (clouds a)) eqn:Z; [|exact E].
  destruct (clouds a); [contradiction|discriminate].
Qed.

Lemma box_bad_spec b : box_bad b = false <-> proper_box b.
Proof.
  unfold box_bad, proper_box. rewrite !orb_false_iff. destruct (Rltb_spec (x3 (snd b)) (x3 (fst b))), (Rltb_spec (y3 (snd b)) (y3 (fst b))), (Rltb_spec (z3 (snd b)) (z3 (fst b))); split; intros H; try (decompose [and] H; discriminate); repeat split; lra.
Qed.
Lemma in_box_spec b p : in_box b p = true <-> inside b p.
Proof.
  unfold in_box, inside. rewrite !andb_true_iff. destruct (Rleb_spec (x3 (fst b)) (x3 p)), (Rleb_spec (x3 p) (x3 (snd b))), (Rleb_spec (y3 (fst b)) (y3 p)), (Rleb_spec (y3 p) (y3 (snd b))), (Rleb_spec (z3 (fst b)) (z3 p)), (Rleb_spec (z3 p) (z3 (snd b)));
    split; intros H; try (decompose [and] H; discriminate); repeat split; lra.
Qed.
Definition box_list (g : box_arg) : list (vec3 * vec3) := match g with BoxOne b => [b] | BoxEach l => l end.
Definition answers (bs : list (vec3 * vec3)) (b : list cloud) : list (list bool) :=
  map (fun q => map (fun r => in_box (snd q) (pos r)) (fst q)) (combine b bs).
Lemma answers_ok (b : list cloud) bs : Forall2 (fun q l => Forall2 (fun r v => v = true <-> inside (snd q) (pos r)) (fst q) l) (combine b bs) (answers bs b).
Proof.
  unfold answers. induction (combine b bs) as [|q l IH]; cbn; constructor; [|exact IH]. destruct q as (k0 & box); cbn [fst snd]; unfold PointcloudsSpec.cloud in *; induction k0 as [|r k IHk]; cbn; constructor; [apply in_box_spec|exact IHk].
Qed.
Lemma inside_rows (b : list cloud) : forall bs, length bs = length b ->
  map (fun bp => in_box (fst bp) (snd bp)) (combine (concat (map (fun bp => repeat (fst bp) (snd bp)) (combine bs (sizes b)))) (concat (points_of b))) = concat (answers bs b).
Proof.
  induction b as [|c b IH]; intros [|x bs] H; try discriminate; [reflexivity|]. change (sizes (c :: b)) with (@length row c :: sizes b). unfold points_of, answers in *. cbn [combine map concat fst snd].
  rewrite combine_app_len by (rewrite repeat_length, map_length; reflexivity). rewrite map_app, IH by (injection H; auto). f_equal. clear.
  induction c as [|r c IH]; [reflexivity|]. cbn. rewrite IH. reflexivity.
Qed.
Lemma boxes_length (b : list cloud) : forall bs : list (vec3 * vec3), length bs = length b -> length (concat (map (fun bp => repeat (fst bp) (snd bp)) (combine bs (sizes b)))) = length (concat (points_of b)).
Proof.
  induction b as [|c b IH]; intros [|x bs] H; try discriminate; [reflexivity|]. change (sizes (c :: b)) with (@length row c :: sizes b). unfold points_of in *. cbn [combine map concat fst snd].
  rewrite !app_length, IH by (injection H; auto). rewrite repeat_length, map_length. reflexivity.
Qed.
Lemma repeat_boxes (x : vec3 * vec3) (b : list cloud) : repeat x (length (concat (points_of b))) = concat (map (fun bp => repeat (fst bp) (snd bp)) (combine (repeat x (length b)) (sizes b))).
Proof.
  induction b as [|c b IH]; [reflexivity|]. change (sizes (c :: b)) with (@length row c :: sizes b). unfold points_of in *. cbn [length repeat combine map concat fst snd].
  rewrite app_length, repeat_app, IH, map_length. reflexivity.
Qed.
Lemma inside_box_ok a hn hf (c : pc) g : cwf a hn hf -> crepr fzero a hn hf c ->
  (length (box_list g) = 1 \/ length (box_list g) = length (clouds a)) -> Forall proper_box (box_list g) ->
  exists c', inside_box F g c = Ok (concat (answers (boxes_for F g (clouds a)) (clouds a)), c') /\ crepr fzero a hn hf c'.
Proof.
  intros Hw R Hl Hp. unfold inside_box. fold (box_list g). rewrite (q_N _ _ _ _ _ _ R).
  replace (negb (length (box_list g) =? 1) && negb (length (box_list g) =? length (clouds a))) with false by (destruct Hl as [-> | ->]; rewrite Nat.eqb_refl; cbn; [reflexivity|rewrite andb_false_r; reflexivity]).
  replace (existsb box_bad (box_list g)) with false.
  2:{ symmetry. clear Hl. induction Hp as [|b l Hb _ IH]; [reflexivity|]. cbn. rewrite IH. apply box_bad_spec in Hb. rewrite Hb. reflexivity. }
  unfold points_packed. destruct (from_packed_ok F fzero a hn hf c (cp_points F) Hw R) as (c1 & E1 & R1 & _). rewrite E1. cbn [rbind packed_clouds cp_points].
  exists c1. split; [|exact R1]. pose proof (point_nonempty F _ (w_pt _ _ _ _ Hw)) as Hne.
  assert (B : match box_list g with [] => Fail ERuntime | [b] => Ok (repeat b (length (concat (points_of (clouds a))))) | _ => Ok (concat (map (fun bp => repeat (fst bp) (snd bp)) (combine (box_list g) (counts c1)))) end
     = Ok (concat (map (fun bp => repeat (fst bp) (snd bp)) (combine (boxes_for F g (clouds a)) (sizes (clouds a))))) /\ length (boxes_for F g (clouds a)) = length (clouds a)).
  { rewrite (q_cnt _ _ _ _ _ _ R1). destruct g as [b|[|b [|b' l]]]; cbn [box_list boxes_for].
    - rewrite repeat_boxes, repeat_length. auto.
    - cbn in Hl. destruct (clouds a); [contradiction|cbn in Hl; lia].
    - rewrite repeat_boxes, repeat_length. auto.
    - split; [reflexivity|]. cbn in Hl. cbn. destruct Hl; [lia|assumption]. }
  destruct B as (B1 & B2). rewrite B1. cbn [rbind]. rewrite boxes_length by exact B2. rewrite Nat.eqb_refl. cbn [negb]. rewrite inside_rows by exact B2. reflexivity.
Qed.
Lemma inside_box_bad a hn hf (c : pc) g : crepr fzero a hn hf c ->
  (length (box_list g) <> 1 /\ length (box_list g) <> length (clouds a)) \/ (Exists (fun b => ~ proper_box b) (box_list g)) -> inside_box F g c = Fail EValue.
Proof.
  intros R H. unfold inside_box. fold (box_list g). rewrite (q_N _ _ _ _ _ _ R). destruct H as [(H1 & H2)|H].
  - apply Nat.eqb_neq in H1, H2. rewrite H1, H2. reflexivity.
  - destruct (negb (length (box_list g) =? 1) && negb (length (box_list g) =? length (clouds a))); [reflexivity|].
    replace (existsb box_bad (box_list g)) with true; [reflexivity|]. symmetry. induction H as [b l Hb|b l _ IH]; cbn.
    + destruct (box_bad b) eqn:E; [reflexivity|]. apply box_bad_spec in E. contradiction.
    + rewrite IH. apply orb_true_r.
Qed.

(* ---- np.random.choice always gives a sample ---- *)
Lemma choice_sampled mx : forall keeps (b : list cloud), length mx = length b -> length keeps = length b ->
  (forall i c m k, nth_error b i = Some c -> nth_error mx i = Some m -> nth_error keeps i = Some k -> m < @length row c -> length k = m /\ NoDup k /\ Forall (fun j => j < @length row c) k) ->
  exists b', sampled_all mx keeps b b' /\ sizes b' = map (fun q => Nat.min (@length row (fst q)) (snd q)) (combine b mx).
Proof.
  induction mx as [|m mx IH]; intros [|k keeps] [|c b] H1 H2 H; try discriminate.
  - exists []. split; [constructor|reflexivity].
  - destruct (IH keeps b) as (b' & Hs & Hz); [injection H1; auto|injection H2; auto|intros i; apply (H (S i))|].
    assert (E : exists c', sampled m k c c' /\ length c' = Nat.min (@length row c) m).
    { destruct (Nat.le_gt_cases (@length row c) m) as [L|L].
      - exists c. split; [left; auto|]. rewrite Nat.min_l by exact L. reflexivity.
      - destruct (H 0 c m k eq_refl eq_refl eq_refl L) as (K1 & K2 & K3).
        assert (X : exists c', Forall2 (fun i r => nth_error c i = Some r) k c').
        { clear - K3. induction K3 as [|j k Hj _ IH]; [exists []; constructor|]. destruct IH as (c' & Hc). destruct (nth_error c j) as [r|] eqn:E; [|apply nth_error_None in E; unfold PointcloudsSpec.cloud in *; lia].
          exists (r :: c'). constructor; assumption. }
        destruct X as (c' & Hc). exists c'. split; [right; auto|]. rewrite <- (f2len Hc), K1. unfold PointcloudsSpec.cloud in *. lia. }
    destruct E as (c' & Hc & Lc). exists (c' :: b'). split; [constructor; assumption|]. change (sizes (c' :: b')) with (@length row c' :: sizes b'). cbn [combine map fst snd]. rewrite Hz. f_equal. exact Lc.
Qed.
End Features.
