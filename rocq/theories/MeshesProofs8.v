From Coq Require Import Sorted.
From Verif Require Import Base Packing PackingProofs PackOpsProofs RBase Geom FaceAreas FaceAreasSpec Meshes MeshesSpec MeshesHistSpec
  MeshesProofs MeshesProofs2 MeshesProofs3 MeshesProofs4 MeshesProofs5 MeshesProofs6 MeshesProofs7.
Local Open Scope nat_scope.

Lemma skip_skip {T} n : forall k (l : list T), skipn n (skipn k l) = skipn (n + k) l.
Proof.
  induction k as [|k IH]; intros l; [rewrite Nat.add_0_r; reflexivity|]. destruct l as [|x l]; [rewrite !skipn_nil; reflexivity|].
  rewrite Nat.add_succ_r. cbn [skipn]. apply IH.
Qed.

Section Batch.
Variable argsort : list Z -> list nat.
Hypothesis Hsort : sorts argsort.
Notation repr := (repr argsort).
Notation behaves := (behaves argsort).

Lemma repr_shows a m : wf_state a -> repr a m -> shows m (batch a).
Proof.
  intros Hw Rm. destruct (verts_list_ok argsort a m Hw Rm) as (m1 & E1 & R1 & _). destruct (faces_list_ok argsort a m1 Hw R1) as (m2 & E2 & _).
  exists m1, m2. auto.
Qed.
Lemma lists_ok a m : wf_state a -> repr a m -> exists m1 m2,
  verts_list m = Ok (map fst (batch a), m1) /\ faces_list m1 = Ok (map snd (batch a), m2) /\ repr a m2.
Proof.
  intros Hw Rm. destruct (verts_list_ok argsort a m Hw Rm) as (m1 & E1 & R1 & _). destruct (faces_list_ok argsort a m1 Hw R1) as (m2 & E2 & R2 & _).
  exists m1, m2. auto.
Qed.

(* new objects made from lists *)
Definition fresh (b : list mesh) (o : meshes) : Prop :=
  shows o b /\ mN o = length b /\ (has_a_face b -> wf_state (from_lists b) /\ repr (from_lists b) o).
Lemma new_fresh b : Forall good_mesh b -> exists o, new_list (map fst b) (map snd b) = Ok o /\ fresh b o.
Proof.
  intros Hg. destruct (shows_new_list b Hg) as (o & E & Hs & HN). exists o. split; [exact E|]. split; [exact Hs|]. split; [exact HN|].
  intros Hf. split; [apply from_lists_wf; assumption|]. destruct (new_list_repr argsort b Hg Hf) as (o' & E' & R' & _). congruence.
Qed.

Lemma pick_fst ix (b : list mesh) : pick (map fst b) ix = (a <- @pick mesh b ix ;; Ok (map fst a)).
Proof. exact (pick_map (T:=mesh) fst b ix). Qed.
Lemma pick_snd ix (b : list mesh) : pick (map snd b) ix = (a <- @pick mesh b ix ;; Ok (map snd a)).
Proof. exact (pick_map (T:=mesh) snd b ix). Qed.
Lemma getitem_ok ix m b b' : shows m b -> Forall good_mesh b -> selected ix b b' ->
  exists o m2, getitem ix m = Ok (o, m2) /\ fresh b' o /\ shows m2 b /\
    exists m1, verts_list m = Ok (map fst b, m1) /\ faces_list m1 = Ok (map snd b, m2).
Proof.
  intros Hs Hg Hsel. destruct (shows_twice m b Hs) as (m1 & m2 & E1 & E2 & Hs2 & _).
  destruct (new_fresh b') as (o & E & Hf). { eapply Forall_incl; [|exact Hg]. intros x. apply (selected_in ix b b' x Hsel). }
  exists o, m2. split; [|split; [exact Hf|split; [exact Hs2|eauto]]]. unfold getitem. rewrite E1. cbn [rbind]. rewrite E2. cbn [rbind]. rewrite pick_fst, pick_snd.
  apply pick_selected in Hsel. rewrite Hsel. cbn [rbind]. rewrite E. reflexivity.
Qed.
Lemma getitem_fail ix m b : shows m b -> (forall b', ~ selected ix b b') -> getitem ix m = Fail EIndex.
Proof.
  intros Hs Hn. destruct (shows_twice m b Hs) as (m1 & m2 & E1 & E2 & _).
  unfold getitem. rewrite E1. cbn [rbind]. rewrite E2. cbn [rbind]. rewrite pick_fst, pick_snd.
  destruct (pick b ix) as [b'|e] eqn:E; [apply pick_selected in E; destruct (Hn _ E)|]. cbn. f_equal. eapply pick_fail; exact E.
Qed.

Lemma flat_map_map {X Y} (g : X -> Y) n l : flat_map (fun p => repeat (g p) n) l = map g (flat_map (fun p => repeat p n) l).
Proof.
  induction l as [|x l IH]; cbn; [reflexivity|]. rewrite map_app, IH. f_equal. clear. induction n; cbn; [reflexivity|]. f_equal. assumption.
Qed.
Lemma extend_ok n m b : shows m b -> Forall good_mesh b -> (0 < n)%Z ->
  exists o m2, extend n m = Ok (o, m2) /\ fresh (flat_map (fun p => repeat p (Z.to_nat n)) b) o /\ shows m2 b.
Proof.
  intros Hs Hg Hn. destruct (shows_twice m b Hs) as (m1 & m2 & E1 & E2 & Hs2 & _).
  destruct (new_fresh (flat_map (fun p => repeat p (Z.to_nat n)) b)) as (o & E & Hf).
  { eapply Forall_incl; [|exact Hg]. intros x Hx. apply in_flat_map in Hx. destruct Hx as (y & Hy & Hx). apply repeat_spec in Hx. subst. exact Hy. }
  exists o, m2. split; [|split; assumption]. unfold extend. destruct (Z.leb_spec n 0); [lia|]. rewrite E1. cbn [rbind]. rewrite E2. cbn [rbind].
  cbv zeta. rewrite combine_split_map. rewrite (flat_map_map fst), (flat_map_map snd). unfold mesh in E. rewrite E. reflexivity.
Qed.
Lemma extend_face n b : 0 < n -> has_a_face b -> has_a_face (flat_map (fun p => repeat p n) b).
Proof.
  intros Hn (p & Hp & Hs). exists p. split; [|exact Hs]. apply in_flat_map. exists p. split; [exact Hp|]. destruct n; [lia|]. left. reflexivity.
Qed.

Lemma split_from_ok sizes : forall cur m b, shows m b -> Forall good_mesh b ->
  exists os m', split_from cur sizes m = Ok (os, m') /\ Forall2 fresh (chunks sizes (skipn cur b)) os /\ shows m' b.
Proof.
  induction sizes as [|n ss IH]; intros cur m b Hs Hg; cbn [split_from chunks].
  - exists [], m. auto.
  - destruct (getitem_ok (XSlice cur (cur + n)) m b (firstn n (skipn cur b)) Hs Hg) as (o & m2 & E & Hf & Hs2 & _).
    { cbn [selected]. do 2 f_equal. lia. }
    rewrite E. cbn [rbind]. destruct (IH (cur + n) m2 b Hs2 Hg) as (os & m3 & E3 & H3 & Hs3). rewrite E3. cbn [rbind].
    exists (o :: os), m3. split; [reflexivity|]. split; [|exact Hs3]. constructor; [exact Hf|].
    rewrite skip_skip, (Nat.add_comm n cur). exact H3.
Qed.
Lemma chunks_concat {T} sizes : forall (l : list T), sum_nat sizes = length l -> concat (chunks sizes l) = l /\ map (@length T) (chunks sizes l) = sizes.
Proof.
  induction sizes as [|n ss IH]; intros l H; cbn in H |- *.
  - destruct l; [auto|discriminate].
  - destruct (IH (skipn n l)) as (H1 & H2). { rewrite skipn_length. unfold sum_nat in *. lia. }
    rewrite H1, H2, firstn_skipn, firstn_length. split; [reflexivity|]. f_equal. unfold sum_nat in *. lia.
Qed.

Lemma join_ok ms bs : Forall2 shows ms bs -> Forall (Forall good_mesh) bs ->
  exists o, join_batch ms = Ok o /\ fresh (concat bs) o.
Proof.
  intros H Hg. unfold join_batch.
  assert (E1 : rmap (fun m => vm <- verts_list m ;; Ok (fst vm)) ms = Ok (map (map fst) bs) ).
  { induction H as [|m b ms bs (m1 & m2 & H1 & H2) _ IH]; cbn; [reflexivity|]. rewrite H1. cbn. rewrite IH by (inversion Hg; assumption). reflexivity. }
  assert (E2 : rmap (fun m => fm <- faces_list m ;; Ok (fst fm)) ms = Ok (map (map snd) bs) ).
  { clear E1 Hg. induction H as [|m b ms bs (m1 & m2 & H1 & H2) _ IH]; cbn; [reflexivity|].
    assert (E : exists m3, faces_list m = Ok (map snd b, m3)).
    { unfold verts_list in H1. destruct (verts_l m) as [l|] eqn:E. { injection H1 as _ <-. eauto. }
      destruct (verts_p m) as [p|]; [|discriminate]. destruct (unpad p (nverts m)) as [l|]; [|discriminate]. cbn in H1. injection H1 as _ <-.
      unfold faces_list in H2 |- *. cbn [set_verts_l faces_l faces_p nfaces] in H2. destruct (faces_l m) as [l'|]; [injection H2 as H2 _; rewrite H2; eauto|].
      destruct (faces_p m) as [p'|]; [|discriminate]. destruct (unpad p' (nfaces m)) as [l'|]; [|discriminate]. cbn [rbind] in *. injection H2 as H2 _. rewrite H2. eauto. }
    destruct E as (m3 & ->). cbn. rewrite IH. reflexivity. }
  rewrite E1. cbn [rbind]. rewrite E2. cbn [rbind]. rewrite <- !concat_map. apply new_fresh. apply Forall_concat. exact Hg.
Qed.

(* ---- histories ---- *)
Lemma scale_normals ss b : Forall good_mesh b -> length b <= length ss -> Forall (fun q => scale_safe (fst q) (snd q)) (combine ss b) ->
  normals_of (scale_batch ss b) = normals_of b.
Proof.
  intros Hg Hl Hs. rewrite !normals_split; [|exact Hg|].
  2:{ eapply same_shape_good; [apply scale_shape, Hl|exact Hg]. }
  f_equal. revert ss Hl Hs. induction b as [|p b IH]; intros [|s ss] Hl Hs; cbn [length] in Hl; try lia; try reflexivity.
  cbn [combine] in Hs. apply Forall_cons_iff in Hs. destruct Hs as (Hs1 & Hs2). apply Forall_cons_iff in Hg. destruct Hg as (Hg1 & Hg2).
  unfold scale_batch. cbn [combine map fst snd]. f_equal; [apply mesh_normals_scale; assumption|]. apply IH; try assumption. lia.
Qed.

Lemma step_ok o a a' m : wf_state a -> repr a m -> does o a a' ->
  exists m', apply argsort o m = Ok m' /\ repr a' m' /\ wf_state a'.
Proof.
  intros Hw Rm H. assert (Hg := proj1 Hw). destruct o as [q|o|s| |nv|ix|n]; cbn [does apply] in *.
  - subst a'. destruct (ask_tell argsort Hsort q a m Hw Rm) as (r & m' & E & _ & R'). rewrite E. cbn. eauto.
  - destruct o as [v|l].
    + subst a'. destruct (offset_ok argsort (OneOffset v) a m Hw Rm I) as (m' & E & R' & W'). eauto.
    + destruct H as (Hl & ->). destruct (offset_ok argsort (AllOffsets l) a m Hw Rm) as (m' & E & R' & W').
      { cbn. rewrite Hl. apply all_verts_length. } eauto.
  - destruct H as (Hl & Hs & ->). destruct (scale_ok argsort s a m Hw Rm) as (m' & E & R' & W').
    + exact Hl.
    + destruct Hs as [Hu|Hs]; [left; exact Hu|]. right; right. apply (scale_normals (scales s (batch a)) (batch a) Hg Hl Hs).
    + exists m'. auto.
  - subst a'. destruct (clone_ok argsort a m Hw Rm) as (m' & m1 & E & R' & _). rewrite E. cbn. eauto.
  - destruct H as (H1 & H2 & H3 & ->). destruct (update_ok argsort nv a m Hw Rm) as (m' & m1 & E & R' & W' & _). { split; auto. }
    rewrite E. cbn. eauto.
  - destruct H as (b' & Hsel & Hf & ->). destruct (getitem_ok ix m (batch a) b' (repr_shows a m Hw Rm) Hg Hsel) as (o & m2 & E & (_ & _ & F) & _).
    rewrite E. cbn. destruct (F Hf). eauto.
  - destruct H as (Hn & ->). destruct (extend_ok n m (batch a) (repr_shows a m Hw Rm) Hg Hn) as (o & m2 & E & (_ & _ & F) & _).
    rewrite E. cbn. destruct F; [|eauto]. apply extend_face; [lia|]. apply Hw.
Qed.

Lemma history_ok os a a' : history os a a' -> forall m, wf_state a -> repr a m ->
  exists m', run argsort os m = Ok m' /\ repr a' m' /\ wf_state a'.
Proof.
  induction 1 as [a|o os a a1 a2 Hd Hh IH]; intros m Hw Rm; cbn [run]; [eauto|].
  destruct (step_ok o a a1 m Hw Rm Hd) as (m' & E & R' & W'). rewrite E. cbn [rbind]. apply IH; assumption.
Qed.
Theorem repr_behaves a m : wf_state a -> repr a m -> behaves m a.
Proof.
  intros Hw Rm os a' Hh. destruct (history_ok os a a' Hh m Hw Rm) as (m' & E & R' & W'). exists m'. split; [exact E|].
  intros q. destruct (ask_tell argsort Hsort q a' m' W' R') as (r & m'' & E' & T & _). eauto.
Qed.
Lemma fresh_behaves b o : fresh b o -> has_a_face b -> behaves o (from_lists b).
Proof. intros (_ & _ & H) Hf. destruct (H Hf). apply repr_behaves; assumption. Qed.

(* constructors *)
Theorem list_behaves b : Forall good_mesh b -> has_a_face b -> exists m, new_list (map fst b) (map snd b) = Ok m /\ behaves m (from_lists b).
Proof. intros Hg Hf. destruct (new_fresh b Hg) as (o & E & F). exists o. split; [exact E|]. apply fresh_behaves; assumption. Qed.
Theorem padded_behaves b M D ft :
  Forall good_mesh b -> has_a_face b -> (forall p, In p b -> length (fst p) = M) ->
  length ft = length b -> Forall (Forall is_pad) ft -> Forall (fun r => length r = D) (zip_app (map snd b) ft) ->
  exists m, new_padded (Pad M (map fst b)) (Pad D (zip_app (map snd b) ft)) = Ok m /\ behaves m (A b (map (fun _ => []) b) ft None).
Proof.
  intros H1 H2 H3 H4 H5 H6. destruct (new_padded_repr argsort b M D ft H1 H2 H3 H4 H5 H6) as (m & E & W & Rm & _).
  exists m. split; [exact E|]. apply repr_behaves; assumption.
Qed.
Theorem list_normals_behaves b ns : Forall good_mesh b -> has_a_face b -> map (@length _) ns = vcount b ->
  exists m m', new_list (map fst b) (map snd b) = Ok m /\ set_verts_normals (NList ns) m = Ok m' /\
    behaves m' (A b (vtail (from_lists b)) (ftail (from_lists b)) (Some (concat ns))).
Proof.
  intros Hg Hf Hn. destruct (new_list_repr argsort b Hg Hf) as (m & E & Rm & _).
  destruct (user_normals_ok argsort (from_lists b) m ns (from_lists_wf b Hg Hf) Rm) as (m' & E' & R' & W').
  { rewrite <- (map_length (@length vec3) ns), Hn. apply vcount_length. } { exact Hn. }
  exists m, m'. split; [exact E|]. split; [exact E'|]. apply repr_behaves; assumption.
Qed.
(* the object that was copied or updated is unchanged *)
Theorem clone_both a m : wf_state a -> repr a m -> exists m' m1, clone m = Ok (m', m1) /\ behaves m' a /\ behaves m1 a.
Proof. intros Hw Rm. destruct (clone_ok argsort a m Hw Rm) as (m' & m1 & E & R' & R1). exists m', m1. split; [exact E|]. split; apply repr_behaves; assumption. Qed.
End Batch.
