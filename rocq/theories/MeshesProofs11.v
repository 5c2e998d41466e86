From Coq Require Import Sorted Permutation.
From Verif Require Import Base Packing PackingProofs PackOpsProofs RBase Geom FaceAreas FaceAreasSpec Meshes MeshesSpec MeshesHistSpec
  MeshesProofs MeshesProofs2 MeshesProofs3 MeshesProofs4 MeshesProofs5 MeshesProofs6 MeshesProofs7 MeshesProofs8 MeshesProofs9 MeshesProofs10.
Local Open Scope nat_scope.

(* ---- an answer is determined by the state ---- *)
Lemma own_edges_unique b : forall Es Es', own_edges b Es -> own_edges b Es' -> Es = Es'.
Proof.
  induction b as [|p b IH]; intros Es Es' H H'; inversion H; subst; inversion H'; subst; [reflexivity|].
  f_equal; [eapply edge_list_unique; eassumption|]. apply IH; assumption.
Qed.
Lemma pieces_unique {T} sizes (l : list T) ls ls' : pieces sizes l ls -> pieces sizes l ls' -> ls = ls'.
Proof.
  intros (H1 & H2) (H1' & H2'). pose proof (packed_to_list_inverse ls) as E. pose proof (packed_to_list_inverse ls') as E'. congruence.
Qed.
Lemma nodup_nth {T} (l : list T) i j x : NoDup l -> nth_error l i = Some x -> nth_error l j = Some x -> i = j.
Proof.
  intros H Hi Hj. eapply NoDup_nth_error; [exact H| |congruence]. apply nth_error_Some. congruence.
Qed.
Lemma opposite_unique E f t t' : NoDup E -> opposite_edges E f t -> opposite_edges E f t' -> t = t'.
Proof.
  intros Hn. destruct f as ((a, b), c), t as ((i, j), k), t' as ((i', j'), k'). cbn.
  intros ((P1 & P2 & P3) & H1 & H2 & H3) ((P1' & P2' & P3') & H1' & H2' & H3').
  pose proof (nodup_nth _ _ _ _ Hn H1 H1'). pose proof (nodup_nth _ _ _ _ Hn H2 H2'). pose proof (nodup_nth _ _ _ _ Hn H3 H3'). repeat f_equal; lia.
Qed.
Lemma Forall2_unique {X Y} (P : X -> Y -> Prop) : (forall x y y', P x y -> P x y' -> y = y') -> forall l l1 l2, Forall2 P l l1 -> Forall2 P l l2 -> l1 = l2.
Proof. intros H. induction l as [|x l IH]; intros l1 l2 H1 H2; inversion H1; subst; inversion H2; subst; [reflexivity|]. f_equal; eauto. Qed.
Lemma pad_unique {T} (p p' : padded T) : rows p = rows p' -> rows p <> [] -> Forall (fun r => length r = dim1 p) (rows p) ->
  Forall (fun r => length r = dim1 p') (rows p') -> p = p'.
Proof.
  destruct p as [d r], p' as [d' r']. cbn. intros <- Hn H H'. f_equal. destruct r as [|x r]; [contradiction|].
  apply Forall_cons_iff in H, H'. destruct H, H'. congruence.
Qed.
Theorem tell_unique q a r r' : wf_state a -> tell q a r -> tell q a r' -> r = r'.
Proof.
  intros Hw. pose proof (wf_nonempty a Hw) as Hne. destruct q; destruct r; cbn; try tauto; destruct r'; try tauto; try (intros; congruence).
  - intros (E1 & _ & H1) (E2 & _ & H2). f_equal. apply pad_unique; [congruence| |assumption|assumption]. rewrite E1.
    intros H. apply (f_equal (@length _)) in H. rewrite zip_app_length, map_length in H; [destruct (batch a); [contradiction|discriminate]|]. rewrite map_length. symmetry. apply Hw.
  - intros (E1 & H1) (E2 & H2). f_equal. apply pad_unique; [congruence| |assumption|assumption]. rewrite E1.
    intros H. apply (f_equal (@length _)) in H. rewrite zip_app_length, map_length in H; [destruct (batch a); [contradiction|discriminate]|]. rewrite map_length. symmetry. apply Hw.
  - intros (H1 & _) (H2 & _). f_equal. eapply edge_list_unique; eassumption.
  - intros (Es & H1 & ->) (Es' & H2 & ->). rewrite (own_edges_unique _ _ _ H1 H2). reflexivity.
  - intros (Es & H1 & ->) (Es' & H2 & ->). rewrite (own_edges_unique _ _ _ H1 H2). reflexivity.
  - intros (Es & H1 & ->) (Es' & H2 & ->). rewrite (own_edges_unique _ _ _ H1 H2). reflexivity.
  - intros (E & l & HE & -> & Hl) (E' & l' & HE' & -> & Hl'). assert (E' = E) by (eapply edge_list_unique; eassumption). subst E'. do 2 f_equal.
    eapply Forall2_unique; [|exact Hl|exact Hl']. intros f t t'. apply opposite_unique, lex_sorted_nodup, HE.
  - intros H1 H2. f_equal. eapply pieces_unique; eassumption.
  - intros (ls & H1 & ->) (ls' & H2 & ->). f_equal. f_equal. eapply pieces_unique; eassumption.
  - intros (E & HE & ->) (E' & HE' & ->). assert (E' = E) by (eapply edge_list_unique; eassumption). subst E'. reflexivity.
Qed.

(* ---- editing and rebuilding ---- *)
Lemma state_of_shape b b' : same_shape b b' -> A b' (vtail (from_lists b)) (ftail (from_lists b)) None = from_lists b'.
Proof. intros H. unfold from_lists. cbn [vtail ftail]. rewrite (same_shape_fcount b b' H). destruct H as (_ & ->). reflexivity. Qed.
Lemma edit_from_lists o b a' : edit o -> does o (from_lists b) a' -> exists b', same_shape b b' /\ a' = from_lists b'.
Proof.
  assert (Hrefl : same_shape b b) by (split; reflexivity).
  destruct o as [q|o|s| |nv|ix|n]; cbn [edit does]; try tauto; intros _.
  - intros ->. exists b. auto.
  - destruct o as [v|l].
    + intros ->. exists (shift_one v b). split; [apply shift_one_shape|]. apply state_of_shape, shift_one_shape.
    + intros (H & ->). assert (S : same_shape b (shift_all l b)) by (apply shift_all_shape; rewrite H; apply all_verts_length).
      exists (shift_all l b). split; [exact S|]. apply state_of_shape, S.
  - intros (H & _ & ->). pose proof (scale_shape _ _ H) as S. exists (scale_batch (scales s b) b). split; [exact S|]. apply state_of_shape, S.
  - intros ->. exists b. auto.
Qed.
Lemma edits_from_lists os a a' : history os a a' -> Forall edit os -> forall b, a = from_lists b -> exists b', same_shape b b' /\ a' = from_lists b'.
Proof.
  induction 1 as [a|o os a a1 a2 Hd _ IH]; intros He b Hb.
  - exists b. split; [split; reflexivity|exact Hb].
  - apply Forall_cons_iff in He. destruct He as (Ho & He). subst a. destruct (edit_from_lists o b a1 Ho Hd) as (b1 & S1 & E1).
    destruct (IH He b1 E1) as (b2 & (S2 & S2') & E2). exists b2. split; [|exact E2]. destruct S1 as (S1 & S1'). split; congruence.
Qed.
Section Rebuild.
Variable argsort : list Z -> list nat.
Hypothesis Hsort : sorts argsort.
Theorem edit_rebuild b os a' m : Forall good_mesh b -> has_a_face b -> new_list (map fst b) (map snd b) = Ok m ->
  Forall edit os -> history os (from_lists b) a' ->
  exists me mf, run argsort os m = Ok me /\ new_list (map fst (batch a')) (map snd (batch a')) = Ok mf /\
    forall q, exists r me' mf', ask argsort q me = Ok (r, me') /\ ask argsort q mf = Ok (r, mf').
Proof.
  intros Hg Hf E He Hh. destruct (edits_from_lists os _ a' Hh He b eq_refl) as (b' & S & ->). cbn [batch from_lists].
  destruct (new_list_repr argsort b Hg Hf) as (o & Eo & Ro & _). assert (o = m) by congruence. subst o.
  destruct (history_ok argsort Hsort os _ _ Hh m (from_lists_wf b Hg Hf) Ro) as (me & Er & Re & We).
  destruct (new_list_repr argsort b') as (mf & Ef & Rf & _); [apply We|apply We|].
  exists me, mf. split; [exact Er|]. split; [exact Ef|]. intros q.
  destruct (ask_tell argsort Hsort q _ me We Re) as (r & me' & E1 & T1 & _).
  destruct (ask_tell argsort Hsort q _ mf We Rf) as (r' & mf' & E2 & T2 & _).
  rewrite (tell_unique q _ r' r We T2 T1) in E2. eauto.
Qed.
End Rebuild.

(* ---- a sorting function exists ---- *)
Fixpoint ins (l : list Z) (i : nat) (js : list nat) : list nat :=
  match js with [] => [i] | j :: js' => if (nth i l 0 <=? nth j l 0)%Z then i :: js else j :: ins l i js' end.
Definition some_argsort (l : list Z) : list nat := fold_right (ins l) [] (seq 0 (length l)).
Lemma ins_perm l i js : Permutation (ins l i js) (i :: js).
Proof. induction js as [|j js IH]; cbn; [apply Permutation_refl|]. destruct (_ <=? _)%Z; [apply Permutation_refl|]. rewrite IH. apply perm_swap. Qed.
Lemma ins_sorted l i js : StronglySorted Z.le (map (fun i => nth i l 0%Z) js) -> StronglySorted Z.le (map (fun i => nth i l 0%Z) (ins l i js)).
Proof.
  induction js as [|j js IH]; intros H; cbn; [repeat constructor|]. cbn in H. apply StronglySorted_inv in H. destruct H as (H1 & H2).
  destruct (Z.leb_spec (nth i l 0%Z) (nth j l 0%Z)); cbn.
  - constructor; [constructor; assumption|]. constructor; [lia|]. eapply Forall_impl; [|exact H2]. intros; cbn in *; lia.
  - constructor; [apply IH, H1|]. apply Forall_forall. intros x Hx. apply in_map_iff in Hx. destruct Hx as (k & <- & Hk).
    apply (Permutation_in _ (ins_perm l i js)) in Hk. destruct Hk as [<-|Hk]; [lia|]. rewrite Forall_forall in H2. apply H2. apply in_map_iff. eauto.
Qed.
Lemma some_argsort_sorts : sorts some_argsort.
Proof.
  intros l. unfold some_argsort. induction (seq 0 (length l)) as [|i js IH]; cbn; [split; constructor|]. destruct IH as (H1 & H2).
  split; [rewrite ins_perm, H1; apply Permutation_refl|apply ins_sorted, H2].
Qed.

(* ---- the faces of a scene name the same positions ---- *)
Lemma scene_positions b : Forall good_mesh b -> forall pre i p k f, nth_error b i = Some p -> nth_error (snd p) k = Some f ->
  exists f', nth_error (faces_from (length pre) b) (fstart b i + k) = Some f' /\
    map (at_ (pre ++ all_verts b)) (corners f') = map (at_ (fst p)) (corners f).
Proof.
  induction 1 as [|q b Hq Hg IH]; intros pre i p k f Hp Hk; [destruct i; discriminate|].
  cbn [faces_from]. assert (HV : all_verts (q :: b) = fst q ++ all_verts b) by reflexivity. rewrite HV. destruct i as [|i].
  - cbn in Hp. injection Hp as ->. exists (move_face (length pre) f). split.
    + unfold fstart. cbn [firstn sum_nat fold_right Nat.add]. rewrite nth_error_app1.
      * apply map_nth_error, Hk.
      * rewrite map_length. apply nth_error_Some. congruence.
    + unfold good_mesh in Hq. rewrite Forall_forall in Hq. apply nth_error_In in Hk. specialize (Hq f Hk). destruct f as ((x, y), z). cbn in Hq. cbn [move_face corners map].
      rewrite !at_mid by tauto. reflexivity.
  - cbn in Hp. specialize (IH (pre ++ fst q) i p k f Hp Hk). destruct IH as (f' & H1 & H2). exists f'. rewrite <- app_assoc in H2. split; [|exact H2].
    unfold fstart, fcount in *. cbn [map firstn]. unfold sum_nat in *. cbn [fold_right]. rewrite app_length in H1.
    rewrite nth_error_app2 by (rewrite map_length; lia). rewrite map_length. rewrite <- H1. f_equal. lia.
Qed.
