(* subdivide_homogeneous, and the geometry of the four new faces. *)
From Coq Require Import Permutation Lra.
From Verif Require Import Base Packing PackingProofs RBase Geom FaceAreas FaceAreasSpec Meshes MeshesSpec MeshesHistSpec MeshesProofs MeshesProofs5 MeshesProofs6 MeshesProofs7 MeshesProofs8 MeshesProofs9 MeshesProofs10 MeshesProofs11 Subdivide SubdivideSpec SubdivideProofs SubdivideProofs2 SubdivideProofs3 SubdivideProofs4.
Local Open Scope nat_scope.

Section Argsort.
Variable argsort : list Z -> list nat.
Hypothesis Hsorts : sorts argsort.

Lemma getitem_first m a p rest : reachable argsort m a -> batch a = p :: rest -> snd p <> [] ->
  exists o m', getitem (XInt 0) m = Ok (o, m') /\ reachable argsort o (from_lists [p]) /\ reachable argsort m' a.
Proof.
  intros H Hb Hp. destruct (reachable_shows argsort Hsorts m a H) as (_ & _ & G).
  destruct (ask_reach argsort Hsorts QVertsList m a H) as (r1 & m1 & E1 & T1 & R1). destruct (ask_reach argsort Hsorts QFacesList m1 a R1) as (r2 & m2 & E2 & T2 & R2).
  cbn in E1, E2. destruct (verts_list m) as [(l1, y1)|] eqn:V1; [|discriminate]. injection E1 as <- <-. cbn in T1. subst l1.
  destruct (faces_list y1) as [(l2, y2)|] eqn:V2; [|discriminate]. injection E2 as <- <-. cbn in T2. subst l2.
  assert (Gp : Forall good_mesh [p]) by (rewrite Hb in G; apply Forall_cons_iff in G; constructor; [apply G|constructor]).
  assert (Fp : has_a_face [p]) by (exists p; split; [left; reflexivity|exact Hp]).
  destruct (list_behaves argsort Hsorts [p] Gp Fp) as (o & Eo & _). exists o, y2. split; [|split; [apply made_from_lists; assumption|exact R2]].
  unfold getitem. rewrite V1. cbn [rbind]. rewrite V2. cbn [rbind]. rewrite Hb. cbn [map].
  assert (P : forall T (x : T) l, pick (x :: l) (XInt 0) = Ok [x]) by (intros T x l; unfold pick; rewrite (py_nth_ok (x :: l) 0 0 x eq_refl eq_refl); reflexivity).
  rewrite !P. cbn [rbind]. cbn [map] in Eo. rewrite Eo. reflexivity.
Qed.
Lemma map_id_in {A} (f : A -> A) l : (forall x, In x l -> f x = x) -> map f l = l.
Proof. induction l as [|x l IH]; intros H; [reflexivity|]. cbn. rewrite H by (left; reflexivity). f_equal. apply IH. intros y Hy. apply H. right. exact Hy. Qed.
Lemma move_edge_0 e : move_edge 0 e = e.
Proof. destruct e as (x, y). unfold move_edge. cbn [fst snd]. f_equal; lia. Qed.
Lemma move_one p E : move_edges 0 [p] [E] = E.
Proof. cbn. rewrite app_nil_r. apply map_id_in. intros e _. apply move_edge_0. Qed.
Lemma faces_one p : all_faces [p] = snd p.
Proof. unfold all_faces. cbn. rewrite app_nil_r. apply map_id_in. intros ((x, y), z) _. cbn. f_equal; [f_equal|]; lia. Qed.
Lemma verts_one p : all_verts [p] = fst p.
Proof. unfold all_verts. cbn. apply app_nil_r. Qed.
Lemma edges_from_faces fs E : edge_list fs E -> own_edges [([], fs)] [E].
Proof. intros H. constructor; [exact H|constructor]. Qed.

Lemma precompute_ok m a p rest E : reachable argsort m a -> batch a = p :: rest -> snd p <> [] -> edge_list (snd p) E ->
  exists t, precompute argsort m = Ok (quarter (length (fst p)) (snd p) t) /\ Forall2 (opposite_edges E) (snd p) t.
Proof.
  intros H Hb Hp HE. destruct (getitem_first m a p rest H Hb Hp) as (o & m' & Eo & Ro & _).
  assert (HE' : own_edges [p] [E]) by (constructor; [exact HE|constructor]).
  assert (G : Forall good_mesh [p]) by (destruct (reachable_shows argsort Hsorts m a H) as (_ & _ & G); rewrite Hb in G; apply Forall_cons_iff in G; constructor; [apply G|constructor]).
  destruct (subdivide_faces_r argsort Hsorts o (from_lists [p]) [E] G HE' Ro) as (t & m2 & Es & _ & HF). unfold from_lists, batch in Es, HF. rewrite move_one, faces_one in HF. rewrite faces_one, verts_one in Es.
  exists t. split; [|exact HF]. unfold precompute. rewrite Eo. cbn [rbind fst]. rewrite Es. reflexivity.
Qed.

(* the whole batch has the faces fs and M vertices per mesh *)
Lemma same_rows a M : wf_state a -> (forall p, In p (batch a) -> length (fst p) = M) -> zip_app (map fst (batch a)) (vtail a) = map fst (batch a) /\ max_nat (vcount (batch a)) = M.
Proof.
  intros (_ & (p0 & Hp0 & _) & L & _ & HL & _) HM.
  assert (Mx : max_nat (vcount (batch a)) = M).
  { unfold vcount. revert HM Hp0. clear. intros HM Hp0. assert (forall l, (forall p, In p l -> length (fst p) = M) -> l <> [] -> max_nat (map (fun p : mesh => length (fst p)) l) = M) as K.
    { induction l as [|p l IH]; intros H N; [contradiction|]. change (max_nat (map (fun p : mesh => length (fst p)) (p :: l))) with (Nat.max (length (fst p)) (max_nat (map (fun p : mesh => length (fst p)) l))).
      rewrite (H p (or_introl eq_refl)). destruct l as [|q l]; [cbn; lia|]. rewrite IH; [lia| |discriminate]. intros r Hr. apply H. right. exact Hr. }
    apply K; [exact HM|]. intros C. rewrite C in Hp0. contradiction. }
  split; [|exact Mx]. rewrite Mx in HL. revert L HL HM. generalize (batch a) as b, (vtail a) as t. clear. induction b as [|p b IH]; intros [|x t] L HL HM; cbn in L; try discriminate; [reflexivity|].
  cbn [map zip_app] in HL |- *. apply Forall_cons_iff in HL. destruct HL as (H1 & H2). rewrite app_length, (HM p (or_introl eq_refl)) in H1. destruct x; [|cbn in H1; lia]. rewrite app_nil_r. f_equal. apply IH; [lia|exact H2|]. intros q Hq. apply HM. right. exact Hq.
Qed.
Lemma means_row {F} (d : F) mean rows M E fs : length rows = M -> edge_list fs E -> Forall (in_range M) fs -> edge_means mean rows E = Ok (mids d mean rows E).
Proof.
  intros L HE G. pose proof (means_one d mean [] rows [] E) as H. cbn [app length] in H. rewrite app_nil_r in H.
  replace (map (move_edge 0) E) with E in H by (symmetry; apply map_id_in; intros e _; apply move_edge_0). apply H. intros e He. rewrite L. eapply edge_range; eassumption.
Qed.
Lemma means_rows {F} (d : F) mean Fs M E fs : Forall (fun r => length r = M) Fs -> edge_list fs E -> Forall (in_range M) fs ->
  rmap (fun r => ms <- edge_means mean r E ;; Ok (r ++ ms)) Fs = Ok (map (fun r => split_edges d mean r E) Fs).
Proof.
  intros HL HE G. induction HL as [|r Fs L _ IH]; [reflexivity|]. cbn [rmap map]. rewrite (means_row d mean r M E fs L HE G). cbn [rbind]. rewrite IH. reflexivity.
Qed.
Lemma rows_of_pieces {F} N M (l : list F) : length l = N * M -> concat (rows_of N M l) = l /\ Forall (fun r => length r = M) (rows_of N M l) /\ length (rows_of N M l) = N.
Proof.
  revert l. induction N as [|N IH]; intros l L; [destruct l; [|discriminate]; cbn; repeat split; constructor|]. cbn [rows_of concat length]. cbn in L.
  destruct (IH (skipn M l)) as (H1 & H2 & H3); [rewrite skipn_length; lia|]. rewrite H1, firstn_skipn. split; [reflexivity|]. split; [constructor; [rewrite firstn_length; lia|exact H2]|lia].
Qed.

(* the features, one list per mesh *)
Definition feature_rows {F} (a : @feats_arg F) (Fs : list (list F)) : Prop := match a with FPacked l => concat Fs = l | FPadded p => Meshes.rows p = Fs end.

Theorem homo_ok {F} (d : F) (mean : F -> F -> F) m0 a0 p0 rest m a (feats : option feats_arg) E :
  reachable argsort m0 a0 -> batch a0 = p0 :: rest -> snd p0 <> [] ->
  reachable argsort m a -> (forall p, In p (batch a) -> snd p = snd p0 /\ length (fst p) = length (fst p0)) -> edge_list (snd p0) E ->
  (forall f, feats = Some f -> exists Fs, feature_rows f Fs /\ map (@length F) Fs = vcount (batch a)) ->
  exists faces o nf m' b', precompute argsort m0 = Ok faces /\ subdivide_homogeneous argsort mean faces m feats = Ok (o, nf, m') /\ reachable argsort m' a /\
    length b' = length (batch a) /\
    (forall n, n < length (batch a) -> subdivided (nth n (batch a) no_mesh) E (nth n b' no_mesh)) /\
    (exists a', batch a' = b' /\ reachable argsort o a') /\
    match feats with
    | None => nf = None
    | Some f => exists Fs, feature_rows f Fs /\ map (@length F) Fs = vcount (batch a) /\ nf = Some (map (fun r => split_edges d mean r E) Fs)
    end.
Proof.
  intros H0 Hb0 Hp0 HR Hsame HE Hfeats. destruct (precompute_ok m0 a0 p0 rest E H0 Hb0 Hp0 HE) as (t & Et & HF). set (faces := quarter (length (fst p0)) (snd p0) t) in *.
  destruct (reachable_shows argsort Hsorts m a HR) as (_ & HN & G). destruct (reachable_repr argsort Hsorts m a HR) as (W & _).
  destruct (verts_padded_r argsort Hsorts m a HR) as (pd & m1 & E1 & R1 & Hrows & Hdim).
  destruct (same_rows a (length (fst p0)) W (fun p Hp => proj2 (Hsame p Hp))) as (Z1 & Z2). rewrite Z1 in Hrows. rewrite Z2 in Hdim. set (b := batch a) in *. set (M := length (fst p0)) in *.
  destruct b as [|p rb] eqn:Eb; [destruct W as (_ & (q & Hq & _) & _); fold b in Hq; rewrite Eb in Hq; contradiction|]. rewrite <- Eb in *.
  assert (Ip : In p b) by (rewrite Eb; left; reflexivity). destruct (Hsame p Ip) as (Sp & Lp).
  assert (Hpf : snd p <> []) by (rewrite Sp; exact Hp0).
  destruct (getitem_first m1 a p rb R1 Eb Hpf) as (first & m2 & E2 & Rf & R2).
  assert (HEo : own_edges (batch (from_lists [p])) [E]) by (constructor; [rewrite Sp; exact HE|constructor]).
  destruct (edges_r argsort Hsorts first (from_lists [p]) [E] HEo Rf) as (f2 & E3 & _). unfold from_lists, batch in E3. rewrite move_one in E3.
  assert (Gf : Forall (in_range M) (snd p0)) by (rewrite Forall_forall in G; specialize (G p Ip); unfold good_mesh in G; rewrite Lp, Sp in G; exact G).
  assert (LM : Forall (fun r : list vec3 => length r = M) (map fst b)) by (apply Forall_forall; intros r Hr; apply in_map_iff in Hr; destruct Hr as (q & <- & Hq); apply Hsame; exact Hq).
  set (b' := map (fun q : mesh => (split_edges (V3 0 0 0)%R midpoint (fst q) E, faces)) b).
  assert (Hvb' : map fst b' = map (fun r => split_edges (V3 0 0 0)%R mean_row r E) (map fst b)).
  { unfold b'. rewrite !map_map. apply map_ext. intros q. cbn [fst]. rewrite !split_edges_mids. f_equal. symmetry. apply mids_ext. exact mean_midpoint. }
  assert (Hsub : forall n, n < length b -> subdivided (nth n b no_mesh) E (nth n b' no_mesh)).
  { intros n Hn. assert (In (nth n b no_mesh) b) by (apply nth_In; exact Hn). destruct (Hsame _ H) as (S1 & S2).
    replace (nth n b' no_mesh) with (split_edges (V3 0 0 0)%R midpoint (fst (nth n b no_mesh)) E, faces).
    - split; [rewrite S1; exact HE|]. split; [reflexivity|]. exists t. rewrite S1. split; [exact HF|]. cbn zeta. rewrite S2. cbn [snd]. rewrite own_spec. unfold faces. fold M. rewrite quarter_parts by (eapply f2_length; exact HF). cbn zeta. unfold own.
      rewrite <- (map_id (snd p0)) at 1 2 3 4. rewrite combine_map2, !map_map. reflexivity.
    - symmetry. apply nth_error_nth. unfold b'. rewrite nth_error_map_iff, (nth_error_nth' b no_mesh) by exact Hn. reflexivity. }
  assert (Lb' : length b' = length b) by (unfold b'; apply map_length).
  assert (Gb' : Forall good_mesh b').
  { apply Forall_forall. intros q Hq. apply (In_nth _ _ no_mesh) in Hq. destruct Hq as (n & Hn & <-). assert (Hn' : n < length b) by (rewrite <- Lb'; exact Hn). eapply subdivided_good; [|apply Hsub; exact Hn']. rewrite Forall_forall in G. apply G. apply nth_In. exact Hn'. }
  assert (Fne : faces <> []).
  { unfold faces. destruct HF as [|((x, y), z) ((i, j), k) fs ts _ _]; [contradiction|]. unfold quarter. cbn. discriminate. }
  assert (Fb' : has_a_face b') by (exists (split_edges (V3 0 0 0)%R midpoint (fst p) E, faces); split; [unfold b'; rewrite Eb; left; reflexivity|exact Fne]).
  assert (Mb' : forall q, In q b' -> length (fst q) = M + length E).
  { intros q Hq. unfold b' in Hq. apply in_map_iff in Hq. destruct Hq as (r & <- & Hr). cbn [fst]. unfold split_edges. rewrite app_length, map_length. rewrite (proj2 (Hsame r Hr)). reflexivity. }
  set (ft := map (fun _ : mesh => @nil face) b').
  assert (Zf : zip_app (map snd b') ft = repeat faces (length b)).
  { unfold ft, b'. clear. induction b as [|q l IH]; [reflexivity|]. cbn. rewrite app_nil_r. f_equal. exact IH. }
  assert (Hft : length ft = length b') by (unfold ft; apply map_length).
  assert (Hpad : Forall (Forall is_pad) ft) by (apply Forall_forall; intros r Hr; unfold ft in Hr; apply in_map_iff in Hr; destruct Hr as (q & <- & _); constructor).
  assert (HD : Forall (fun r : list face => length r = length faces) (zip_app (map snd b') ft)) by (rewrite Zf; apply Forall_forall; intros r Hr; apply repeat_spec in Hr; subst r; reflexivity).
  destruct (padded_behaves argsort Hsorts b' (M + length E) (length faces) ft Gb' Fb' Mb' Hft Hpad HD) as (o & Eo & _).
  assert (Ro : reachable argsort o (A b' (map (fun _ => []) b') ft None)) by (eapply made_from_padded; eassumption).
  rewrite Zf in Eo.
  assert (PF : exists nf, match feats with
      | None => Ok None
      | Some x => fr <- match x with FPacked l => view (length (map fst b')) M l | FPadded p => Ok (Meshes.rows p) end ;;
                  r <- rmap (fun r => ms <- edge_means mean r E ;; Ok (r ++ ms)) fr ;; Ok (Some r)
      end = Ok nf /\ match feats with None => nf = None
      | Some f => exists Fs, feature_rows f Fs /\ map (@length F) Fs = vcount b /\ nf = Some (map (fun r => split_edges d mean r E) Fs) end).
  { destruct feats as [f|]; [|exists None; split; reflexivity]. destruct (Hfeats f eq_refl) as (Fs & HFs & LFs).
    assert (All : Forall (fun r : list F => length r = M) Fs).
    { apply Forall_forall. intros r Hr. assert (In (length r) (vcount b)) by (rewrite <- LFs; apply in_map; exact Hr). unfold vcount in H. apply in_map_iff in H. destruct H as (q & Lq & Hq). rewrite <- Lq. apply Hsame. exact Hq. }
    exists (Some (map (fun r => split_edges d mean r E) Fs)). split; [|exists Fs; auto].
    replace (match f with FPacked l => view (length (map fst b')) M l | FPadded p => Ok (Meshes.rows p) end) with (Ok Fs).
    - cbn [rbind]. rewrite (means_rows d mean Fs M E (snd p0) All HE Gf). reflexivity.
    - destruct f as [l|pp]; cbn in HFs; [|congruence]. rewrite map_length, Lb'. unfold view.
      assert (LF : length Fs = length b) by (rewrite <- (map_length (@length F)), LFs; unfold vcount; apply map_length).
      assert (Ll : length l = length b * M) by (subst l; rewrite <- LF; clear - All; induction All as [|r Fs L _ IH]; [reflexivity|]; cbn; rewrite app_length, L, IH; reflexivity).
      rewrite Ll, Nat.eqb_refl. f_equal. subst l. rewrite <- LF. clear - All. induction All as [|r Fs L _ IH]; [reflexivity|]. cbn [length rows_of concat]. rewrite firstn_app, skipn_app, <- L, firstn_all, skipn_all, Nat.sub_diag. cbn [firstn skipn app]. rewrite app_nil_r. f_equal. rewrite L. exact IH. }
  destruct PF as (nf & En & Hnf).
  exists faces, o, nf, m2, b'. split; [exact Et|]. split; [|split; [exact R2|split; [exact Lb'|split; [exact Hsub|split; [eexists; split; [|exact Ro]; reflexivity|exact Hnf]]]]].
  unfold subdivide_homogeneous. rewrite E1. cbn [rbind]. rewrite E2. cbn [rbind]. rewrite E3. cbn [rbind fst]. rewrite Hrows, Hdim.
  rewrite (means_rows (V3 0 0 0)%R mean_row (map fst b) M E (snd p0) LM HE Gf). rewrite <- Hvb'. cbn [rbind]. rewrite En. cbn [rbind]. rewrite HN, Eo. reflexivity.
Qed.
End Argsort.

(* ---- geometry ---- *)
Local Open Scope R_scope.
Lemma midpoint_sym u v : midpoint u v = midpoint v u.
Proof. destruct u, v. unfold midpoint, scal3, add3. cbn. f_equal; lra. Qed.
Lemma at_old p E p' i : subdivided p E p' -> (0 <= i < Z.of_nat (length (fst p)))%Z -> at_ (fst p') i = at_ (fst p) i.
Proof. intros (_ & -> & _) H. unfold at_, split_edges. apply app_nth1. lia. Qed.
Lemma at_new p E p' i x y : subdivided p E p' -> (0 <= i)%Z -> nth_error E (Z.to_nat i) = Some (low_high (x, y)) ->
  at_ (fst p') (Z.of_nat (length (fst p)) + i) = midpoint (at_ (fst p) x) (at_ (fst p) y).
Proof.
  intros (_ & -> & _) H Hn. unfold at_ at 1, split_edges. rewrite app_nth2 by lia. replace (Z.to_nat (Z.of_nat (length (fst p)) + i) - length (fst p))%nat with (Z.to_nat i) by lia.
  erewrite nth_error_nth by (rewrite nth_error_map_iff, Hn; reflexivity). unfold low_high. cbn [fst snd].
  destruct (Z.le_ge_cases x y).
  - rewrite Z.min_l, Z.max_r by lia. reflexivity.
  - rewrite Z.min_r, Z.max_l by lia. apply midpoint_sym.
Qed.
Lemma f2_at {A B} (P : A -> B -> Prop) l l' n x : Forall2 P l l' -> nth_error l n = Some x -> exists y, nth_error l' n = Some y /\ P x y.
Proof. intros H. revert n. induction H as [|u v l l' Huv _ IH]; intros [|n] E; cbn in *; try discriminate; [injection E as <-; eauto|]. apply IH. exact E. Qed.
Lemma face_parts p E p' n a b c : good_mesh p -> subdivided p E p' -> nth_error (snd p) n = Some (a, b, c) ->
  let A := at_ (fst p) a in let B := at_ (fst p) b in let C := at_ (fst p) c in let F := length (snd p) in
  exists f0 f1 f2 f3, nth_error (snd p') n = Some f0 /\ nth_error (snd p') (F + n) = Some f1 /\ nth_error (snd p') (F + F + n) = Some f2 /\ nth_error (snd p') (F + F + F + n) = Some f3 /\
    points (fst p') f0 = (A, midpoint A B, midpoint A C) /\ points (fst p') f1 = (B, midpoint B C, midpoint B A) /\
    points (fst p') f2 = (C, midpoint C A, midpoint C B) /\ points (fst p') f3 = (midpoint B C, midpoint C A, midpoint A B).
Proof.
  intros G Hs Hn. cbn zeta. pose proof Hs as (_ & _ & t & HF & Ef). cbn zeta in Ef.
  assert (Lt := f2_length _ _ _ HF). destruct (f2_at _ _ _ _ _ HF Hn) as (((i, j), k) & Ht & Ho).
  cbn in Ho. destruct Ho as ((I1 & I2 & I3) & O1 & O2 & O3).
  assert (Gn : in_range (length (fst p)) (a, b, c)) by (unfold good_mesh in G; rewrite Forall_forall in G; apply G; eapply nth_error_In; exact Hn).
  cbn in Gn. destruct Gn as (Ga & Gb & Gc).
  assert (Hq : nth_error (combine (snd p) t) n = Some ((a, b, c), (i, j, k))).
  { revert Hn Ht. clear. generalize (snd p) as l. revert t n. intros t n l. revert t n. induction l as [|x l IH]; intros [|y t] [|n] H1 H2; cbn in *; try discriminate; [injection H1 as ->; injection H2 as ->; reflexivity|]. apply IH; assumption. }
  assert (Lc : length (combine (snd p) t) = length (snd p)) by (rewrite combine_length; unfold face in *; lia).
  assert (Hlt : (n < length (snd p))%nat) by (apply nth_error_Some; rewrite Hn; discriminate).
  set (V := Z.of_nat (length (fst p))) in *.
  exists (at_a V ((a, b, c), (i, j, k))), (at_b V ((a, b, c), (i, j, k))), (at_c V ((a, b, c), (i, j, k))), (inner V ((a, b, c), (i, j, k))).
  assert (N1 : forall (g : face * (Z * Z * Z) -> face), nth_error (map g (combine (snd p) t)) n = Some (g ((a, b, c), (i, j, k)))) by (intros g; rewrite nth_error_map_iff, Hq; reflexivity).
  assert (L1 : forall (g : face * (Z * Z * Z) -> face), length (map g (combine (snd p) t)) = length (snd p)) by (intros g; rewrite map_length; exact Lc).
  rewrite Ef. split; [|split; [|split; [|split]]].
  - rewrite nth_error_app1 by (rewrite L1; exact Hlt). apply N1.
  - rewrite nth_error_app2 by (rewrite L1; lia). rewrite L1. replace (length (snd p) + n - length (snd p))%nat with n by lia. rewrite nth_error_app1 by (rewrite L1; exact Hlt). apply N1.
  - rewrite nth_error_app2 by (rewrite L1; lia). rewrite nth_error_app2 by (rewrite !L1; lia). rewrite !L1. replace (length (snd p) + length (snd p) + n - length (snd p) - length (snd p))%nat with n by lia. rewrite nth_error_app1 by (rewrite L1; exact Hlt). apply N1.
  - rewrite nth_error_app2 by (rewrite L1; lia). rewrite nth_error_app2 by (rewrite !L1; lia). rewrite nth_error_app2 by (rewrite !L1; lia). rewrite !L1. replace (length (snd p) + length (snd p) + length (snd p) + n - length (snd p) - length (snd p) - length (snd p))%nat with n by lia. apply N1.
  - unfold at_a, at_b, at_c, inner, points. unfold V.
    rewrite (at_old p E p' a Hs Ga), (at_old p E p' b Hs Gb), (at_old p E p' c Hs Gc). rewrite (at_new p E p' i b c Hs I1 O1), (at_new p E p' j c a Hs I2 O2), (at_new p E p' k a b Hs I3 O3).
    pose proof (midpoint_sym (at_ (fst p) c) (at_ (fst p) a)) as S1. pose proof (midpoint_sym (at_ (fst p) a) (at_ (fst p) b)) as S2. pose proof (midpoint_sym (at_ (fst p) b) (at_ (fst p) c)) as S3.
    repeat split; congruence.
Qed.
Lemma quarter_cross A B C :
  let q := scal3 (1 / 4) (tri_cross A B C) in
  tri_cross A (midpoint A B) (midpoint A C) = q /\ tri_cross B (midpoint B C) (midpoint B A) = q /\
  tri_cross C (midpoint C A) (midpoint C B) = q /\ tri_cross (midpoint B C) (midpoint C A) (midpoint A B) = q.
Proof. destruct A, B, C. unfold tri_cross, midpoint, scal3, add3, sub3, cross3. cbn. repeat split; f_equal; field. Qed.
