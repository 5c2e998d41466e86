From Verif Require Import Base Packing PackingProofs PackOpsProofs RBase Geom FaceAreas FaceAreasSpec Meshes MeshesSpec MeshesProofs MeshesProofs2 MeshesProofs3.
Local Open Scope nat_scope.

Section Mut.
Variable argsort : list Z -> list nat.
Notation repr := (repr argsort).

(* ---- batches with the same faces and the same vertex counts ---- *)
Definition same_shape (b b' : list mesh) : Prop := map snd b' = map snd b /\ vcount b' = vcount b.

Lemma same_shape_cons p q b b' : length (fst q) = length (fst p) -> snd q = snd p -> same_shape b b' -> same_shape (p :: b) (q :: b').
Proof. intros E1 E2 (H1 & H2). split; cbn; [rewrite E2, H1|rewrite E1; f_equal; exact H2]; reflexivity. Qed.
Lemma same_shape_len b b' : same_shape b b' -> length b' = length b.
Proof. intros (H & _). apply (f_equal (@length _)) in H. rewrite !map_length in H. exact H. Qed.
Lemma same_shape_faces b b' : same_shape b b' -> forall o, faces_from o b' = faces_from o b.
Proof.
  revert b'. induction b as [|p b IH]; intros b' H; pose proof (same_shape_len _ _ H) as L; destruct b' as [|q b']; try discriminate; [reflexivity|].
  destruct H as (H1 & H2). cbn in H1, H2. intros o. cbn [faces_from].
  assert (E1 : snd q = snd p) by congruence. assert (E2 : length (fst q) = length (fst p)) by congruence.
  rewrite E1, E2. f_equal. apply IH. split; cbn; [congruence|]. unfold vcount. congruence.
Qed.
Lemma same_shape_all_faces b b' : same_shape b b' -> all_faces b' = all_faces b.
Proof. intros H. apply same_shape_faces. exact H. Qed.
Lemma same_shape_fcount b b' : same_shape b b' -> fcount b' = fcount b.
Proof. intros (H & _). rewrite <- !fcount_map, H. reflexivity. Qed.
Lemma same_shape_nverts b b' : same_shape b b' -> length (all_verts b') = length (all_verts b).
Proof. intros (_ & H). rewrite !all_verts_length, H. reflexivity. Qed.
Lemma same_shape_edges b b' e : same_shape b b' -> edges_spec argsort b e -> edges_spec argsort b' e.
Proof.
  intros H E. unfold edges_spec in *. rewrite (same_shape_len _ _ H), (same_shape_nverts _ _ H), (same_shape_all_faces _ _ H), (same_shape_fcount _ _ H). exact E.
Qed.
Lemma same_shape_good b b' : same_shape b b' -> Forall good_mesh b -> Forall good_mesh b'.
Proof.
  revert b'. induction b as [|p b IH]; intros b' H G; pose proof (same_shape_len _ _ H) as L; destruct b' as [|q b']; try discriminate; [constructor|].
  destruct H as (H1 & H2). cbn in H1, H2. apply Forall_cons_iff in G. destruct G as (G1 & G2). constructor.
  - unfold good_mesh in *. replace (snd q) with (snd p) by congruence. replace (length (fst q)) with (length (fst p)) by congruence. exact G1.
  - apply IH; [|exact G2]. split; cbn; [congruence|]. unfold vcount. congruence.
Qed.
Lemma same_shape_valid b b' : same_shape b b' -> map has_faces b' = map has_faces b.
Proof.
  intros (H & _). apply (f_equal (map (fun l : list face => negb (length l =? 0)))) in H. rewrite !map_map in H. exact H.
Qed.
Lemma same_shape_some b b' : same_shape b b' -> (exists p, In p b /\ snd p <> []) -> exists p, In p b' /\ snd p <> [].
Proof.
  intros (H & _) (p & Hp & Hs). apply (in_map snd) in Hp. rewrite <- H in Hp. apply in_map_iff in Hp.
  destruct Hp as (q & E & Hq). exists q. split; [exact Hq|congruence].
Qed.
Lemma zip_app_sizes {T} (a a' t : list (list T)) (P : nat -> Prop) : map (@length T) a' = map (@length T) a ->
  Forall (fun r => P (length r)) (zip_app a t) -> Forall (fun r => P (length r)) (zip_app a' t).
Proof.
  revert a' t. induction a as [|x a IH]; intros [|x' a'] [|y t] E H; cbn in *; try discriminate; try constructor.
  - apply Forall_cons_iff in H. destruct H as (H & _). rewrite app_length in *. replace (length x') with (length x) by congruence. exact H.
  - apply Forall_cons_iff in H. destruct H as (_ & H). apply IH; [congruence|exact H].
Qed.

Lemma wf_change a b' u : wf_state a -> same_shape (batch a) b' ->
  (forall l, u = Some l -> length l = sum_nat (vcount (batch a))) -> wf_state (A b' (vtail a) (ftail a) u).
Proof.
  intros (W1 & W2 & W3 & W4 & W5 & W6 & W7 & W8) H Hu. pose proof H as (H1 & H2).
  unfold wf_state. cbn [batch vtail ftail user].
  split; [eapply same_shape_good; eassumption|]. split; [eapply same_shape_some; eassumption|].
  rewrite (same_shape_len _ _ H). split; [exact W3|]. split; [exact W4|]. split.
  - rewrite H2. apply (zip_app_sizes (map fst (batch a)) _ _ (fun n => n = max_nat (vcount (batch a)))); [|exact W5].
    rewrite !vcount_map. exact H2.
  - split; [rewrite H1; exact W6|]. split; [exact W7|]. rewrite H2. exact Hu.
Qed.

(* ---- new vertices, written to every representation present ---- *)
Lemma write_zip : forall a a' t, map (@length vec3) a' = map (@length vec3) a -> length t = length a ->
  write_rows (zip_app a t) a' = Ok (zip_app a' t).
Proof.
  induction a as [|x a IH]; intros [|x' a'] [|y t] E L; cbn in E, L; try discriminate; [reflexivity|].
  cbn [zip_app write_rows]. assert (E1 : length x' = length x) by congruence.
  rewrite IH by congruence. cbn [rbind]. destruct (Nat.eqb_spec (length x') 0) as [Z|Z].
  - destruct x', x; try discriminate. reflexivity.
  - rewrite app_length. replace (length x' <=? length x + length y) with true by (symmetry; apply Nat.leb_le; lia).
    do 3 f_equal. rewrite E1, skipn_app, skipn_all, Nat.sub_diag. reflexivity.
Qed.

Definition rebuilt (b' : list mesh) (m : meshes) : meshes :=
  set_verts_l (Some (map fst b')) (set_pk (option_map (fun p => Packed (all_verts b') (pk_vidx p) (pk_vfirst p) (pk_faces p) (pk_fidx p) (pk_ffirst p)) (pk m)) m).

Lemma rebuild a m b' u : wf_state a -> repr a m -> same_shape (batch a) b' ->
  exists m2, write_padded (rebuilt b' m) (map fst b') = Ok m2 /\ areas_normals m2 = areas_normals m /\ vnormals m2 = vnormals m /\
    (pk m <> None -> pk m2 = Some (packed_of b')) /\
    forall an vn, (an = None \/ (an = Some (areas_of b') /\ pk m <> None)) ->
      ((vn = None /\ u = None) \/ (exists l, vn = Some l /\ vn_spec (A b' (vtail a) (ftail a) u) l)) ->
      repr (A b' (vtail a) (ftail a) u) (set_an an (set_vn vn m2)).
Proof.
  intros Hw R H. pose proof H as (H1 & H2).
  assert (P : option_map (fun p => Packed (all_verts b') (pk_vidx p) (pk_vfirst p) (pk_faces p) (pk_fidx p) (pk_ffirst p)) (pk m) = 
     match pk m with None => None | Some _ => Some (packed_of b') end).
  { destruct (r_pk _ _ _ R) as [E|E]; rewrite E; [reflexivity|]. cbn. unfold packed_of.
    rewrite H2, (same_shape_all_faces _ _ H), (same_shape_fcount _ _ H). reflexivity. }
  assert (Good : Forall good_mesh b') by (eapply same_shape_good; [exact H|apply Hw]).
  unfold rebuilt. rewrite P. unfold write_padded. prj.
  pose proof (r_pad _ _ _ R) as Pd.
  assert (Core : forall vp, (vp = None /\ verts_p m = None) \/ (verts_p m <> None /\ vp = Some (Pad (max_nat (vcount b')) (zip_app (map fst b') (vtail a)))) ->
    forall an vn, (an = None \/ (an = Some (areas_of b') /\ pk m <> None)) ->
      ((vn = None /\ u = None) \/ (exists l, vn = Some l /\ vn_spec (A b' (vtail a) (ftail a) u) l)) ->
      repr (A b' (vtail a) (ftail a) u) (set_an an (set_vn vn (set_padded vp (faces_p m) (set_verts_l (Some (map fst b')) (set_pk match pk m with None => None | Some _ => Some (packed_of b') end m)))))).
  { intros vp Hvp an vn Han Hvn. destruct R. constructor; prj; auto.
    - rewrite r_N. symmetry. apply same_shape_len, H.
    - rewrite H2. exact r_V.
    - rewrite (same_shape_fcount _ _ H). exact r_F.
    - rewrite H2, (same_shape_fcount _ _ H). exact r_eq.
    - rewrite (same_shape_valid _ _ H). exact r_valid.
    - rewrite H2. exact r_nv.
    - rewrite (same_shape_fcount _ _ H). exact r_nf.
    - rewrite H1. exact r_fl.
    - rewrite H1, H2, (same_shape_fcount _ _ H). destruct Pd as [(Pv & Pf & Lv & Lf & Tv & Tf)|(Pv & D & Pf & HD)], Hvp as [(-> & Hv)|(Hv & ->)]; try congruence.
      + left. auto 10.
      + right. rewrite H2. eauto.
    - destruct (pk m); auto.
    - unfold p2p_of. rewrite H2. exact r_p2p.
    - destruct r_ed as [X|(e & X & Y & Z)]; [left; exact X|right]. exists e. split; [exact X|]. split; [eapply same_shape_edges; eassumption|].
      destruct (pk m); [discriminate|contradiction].
    - destruct Han as [X|(X & Z)]; [left; exact X|right]. eexists. split; [exact X|]. split; [apply areas_value; exact Good|].
      destruct (pk m); [discriminate|contradiction].
    - destruct r_lap as [X|(e & X & Y)]; [left; exact X|right]. exists e. split; [eapply same_shape_edges; eassumption|].
      rewrite (same_shape_nverts _ _ H). exact Y. }
  destruct (verts_p m) as [pv|] eqn:Ev.
  - destruct Pd as [(X & _)|(X & _)]; [congruence|]. injection X as ->. cbn [rows dim1].
    rewrite (write_zip (map fst (batch a)) (map fst b')).
    2:{ rewrite !vcount_map. exact H2. } 2:{ rewrite map_length. apply Hw. }
    cbn [rbind]. eexists. split; [reflexivity|]. prj. split; [reflexivity|]. split; [reflexivity|]. split.
    { intros HH. destruct (pk m); [reflexivity|contradiction]. }
    apply (Core (Some (Pad (max_nat (vcount (batch a))) (zip_app (map fst b') (vtail a))))). right. rewrite H2. split; [discriminate|reflexivity].
  - eexists. split; [reflexivity|]. prj. split; [reflexivity|]. split; [reflexivity|]. split.
    { intros HH. destruct (pk m); [reflexivity|contradiction]. }
    intros an vn Han Hvn. specialize (Core None (or_introl (conj eq_refl eq_refl)) an vn Han Hvn).
    unfold set_an, set_vn, set_padded, set_verts_l, set_pk in *. cbn in *. rewrite Ev. exact Core.
Qed.

Lemma reset_id m : set_an (areas_normals m) (set_vn (vnormals m) m) = m.
Proof. destruct m; reflexivity. Qed.

(* ---- offset_verts_ ---- *)
Definition offset_batch (o : offset) (b : list mesh) : list mesh :=
  match o with OneOffset v => shift_one v b | AllOffsets l => shift_all l b end.
Definition offset_state (o : offset) (a : astate) : astate :=
  A (offset_batch o (batch a)) (vtail a) (ftail a) (match o with OneOffset _ => user a | AllOffsets _ => None end).
Definition offset_fits (o : offset) (b : list mesh) : Prop :=
  match o with OneOffset _ => True | AllOffsets l => length l = sum_nat (vcount b) end.

Lemma shift_one_shape v b : same_shape b (shift_one v b).
Proof.
  induction b as [|p b IH]; [split; reflexivity|]. apply (same_shape_cons p (map (fun x => add3 x v) (fst p), snd p)); auto. apply map_length.
Qed.
Lemma shift_all_shape b : forall l, length l = sum_nat (vcount b) -> same_shape b (shift_all l b).
Proof.
  induction b as [|p b IH]; intros l H; [split; reflexivity|]. cbn [shift_all]. cbn in H. fold (vcount b) in H.
  apply same_shape_cons; cbn; auto.
  - unfold add_each. rewrite map_length, combine_length, firstn_length. unfold sum_nat in H; cbn in H. lia.
  - apply IH. rewrite skipn_length. unfold sum_nat in *. cbn in H. unfold vcount in *. unfold mesh in *. lia.
Qed.
Lemma shift_one_rows v b : all_verts (shift_one v b) = add_rows (all_verts b) (repeat v (length (all_verts b))).
Proof.
  unfold all_verts, shift_one, add_rows. rewrite map_map. cbn. induction b as [|p b IH]; [reflexivity|].
  cbn [map concat]. rewrite IH. clear IH. set (r := concat (map fst b)). induction (fst p) as [|x l IHl]; [reflexivity|]. cbn. rewrite IHl. reflexivity.
Qed.
Lemma shift_all_rows b : forall l, length l = sum_nat (vcount b) -> all_verts (shift_all l b) = add_rows (all_verts b) l.
Proof.
  induction b as [|p b IH]; intros l H; [reflexivity|]. unfold all_verts. cbn [shift_all map concat fst]. 
  cbn in H. fold (vcount b) in H. unfold sum_nat in H; cbn in H. fold (sum_nat (vcount b)) in H.
  change (concat (map fst (shift_all (skipn (length (fst p)) l) b))) with (all_verts (shift_all (skipn (length (fst p)) l) b)).
  rewrite IH. 2:{ rewrite skipn_length. unfold sum_nat, vcount, mesh in *. lia. }
  unfold add_rows, add_each. rewrite <- map_app, <- combine_app_len.
  - rewrite firstn_skipn. reflexivity.
  - rewrite firstn_length. lia.
Qed.

Lemma offset_ok o a m : wf_state a -> repr a m -> offset_fits o (batch a) ->
  exists m', offset_verts_ o m = Ok m' /\ repr (offset_state o a) m' /\ wf_state (offset_state o a).
Proof.
  intros Hw R Hf.
  destruct (with_packed_ok argsort a m pk_verts Hw R) as (m1 & E1 & R1 & P1 & _).
  unfold offset_verts_. unfold verts_packed. rewrite E1. cbn [rbind packed_of pk_verts].
  set (b' := offset_batch o (batch a)).
  assert (Sh : same_shape (batch a) b').
  { unfold b', offset_batch. destruct o; [apply shift_one_shape|apply shift_all_shape; exact Hf]. }
  set (off := match o with OneOffset v => repeat v (length (all_verts (batch a))) | AllOffsets l => l end).
  set (up := match o with OneOffset _ => false | AllOffsets _ => true end).
  replace (match o with OneOffset v => (repeat v (length (all_verts (batch a))), false) | AllOffsets l => (l, true) end) with (off, up) by (destruct o; reflexivity).
  assert (Lo : length off = length (all_verts (batch a))).
  { unfold off. destruct o; [apply repeat_length|]. rewrite all_verts_length. exact Hf. }
  rewrite Lo, Nat.eqb_refl. cbn [negb].
  assert (Ev : add_rows (all_verts (batch a)) off = all_verts b').
  { unfold b', off. destruct o; cbn; [symmetry; apply shift_one_rows|symmetry; apply shift_all_rows; exact Hf]. }
  rewrite Ev, P1. cbn [packed_of pk_vidx pk_vfirst pk_faces pk_fidx pk_ffirst]. prj.
  assert (Spl : packed_to_list (all_verts b') (nverts m1) = Ok (map fst b')).
  { rewrite (r_nv _ _ _ R1). replace (vcount (batch a)) with (map (@length vec3) (map fst b')) by (rewrite vcount_map; apply Sh).
    apply packed_to_list_inverse. }
  rewrite Spl. cbn [rbind].
  destruct (rebuild a m1 b' (user (offset_state o a)) Hw R1 Sh) as (m2 & E2 & An & Vn & Pk & Rep).
  assert (Eq : set_verts_l (Some (map fst b')) (set_pk (Some (Packed (all_verts b') (owners 0 (vcount (batch a))) (firsts 0 (vcount (batch a))) (all_faces (batch a)) (owners 0 (fcount (batch a))) (firsts 0 (fcount (batch a))))) m1) = rebuilt b' m1).
  { unfold rebuilt. rewrite P1. reflexivity. }
  unfold set_verts_l, set_pk in Eq |- *. cbn in Eq |- *. rewrite Eq, E2. cbn [rbind].
  assert (Hpk : pk m2 = Some (packed_of b')) by (apply Pk; rewrite P1; discriminate).
  assert (Hw' : wf_state (offset_state o a)).
  { apply (wf_change a b' _ Hw Sh). destruct o; cbn; [apply Hw|discriminate]. }
  assert (Good : Forall good_mesh b') by (eapply same_shape_good; [exact Sh|apply Hw]).
  assert (Ne : isempty m2 = false).
  { specialize (Rep None (match user (offset_state o a) with None => None | Some u => Some u end) (or_introl eq_refl)).
    change (isempty m2) with (isempty (set_an None (set_vn (match user (offset_state o a) with None => None | Some u => Some u end) m2))).
    apply (not_empty argsort (offset_state o a)); [exact Hw'|]. apply Rep.
    destruct (user (offset_state o a)) eqn:Eu; [right|left; auto]. eexists. split; [reflexivity|]. unfold vn_spec. cbn [user]. reflexivity. }
  destruct o as [v|l]; cbn [up] in *; subst up.
  - exists m2. split.
    + destruct (areas_normals m2); cbn [rbind]; destruct (vnormals m2); reflexivity.
    + split; [|exact Hw']. rewrite <- (reset_id m2). apply Rep.
      * rewrite An. destruct (r_an _ _ _ R1) as [X|(l & X & Y & Z)]; [left; exact X|right]. split; [|exact Z]. rewrite X. f_equal.
        rewrite areas_value in Y by apply Hw. injection Y as <-. rewrite !areas_split by (apply Hw || exact Good).
        unfold b'. cbn [offset_batch]. unfold shift_one. rewrite map_map. f_equal. apply map_ext_in. intros p Hp.
        symmetry. apply mesh_areas_shift. destruct Hw as (G & _). rewrite Forall_forall in G. apply G, Hp.
      * rewrite Vn. destruct (r_vn _ _ _ R1) as [X|(l & X & Y)]; [left; exact X|right]. exists l. split; [exact X|].
        unfold vn_spec in *. cbn [user offset_state] in *. destruct (user a); [exact Y|]. unfold fresh_normals in *. cbn [batch].
        rewrite normals_value in Y by apply Hw. rewrite normals_value by exact Good. rewrite <- Y. f_equal.
        rewrite !normals_split by (apply Hw || exact Good).
        unfold b'. cbn [offset_batch]. unfold shift_one. rewrite map_map. f_equal. apply map_ext_in. intros p Hp.
        apply mesh_normals_shift. destruct Hw as (G & _). rewrite Forall_forall in G. apply G, Hp.
  - set (an := match areas_normals m2 with None => None | Some _ => Some (areas_of b') end).
    set (vn := match vnormals m2 with None => None | Some _ => Some (normals_of b') end).
    exists (set_an an (set_vn vn m2)). split.
    + assert (Fp : forall m, pk m = Some (packed_of b') -> faces_packed m = Ok (all_faces b', m)).
      { intros m0 Hm. unfold faces_packed, with_packed, compute_packed. rewrite Hm. cbn [rbind]. rewrite Hm. reflexivity. }
      assert (Vp : forall m, pk m = Some (packed_of b') -> verts_packed m = Ok (all_verts b', m)).
      { intros m0 Hm. unfold verts_packed, with_packed, compute_packed. rewrite Hm. cbn [rbind]. rewrite Hm. reflexivity. }
      assert (S1 : match areas_normals m2 with Some _ => compute_areas true m2 | None => Ok m2 end = Ok (set_an an m2)).
      { unfold an. destruct (areas_normals m2) as [x|] eqn:EA.
        - unfold compute_areas. rewrite Fp by exact Hpk. cbn [rbind]. rewrite Vp by exact Hpk. cbn [rbind]. rewrite areas_value by exact Good. reflexivity.
        - f_equal. destruct m2; cbn in *. subst. reflexivity. }
      unfold compute_areas in S1. rewrite S1. cbn [rbind]. replace (vnormals (set_an an m2)) with (vnormals m2) by reflexivity.
      unfold vn. destruct (vnormals m2) as [x|] eqn:EV.
      * replace (isempty (set_an an m2)) with (isempty m2) by reflexivity. rewrite Ne.
        rewrite Fp by exact Hpk. cbn [rbind]. rewrite Vp by exact Hpk. cbn [rbind]. rewrite normals_value by exact Good. reflexivity.
      * f_equal. destruct m2; cbn in *. subst. reflexivity.
    + split; [|exact Hw']. apply Rep.
      * unfold an. destruct (areas_normals m2); [right|left; reflexivity]. split; [reflexivity|]. rewrite P1. discriminate.
      * unfold vn. destruct (vnormals m2); [right|left; auto]. eexists. split; [reflexivity|]. unfold vn_spec. cbn [user offset_state batch].
        unfold fresh_normals. apply normals_value. exact Good.
Qed.

(* ---- scale_verts_ ---- *)
Definition scales_of (s : scale_arg) (b : list mesh) : list R := match s with OneScale x => repeat x (length b) | AllScales l => l end.
Definition scale_state (s : scale_arg) (a : astate) : astate :=
  A (scale_batch (scales_of s (batch a)) (batch a)) (vtail a) (ftail a) (user a).
Lemma scale_shape ss b : length b <= length ss -> same_shape b (scale_batch ss b).
Proof.
  revert ss. induction b as [|p b IH]; intros [|s ss] H; cbn in H; try lia; try (split; reflexivity).
  unfold scale_batch. cbn [combine map]. apply same_shape_cons; cbn; [apply map_length|reflexivity|]. apply IH. lia.
Qed.

Lemma scale_ok s a m : wf_state a -> repr a m -> length (batch a) <= length (scales_of s (batch a)) ->
  user a <> None \/ vnormals m = None \/ normals_of (batch (scale_state s a)) = normals_of (batch a) ->
  exists m', scale_verts_ s m = Ok m' /\ repr (scale_state s a) m' /\ wf_state (scale_state s a).
Proof.
  intros Hw R Hl Hn. set (b' := scale_batch (scales_of s (batch a)) (batch a)).
  pose proof (scale_shape _ _ Hl) as Sh. fold b' in Sh.
  destruct (verts_list_ok argsort a m Hw R) as (m1 & E1 & R1 & V1 & F1 & P1 & _).
  assert (VN : vnormals m1 = vnormals m).
  { unfold verts_list in E1. destruct (verts_l m); [congruence|]. destruct (verts_p m); [|discriminate]. destruct (unpad p (nverts m)); cbn in E1; [|discriminate]. injection E1 as _ <-. reflexivity. }
  unfold scale_verts_. rewrite E1. cbn [rbind].
  assert (Es : match s with OneScale x => repeat x (mN m) | AllScales l => l end = scales_of s (batch a)).
  { unfold scales_of. destruct s; [|reflexivity]. rewrite (r_N _ _ _ R). reflexivity. }
  rewrite Es. rewrite map_length. match goal with |- context [?x <? ?y] => replace (x <? y) with false by (symmetry; apply Nat.ltb_ge; exact Hl) end.
  assert (Ev : map (fun p => map (scal3 (fst p)) (snd p)) (combine (scales_of s (batch a)) (map fst (batch a))) = map fst b').
  { unfold b', scale_batch. rewrite map_map. cbn [fst]. clear. generalize (scales_of s (batch a)). generalize (batch a). intros b; induction b as [|p b IH]; intros [|x ss]; try reflexivity. cbn. rewrite IH. reflexivity. }
  rewrite Ev. clear Ev Es.
  pose proof (wf_nonempty a Hw) as Hne.
  assert (Hne' : map fst b' <> []).
  { intros X. apply map_eq_nil in X. pose proof (same_shape_len _ _ Sh) as L2. rewrite X in L2. destruct (batch a); [contradiction|discriminate]. }
  destruct (rebuild a m1 b' (user a) Hw R1 Sh) as (m2 & E2 & An & Vn & Pk & Rep).
  assert (S0 : match pk (set_verts_l (Some (map fst b')) m1) with
      | None => Ok (set_verts_l (Some (map fst b')) m1)
      | Some p => match map fst b' with [] => Fail ERuntime
         | _ => Ok (set_pk (Some (Packed (concat (map fst b')) (pk_vidx p) (pk_vfirst p) (pk_faces p) (pk_fidx p) (pk_ffirst p))) (set_verts_l (Some (map fst b')) m1)) end
      end = Ok (rebuilt b' m1)).
  { unfold rebuilt. cbn [pk set_verts_l]. destruct (pk m1) as [p|] eqn:Ep.
    - destruct (map fst b') as [|x l] eqn:Em; [contradiction|]. rewrite <- Em. reflexivity.
    - cbn. unfold set_verts_l, set_pk. cbn. destruct m1; cbn in *. subst. reflexivity. }
  rewrite S0. cbn [rbind]. rewrite E2. cbn [rbind].
  assert (Good : Forall good_mesh b') by (eapply same_shape_good; [exact Sh|apply Hw]).
  assert (Hw' : wf_state (scale_state s a)) by (apply (wf_change a b' _ Hw Sh), Hw).
  assert (Hvn : (vnormals m2 = None /\ user a = None) \/ (exists l, vnormals m2 = Some l /\ vn_spec (scale_state s a) l)).
  { rewrite Vn, VN. destruct (r_vn _ _ _ R) as [X|(l & X & Y)]; [left; exact X|right]. exists l. split; [exact X|].
    unfold vn_spec in *. cbn [user scale_state batch] in *. destruct (user a); [exact Y|]. unfold fresh_normals in *.
    rewrite normals_value in * by (apply Hw || exact Good). destruct Hn as [N|[N|N]]; [congruence|congruence|]. fold b' in N |- *. rewrite N. exact Y. }
  destruct (areas_normals m2) as [x|] eqn:EA.
  - assert (Hpk : pk m1 <> None).
    { destruct (r_an _ _ _ R1) as [X|(l & X & Y & Z)]; [congruence|exact Z]. }
    specialize (Pk Hpk). exists (set_an (Some (areas_of b')) m2). split; [|split; [|exact Hw']].
    + unfold compute_areas, faces_packed, verts_packed, with_packed, compute_packed. rewrite Pk. cbn [rbind]. rewrite Pk. cbn [rbind]. rewrite Pk. cbn [rbind]. rewrite Pk. cbn [rbind pk_verts pk_faces packed_of].
      rewrite areas_value by exact Good. reflexivity.
    + specialize (Rep (Some (areas_of b')) (vnormals m2) (or_intror (conj eq_refl Hpk)) Hvn). 
      replace (set_vn (vnormals m2) m2) with m2 in Rep by (destruct m2; reflexivity). exact Rep.
  - exists m2. split; [reflexivity|]. split; [|exact Hw']. rewrite <- (reset_id m2). apply Rep; [left; exact EA|exact Hvn].
Qed.

(* ---- clone ---- *)
Lemma clone_ok a m : wf_state a -> repr a m ->
  exists m' m1, clone m = Ok (m', m1) /\ repr a m' /\ repr a m1.
Proof.
  intros Hw R. destruct (verts_list_ok argsort a m Hw R) as (m1 & E1 & R1 & V1 & F1 & P1 & _).
  destruct (faces_list_ok argsort a m1 Hw R1) as (m2 & E2 & R2 & F2 & V2 & P2 & _).
  unfold clone. rewrite E1. cbn [rbind]. rewrite E2. cbn [rbind].
  destruct (new_list_repr argsort (batch a)) as (o & E3 & R3 & O1 & O2 & _); [apply Hw|apply Hw|].
  rewrite E3. cbn [rbind]. do 2 eexists. split; [reflexivity|]. split; [|exact R2].
  rewrite V1 in V2. destruct R2, R3. constructor; prj; auto.
  rewrite O1, O2. destruct r_pad as [(X1 & X2 & _ & _ & X3)|X]; [left; auto 10|right; exact X].
Qed.

(* ---- update_padded ---- *)
Definition update_state (rs : list (list vec3)) (a : astate) : astate :=
  A (replace_verts rs (batch a)) (left_over rs (batch a)) (ftail a) None.
Definition update_fits (nv : padded vec3) (b : list mesh) : Prop :=
  length (rows nv) = length b /\ dim1 nv = max_nat (vcount b) /\ Forall (fun r => length r = dim1 nv) (rows nv).

Lemma replace_shape rs b M : length rs = length b -> Forall (fun r => length r = M) rs -> (forall n, In n (vcount b) -> n <= M) ->
  same_shape b (replace_verts rs b) /\ zip_app (map fst (replace_verts rs b)) (left_over rs b) = rs /\ length (left_over rs b) = length b /\
  map fst (replace_verts rs b) = map (fun q => firstn (snd q) (fst q)) (combine rs (vcount b)).
Proof.
  revert rs. induction b as [|p b IH]; intros [|r rs] L F H; cbn in L; try lia; [repeat split; reflexivity|].
  apply Forall_cons_iff in F. destruct F as (F & F'). destruct (IH rs) as (S & Z & Lf & Q); [lia|exact F'|intros n Hn; apply H; right; exact Hn|].
  assert (length (fst p) <= M) by (apply H; left; reflexivity).
  unfold replace_verts, left_over. cbn [combine map].
  change (map (fun q : list vec3 * mesh => (firstn (length (fst (snd q))) (fst q), snd (snd q))) (combine rs b)) with (replace_verts rs b).
  change (map (fun q : list vec3 * mesh => skipn (length (fst (snd q))) (fst q)) (combine rs b)) with (left_over rs b).
  split; [|split; [|split]].
  - apply same_shape_cons; cbn; [rewrite firstn_length; lia|reflexivity|exact S].
  - cbn [zip_app map fst snd]. rewrite firstn_skipn. f_equal. exact Z.
  - cbn [length]. f_equal. exact Lf.
  - cbn [map fst snd vcount combine]. f_equal. exact Q.
Qed.

Lemma gather_rows M : forall (rs : list (list vec3)) ns pre, length rs = length ns -> Forall (fun r => length r = M) rs -> (forall n, In n ns -> n <= M) ->
  forall i, length pre = i * M ->
  rmap (fun k => match nth_error (pre ++ concat rs) k with Some v => Ok v | None => Fail EIndex end)
    (concat (map (fun iv => map (fun j => j + fst iv * M) (seq 0 (snd iv))) (combine (seq i (length ns)) ns)))
  = Ok (concat (map (fun q => firstn (snd q) (fst q)) (combine rs ns))).
Proof.
  induction rs as [|r rs IH]; intros [|n ns] pre L F H i Hi; cbn in L; try lia; [reflexivity|].
  apply Forall_cons_iff in F. destruct F as (F & F'). cbn [length seq combine map concat fst snd]. rewrite rmap_app.
  assert (n <= M) by (apply H; left; reflexivity).
  rewrite (rmap_total _ (fun k => nth (k - i * M) r (V3 0 0 0)%R)).
  2:{ apply Forall_map, Forall_forall. intros j Hj. apply in_seq in Hj. 
      rewrite nth_error_app2 by lia. replace (j + i * M - length pre) with j by lia. rewrite nth_error_app1 by lia.
      rewrite (nth_error_nth' r (V3 0 0 0)%R) by lia. do 2 f_equal. lia. }
  cbn [rbind]. rewrite app_assoc.
  rewrite (IH ns (pre ++ r)); [|lia|exact F'|intros x Hx; apply H; right; exact Hx|rewrite app_length, F, Hi; cbn; lia].
  cbn [rbind]. do 2 f_equal. apply nth_error_ext_len.
  - rewrite !map_length, seq_length, firstn_length. lia.
  - intros k Hk. rewrite !map_length, seq_length in Hk. rewrite map_map, nth_error_map_iff, nth_error_seq_lt by exact Hk.
    cbn [option_map]. rewrite nth_error_firstn. replace (k <? n) with true by (symmetry; apply Nat.ltb_lt; exact Hk). rewrite (nth_error_nth' r (V3 0 0 0)%R) by lia. f_equal. f_equal. lia.
Qed.

Lemma keep_lap m : lap m = None -> set_lap None m = m.
Proof. destruct m; cbn; intros ->; reflexivity. Qed.
Lemma keep_ed m : ed m = None -> set_ed None m = m.
Proof. destruct m; cbn; intros ->; reflexivity. Qed.
Lemma keep3 m : pk m = None -> p2p m = None -> ed m = None -> set_ed None (set_p2p None (set_pk None m)) = m.
Proof. destruct m; cbn; intros -> -> ->; reflexivity. Qed.

Lemma update_ok nv a m : wf_state a -> repr a m -> update_fits nv (batch a) ->
  exists m' m1, update_padded nv m = Ok (m', m1) /\ repr (update_state (rows nv) a) m' /\ wf_state (update_state (rows nv) a) /\ repr a m1.
Proof.
  intros Hw R (Hr & Hd & Hrow). unfold update_padded. rewrite Hr, (r_N _ _ _ R), Nat.eqb_refl, Hd, (r_V _ _ _ R), Nat.eqb_refl. cbn [negb].
  destruct (faces_padded_ok argsort a m Hw R) as (m1 & D & E1 & R1 & P1 & _ & HD). rewrite E1. cbn [rbind].
  pose proof (wf_nonempty a Hw) as Hne.
  assert (LM : forall n, In n (vcount (batch a)) -> n <= dim1 nv) by (intros n Hn; rewrite Hd; apply max_nat_ge; exact Hn).
  destruct (replace_shape (rows nv) (batch a) (dim1 nv) Hr Hrow LM) as (Sh & Zip & Lt & Fst).
  set (b' := replace_verts (rows nv) (batch a)) in *.
  assert (Nz : length (batch a) <> 0) by (destruct (batch a); [contradiction|discriminate]).
  pose proof Hw as (W1 & (p0 & Hp & Hs) & W3 & W4 & W5 & W6 & W7 & W8).
  destruct (faces_checks (batch a) (ftail a) W1 W4 W7) as (G1 & G2).
  rewrite new_padded_value.
  2:{ intros X. rewrite X in Hr. cbn in Hr. congruence. }
  2:{ cbn. intros X. apply (f_equal (@length _)) in X. rewrite zip_app_length, map_length in X by (rewrite map_length; symmetry; exact W4). cbn in X. exact (Nz X). }
  cbv zeta. cbn [rows dim1]. rewrite G1, G2. cbn [rbind]. prj.
  rewrite Hr, (r_N _ _ _ R1), Nat.eqb_refl, (r_V _ _ _ R1), Hd, Nat.eqb_refl, (r_F _ _ _ R1), Nat.eqb_refl. cbn [andb negb].
  assert (Hw' : wf_state (update_state (rows nv) a)).
  { unfold wf_state, update_state. cbn [batch vtail ftail user]. fold b'.
    split; [eapply same_shape_good; [exact Sh|exact W1]|]. split; [eapply same_shape_some; [exact Sh|eauto]|].
    rewrite (same_shape_len _ _ Sh). split; [exact Lt|]. split; [exact W4|]. split.
    { rewrite Zip. replace (vcount b') with (vcount (batch a)) by (symmetry; apply Sh). rewrite <- Hd. exact Hrow. }
    split; [|split; [exact W7|discriminate]]. replace (map snd b') with (map snd (batch a)) by (symmetry; apply Sh). exact W6. }
  set (base := Meshes _ _ _ _ _ _ _ _ _ _ _ _ _ _ _ _ _).
  assert (Base : forall k q e l, 
     (k = None \/ k = Some (packed_of b')) -> (q = None \/ q = Some (p2p_of b')) ->
     (e = None \/ exists e', e = Some e' /\ edges_spec argsort b' e' /\ k <> None) ->
     (l = None \/ exists e', edges_spec argsort b' e' /\ l = Some (laplacian (length (all_verts b')) (ed_edges e'))) ->
     repr (update_state (rows nv) a) (set_lap l (set_ed e (set_p2p q (set_pk k (set_faces_l (faces_l m1) (set_sizes (equisized m1) (valid m1) (nverts m1) (nfaces m1) base))))))).
  { intros k q e l Hk Hq He Hlap. destruct R1. unfold base. pose proof Sh as (Sh1 & Sh2). constructor; unfold update_state; prj; fold b'; auto.
    - symmetry. apply same_shape_len, Sh.
    - rewrite Sh2. reflexivity.
    - rewrite (same_shape_fcount _ _ Sh). reflexivity.
    - rewrite Sh2, (same_shape_fcount _ _ Sh). exact r_eq.
    - rewrite (same_shape_valid _ _ Sh). exact r_valid.
    - rewrite Sh2. exact r_nv.
    - rewrite (same_shape_fcount _ _ Sh). exact r_nf.
    - rewrite Sh1. exact r_fl.
    - right. rewrite Zip, Sh1, Sh2. split; [|eauto]. rewrite <- Hd. destruct nv; reflexivity. }
  destruct (r_pk _ _ _ R1) as [Ek|Ek]; rewrite Ek.
  - cbn [rbind].
    assert (Ed : ed m1 = None).
    { destruct (r_ed _ _ _ R1) as [X|(e & X & Y & Z)]; [exact X|congruence]. }
    rewrite Ed. cbn [rbind]. do 2 eexists. split; [reflexivity|]. split; [|split; [exact Hw'|exact R1]].
    specialize (Base None None None (lap m1) (or_introl eq_refl) (or_introl eq_refl) (or_introl eq_refl)).
    assert (X : lap m1 = None \/ exists e', edges_spec argsort b' e' /\ lap m1 = Some (laplacian (length (all_verts b')) (ed_edges e'))).
    { destruct (r_lap _ _ _ R1) as [X|(e & X & Y)]; [left; exact X|right]. exists e. split; [eapply same_shape_edges; eassumption|]. rewrite (same_shape_nverts _ _ Sh). exact Y. }
    specialize (Base X). set (X0 := set_faces_l _ _) in *. 
    rewrite (keep3 X0) in Base by reflexivity. destruct (lap m1); [exact Base|]. rewrite (keep_lap X0) in Base by reflexivity. exact Base.
  - destruct (p2p_ok argsort a m1 Hw R1) as (m2 & E2 & R2 & P2). rewrite E2. cbn [rbind].
    assert (M2 : m2 = set_p2p (Some (p2p_of (batch a))) m1).
    { unfold verts_padded_to_packed_idx in E2. destruct (r_p2p _ _ _ R1) as [X|X]; rewrite X in E2.
      - destruct (nverts m1) eqn:En; [discriminate|]. injection E2 as Ex Ey. rewrite <- Ex. congruence.
      - injection E2 as <-. destruct m1; cbn in *; subst; reflexivity. }
    unfold p2p_of. rewrite vcount_length. rewrite <- Hd.
    pose proof (gather_rows (dim1 nv) (rows nv) (vcount (batch a)) []) as G. cbn [app] in G. rewrite vcount_length in G.
    rewrite (G Hr Hrow LM 0 eq_refl). cbn [rbind]. rewrite <- Fst. change (concat (map fst b')) with (all_verts b').
    cbn [packed_of pk_vidx pk_vfirst pk_faces pk_fidx pk_ffirst].
    assert (Pk' : Packed (all_verts b') (owners 0 (vcount (batch a))) (firsts 0 (vcount (batch a))) (all_faces (batch a)) (owners 0 (fcount (batch a))) (firsts 0 (fcount (batch a))) = packed_of b').
    { unfold packed_of. rewrite (same_shape_fcount _ _ Sh), (same_shape_all_faces _ _ Sh). replace (vcount b') with (vcount (batch a)) by (symmetry; apply Sh). reflexivity. }
    rewrite Pk'.
    assert (Q : concat (map (fun iv : nat * nat => map (fun j : nat => j + fst iv * dim1 nv) (seq 0 (snd iv))) (combine (seq 0 (length (batch a))) (vcount (batch a)))) = p2p_of b').
    { unfold p2p_of. replace (vcount b') with (vcount (batch a)) by (symmetry; apply Sh). rewrite vcount_length, <- Hd. reflexivity. }
    rewrite Q.
    replace (ed m2) with (ed m1) by (rewrite M2; reflexivity). replace (lap m2) with (lap m1) by (rewrite M2; reflexivity).
    assert (X : lap m1 = None \/ exists e', edges_spec argsort b' e' /\ lap m1 = Some (laplacian (length (all_verts b')) (ed_edges e'))).
    { destruct (r_lap _ _ _ R1) as [X|(e & X & Y)]; [left; exact X|right]. exists e. split; [eapply same_shape_edges; eassumption|]. rewrite (same_shape_nverts _ _ Sh). exact Y. }
    assert (Y : ed m1 = None \/ exists e', ed m1 = Some e' /\ edges_spec argsort b' e' /\ Some (packed_of b') <> None).
    { destruct (r_ed _ _ _ R1) as [Y|(e & Y & Z & _)]; [left; exact Y|right]. exists e. split; [exact Y|]. split; [eapply same_shape_edges; eassumption|discriminate]. }
    assert (Rest : forall e, ed m1 = Some e -> exists r, ed_rest e = Some r).
    { intros e He. destruct (r_ed _ _ _ R1) as [Y'|(e' & Y' & He' & _)]; [congruence|]. assert (e' = e) by congruence. subst e'.
      revert He'. unfold edges_spec, edges_of. destruct (rmap _ (argsort _)); cbn [rbind]; [|discriminate].
      destruct (rmap _ (run_heads _ _ _)); cbn [rbind]; [|discriminate]. intros [= <-]. eexists. reflexivity. }
    specialize (Base (Some (packed_of b')) (Some (p2p_of b')) (ed m1) (lap m1) (or_intror eq_refl) (or_intror eq_refl) Y X).
    destruct (ed m1) as [e|] eqn:Ee.
    + destruct (Rest e eq_refl) as (r & Er). rewrite Er. cbn [rbind]. do 2 eexists. split; [reflexivity|]. split; [|split; [exact Hw'|exact R2]].
      set (X0 := set_faces_l _ _) in *. destruct (lap m1); [exact Base|]. rewrite keep_lap in Base by reflexivity. exact Base.
    + cbn [rbind]. do 2 eexists. split; [reflexivity|]. split; [|split; [exact Hw'|exact R2]].
      set (X0 := set_faces_l _ _) in *. rewrite keep_ed in Base by reflexivity.
      destruct (lap m1); [exact Base|]. rewrite keep_lap in Base by reflexivity. exact Base.
Qed.

(* ---- user normals ---- *)
Lemma user_normals_ok a m l : wf_state a -> repr a m -> length l = length (batch a) -> map (@length vec3) l = vcount (batch a) ->
  exists m', set_verts_normals (NList l) m = Ok m' /\ repr (A (batch a) (vtail a) (ftail a) (Some (concat l))) m' /\
    wf_state (A (batch a) (vtail a) (ftail a) (Some (concat l))).
Proof.
  intros Hw R Hl Hc. unfold set_verts_normals. rewrite Hl, (r_N _ _ _ R), Nat.eqb_refl. cbn [negb].
  rewrite (r_nv _ _ _ R), <- Hc. replace (existsb _ _) with false.
  2:{ symmetry. clear. induction l as [|x l IH]; [reflexivity|]. cbn. rewrite Nat.eqb_refl. exact IH. }
  pose proof (wf_nonempty a Hw). destruct l as [|x l0] eqn:El; [destruct (batch a); [contradiction|discriminate]|]. rewrite <- El in *.
  eexists. split; [reflexivity|]. split.
  - destruct R. constructor; prj; auto. right. eexists. split; [reflexivity|]. reflexivity.
  - destruct Hw as (W1 & W2 & W3 & W4 & W5 & W6 & W7 & W8). unfold wf_state. cbn [batch vtail ftail user]. repeat (split; [assumption|]).
    intros l' [= <-]. rewrite length_concat_sum, Hc. reflexivity.
Qed.
End Mut.
