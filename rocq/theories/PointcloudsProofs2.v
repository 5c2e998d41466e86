From Verif Require Import Base Packing PackingProofs PackOpsProofs RBase Geom FaceAreas FaceAreasSpec Meshes MeshesSpec MeshesHistSpec Pointclouds PointcloudsSpec.
From Verif Require Import MeshesProofs MeshesProofs4 MeshesProofs6 MeshesProofs7 PointcloudsProofs.
Local Open Scope nat_scope.

Section Features.
Variable F : Type.
Variable fzero : F.
Notation row := (row F). Notation cloud := (cloud F). Notation pc := (pointclouds F). Notation cstate := (cstate F).
Local Arguments cN {F} _. Local Arguments cP {F} _. Local Arguments ceq {F} _. Local Arguments cvalid {F} _. Local Arguments counts {F} _.
Local Arguments pts_l {F} _. Local Arguments pts_p {F} _. Local Arguments nrm {F} _. Local Arguments fts {F} _. Local Arguments cpk {F} _. Local Arguments cp2p {F} _.
Local Arguments pos {F} _. Local Arguments nor {F} _. Local Arguments fea {F} _. Local Arguments sizes {F} _. Local Arguments largest {F} _. Local Arguments points_of {F} _.
Local Arguments column {F A} _ _ _. Local Arguments has_a_point {F} _. Local Arguments clouds {F} _. Local Arguments ppad {F} _. Local Arguments npad {F} _. Local Arguments fpad {F} _.
Local Arguments CS {F} _ _ _ _. Local Arguments points_list {F} _. Local Arguments normals_list {F} _. Local Arguments features_list {F} _.
Local Arguments vals {F A} _ _ _. Local Arguments col {F A} _ _ _ _. Local Arguments uni {F A} _ _ _. Local Arguments pads {F A} _ _.
Local Arguments cwf {F} _ _ _. Local Arguments crepr {F} _ _ _ _ _. Local Arguments aux_ok {F A} _ _ _ _ _ _ _. Local Arguments put {F A} _ _ _. Local Arguments rest {F A} _ _. Local Arguments fits {F A} _ _.
Local Arguments list_arg {F A} _ _ _. Local Arguments pad_arg {F A} _ _ _. Local Arguments full_batch {F} _.

Lemma f2len {A B} {P : A -> B -> Prop} {l l'} (H : Forall2 P l l') : length l = length l'.
Proof. induction H; cbn; congruence. Qed.
Lemma nth_combine {A B} (a : list A) : forall (b : list B) i x y, nth_error a i = Some x -> nth_error b i = Some y -> nth_error (combine a b) i = Some (x, y).
Proof. induction a as [|x a IH]; intros [|y b] [|i] u v Hu Hv; try discriminate; cbn in *; [congruence|auto]. Qed.
Lemma map_rep {A B} (g : A -> B) x n : map g (repeat x n) = repeat (g x) n.
Proof. induction n; cbn; congruence. Qed.
(* ---- arguments of the constructor ---- *)
Lemma parse_gen {A} (ls : list (list A)) (l : list (option (list A))) :
  Forall2 (fun x o => o = Some x \/ (x = [] /\ o = None)) ls l ->
  rmap (fun pd : nat * option (list A) => match snd pd with
                          | None => if fst pd =? 0 then Ok [] else Fail EAttr
                          | Some d => if fst pd =? length d then Ok d else Fail EValue
                          end) (combine (map (@length A) ls) l) = Ok ls.
Proof.
  induction 1 as [|x o ls l H _ IH]; [reflexivity|]. cbn [map combine rmap fst snd]. 
  destruct H as [->|(-> & ->)].
  - rewrite Nat.eqb_refl. cbn [rbind]. rewrite IH. reflexivity.
  - cbn [length Nat.eqb rbind]. rewrite IH. reflexivity.
Qed.
Lemma parse_list_ok {A} (ls : list (list A)) l : Forall2 (fun x o => o = Some x \/ (x = [] /\ o = None)) ls l ->
  forallb (fun pd : nat * option (list A) => (fst pd =? 0) && is_none (snd pd)) (combine (map (@length A) ls) l) = false ->
  parse_aux_list (length ls) (map (@length A) ls) l = Ok (Some ls).
Proof.
  intros H E. unfold parse_aux_list. rewrite <- (f2len H), Nat.eqb_refl. cbn [negb]. rewrite (parse_gen ls l H). cbn [rbind]. rewrite E. reflexivity.
Qed.
Lemma forall2_some {A} (ls : list (list A)) : Forall2 (fun x o => o = Some x \/ (x = [] /\ o = None)) ls (map Some ls).
Proof. induction ls; constructor; auto. Qed.
Lemma parse_given {A} (f : row -> option A) z h b P : b <> [] ->
  parse_aux (length b) P (sizes b) (given (col f z h b)) = Ok (Aux (col f z h b) None).
Proof.
  intros Hb. unfold parse_aux. destruct b as [|c b]; [contradiction|]. change (length (c :: b) =? 0) with false. cbn [col given].
  destruct h; [|reflexivity]. cbn [col given].
  rewrite <- (sizes_vals F f z (c :: b)), <- (vals_length F f z (c :: b)). rewrite parse_list_ok; [reflexivity|apply forall2_some|].
  cbn. apply andb_false_iff. left. apply andb_false_iff. right. reflexivity.
Qed.
Lemma parse_arg {A} (f : row -> option A) z b P g : has_a_point b -> list_arg f b g -> exists h, uni f h b /\
  parse_aux (length b) P (sizes b) g = Ok (Aux (col f z h b) None).
Proof.
  intros Hp H. pose proof (point_nonempty F b Hp) as Hb. destruct H as [(-> & H)|(l & -> & ls & H & Hl)].
  - apply (column_col F f z) in H. destruct H as (h & H & E). exists h. split; [exact H|]. rewrite <- E. unfold parse_aux. destruct (length b =? 0); reflexivity.
  - apply (column_col F f z) in H. destruct H as (h & H & E). exists h. split; [exact H|]. rewrite <- E. destruct h; [|discriminate].
    injection E as ->. unfold parse_aux. replace (length b =? 0) with false by (destruct b; [contradiction|reflexivity]).
    rewrite <- (sizes_vals F f z b), <- (vals_length F f z b). rewrite parse_list_ok; [reflexivity|exact Hl|].
    apply Bool.not_true_is_false. intros G. rewrite forallb_forall in G. destruct Hp as (c & Hc & Hne).
    apply In_nth_error in Hc. destruct Hc as (i & Hi).
    assert (Hv : nth_error (vals f z b) i = Some (map (fun r => dflt z (f r)) c)) by (apply map_nth_error, Hi).
    destruct (nth_error l i) as [o|] eqn:Eo.
    2:{ apply nth_error_None in Eo. rewrite <- (f2len Hl) in Eo. apply nth_error_None in Eo. congruence. }
    specialize (G (length c, o)). cbn [fst snd] in G.
    assert (I : In (length c, o) (combine (map (@length A) (vals f z b)) l)).
    { apply nth_error_In with i. apply nth_combine; [|exact Eo]. rewrite nth_error_map, Hv. cbn. rewrite map_length. reflexivity. }
    apply G in I. destruct c; [contradiction|discriminate].
Qed.

Definition fresh (hn hf : bool) (b : list cloud) : pc :=
  PC F (length b) (largest b) (all_same (sizes b)) (map (fun k => negb (k =? 0)) (sizes b)) (sizes b) (Some (points_of b)) None
     (Aux (col nor zero_row hn b) None) (Aux (col fea fzero hf b) None) None None.
Lemma new_given hn hf b : b <> [] -> new_clouds F (points_of b) (given (col nor zero_row hn b)) (given (col fea fzero hf b)) = Ok (fresh hn hf b).
Proof.
  intros Hb. unfold new_clouds. rewrite points_length, sizes_points. rewrite !parse_given by exact Hb. reflexivity.
Qed.
Lemma new_args b gn gf : has_a_point b -> list_arg nor b gn -> list_arg fea b gf -> exists hn hf, uni nor hn b /\ uni fea hf b /\
  new_clouds F (points_of b) gn gf = Ok (fresh hn hf b).
Proof.
  intros Hp Hn Hf. destruct (parse_arg nor zero_row b (largest b) gn Hp Hn) as (hn & Un & En). destruct (parse_arg fea fzero b (largest b) gf Hp Hf) as (hf & Uf & Ef).
  exists hn, hf. split; [exact Un|]. split; [exact Uf|]. unfold new_clouds. rewrite points_length, sizes_points. unfold largest in En, Ef. rewrite En. cbn [rbind]. rewrite Ef. reflexivity.
Qed.
Lemma tails_pads {A} (z : A) (b : list cloud) : pads b (tails (largest b) z (sizes b)).
Proof.
  unfold pads, tails. assert (H : Forall (fun n => n <= largest b) (sizes b)).
  { apply Forall_forall. intros n Hn. unfold largest. apply max_nat_ge. exact Hn. }
  revert H. generalize (largest b). intros m. induction (sizes b) as [|n l IH]; intros H; cbn; constructor.
  - apply Forall_cons_iff in H. rewrite repeat_length. lia.
  - apply IH. apply Forall_cons_iff in H. apply H.
Qed.
Lemma fresh_repr hn hf b : has_a_point b -> uni nor hn b -> uni fea hf b ->
  cwf (of_lists F fzero b) hn hf /\ crepr fzero (of_lists F fzero b) hn hf (fresh hn hf b).
Proof.
  intros Hp Hn Hf. split.
  - constructor; cbn; auto; apply tails_pads.
  - constructor; cbn.
    + reflexivity.
    + reflexivity.
    + unfold sizes. rewrite map_map. reflexivity.
    + reflexivity.
    + auto.
    + left. auto.
    + unfold aux_ok. destruct hn; cbn; auto.
    + unfold aux_ok. destruct hf; cbn; auto.
    + auto.
    + auto.
Qed.

(* ---- padded construction ---- *)
Lemma full_sizes (b : list cloud) : full_batch b -> sizes b = repeat (largest b) (length b).
Proof.
  unfold full_batch. generalize (largest b). intros m H. unfold sizes. induction b as [|c b IH]; [reflexivity|]. cbn. rewrite IH by (intros x Hx; apply H; right; exact Hx).
  rewrite H by (left; reflexivity). reflexivity.
Qed.
Lemma zip_nil {A} (l : list (list A)) {B} (b : list B) : length l = length b -> zip_app l (map (fun _ => []) b) = l.
Proof. revert b. induction l as [|x l IH]; intros [|y b] H; try discriminate; [reflexivity|]. cbn. rewrite app_nil_r, IH by (injection H; auto). reflexivity. Qed.
Lemma parse_pad {A} (f : row -> option A) z b g : pad_arg f b g -> b <> [] -> exists h, uni f h b /\
  parse_aux (length b) (largest b) (sizes b) g = Ok (Aux None (option_map (Pad (largest b)) (col f z h b))).
Proof.
  intros H Hb. unfold parse_aux. replace (length b =? 0) with false by (destruct b; [contradiction|reflexivity]). destruct H as [(-> & H)|(ls & H & ->)];
    apply (column_col F f z) in H; destruct H as (h & H & E); exists h; (split; [exact H|]); rewrite <- E.
  - reflexivity.
  - destruct h; [|discriminate]. injection E as ->. cbn [rows dim1]. rewrite vals_length, !Nat.eqb_refl. reflexivity.
Qed.
Lemma nil_pads {A} (b : list cloud) : full_batch b -> pads (A := A) b (map (fun _ => []) b).
Proof.
  intros H. unfold pads. rewrite full_sizes by exact H. generalize (largest b). intros m. clear H. induction b; cbn; constructor; auto. cbn. lia.
Qed.
Lemma new_padded b gn gf : has_a_point b -> full_batch b -> pad_arg nor b gn -> pad_arg fea b gf -> exists hn hf c,
  new_clouds_padded F (Pad (largest b) (points_of b)) gn gf = Ok c /\ cwf (no_pad F b) hn hf /\ crepr fzero (no_pad F b) hn hf c.
Proof.
  intros Hp Hf Gn Gf. pose proof (point_nonempty F b Hp) as Hb.
  destruct (parse_pad nor zero_row b gn Gn Hb) as (hn & Un & En). destruct (parse_pad fea fzero b gf Gf Hb) as (hf & Uf & Ef).
  exists hn, hf. unfold new_clouds_padded. cbn [rows dim1]. rewrite points_length, <- full_sizes by exact Hf. rewrite En. cbn [rbind]. rewrite Ef. cbn [rbind].
  eexists. split; [reflexivity|]. split.
  - constructor; cbn; auto; apply nil_pads; exact Hf.
  - constructor; cbn.
    + reflexivity.
    + reflexivity.
    + rewrite <- (map_map (@length row) (fun k => negb (k =? 0))). fold (sizes b). rewrite full_sizes by exact Hf.
      rewrite map_rep. f_equal. destruct Hp as (c & Hc & Hne). specialize (Hf c Hc). destruct c; [contradiction|]. rewrite <- Hf. reflexivity.
    + reflexivity.
    + auto.
    + right. rewrite zip_nil by apply points_length. reflexivity.
    + unfold aux_ok. destruct hn; cbn; [|reflexivity]. split; [auto|]. rewrite zip_nil by apply vals_length. reflexivity.
    + unfold aux_ok. destruct hf; cbn; [|reflexivity]. split; [auto|]. rewrite zip_nil by apply vals_length. reflexivity.
    + auto.
    + auto.
Qed.

(* ---- points move, normals and features stay ---- *)
Definition moved (b b' : list cloud) : Prop := Forall2 (Forall2 (fun r r' => nor r' = nor r /\ fea r' = fea r)) b b'.
Lemma moved_sizes b b' : moved b b' -> sizes b' = sizes b.
Proof. induction 1 as [|c c' b b' H _ IH]; [reflexivity|]. change (length c' :: sizes b' = length c :: sizes b). rewrite IH. f_equal. symmetry. eapply f2len. exact H. Qed.
Lemma moved_vals {A} (f : row -> option A) z b b' : moved b b' -> (forall r r', nor r' = nor r -> fea r' = fea r -> f r' = f r) -> vals f z b' = vals f z b.
Proof.
  intros H Hf. induction H as [|c c' b b' H _ IH]; [reflexivity|]. unfold vals in *. cbn [map]. f_equal; [|exact IH]. clear IH. induction H as [|r r' c c' (H1 & H2) _ IHc]; [reflexivity|].
  cbn. rewrite (Hf r r' H1 H2), IHc. reflexivity.
Qed.
Lemma moved_uni {A} (f : row -> option A) h b b' : moved b b' -> (forall r r', nor r' = nor r -> fea r' = fea r -> f r' = f r) -> uni f h b -> uni f h b'.
Proof.
  intros H Hf. unfold uni. induction H as [|c c' b b' H _ IH]; intros U; constructor; apply Forall_cons_iff in U; destruct U as (U1 & U2); [|auto].
  clear IH U2. induction H as [|r r' c c' (H1 & H2) _ IHc]; constructor; apply Forall_cons_iff in U1; destruct U1 as (U1 & U2); [|auto]. rewrite (Hf r r' H1 H2). exact U1.
Qed.
Lemma moved_point b b' : moved b b' -> has_a_point b -> has_a_point b'.
Proof.
  intros H. induction H as [|c c' b b' H _ IH]; intros (x & Hx & Hn); [destruct Hx|]. destruct Hx as [->|Hx].
  - exists c'. split; [left; reflexivity|]. intros ->. apply Hn. apply f2len in H. destruct x; [reflexivity|discriminate].
  - destruct IH as (y & Hy & Hyn); [exists x; auto|]. exists y. split; [right; exact Hy|exact Hyn].
Qed.
Lemma moved_wf a b' hn hf : cwf a hn hf -> moved (clouds a) b' -> cwf (CS b' (ppad a) (npad a) (fpad a)) hn hf.
Proof.
  intros Hw H. destruct Hw. assert (L := moved_sizes _ _ H). constructor; cbn.
  - eapply moved_uni; [exact H| |assumption]. intros. assumption.
  - eapply moved_uni; [exact H| |assumption]. intros. assumption.
  - eapply moved_point; eassumption.
  - unfold pads, largest in *. rewrite L. assumption.
  - unfold pads, largest in *. rewrite L. assumption.
  - unfold pads, largest in *. rewrite L. assumption.
Qed.
Lemma moved_aux {A} (f : row -> option A) z h b b' t pd x : moved b b' -> (forall r r', nor r' = nor r -> fea r' = fea r -> f r' = f r) ->
  aux_ok f z h b t pd x -> aux_ok f z h b' t pd x.
Proof.
  intros H Hf. unfold aux_ok, largest. rewrite (moved_sizes _ _ H), (moved_vals f z b b' H Hf). auto.
Qed.
Lemma moved_packed hn hf b b' : moved b b' -> packed_clouds F fzero hn hf b' =
  CPacked F (concat (points_of b')) (cp_idx F (packed_clouds F fzero hn hf b)) (cp_first F (packed_clouds F fzero hn hf b))
    (cp_normals F (packed_clouds F fzero hn hf b)) (cp_feats F (packed_clouds F fzero hn hf b)).
Proof.
  intros H. unfold packed_clouds, col. cbn. rewrite (moved_sizes _ _ H), (moved_vals nor zero_row b b' H), (moved_vals fea fzero b b' H) by auto. reflexivity.
Qed.
Lemma moved_p2p b b' : moved b b' -> p2p_clouds F b' = p2p_clouds F b.
Proof. intros H. unfold p2p_clouds, largest. rewrite <- !(sizes_length F), (moved_sizes _ _ H). reflexivity. Qed.
Lemma moved_repr a b' hn hf c c' : cwf a hn hf -> crepr fzero a hn hf c -> moved (clouds a) b' ->
  cN c' = cN c -> cP c' = cP c -> ceq c' = ceq c -> cvalid c' = cvalid c -> counts c' = counts c -> nrm c' = nrm c -> fts c' = fts c -> cp2p c' = cp2p c ->
  pts_l c' = Some (points_of b') ->
  (cpk c' = None \/ cpk c' = Some (packed_clouds F fzero hn hf b')) ->
  (pts_p c = None /\ pts_p c' = None \/
   pts_p c = Some (Pad (largest (clouds a)) (zip_app (points_of (clouds a)) (ppad a))) /\ pts_p c' = Some (Pad (largest (clouds a)) (zip_app (points_of b') (ppad a)))) ->
  crepr fzero (CS b' (ppad a) (npad a) (fpad a)) hn hf c'.
Proof.
  intros Hw R H E1 E2 E3 E4 E5 E6 E7 E8 El Ek Ep. assert (L := moved_sizes _ _ H). pose proof (f2len H) as Ln. destruct R.
  assert (Pd : is_pad (pts_p c') = is_pad (pts_p c)) by (destruct Ep as [(-> & ->)|(-> & ->)]; reflexivity).
  constructor; cbn [clouds ppad npad fpad].
  - rewrite E1, q_N. exact Ln.
  - rewrite E2, q_P. unfold largest. rewrite L. reflexivity.
  - rewrite E4, q_valid. rewrite <- !(map_map (@length row) (fun k => negb (k =? 0))). fold (sizes (clouds a)) (sizes b'). rewrite L. reflexivity.
  - rewrite E5, q_cnt, L. reflexivity.
  - auto.
  - destruct Ep as [(Ep & ->)|(_ & ->)].
    + left. destruct q_p as [(_ & Q1 & Q2 & Q3)|Q]; [|congruence]. unfold largest. rewrite L. split; [reflexivity|]. split; [exact El|]. split; [rewrite E3; exact Q2|exact Q3].
    + right. unfold largest. rewrite L. reflexivity.
  - rewrite Pd, E6. eapply moved_aux; [exact H|intros; assumption|assumption].
  - rewrite Pd, E7. eapply moved_aux; [exact H|intros; assumption|assumption].
  - destruct Ek; auto.
  - rewrite E8, (moved_p2p _ _ H). assumption.
Qed.
Lemma cloud_write_ok a b' c : (pts_p c = None \/ pts_p c = Some (Pad (largest (clouds a)) (zip_app (points_of (clouds a)) (ppad a)))) -> length (ppad a) = length (clouds a) ->
  moved (clouds a) b' -> exists c', cloud_write F c (points_of b') = Ok c' /\
  cN c' = cN c /\ cP c' = cP c /\ ceq c' = ceq c /\ cvalid c' = cvalid c /\ counts c' = counts c /\ nrm c' = nrm c /\ fts c' = fts c /\ cp2p c' = cp2p c /\
  pts_l c' = pts_l c /\ cpk c' = cpk c /\
  (pts_p c = None /\ pts_p c' = None \/
   pts_p c = Some (Pad (largest (clouds a)) (zip_app (points_of (clouds a)) (ppad a))) /\ pts_p c' = Some (Pad (largest (clouds a)) (zip_app (points_of b') (ppad a)))).
Proof.
  intros H Ht Hm. unfold cloud_write. destruct H as [E|E]; rewrite E.
  - exists c. rewrite E. auto 20.
  - cbn [rows dim1]. rewrite write_zip.
    + cbn [rbind]. eexists. split; [reflexivity|]. cbn. auto 20.
    + rewrite !sizes_points. apply moved_sizes, Hm.
    + rewrite points_length. congruence.
Qed.
End Features.
