From Coq Require Import Sorted Permutation.
From Verif Require Import Base RBase Geom Packing PackingProofs FaceAreas FaceAreasSpec Meshes MeshesSpec MeshesProofs MeshesProofs2 MeshesProofs3 MeshesProofs4.
Local Open Scope Z_scope.

(* ---- strictly sorted lists ---- *)
Lemma ss_ext {T} (lt : T -> T -> Prop) : (forall x, ~ lt x x) -> (forall x y z, lt x y -> lt y z -> lt x z) ->
  forall a b, StronglySorted lt a -> StronglySorted lt b -> (forall x, In x a <-> In x b) -> a = b.
Proof.
  intros Irr Tr. induction a as [|x a IH]; intros [|y b] Ha Hb H.
  - reflexivity.
  - destruct (proj2 (H y) (or_introl eq_refl)).
  - destruct (proj1 (H x) (or_introl eq_refl)).
  - apply StronglySorted_inv in Ha, Hb. destruct Ha as (Ha & Fa), Hb as (Hb & Fb). rewrite Forall_forall in Fa, Fb.
    assert (E : x = y).
    { destruct (proj1 (H x) (or_introl eq_refl)) as [E|E]; [auto|]. destruct (proj2 (H y) (or_introl eq_refl)) as [E'|E']; [auto|].
      destruct (Irr x). eapply Tr; [apply Fa; exact E'|apply Fb; exact E]. }
    subst y. f_equal. apply IH; [exact Ha|exact Hb|]. intros z. split; intros Hz.
    + destruct (proj1 (H z) (or_intror Hz)) as [E|E]; [|exact E]. subst z. destruct (Irr x). apply Fa, Hz.
    + destruct (proj2 (H z) (or_intror Hz)) as [E|E]; [|exact E]. subst z. destruct (Irr x). apply Fb, Hz.
Qed.
Lemma lex_irr e : ~ lex e e. Proof. unfold lex. lia. Qed.
Lemma lex_trans x y z : lex x y -> lex y z -> lex x z. Proof. unfold lex. lia. Qed.
Lemma edge_list_unique fs E E' : edge_list fs E -> edge_list fs E' -> E = E'.
Proof.
  intros (S & H) (S' & H'). apply (ss_ext lex lex_irr lex_trans); auto. intros e. rewrite H, H'. reflexivity.
Qed.

Lemma insert_uniq_in x l y : In y (insert_uniq x l) <-> y = x \/ In y l.
Proof.
  induction l as [|z l IH]; cbn; [intuition|]. destruct (Z.ltb_spec x z); cbn; [intuition|].
  destruct (Z.eqb_spec x z); cbn; [subst; intuition|]. rewrite IH. intuition.
Qed.
Lemma insert_uniq_sorted x l : StronglySorted Z.lt l -> StronglySorted Z.lt (insert_uniq x l).
Proof.
  induction l as [|z l IH]; intros H; cbn; [repeat constructor|]. pose proof H as H0.
  apply StronglySorted_inv in H. destruct H as (H & F). destruct (Z.ltb_spec x z).
  - constructor; [exact H0|]. constructor; [assumption|]. eapply Forall_impl; [|exact F]. intros; lia.
  - destruct (Z.eqb_spec x z); [exact H0|]. constructor; [apply IH; exact H|]. apply Forall_forall. intros y Hy.
    apply insert_uniq_in in Hy. rewrite Forall_forall in F. destruct Hy as [->|Hy]; [lia|apply F; exact Hy].
Qed.
Lemma unique_in l y : In y (unique l) <-> In y l.
Proof. unfold unique. induction l as [|x l IH]; cbn; [reflexivity|]. rewrite insert_uniq_in, IH. intuition. Qed.
Lemma unique_sorted l : StronglySorted Z.lt (unique l).
Proof. unfold unique. induction l as [|x l IH]; cbn; [constructor|]. apply insert_uniq_sorted, IH. Qed.
Lemma index_of_nth x l : In x l -> 0 <= index_of x l /\ nth_error l (Z.to_nat (index_of x l)) = Some x.
Proof.
  induction l as [|y l IH]; [intros []|]. intros H. cbn [index_of]. destruct (Z.eqb_spec x y) as [->|N]; [split; [lia|reflexivity]|].
  destruct IH as (I1 & I2); [destruct H; [congruence|assumption]|]. split; [lia|].
  replace (Z.to_nat (1 + index_of x l)) with (S (Z.to_nat (index_of x l))) by lia. exact I2.
Qed.

(* ---- the hash of an edge ---- *)
Definition enc (V : Z) (e : Z * Z) : Z := V * fst e + snd e.
Definition dec (V : Z) (h : Z) : Z * Z := (h / V, h mod V).
Lemma dec_enc V e : 0 <= snd e < V -> dec V (enc V e) = e.
Proof.
  intros H. destruct e as [a b]. unfold dec, enc. cbn in *. f_equal.
  - rewrite Z.mul_comm, Z.div_add_l by lia. rewrite Z.div_small by lia. lia.
  - rewrite Z.mul_comm, Z.add_comm, Z.mod_add by lia. apply Z.mod_small. lia.
Qed.
Lemma enc_lt V e e' : 0 <= snd e < V -> 0 <= snd e' < V -> enc V e < enc V e' -> lex e e'.
Proof. destruct e as [a b], e' as [a' b']. unfold enc, lex. cbn. intros. assert (a <= a') by nia. nia. Qed.

Definition side0 (f : face) := face_e12 f. 
Definition all_sides (fs : list face) : list (Z * Z) := map face_e12 fs ++ map face_e20 fs ++ map face_e01 fs.
Lemma sort2_low e : sort2 e = low_high e.
Proof. destruct e as [a b]. unfold sort2, low_high. cbn. destruct (Z.leb_spec a b); cbn; f_equal; lia. Qed.

Lemma all_sides_range V fs e : Forall (in_range V) fs -> In e (all_sides fs) -> 0 <= fst e < Z.of_nat V /\ 0 <= snd e < Z.of_nat V.
Proof.
  intros H Hi. unfold all_sides in Hi. rewrite Forall_forall in H.
  rewrite !in_app_iff, !in_map_iff in Hi. destruct Hi as [(f & <- & Hf)|[(f & <- & Hf)|(f & <- & Hf)]]; specialize (H f Hf); destruct f as [[a b] c]; cbn in *; lia.
Qed.
Lemma low_range V e : 0 <= fst e < V /\ 0 <= snd e < V -> 0 <= fst (low_high e) < V /\ 0 <= snd (low_high e) < V.
Proof. unfold low_high. cbn. lia. Qed.

Lemma side_of_iff e f : side_of e f <-> exists s, In s [face_e12 f; face_e20 f; face_e01 f] /\ (e = s \/ (snd e, fst e) = s).
Proof.
  destruct f as [[a b] c]. unfold side_of, sides. cbn [face_e12 face_e20 face_e01]. split.
  - intros [H|H]; eauto.
  - intros (s & H & [->|<-]); auto.
Qed.
Lemma sorted_side e fs : (fst e <= snd e /\ exists f, In f fs /\ side_of e f) <-> In e (map low_high (all_sides fs)).
Proof.
  rewrite in_map_iff. split.
  - intros (Hle & f & Hf & Hs). apply side_of_iff in Hs. destruct Hs as (s & Hi & He).
    exists s. split.
    + destruct e as [x y], s as [u v]. unfold low_high. cbn in *. destruct He as [E|E]; injection E as -> ->; f_equal; lia.
    + unfold all_sides. rewrite !in_app_iff, !in_map_iff. destruct Hi as [<-|[<-|[<-|[]]]]; eauto.
  - intros (s & <- & Hi). split; [unfold low_high; cbn; lia|].
    assert (G : exists f, In f fs /\ In s [face_e12 f; face_e20 f; face_e01 f]).
    { unfold all_sides in Hi. rewrite !in_app_iff, !in_map_iff in Hi. cbn.
      destruct Hi as [(f & <- & Hf)|[(f & <- & Hf)|(f & <- & Hf)]]; exists f; auto. }
    destruct G as (f & Hf & G). exists f. split; [exact Hf|]. apply side_of_iff. exists s. split; [exact G|].
    destruct s as [u v]. unfold low_high. cbn. destruct (Z.le_gt_cases u v); [left|right]; f_equal; lia.
Qed.

Lemma ss_map {X Y} (lt : X -> X -> Prop) (lt' : Y -> Y -> Prop) (g : X -> Y) l :
  StronglySorted lt l -> (forall x y, In x l -> In y l -> lt x y -> lt' (g x) (g y)) -> StronglySorted lt' (map g l).
Proof.
  induction 1 as [|x l S IH F]; intros H; cbn; [constructor|]. constructor.
  - apply IH. intros y z Hy Hz. apply H; right; assumption.
  - apply Forall_map. rewrite Forall_forall in F |- *. intros y Hy. apply H; [left; reflexivity|right; exact Hy|apply F; exact Hy].
Qed.

Definition hashes (V : nat) (fs : list face) : list Z := map (enc (Z.of_nat V)) (map sort2 (all_sides fs)).
Definition decoded (V : nat) (fs : list face) : list (Z * Z) := map (dec (Z.of_nat V)) (unique (hashes V fs)).

Lemma hash_range V fs h : Forall (in_range V) fs -> In h (hashes V fs) -> exists e, h = enc (Z.of_nat V) e /\ In e (map low_high (all_sides fs)) /\ 0 <= snd e < Z.of_nat V.
Proof.
  intros H Hi. unfold hashes in Hi. apply in_map_iff in Hi. destruct Hi as (e & <- & Hi).
  rewrite (map_ext _ _ sort2_low) in Hi. exists e. split; [reflexivity|]. split; [exact Hi|].
  apply in_map_iff in Hi. destruct Hi as (s & <- & Hs). apply low_range. eapply all_sides_range; eassumption.
Qed.
Lemma decoded_edges V fs : Forall (in_range V) fs -> edge_list fs (decoded V fs).
Proof.
  intros H. split.
  - unfold decoded. eapply ss_map; [apply unique_sorted|]. intros x y Hx Hy Hlt. rewrite unique_in in Hx. rewrite unique_in in Hy.
    destruct (hash_range V fs x H Hx) as (e & -> & _ & He). destruct (hash_range V fs y H Hy) as (e' & -> & _ & He').
    rewrite !dec_enc by assumption. apply (enc_lt (Z.of_nat V)); assumption.
  - intros e. rewrite sorted_side. unfold decoded. rewrite in_map_iff. split.
    + intros (h & <- & Hh). rewrite unique_in in Hh. destruct (hash_range V fs h H Hh) as (e' & -> & I & He). rewrite dec_enc by assumption. exact I.
    + intros Hi. exists (enc (Z.of_nat V) e). split.
      * apply dec_enc. apply in_map_iff in Hi. destruct Hi as (s & <- & Hs). apply low_range. eapply all_sides_range; eassumption.
      * apply unique_in. unfold hashes. apply in_map. rewrite (map_ext _ _ sort2_low). exact Hi.
Qed.

(* ---- faces to edges ---- *)
Lemma zip3_Forall2 {T X Y Z} (P : T -> X * Y * Z -> Prop) : forall fs (f : T -> X) (g : T -> Y) (h : T -> Z),
  (forall t, In t fs -> P t (f t, g t, h t)) -> Forall2 P fs (zip3 (map f fs) (map g fs) (map h fs)).
Proof.
  induction fs as [|t fs IH]; intros f g h H; cbn; constructor; [apply H; left; reflexivity|].
  apply IH. intros u Hu. apply H. right. exact Hu.
Qed.

Lemma dec_pos V fs s : Forall (in_range V) fs -> In s (all_sides fs) ->
  let i := index_of (enc (Z.of_nat V) (sort2 s)) (unique (hashes V fs)) in
  0 <= i /\ nth_error (decoded V fs) (Z.to_nat i) = Some (low_high s).
Proof.
  intros H Hs. cbv zeta. destruct (index_of_nth (enc (Z.of_nat V) (sort2 s)) (unique (hashes V fs))) as (I1 & I2).
  { apply unique_in. unfold hashes. apply in_map, in_map, Hs. }
  split; [exact I1|]. unfold decoded. rewrite nth_error_map_iff, I2. cbn [option_map]. f_equal. rewrite sort2_low. apply dec_enc.
  apply low_range. eapply all_sides_range; eassumption.
Qed.

(* ---- run heads ---- *)
Lemma run_heads_sub : forall s idx prev i, In i (run_heads prev s idx) -> In i idx.
Proof.
  induction s as [|h s IH]; intros [|j idx] prev i H; cbn in H; try contradiction.
  destruct prev as [p|]; [destruct (h =? p)|]; try (right; eapply IH; exact H); (destruct H as [->|H]; [left; reflexivity|right; eapply IH; exact H]).
Qed.
Lemma run_heads_spec (val : nat -> Z) : forall idx prev, StronglySorted Z.le (map val idx) ->
  (forall p, prev = Some p -> Forall (Z.le p) (map val idx)) ->
  let r := map val (run_heads prev (map val idx) idx) in
  StronglySorted Z.lt r /\ (forall p, prev = Some p -> Forall (Z.lt p) r) /\
  (forall x, In x (map val idx) <-> In x r \/ (In x (map val idx) /\ prev = Some x)).
Proof.
  induction idx as [|i idx IH]; intros prev S P; cbv zeta.
  - cbn. split; [constructor|]. split; [constructor|]. tauto.
  - cbn [map] in S. apply StronglySorted_inv in S. destruct S as (S & F).
    assert (P' : forall p, Some (val i) = Some p -> Forall (Z.le p) (map val idx)).
    { intros p [= <-]. exact F. }
    destruct (IH (Some (val i)) S P') as (I1 & I2 & I3). specialize (I2 (val i) eq_refl). cbv zeta in I3.
    assert (Keep : (forall p, prev = Some p -> p < val i) ->
       StronglySorted Z.lt (map val (i :: run_heads (Some (val i)) (map val idx) idx)) /\
       (forall p, prev = Some p -> Forall (Z.lt p) (map val (i :: run_heads (Some (val i)) (map val idx) idx))) /\
       (forall x, In x (map val (i :: idx)) <-> In x (map val (i :: run_heads (Some (val i)) (map val idx) idx)) \/ (In x (map val (i :: idx)) /\ prev = Some x))).
    { intros Hp. cbn [map]. split; [constructor; assumption|]. split.
      - intros p Ep. specialize (Hp p Ep). constructor; [exact Hp|]. eapply Forall_impl; [|exact I2]. intros; cbn in *; lia.
      - intros x. split.
        + intros [E|Hx]; [left; left; exact E|]. apply I3 in Hx. destruct Hx as [Hx|(Hx & [= E])]; [left; right; exact Hx|left; left; exact E].
        + intros [[E|Hx]|(Hx & _)]; [left; exact E| |exact Hx]. right. apply I3. left. exact Hx. }
    cbn [map run_heads]. destruct prev as [p|]; [|apply Keep; discriminate].
    specialize (P p eq_refl). cbn [map] in P. apply Forall_cons_iff in P. destruct P as (P0 & P1).
    destruct (Z.eqb_spec (val i) p) as [E|E].
    + split; [exact I1|]. split; [intros q [= <-]; rewrite <- E; exact I2|].
      intros x. cbn [In]. rewrite I3 at 1. split.
      * intros [Ex|[Hx|(Hx & [= Ex])]]; [right|left; exact Hx|right]; split; try (left; congruence); congruence.
      * intros [Hx|([Ex|Hx] & [= Eq])]; [right; left; exact Hx|left; exact Ex|left; congruence].
    + apply Keep. intros q [= <-]. lia.
Qed.

Section Edges.
Variable argsort : list Z -> list nat.
Hypothesis Hsort : sorts argsort.

Lemma argsort_in l i : In i (argsort l) -> (i < length l)%nat.
Proof. intros H. destruct (Hsort l) as (P & _). eapply Permutation_in in H; [|exact P]. apply in_seq in H. lia. Qed.

Definition heads (l : list Z) : list nat := run_heads None (map (fun i => nth i l 0) (argsort l)) (argsort l).
Lemma heads_values l : map (fun i => nth i l 0) (heads l) = unique l.
Proof.
  destruct (Hsort l) as (P & S). destruct (run_heads_spec (fun i => nth i l 0) (argsort l) None S) as (H1 & _ & H3); [discriminate|].
  apply (ss_ext Z.lt Z.lt_irrefl Z.lt_trans); [exact H1|apply unique_sorted|].
  intros x. rewrite unique_in. transitivity (In x (map (fun i => nth i l 0) (argsort l))).
  - rewrite H3. split; [intros H; left; exact H|intros [H|(_ & H)]; [exact H|discriminate]].
  - rewrite in_map_iff. split.
    + intros (i & <- & Hi). apply nth_In. apply argsort_in. exact Hi.
    + intros H. apply In_nth with (d := 0) in H. destruct H as (i & Hi & E). exists i. split; [exact E|].
      apply (Permutation_in i (Permutation_sym P)). apply in_seq. lia.
Qed.
Lemma heads_lt l i : In i (heads l) -> (i < length l)%nat.
Proof. intros H. apply argsort_in. eapply run_heads_sub. exact H. Qed.

Definition owned (fs : list face) (fidx : list Z) (e : Z * Z) (o : Z) : Prop :=
  exists j f, nth_error fs j = Some f /\ nth_error fidx j = Some o /\ side_of e f.

Lemma all_sides_nth fs fidx i s o : length fidx = length fs -> nth_error (all_sides fs) i = Some s ->
  nth_error (fidx ++ fidx ++ fidx) i = Some o -> owned fs fidx (low_high s) o.
Proof.
  intros L H1 H2.
  assert (G : exists j f, nth_error fs j = Some f /\ nth_error fidx j = Some o /\ In s [face_e12 f; face_e20 f; face_e01 f]).
  { unfold all_sides in H1. destruct (Nat.lt_ge_cases i (length fs)) as [C|C].
    - rewrite nth_error_app1 in H1 by (rewrite map_length; exact C). rewrite nth_error_app1 in H2 by lia.
      rewrite nth_error_map_iff in H1. destruct (nth_error fs i) as [f|] eqn:E; [|discriminate]. injection H1 as <-. exists i, f. cbn. auto.
    - rewrite nth_error_app2 in H1 by (rewrite map_length; exact C). rewrite nth_error_app2 in H2 by lia. rewrite map_length in H1. rewrite L in H2.
      set (k := (i - length fs)%nat) in *. clearbody k. destruct (Nat.lt_ge_cases k (length fs)) as [C'|C'].
      + rewrite nth_error_app1 in H1 by (rewrite map_length; exact C'). rewrite nth_error_app1 in H2 by lia.
        rewrite nth_error_map_iff in H1. destruct (nth_error fs k) as [f|] eqn:E; [|discriminate]. injection H1 as <-. exists k, f. cbn. auto.
      + rewrite nth_error_app2 in H1 by (rewrite map_length; exact C'). rewrite nth_error_app2 in H2 by lia. rewrite map_length in H1. rewrite L in H2.
        rewrite nth_error_map_iff in H1. destruct (nth_error fs (k - length fs)) as [f|] eqn:E; [|discriminate]. injection H1 as <-.
        exists (k - length fs)%nat, f. cbn. split; [exact E|]. split; [exact H2|]. tauto. }
  destruct G as (j & f & E1 & E2 & G). exists j, f. split; [exact E1|]. split; [exact E2|].
  apply side_of_iff. exists s. split; [exact G|]. destruct s as [u v]. unfold low_high. cbn. destruct (Z.le_gt_cases u v); [left|right]; f_equal; lia.
Qed.

Lemma edges_of_value N V fs fidx : Forall (in_range V) fs -> length fidx = length fs ->
  exists em f2e, edges_of argsort N V fs fidx =
    Ok (Edges (decoded V fs) em (Some (count_mesh N em, match count_mesh N em with [] => [] | _ => 0%nat :: cumsum (removelast (count_mesh N em)) end, f2e))) /\
    Forall2 (owned fs fidx) (decoded V fs) em /\ Forall2 (opposite_edges (decoded V fs)) fs f2e.
Proof.
  intros H L.
  assert (Lh : length (hashes V fs) = (length fs + (length fs + length fs))%nat).
  { unfold hashes, all_sides. rewrite !map_length, !app_length, !map_length. reflexivity. }
  unfold edges_of. change (map face_e12 fs ++ map face_e20 fs ++ map face_e01 fs) with (all_sides fs).
  change (map (fun e : Z * Z => Z.of_nat V * fst e + snd e) (map sort2 (all_sides fs))) with (hashes V fs).
  rewrite (rmap_total _ (fun i => nth i (hashes V fs) 0)).
  2:{ apply Forall_forall. intros i Hi. apply argsort_in in Hi. rewrite (nth_error_nth' _ 0 Hi). reflexivity. }
  cbn [rbind]. change (run_heads None (map (fun i => nth i (hashes V fs) 0) (argsort (hashes V fs))) (argsort (hashes V fs))) with (heads (hashes V fs)).
  set (e2m := fidx ++ fidx ++ fidx).
  assert (Le : length e2m = length (hashes V fs)) by (unfold e2m; rewrite !app_length, Lh, L; reflexivity).
  rewrite (rmap_total _ (fun i => nth i e2m 0)).
  2:{ apply Forall_forall. intros i Hi. apply heads_lt in Hi. rewrite <- Le in Hi. rewrite (nth_error_nth' _ 0 Hi). reflexivity. }
  cbn [rbind]. set (em := map (fun i => nth i e2m 0) (heads (hashes V fs))).
  set (ix := fun s => index_of (enc (Z.of_nat V) (sort2 s)) (unique (hashes V fs))).
  assert (Inv : map (fun h => index_of h (unique (hashes V fs))) (hashes V fs) = map (fun f => ix (face_e12 f)) fs ++ map (fun f => ix (face_e20 f)) fs ++ map (fun f => ix (face_e01 f)) fs).
  { unfold hashes at 2. rewrite !map_map. unfold all_sides. rewrite !map_app, !map_map. reflexivity. }
  rewrite Inv.
  exists em, (zip3 (map (fun f => ix (face_e12 f)) fs) (map (fun f => ix (face_e20 f)) fs) (map (fun f => ix (face_e01 f)) fs)).
  assert (Tk : forall (a b c : list Z), length a = length fs -> length b = length fs -> length c = length fs ->
    firstn (length fs) (a ++ b ++ c) = a /\ firstn (length fs) (skipn (length fs) (a ++ b ++ c)) = b /\ firstn (length fs) (skipn (length fs + length fs) (a ++ b ++ c)) = c).
  { intros a b c La Lb Lc. rewrite <- La at 1 3. split; [|split].
    - rewrite firstn_app, Nat.sub_diag, firstn_all. cbn. apply app_nil_r.
    - rewrite skipn_app, Nat.sub_diag, skipn_all. cbn. rewrite <- Lb, firstn_app, Nat.sub_diag, firstn_all. cbn. apply app_nil_r.
    - replace (length fs + length fs)%nat with (length (a ++ b)) by (rewrite app_length; lia). rewrite app_assoc, skipn_app, Nat.sub_diag, skipn_all. cbn.
      rewrite <- Lc, firstn_all. reflexivity. }
  destruct (Tk (map (fun f => ix (face_e12 f)) fs) (map (fun f => ix (face_e20 f)) fs) (map (fun f => ix (face_e01 f)) fs)) as (T1 & T2 & T3); try apply map_length.
  unfold face in *. rewrite T1, T2, T3. split; [reflexivity|]. split.
  - unfold decoded. rewrite <- heads_values. rewrite map_map. unfold em.
    assert (G : Forall (fun i => owned fs fidx (dec (Z.of_nat V) (nth i (hashes V fs) 0)) (nth i e2m 0)) (heads (hashes V fs))).
    { apply Forall_forall. intros i Hi. apply heads_lt in Hi.
      unfold hashes in Hi. rewrite !map_length in Hi. destruct (nth_error (all_sides fs) i) as [s|] eqn:Es; [|apply nth_error_None in Es; lia].
      assert (Eh : nth i (hashes V fs) 0 = enc (Z.of_nat V) (sort2 s)).
      { apply nth_error_nth. unfold hashes. rewrite !nth_error_map_iff, Es. reflexivity. }
      rewrite Eh, sort2_low, dec_enc by (apply low_range; eapply all_sides_range; [exact H|eapply nth_error_In; exact Es]).
      eapply all_sides_nth; [exact L|exact Es|]. apply nth_error_nth'. fold e2m. rewrite Le. unfold hashes. rewrite !map_length. exact Hi. }
    clear - G. induction G; cbn; constructor; auto.
  - apply zip3_Forall2. intros f Hf.
    assert (S1 : In (face_e12 f) (all_sides fs)) by (unfold all_sides; rewrite !in_app_iff; left; apply in_map; exact Hf).
    assert (S2 : In (face_e20 f) (all_sides fs)) by (unfold all_sides; rewrite !in_app_iff; right; left; apply in_map; exact Hf).
    assert (S3 : In (face_e01 f) (all_sides fs)) by (unfold all_sides; rewrite !in_app_iff; right; right; apply in_map; exact Hf).
    destruct (dec_pos V fs _ H S1) as (A1 & A2), (dec_pos V fs _ H S2) as (B1 & B2), (dec_pos V fs _ H S3) as (C1 & C2).
    destruct f as [[a b] c]. cbn in *. auto.
Qed.

(* ---- edges of a batch, mesh by mesh ---- *)
Lemma own_edges_exist b : Forall good_mesh b -> exists Es, own_edges b Es.
Proof.
  induction 1 as [|p b H _ (Es & IH)]; [exists []; constructor|]. exists (decoded (length (fst p)) (snd p) :: Es). constructor; [|exact IH].
  apply decoded_edges. exact H.
Qed.

Lemma move_side o e f : side_of e f -> side_of (move_edge o e) (move_face o f).
Proof.
  destruct f as [[a b] c], e as [u v]. unfold side_of, sides, move_face, move_edge. cbn.
  intros [[E|[E|[E|[]]]]|[E|[E|[E|[]]]]]; injection E as <- <-; tauto.
Qed.
Lemma unmove_side o e f : side_of e (move_face o f) -> exists e', e = move_edge o e' /\ side_of e' f.
Proof.
  destruct f as [[a b] c], e as [u v]. unfold side_of, sides, move_face, move_edge. cbn.
  intros H. exists (u - Z.of_nat o, v - Z.of_nat o). cbn. split; [f_equal; lia|].
  destruct H as [[E|[E|[E|[]]]]|[E|[E|[E|[]]]]]; injection E as E1 E2; [left;left|left;right;left|left;right;right;left|right;left|right;right;left|right;right;right;left]; f_equal; lia.
Qed.
Lemma edge_range n fs E e : Forall (in_range n) fs -> edge_list fs E -> In e E -> 0 <= fst e < Z.of_nat n /\ 0 <= snd e < Z.of_nat n.
Proof.
  intros H (_ & HE) Hi. apply HE in Hi. destruct Hi as (_ & f & Hf & Hs). rewrite Forall_forall in H. specialize (H f Hf).
  destruct f as [[a b] c], e as [u v]. unfold side_of, sides in Hs. cbn in *.
  destruct Hs as [[X|[X|[X|[]]]]|[X|[X|[X|[]]]]]; injection X as <- <-; lia.
Qed.

Lemma move_edges_low b Es : Forall good_mesh b -> own_edges b Es -> forall o e, In e (move_edges o b Es) -> Z.of_nat o <= fst e /\ Z.of_nat o <= snd e.
Proof.
  intros G H. induction H as [|p E b Es HE _ IH]; intros o e Hi; [destruct Hi|]. apply Forall_cons_iff in G. destruct G as (G1 & G2).
  cbn [move_edges] in Hi. apply in_app_iff in Hi. destruct Hi as [Hi|Hi].
  - apply in_map_iff in Hi. destruct Hi as (e' & <- & Hi). destruct (edge_range _ _ _ _ G1 HE Hi). unfold move_edge. cbn. lia.
  - specialize (IH G2 _ _ Hi). lia.
Qed.
Lemma move_edges_list b Es : Forall good_mesh b -> own_edges b Es -> forall o, edge_list (faces_from o b) (move_edges o b Es).
Proof.
  intros G H. induction H as [|p E b Es HE Ho IH]; intros o.
  { split; [constructor|]. intros e. cbn. split; [tauto|]. intros (_ & f & [] & _). }
  apply Forall_cons_iff in G. destruct G as (G1 & G2). specialize (IH G2 (o + length (fst p))%nat). destruct IH as (S & I).
  cbn [move_edges faces_from]. split.
  - assert (S1 : StronglySorted lex (map (move_edge o) E)).
    { eapply ss_map; [apply HE|]. intros x y _ _ Hl. unfold lex, move_edge in *. cbn. lia. }
    assert (C : forall x y, In x (map (move_edge o) E) -> In y (move_edges (o + length (fst p)) b Es) -> lex x y).
    { intros x y Hx Hy. apply in_map_iff in Hx. destruct Hx as (x' & <- & Hx). destruct (edge_range _ _ _ _ G1 HE Hx).
      destruct (move_edges_low b Es G2 Ho _ _ Hy). unfold lex, move_edge. cbn. lia. }
    revert S1 C. generalize (map (move_edge o) E). induction l as [|x l IHl]; intros S1 C; cbn; [exact S|].
    apply StronglySorted_inv in S1. destruct S1 as (S1 & F1). constructor.
    + apply IHl; [exact S1|]. intros u v Hu Hv. apply C; [right; exact Hu|exact Hv].
    + apply Forall_app. split; [exact F1|]. apply Forall_forall. intros y Hy. apply C; [left; reflexivity|exact Hy].
  - intros e. rewrite in_app_iff, I. destruct HE as (_ & HE). split.
    + intros [Hi|(Hle & f & Hf & Hs)].
      * apply in_map_iff in Hi. destruct Hi as (e' & <- & Hi). apply HE in Hi. destruct Hi as (Hle & f & Hf & Hs).
        split; [unfold move_edge; cbn; lia|]. exists (move_face o f). split; [apply in_app_iff; left; apply in_map; exact Hf|apply move_side; exact Hs].
      * split; [exact Hle|]. exists f. split; [apply in_app_iff; right; exact Hf|exact Hs].
    + intros (Hle & f & Hf & Hs). apply in_app_iff in Hf. destruct Hf as [Hf|Hf]; [left|right; eauto].
      apply in_map_iff in Hf. destruct Hf as (f' & <- & Hf). destruct (unmove_side o e f' Hs) as (e' & -> & Hs').
      apply in_map. apply HE. split; [unfold move_edge in Hle; cbn in Hle; lia|eauto].
Qed.

(* the owner of an edge is the mesh its vertices belong to *)
Lemma faces_owner_range b : Forall good_mesh b -> forall o n j f w,
  nth_error (faces_from o b) j = Some f -> nth_error (owners n (fcount b)) j = Some w ->
  exists i, w = Z.of_nat (n + i) /\ (i < length b)%nat /\ let lo := (o + vstart b i)%nat in
    let '(x, y, z) := f in Z.of_nat lo <= x < Z.of_nat (lo + nth i (vcount b) 0%nat) /\ Z.of_nat lo <= y < Z.of_nat (lo + nth i (vcount b) 0%nat) /\ Z.of_nat lo <= z < Z.of_nat (lo + nth i (vcount b) 0%nat).
Proof.
  induction 1 as [|p b H Hb IH]; intros o n j f w H1 H2; [destruct j; discriminate|].
  cbn [faces_from fcount map owners] in H1, H2. fold (fcount b) in H2.
  destruct (Nat.lt_ge_cases j (length (snd p))) as [C|C].
  - rewrite nth_error_app1 in H1 by (rewrite map_length; exact C). rewrite nth_error_app1 in H2 by (rewrite repeat_length; exact C).
    rewrite nth_error_map_iff in H1. destruct (nth_error (snd p) j) as [f'|] eqn:E; [|discriminate]. injection H1 as <-.
    apply nth_error_In in H2. apply repeat_spec in H2. exists 0%nat. split; [rewrite H2; f_equal; lia|]. split; [cbn; lia|].
    unfold good_mesh in H. rewrite Forall_forall in H. apply nth_error_In in E. specialize (H f' E). destruct f' as [[x y] z]. cbn in *. lia.
  - rewrite nth_error_app2 in H1 by (rewrite map_length; exact C). rewrite nth_error_app2 in H2 by (rewrite repeat_length; exact C).
    rewrite map_length in H1. rewrite repeat_length in H2. destruct (IH _ _ _ _ _ H1 H2) as (i & Ew & Li & G).
    exists (S i). split; [rewrite Ew; f_equal; lia|]. split; [cbn; lia|]. cbv zeta in G |- *. unfold vstart in *. cbn [vcount map firstn nth]. fold (vcount b).
    unfold sum_nat at 1 2 3 4 5 6. cbn [fold_right]. fold (sum_nat (firstn i (vcount b))). 
    destruct f as [[x y] z]. rewrite Nat.add_assoc in *. exact G.
Qed.

Definition in_block (o n : nat) (b : list mesh) (e : Z * Z) (w : Z) : Prop :=
  exists i, w = Z.of_nat (n + i) /\ (i < length b)%nat /\ Z.of_nat (o + vstart b i) <= fst e < Z.of_nat (o + vstart b i + nth i (vcount b) 0%nat).
Lemma vstart_S p b i : vstart (p :: b) (S i) = (length (fst p) + vstart b i)%nat.
Proof. reflexivity. Qed.
Lemma Forall2_const {X Y} (P : X -> Y -> Prop) (w : Y) l em : Forall2 P l em -> (forall x y, In x l -> P x y -> y = w) -> em = repeat w (length l).
Proof.
  induction 1 as [|x y l em H _ IH]; intros G; cbn; [reflexivity|]. rewrite (G x y (or_introl eq_refl) H). f_equal. apply IH.
  intros u v Hu. apply G. right. exact Hu.
Qed.
Lemma block_owners b Es : Forall good_mesh b -> own_edges b Es -> forall o n em,
  Forall2 (in_block o n b) (move_edges o b Es) em -> em = owners n (map (@length _) Es).
Proof.
  intros G H. induction H as [|p E b Es HE Ho IH]; intros o n em F; [inversion F; reflexivity|].
  apply Forall_cons_iff in G. destruct G as (G1 & G2). cbn [move_edges] in F. apply Forall2_app_inv_l in F.
  destruct F as (e1 & e2 & F1 & F2 & ->). cbn [map owners]. f_equal.
  - rewrite <- (map_length (move_edge o) E). eapply Forall2_const; [exact F1|]. intros e w He (i & -> & Li & B).
    apply in_map_iff in He. destruct He as (e' & <- & He). destruct (edge_range _ _ _ _ G1 HE He).
    destruct i as [|i]; [f_equal; lia|]. rewrite vstart_S in B. unfold move_edge in B. cbn [fst] in B. lia.
  - apply (IH G2 (o + length (fst p))%nat (S n)).
    assert (L : forall e, In e (move_edges (o + length (fst p)) b Es) -> Z.of_nat (o + length (fst p)) <= fst e) by (intros e He; eapply move_edges_low; eassumption).
    revert L. clear - F2. induction F2 as [|e w l em (i & -> & Li & B) _ IH]; intros L; constructor.
    + destruct i as [|i].
      { specialize (L e (or_introl eq_refl)). unfold vstart in B. cbn in B. lia. }
      exists i. split; [f_equal; lia|]. split; [cbn in Li; lia|]. rewrite vstart_S in B. cbn [vcount map nth] in B. fold (vcount b) in B. lia.
    + apply IH. intros u Hu. apply L. right. exact Hu.
Qed.

Lemma owned_block b e w : Forall good_mesh b -> owned (all_faces b) (owners 0 (fcount b)) e w -> in_block 0 0 b e w.
Proof.
  intros G (j & f & H1 & H2 & Hs). destruct (faces_owner_range b G 0 0 j f w H1 H2) as (i & -> & Li & B).
  exists i. split; [reflexivity|]. split; [exact Li|]. cbv zeta in B. destruct f as [[x y] z], e as [u v]. unfold side_of, sides in Hs. cbn in *.
  destruct Hs as [[X|[X|[X|[]]]]|[X|[X|[X|[]]]]]; injection X as <- <-; lia.
Qed.

Lemma count_owners c : forall n k, (k < length c)%nat -> count_if (Z.eqb (Z.of_nat (n + k))) (owners n c) = nth k c 0%nat.
Proof.
  assert (C0 : forall z l, (forall x, In x l -> x <> z) -> count_if (Z.eqb z) l = 0%nat).
  { intros z l. unfold count_if. induction l as [|x l IH]; intros H; [reflexivity|]. cbn. destruct (Z.eqb_spec z x) as [->|_]; [destruct (H x (or_introl eq_refl) eq_refl)|].
    apply IH. intros u Hu. apply H. right. exact Hu. }
  assert (Ow : forall c n x, In x (owners n c) -> Z.of_nat n <= x).
  { induction c0 as [|m c0 IH]; intros n x H; [destruct H|]. cbn in H. apply in_app_iff in H. destruct H as [H|H]; [apply repeat_spec in H; lia|apply IH in H; lia]. }
  assert (Ca : forall z a b, count_if (Z.eqb z) (a ++ b) = (count_if (Z.eqb z) a + count_if (Z.eqb z) b)%nat).
  { intros. unfold count_if. rewrite filter_app, app_length. reflexivity. }
  induction c as [|m c IH]; intros n k H; [cbn in H; lia|]. cbn [owners]. rewrite Ca. destruct k as [|k].
  - rewrite Nat.add_0_r. rewrite (C0 _ (owners (S n) c)) by (intros x Hx; apply Ow in Hx; lia). cbn [nth].
    assert (R : count_if (Z.eqb (Z.of_nat n)) (repeat (Z.of_nat n) m) = m).
    { unfold count_if. clear. induction m; cbn; [reflexivity|]. rewrite Z.eqb_refl. cbn. congruence. }
    rewrite R. lia.
  - rewrite C0 by (intros x Hx; apply repeat_spec in Hx; lia). cbn [nth Nat.add]. cbn in H. specialize (IH (S n) k ltac:(lia)).
    replace (n + S k)%nat with (S n + k)%nat by lia. exact IH.
Qed.
Lemma count_mesh_owners c : count_mesh (length c) (owners 0 c) = c.
Proof.
  unfold count_mesh. apply nth_error_ext_len; [rewrite map_length, seq_length; reflexivity|]. intros i Hi. rewrite map_length, seq_length in Hi.
  rewrite nth_error_map_iff, nth_error_seq_lt by exact Hi. cbn [option_map]. rewrite (count_owners c 0 i Hi).
  symmetry. apply nth_error_nth'. exact Hi.
Qed.

Lemma all_faces_length b : length (all_faces b) = sum_nat (fcount b).
Proof.
  unfold all_faces. generalize 0%nat. induction b as [|p b IH]; intros o; [reflexivity|]. cbn [faces_from fcount map]. rewrite app_length, map_length, IH. reflexivity.
Qed.

Lemma edges_spec_value b : b <> [] -> Forall good_mesh b -> exists Es f2e, own_edges b Es /\
  edges_spec argsort b (Edges (move_edges 0 b Es) (owners 0 (map (@length _) Es)) (Some (map (@length _) Es, firsts 0 (map (@length _) Es), f2e))) /\
  Forall2 (opposite_edges (move_edges 0 b Es)) (all_faces b) f2e.
Proof.
  intros Hne G. destruct (own_edges_exist b G) as (Es & HE). 
  destruct (edges_of_value (length b) (length (all_verts b)) (all_faces b) (owners 0 (fcount b))) as (em & f2e & E & O & F).
  { apply all_faces_range; exact G. } { rewrite owners_length, all_faces_length. reflexivity. }
  assert (D : decoded (length (all_verts b)) (all_faces b) = move_edges 0 b Es).
  { apply (edge_list_unique (all_faces b)); [apply decoded_edges, all_faces_range, G|apply move_edges_list; assumption]. }
  rewrite D in *.
  assert (Em : em = owners 0 (map (@length _) Es)).
  { apply (block_owners b Es G HE 0 0). clear - O G. induction O; constructor; auto. apply owned_block; assumption. }
  assert (LE : length (map (@length (Z * Z)) Es) = length b).
  { rewrite map_length. symmetry. eapply Forall2_length. exact HE. }
  assert (Cm : count_mesh (length b) em = map (@length _) Es) by (rewrite Em, <- LE; apply count_mesh_owners).
  rewrite Cm in E. exists Es, f2e. split; [exact HE|]. split; [|exact F]. unfold edges_spec. rewrite E, Em. do 4 f_equal.
  destruct (map (@length (Z * Z)) Es) as [|x l] eqn:El; [destruct b; [contradiction|discriminate]|]. f_equal. unfold cumsum. apply cumsum_removelast.
Qed.
Lemma edges_spec_inv b e : b <> [] -> Forall good_mesh b -> edges_spec argsort b e -> exists Es f2e, own_edges b Es /\
  e = Edges (move_edges 0 b Es) (owners 0 (map (@length _) Es)) (Some (map (@length _) Es, firsts 0 (map (@length _) Es), f2e)) /\
  edge_list (all_faces b) (move_edges 0 b Es) /\
  Forall2 (opposite_edges (move_edges 0 b Es)) (all_faces b) f2e.
Proof.
  intros Hne G E. destruct (edges_spec_value b Hne G) as (Es & f2e & H1 & H2 & H3). exists Es, f2e. split; [exact H1|].
  unfold edges_spec in *. split; [congruence|]. split; [apply move_edges_list; assumption|exact H3].
Qed.
End Edges.
