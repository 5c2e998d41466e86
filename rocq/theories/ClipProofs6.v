(* Clipping: the facts about whole batches. *)
From Verif Require Import Base RBase Geom LinAlg Symeig Clip ClipSpec ClipProofs ClipProofs2 ClipProofs3 ClipProofs4 ClipProofs5.
From Coq Require Import Psatz.

(* ---- culling ---- *)
Lemma beyond_less v axis f : beyond true v axis f = true <-> all_less (vert f axis) (Some v).
Proof.
  unfold beyond, all_less, count_if, all3. cbn [map filter at3].
  destruct (Rltb_spec (x3 (vert f axis)) v), (Rltb_spec (y3 (vert f axis)) v), (Rltb_spec (z3 (vert f axis)) v); cbn; split; intros H; try discriminate H; try reflexivity;
  try (exists v; repeat split; assumption); destruct H as (t & T & A & B & C); injection T as <-; contradiction.
Qed.
Lemma beyond_more v axis f : beyond false v axis f = true <-> all_more (vert f axis) (Some v).
Proof.
  unfold beyond, all_more, count_if, all3. cbn [map filter at3].
  destruct (Rltb_spec v (x3 (vert f axis))), (Rltb_spec v (y3 (vert f axis))), (Rltb_spec v (z3 (vert f axis))); cbn; split; intros H; try discriminate H; try reflexivity;
  try (exists v; repeat split; assumption); destruct H as (t & T & A & B & C); injection T as <-; contradiction.
Qed.
Lemma culled_spec fr f : culled fr f = true <-> dropped fr f.
Proof.
  destruct f as [[a b] c]. unfold dropped.
  assert (L : forall o axis, (match o with Some v => if f_cull fr then beyond true v axis (a, b, c) else false | None => false end) = true <->
    f_cull fr = true /\ all_less (vert (a, b, c) axis) o).
  { intros [v|] axis; [|split; [discriminate|intros [_ (t & T & _)]; discriminate T]].
    destruct (f_cull fr); [rewrite beyond_less; tauto|split; [discriminate|intros [H _]; discriminate H]]. }
  assert (M : forall o axis, (match o with Some v => if f_cull fr then beyond false v axis (a, b, c) else false | None => false end) = true <->
    f_cull fr = true /\ all_more (vert (a, b, c) axis) o).
  { intros [v|] axis; [|split; [discriminate|intros [_ (t & T & _)]; discriminate T]].
    destruct (f_cull fr); [rewrite beyond_more; tauto|split; [discriminate|intros [H _]; discriminate H]]. }
  unfold culled. cbv zeta. rewrite !Bool.orb_true_iff, !L, !M. cbn [vert]. tauto.
Qed.
Lemma dropped_not fr f : culled fr f = false <-> ~ dropped fr f.
Proof. rewrite <- culled_spec. destruct (culled fr f); split; intros H; try discriminate; try reflexivity; try congruence. Qed.
Lemma early_touched fr faces : early fr faces = false <-> exists f, In f faces /\ touched fr f.
Proof.
  unfold early. split.
  - intros H. induction faces as [|f l IH]; [discriminate H|]. cbn [map] in H. change (sum_nat (?a :: ?b)) with (a + sum_nat b)%nat in H.
    unfold count_if in H. cbn [filter] in H. destruct (culled fr f) eqn:K.
    { exists f. split; [left; reflexivity|]. left. apply culled_spec. exact K. }
    destruct (num_behind (f_zclip fr) f) as [|n] eqn:N.
    { destruct IH as (g & I & T); [exact H|]. exists g. split; [right; exact I|exact T]. }
    exists f. split; [left; reflexivity|]. right. destruct (f_zclip fr) as [c|]; [|discriminate N]. exists c.
    unfold num_behind, count_if, all3 in N. cbn [filter] in N.
    destruct (behind (Some c) f I0) eqn:B0; [exists I0; split; [reflexivity|apply behind_spec; exact B0]|].
    destruct (behind (Some c) f I1) eqn:B1; [exists I1; split; [reflexivity|apply behind_spec; exact B1]|].
    destruct (behind (Some c) f I2) eqn:B2; [exists I2; split; [reflexivity|apply behind_spec; exact B2]|]. discriminate N.
  - intros (f & I & T). destruct (early fr faces) eqn:Ea; [|exact Ea]. exfalso.
    destruct (In_nth faces f zero_face I) as (i & L & X). pose proof (early_pieces fr faces Ea i L) as P. unfold G, fc in P. rewrite X in P.
    destruct (class fr f) as [(A & B & C & D & Q)|[(A & B & C & D & Q)|[(A & B & C & D & _ & c & Zc & Q)|(A & B & C & D & _ & c & Zc & Q)]]]; rewrite Q in P; try discriminate P.
    unfold c1 in A. apply andb_prop in A. destruct A as [A1 A2]. apply Bool.negb_true_iff in A2. destruct T as [T|(c & k & Z & T)].
    + apply culled_spec in T. congruence.
    + apply Nat.eqb_eq in A1. pose proof (count_zero (behind (f_zclip fr) f) k A1) as Y. rewrite Z in Y. apply behind_spec' in Y. lra.
Qed.

Section Batch.
  Variables (fr : frustum) (faces : list face) (first num : list nat) (cf : clipped).
  Hypothesis Run : clip_faces faces first num fr = Ok cf.
  Notation G := (G fr faces).
  Notation off := (offs G).
  Notation F := (length faces).
  Notation E := (E fr faces).
  Notation fc := (fc faces).

  Lemma early_E : early fr faces = true -> E = map (fun i => (i, (fc i, None))) (seq 0 F).
  Proof.
    intros Ea. unfold ClipProofs4.E, blocks. assert (H : forall i, In i (seq 0 F) -> G i = [(fc i, None)]).
    { intros i I. apply in_seq in I. apply early_pieces; [exact Ea|lia]. }
    induction (seq 0 F) as [|i l IH]; [reflexivity|]. cbn [flat_map map]. rewrite (H i (or_introl eq_refl)), IH by (intros; apply H; right; assumption). reflexivity.
  Qed.
  Lemma early_off : early fr faces = true -> forall i, (i <= F)%nat -> off i = i.
  Proof.
    intros Ea i. induction i as [|i IH]; intros L; [reflexivity|]. rewrite offs_S, IH, early_pieces by (try exact Ea; lia). cbn. lia.
  Qed.
  Lemma first_lt : early fr faces = false -> forall i, In i first -> (i < F)%nat.
  Proof.
    intros Ea i I. destruct (Nat.lt_ge_cases i F) as [L|L]; [exact L|]. rewrite (clip_late_fail fr faces first num Ea) in Run by (exists i; split; assumption). discriminate Run.
  Qed.
  Lemma map_fc : map fc (seq 0 F) = faces.
  Proof.
    apply nth_error_ext. intros k. destruct (Nat.lt_ge_cases k F) as [H|H].
    - rewrite (map_nth_error fc k (seq 0 F) (nth_error_seq_lt 0 F k H)). symmetry. apply nth_error_nth'. exact H.
    - rewrite !(proj2 (nth_error_None _ _)); [reflexivity|exact H|rewrite map_length, seq_length; exact H].
  Qed.

  Lemma run_spec : c_verts cf = map (fun x => fst (snd x)) E /\ (forall k, source cf k = option_map fst (nth_error E k)) /\ conv_ok fr faces cf /\ nb_ok fr faces cf /\
    (c_source cf = None /\ (forall k i x, nth_error E k = Some (i, x) -> k = i /\ snd x = None) \/ c_source cf = Some (map fst E)).
  Proof.
    destruct (early fr faces) eqn:Ea.
    - rewrite (early_result fr faces first num Ea) in Run. injection Run as <-. pose proof (early_E Ea) as EE.
      assert (LE : length E = F) by (rewrite EE, map_length, seq_length; reflexivity).
      split; [|split; [|split; [|split]]].
      + cbn [c_verts]. rewrite EE, map_map. cbn [fst snd]. symmetry. apply map_fc.
      + intros k. unfold source. cbn [c_source c_verts]. rewrite EE. destruct (k <? F)%nat eqn:K.
        * apply Nat.ltb_lt in K. rewrite (map_nth_error _ k (seq 0 F) (nth_error_seq_lt 0 F k K)). reflexivity.
        * apply Nat.ltb_ge in K. rewrite (proj2 (nth_error_None _ _)); [reflexivity|]. rewrite map_length, seq_length. exact K.
      + unfold conv_ok. cbn [c_conv c_conv_idx]. intros k i g om H. rewrite EE in H. apply nth_error_In, in_map_iff in H. destruct H as (i' & X & _). injection X as _ _ <-. reflexivity.
      + unfold nb_ok. cbn [c_neighbor]. intros i L. rewrite (early_pieces fr faces Ea i L). cbn. lia.
      + left. split; [reflexivity|]. intros k i x H. assert (K : (k < F)%nat) by (rewrite <- LE; apply nth_error_Some; rewrite H; discriminate).
        rewrite EE, (map_nth_error _ k (seq 0 F) (nth_error_seq_lt 0 F k K)) in H. injection H as <- <-. split; reflexivity.
    - destruct (clip_late fr faces first num Ea (first_lt Ea)) as (cf' & R & V & S & _ & _ & C & N). rewrite R in Run. injection Run as <-.
      split; [exact V|]. split; [|split; [exact C|split; [exact N|right; exact S]]]. intros k. unfold source. rewrite S. apply nth_error_map.
  Qed.

  (* a clipped face and the piece it is *)
  Lemma clip_at k i : source cf k = Some i <-> exists g om, nth_error E k = Some (i, (g, om)) /\ nth_error (c_verts cf) k = Some g.
  Proof.
    destruct run_spec as (V & S & _). rewrite S, V. split.
    - destruct (nth_error E k) as [[i' [g om]]|] eqn:X; [|discriminate]. cbn. intros H. injection H as ->. exists g, om. split; [reflexivity|]. apply (map_nth_error (fun x => fst (snd x)) k E X).
    - intros (g & om & X & _). rewrite X. reflexivity.
  Qed.
  Lemma piece_at k i g om : nth_error E k = Some (i, (g, om)) -> nth_error faces i = Some (fc i) /\ In (g, om) (pieces fr (fc i)).
  Proof.
    intros H. apply blocks_at in H. destruct H as (L & j & X & _). split; [apply nth_error_nth'; exact L|]. apply nth_error_In in X. exact X.
  Qed.
  Lemma fc_eq i f : nth_error faces i = Some f -> fc i = f.
  Proof. intros H. apply nth_error_nth. exact H. Qed.

  Lemma cover_pieces i f q : nth_error faces i = Some f ->
    covered (f_perspective fr) cf i q <-> exists g m, In (g, m) (pieces fr f) /\ in_triangle (f_perspective fr) g q.
  Proof.
    intros Hf. unfold covered. split.
    - intros (k & g & V & S & T). apply clip_at in S. destruct S as (g' & om & X & V'). rewrite V in V'. injection V' as <-.
      exists g, om. split; [|exact T]. apply piece_at in X. destruct X as [_ X]. rewrite (fc_eq i f Hf) in X. exact X.
    - intros (g & om & I & T). destruct (In_nth_error _ _ I) as [j J]. rewrite <- (fc_eq i f Hf) in J.
      assert (L : (i < F)%nat) by (apply nth_error_Some; rewrite Hf; discriminate).
      pose proof (blocks_nth G F i j (g, om) L J) as X. exists (off i + j)%nat, g. fold E in X.
      split; [|split; [|exact T]]; [destruct run_spec as (V & _); rewrite V; apply (map_nth_error (fun x => fst (snd x)) _ _ X)|].
      destruct run_spec as (_ & S & _). rewrite S. change (blocks G F) with E in X. rewrite X. reflexivity.
  Qed.
  Lemma region i f q : depth_ok fr -> nth_error faces i = Some f -> ~ dropped fr f ->
    covered (f_perspective fr) cf i q <-> in_triangle (f_perspective fr) f q /\ in_front_of (f_zclip fr) q.
  Proof. intros D Hf N. rewrite (cover_pieces i f q Hf). apply pieces_region; [exact D|]. apply dropped_not. exact N. Qed.
  Lemma no_piece i f k : nth_error faces i = Some f -> dropped fr f -> source cf k <> Some i.
  Proof.
    intros Hf N S. apply clip_at in S. destruct S as (g & om & X & _). apply piece_at in X. destruct X as [_ X]. rewrite (fc_eq i f Hf) in X.
    unfold pieces in X. apply culled_spec in N. rewrite N in X. destruct X.
  Qed.
  Lemma oriented k i f g : depth_ok fr -> source cf k = Some i -> nth_error faces i = Some f -> nth_error (c_verts cf) k = Some g ->
    exists s : R, (0 <= s <= 1)%R /\ normal_of (f_perspective fr) g = scal3 s (normal_of (f_perspective fr) f).
  Proof.
    intros D S Hf Hg. apply clip_at in S. destruct S as (g' & om & X & V). rewrite Hg in V. injection V as <-. apply piece_at in X. destruct X as [_ X].
    rewrite (fc_eq i f Hf) in X. pose proof (pieces_convert fr D f g om X) as C. destruct om as [m|].
    - destruct C as [_ C]. exact C.
    - subst g. exists 1%R. split; [lra|]. destruct (normal_of (f_perspective fr) f) as [a b c]. unfold scal3. cbn. apply V3_eq; ring.
  Qed.
  Lemma sources_total k : (k < length (c_verts cf))%nat -> exists i, source cf k = Some i /\ (i < F)%nat.
  Proof.
    destruct run_spec as (V & S & _). rewrite V, map_length. intros L. destruct (nth_error E k) as [[i [g om]]|] eqn:X; [|apply nth_error_None in X; lia].
    exists i. rewrite S, X. split; [reflexivity|]. apply blocks_at in X. apply X.
  Qed.
  Lemma sources_sorted k k' i i' : (k <= k')%nat -> source cf k = Some i -> source cf k' = Some i' -> (i <= i')%nat.
  Proof.
    intros L S S'. apply clip_at in S. apply clip_at in S'. destruct S as (g & om & X & _). destruct S' as (g' & om' & X' & _).
    apply blocks_at in X. apply blocks_at in X'. destruct X as (_ & j & J & ->). destruct X' as (_ & j' & J' & ->).
    destruct (Nat.le_gt_cases i i') as [H|H]; [exact H|]. pose proof (offs_mono G (S i') i H) as M. rewrite offs_S in M.
    assert (j' < length (G i'))%nat by (apply nth_error_Some; rewrite J'; discriminate). lia.
  Qed.

  (* conversion *)
  Lemma zget_nat {A} (l : list A) k a : nth_error l k = Some a -> zget l (Z.of_nat k) = Ok a.
  Proof.
    intros H. unfold zget. replace (Z.of_nat k <? 0)%Z with false by (symmetry; apply Z.ltb_ge; lia). rewrite Nat2Z.id. unfold rget. rewrite H. reflexivity.
  Qed.
  Lemma zget_m1 {A} (l : list A) : l <> [] -> exists a, zget l (-1) = Ok a.
  Proof.
    intros N. unfold zget. destruct l as [|b l]; [congruence|]. set (l' := b :: l).
    replace (- -1 <=? Z.of_nat (length l'))%Z with true by (symmetry; apply Z.leb_le; unfold l'; cbn [length]; lia). cbn [Z.ltb Z.compare].
    destruct (nth_error l' (length l' - Z.to_nat (- -1))) as [a|] eqn:X.
    - exists a. unfold rget. rewrite X. reflexivity.
    - apply nth_error_None in X. unfold l' in X. cbn [length] in X. change (Z.to_nat (- -1)) with 1%nat in X. lia.
  Qed.
  Lemma convert_at k i g om w : nth_error E k = Some (i, (g, om)) ->
    convert_one cf (Z.of_nat k) w = Ok (Z.of_nat i, match om with None => w | Some m => mulv3 m w end).
  Proof.
    intros X. destruct run_spec as (V & S & C & _ & D). unfold convert_one. destruct D as [[N D]|D].
    - rewrite N. destruct (D k i (g, om) X) as [-> Y]. cbn [snd] in Y. rewrite Y. reflexivity.
    - rewrite D. assert (L : (length (map fst E) =? 0)%nat = false). { apply Nat.eqb_neq. rewrite map_length. assert (k < length E)%nat by (apply nth_error_Some; rewrite X; discriminate). lia. }
      rewrite L. rewrite (zget_nat (map fst E) k i) by (apply (map_nth_error fst k E X)). cbn [rbind].
      replace (Z.of_nat k =? -1)%Z with false by (symmetry; apply Z.eqb_neq; lia).
      unfold conv_ok in C. destruct (c_conv cf) as [conv|], (c_conv_idx cf) as [idx|]; try contradiction.
      + destruct C as [_ C]. specialize (C k i g om X). destruct om as [m|].
        * destruct C as (t & T & M). rewrite (zget_nat idx k _ T). cbn [rbind]. replace (Z.of_nat t =? -1)%Z with false by (symmetry; apply Z.eqb_neq; lia).
          rewrite (zget_nat conv t _ M). reflexivity.
        * rewrite (zget_nat idx k _ C). reflexivity.
      + specialize (C k i g om X). subst om. reflexivity.
  Qed.
  Lemma convert_none w : convert_one cf (-1) w = Ok ((-1)%Z, w).
  Proof.
    destruct run_spec as (V & S & C & _ & D). unfold convert_one. destruct D as [[N D]|D]; [rewrite N; reflexivity|]. rewrite D.
    destruct (length (map fst E) =? 0)%nat eqn:L; [reflexivity|]. apply Nat.eqb_neq in L.
    destruct (zget_m1 (map fst E)) as [a A]; [intros X; rewrite X in L; apply L; reflexivity|]. rewrite A. cbn [rbind Z.eqb].
    unfold conv_ok in C. destruct (c_conv cf) as [conv|], (c_conv_idx cf) as [idx|]; try contradiction; [|reflexivity].
    destruct C as [C _]. destruct (zget_m1 idx) as [b B]; [intros X; rewrite X in C; rewrite map_length in L; cbn in C; lia|]. rewrite B. reflexivity.
  Qed.
  Lemma convert_piece k i f g w : depth_ok fr -> source cf k = Some i -> nth_error faces i = Some f -> nth_error (c_verts cf) k = Some g ->
    exists w', convert_one cf (Z.of_nat k) w = Ok (Z.of_nat i, w') /\ weighted (f_perspective fr) f w' = weighted (f_perspective fr) g w /\
      total w' = total w /\ (nonneg3 w -> nonneg3 w').
  Proof.
    intros D S Hf Hg. apply clip_at in S. destruct S as (g' & om & X & V). rewrite Hg in V. injection V as <-.
    eexists. split; [apply (convert_at k i g om w X)|]. apply piece_at in X. destruct X as [_ X]. rewrite (fc_eq i f Hf) in X.
    pose proof (pieces_convert fr D f g om X) as C. destruct om as [m|].
    - destruct C as [C _]. destruct (C w) as (A & B & N). split; [symmetry; exact A|]. split; assumption.
    - subst g. split; [reflexivity|]. split; [reflexivity|]. intros H; exact H.
  Qed.

  (* neighbours *)
  Lemma pieces_le2 i : (length (G i) <= 2)%nat.
  Proof.
    unfold ClipProofs4.G. destruct (class fr (fc i)) as [(A & B & C & D & Q)|[(A & B & C & D & Q)|[(A & B & C & D & _ & c & Zc & Q)|(A & B & C & D & _ & c & Zc & Q)]]]; rewrite Q; cbn; lia.
  Qed.
  Lemma source_off k i : source cf k = Some i <-> (i < F)%nat /\ exists j, (j < length (G i))%nat /\ k = (off i + j)%nat.
  Proof.
    destruct run_spec as (_ & S & _). rewrite S. split.
    - destruct (nth_error E k) as [[i' x]|] eqn:X; [|discriminate]. cbn. intros H. injection H as ->. apply blocks_at in X. destruct X as (L & j & J & ->).
      split; [exact L|]. exists j. split; [apply nth_error_Some; rewrite J; discriminate|reflexivity].
    - intros (L & j & J & ->). destruct (nth_error (G i) j) as [x|] eqn:X; [|apply nth_error_None in X; lia]. pose proof (blocks_nth G F i j x L X) as Y.
      change (blocks G F) with E in Y. rewrite Y. reflexivity.
  Qed.
  Lemma neighbour_at i j : (i < F)%nat -> (j < length (G i))%nat ->
    neighbour cf (off i + j) = Some (if (length (G i) =? 2)%nat then Z.of_nat (off i + (1 - j)) else (-1)%Z).
  Proof.
    intros L J. destruct run_spec as (V & _ & _ & N & _). unfold neighbour. unfold nb_ok in N. destruct (c_neighbor cf) as [nb|].
    - apply N; assumption.
    - specialize (N i L). replace (length (G i) =? 2)%nat with false by (symmetry; apply Nat.eqb_neq; lia).
      replace (off i + j <? length (c_verts cf))%nat with true; [reflexivity|]. symmetry. apply Nat.ltb_lt. rewrite V, map_length. unfold ClipProofs4.E. rewrite blocks_length.
      pose proof (offs_mono G (S i) F L) as M. rewrite offs_S in M. lia.
  Qed.
  Lemma neighbour_spec k i : source cf k = Some i ->
    (exists z, neighbour cf k = Some z /\ (z = -1 \/ exists k', z = Z.of_nat k')%Z) /\
    forall k', neighbour cf k = Some (Z.of_nat k') <-> k' <> k /\ source cf k' = Some i.
  Proof.
    intros S. apply source_off in S. destruct S as (L & j & J & ->). rewrite (neighbour_at i j L J). pose proof (pieces_le2 i) as T.
    destruct (length (G i) =? 2)%nat eqn:Q.
    - apply Nat.eqb_eq in Q. split; [eexists; split; [reflexivity|right; eexists; reflexivity]|]. intros k'. rewrite source_off. split.
      + intros H. assert (k' = (off i + (1 - j))%nat) by (apply Nat2Z.inj; congruence). subst k'. split; [lia|]. split; [exact L|]. exists (1 - j)%nat. split; [lia|reflexivity].
      + intros (N & _ & j' & J' & ->). do 2 f_equal. lia.
    - apply Nat.eqb_neq in Q. split; [eexists; split; [reflexivity|left; reflexivity]|]. intros k'. rewrite source_off. split.
      + intros H. assert ((-1)%Z = Z.of_nat k') by congruence. lia.
      + intros (N & _ & j' & J' & ->). lia.
  Qed.

  (* meshes *)
  Hypothesis Bat : batch_of F first num.
  Definition st (m : nat) : nat := sum_nat (firstn m num).
  Definition num' : list nat := map (fun m => off (st (S m)) - off (st m))%nat (seq 0 (length num)).
  Lemma st_S m : st (S m) = (st m + nth m num 0)%nat.
  Proof.
    unfold st. generalize num. clear. intros l. revert m. induction l as [|a l IH]; intros m; [destruct m; reflexivity|].
    destruct m as [|m]; [cbn; lia|]. change (firstn (S (S m)) (a :: l)) with (a :: firstn (S m) l). change (firstn (S m) (a :: l)) with (a :: firstn m l).
    change (sum_nat (?a :: ?b)) with (a + sum_nat b)%nat. rewrite IH. cbn [nth]. lia.
  Qed.
  Lemma st_mono a b : (a <= b)%nat -> (st a <= st b)%nat.
  Proof. induction 1 as [|m L IH]; [lia|]. rewrite st_S. lia. Qed.
  Lemma st_end : st (length num) = F.
  Proof. unfold st. rewrite firstn_all. apply Bat. Qed.
  Lemma st_first : first = map st (seq 0 (length num)).
  Proof.
    destruct Bat as (L & S & N). apply nth_error_ext. intros m. destruct (Nat.lt_ge_cases m (length num)) as [H|H].
    - rewrite (map_nth_error st m (seq 0 (length num)) (nth_error_seq_lt 0 (length num) m H)). rewrite (nth_error_nth' first 0%nat) by lia. rewrite N by exact H. reflexivity.
    - rewrite !(proj2 (nth_error_None _ _)); [reflexivity|rewrite map_length, seq_length; exact H|lia].
  Qed.
  Lemma st_le m : (m <= length num)%nat -> (st m <= F)%nat.
  Proof. intros H. rewrite <- st_end. apply st_mono. exact H. Qed.
  Lemma num'_sum m : (m <= length num)%nat -> sum_nat (firstn m num') = off (st m).
  Proof.
    unfold num'. intros H. rewrite firstn_map. replace (firstn m (seq 0 (length num))) with (seq 0 m).
    - clear H. induction m as [|m IH]; [reflexivity|]. rewrite seq_S, map_app, sum_app, IH. cbn [map Nat.add]. change (sum_nat [?a]) with (a + 0)%nat.
      pose proof (offs_mono G (st m) (st (S m)) ltac:(apply st_mono; lia)). lia.
    - replace (length num) with (m + (length num - m))%nat by lia. rewrite seq_app, firstn_app, seq_length, Nat.sub_diag, firstn_O, app_nil_r. symmetry.
      rewrite <- (seq_length m 0) at 1. apply firstn_all.
  Qed.
  Lemma verts_length : length (c_verts cf) = off F.
  Proof. destruct run_spec as (V & _). rewrite V, map_length. unfold ClipProofs4.E. apply blocks_length. Qed.
  Lemma new_layout : c_first cf = map off first /\ c_num cf = map Z.of_nat num'.
  Proof.
    destruct (early fr faces) eqn:Ea.
    - rewrite (early_result fr faces first num Ea) in Run. injection Run as <-. cbn [c_first c_num]. split.
      + rewrite st_first. rewrite map_map. apply map_ext_in. intros m I. apply in_seq in I. symmetry. apply early_off; [exact Ea|]. apply st_le. lia.
      + f_equal. unfold num'. apply nth_error_ext. intros m. destruct (Nat.lt_ge_cases m (length num)) as [H|H].
        * rewrite (map_nth_error _ m (seq 0 (length num)) (nth_error_seq_lt 0 (length num) m H)). rewrite (nth_error_nth' num 0%nat) by exact H. f_equal. cbn [Nat.add].
          rewrite !early_off by (try exact Ea; apply st_le; lia). rewrite st_S. lia.
        * rewrite !(proj2 (nth_error_None _ _)); [reflexivity|rewrite map_length, seq_length; exact H|lia].
    - destruct (clip_late fr faces first num Ea (first_lt Ea)) as (cf' & R & _ & _ & A & B & _). rewrite R in Run. injection Run as <-. split; [exact A|].
      rewrite B. unfold new_num, num'. rewrite st_first, map_map. rewrite <- st_end.
      assert (T : forall n s, combine (tl (map (fun x => off (st x)) (seq s (S n))) ++ [off (st (s + S n))]) (map (fun x => off (st x)) (seq s (S n))) =
        map (fun m => (off (st (S m)), off (st m))) (seq s (S n))).
      { induction n as [|n IH]; intros s.
        - cbn [seq map tl app combine]. replace (s + 1)%nat with (S s) by lia. reflexivity.
        - specialize (IH (S s)). change (seq s (S (S n))) with (s :: S s :: seq (S (S s)) n). change (seq (S s) (S n)) with (S s :: seq (S (S s)) n) in IH.
          cbn [map tl app combine] in IH |- *. replace (S s + S n)%nat with (s + S (S n))%nat in IH by lia. rewrite IH. reflexivity. }
      destruct (length num) as [|n] eqn:N; [reflexivity|]. specialize (T n 0%nat). change (0 + S n)%nat with (S n) in T. rewrite T, !map_map. apply map_ext. intros m. cbn [fst snd].
      pose proof (offs_mono G (st m) (st (S m)) ltac:(apply st_mono; lia)). lia.
  Qed.
  Lemma meshes_kept : exists n', c_num cf = map Z.of_nat n' /\ length n' = length num /\ batch_of (length (c_verts cf)) (c_first cf) n' /\
    forall m k i, (m < length num)%nat -> source cf k = Some i -> (in_mesh (c_first cf) n' m k <-> in_mesh first num m i).
  Proof.
    destruct new_layout as [A B]. exists num'. split; [exact B|].
    assert (L : length num' = length num) by (unfold num'; rewrite map_length, seq_length; reflexivity). split; [exact L|].
    assert (L1 : length first = length num) by apply Bat.
    assert (Fst : forall m, (m < length num)%nat -> nth m (c_first cf) 0%nat = off (st m) /\ nth m first 0%nat = st m).
    { intros m H. rewrite A. split.
      - change 0%nat with (off 0). rewrite map_nth. f_equal. destruct Bat as (_ & _ & N). apply N. exact H.
      - destruct Bat as (_ & _ & N). apply N. exact H. }
    split.
    - split; [rewrite A, map_length; lia|]. split.
      + rewrite <- (firstn_all num'), L, num'_sum by lia. rewrite st_end. symmetry. apply verts_length.
      + intros m H. rewrite L in H. rewrite (proj1 (Fst m H)). symmetry. apply num'_sum. lia.
    - intros m k i H So. apply source_off in So. destruct So as (Li & j & J & ->). unfold in_mesh. destruct (Fst m H) as [-> ->].
      rewrite <- st_S. replace (nth m num' 0%nat) with (off (st (S m)) - off (st m))%nat.
      2:{ unfold num'. rewrite (nth_indep _ 0%nat ((fun m => off (st (S m)) - off (st m))%nat 0%nat)) by (rewrite map_length, seq_length; exact H). rewrite (map_nth (fun m => off (st (S m)) - off (st m))%nat).
          rewrite seq_nth by exact H. reflexivity. }
      pose proof (offs_mono G (st m) (st (S m)) ltac:(apply st_mono; lia)) as M0. pose proof (offs_S G i) as OS. split; intros [H1 H2].
      + split.
        * destruct (Nat.le_gt_cases (st m) i) as [X|X]; [exact X|]. pose proof (offs_mono G (S i) (st m) X). lia.
        * destruct (Nat.le_gt_cases (st (S m)) i) as [X|X]; [|exact X]. pose proof (offs_mono G (st (S m)) i X). lia.
      + pose proof (offs_mono G (st m) i H1). pose proof (offs_mono G (S i) (st (S m)) H2). lia.
  Qed.
End Batch.

Lemma last_split (l : list nat) d : l <> [] -> sum_nat l = (sum_nat (firstn (length l - 1) l) + last l d)%nat.
Proof.
  induction l as [|a l IH]; intros N; [congruence|]. destruct l as [|b l]; [cbn; lia|]. replace (length (a :: b :: l) - 1)%nat with (S (length (b :: l) - 1)) by (cbn [length]; lia).
  change (firstn (S (length (b :: l) - 1)) (a :: b :: l)) with (a :: firstn (length (b :: l) - 1) (b :: l)).
  change (sum_nat (a :: ?b)) with (a + sum_nat b)%nat. change (last (a :: b :: l) d) with (last (b :: l) d). rewrite IH by discriminate. lia.
Qed.
Lemma first_below F first num : batch_of F first num -> last num 1%nat <> 0%nat -> forall i, In i first -> (i < F)%nat.
Proof.
  intros (L & S & N) Z i I. destruct (In_nth first i 0%nat I) as (m & M & X). rewrite N in X by lia. assert (num <> []) by (intros ->; cbn in L; lia).
  pose proof (last_split num 1%nat H) as T. rewrite <- X, <- S, T. assert (M' : (m <= length num - 1)%nat) by lia.
  assert (Q : forall a b, (a <= b)%nat -> (sum_nat (firstn a num) <= sum_nat (firstn b num))%nat) by (intros; apply (st_mono num); assumption).
  specialize (Q _ _ M'). lia.
Qed.
Lemma clip_ok faces first num fr : batch_of (length faces) first num -> last num 1%nat <> 0%nat -> exists cf, clip_faces faces first num fr = Ok cf.
Proof.
  intros B Z. destruct (early fr faces) eqn:Ea; [rewrite (early_result fr faces first num Ea); eexists; reflexivity|].
  destruct (clip_late fr faces first num Ea (first_below _ _ _ B Z)) as (cf & R & _). exists cf. exact R.
Qed.
Lemma clip_last_empty faces first num fr : batch_of (length faces) first num -> last num 1%nat = 0%nat -> (exists f, In f faces /\ touched fr f) ->
  clip_faces faces first num fr = Fail EIndex.
Proof.
  intros (L & S & N) Z T. apply early_touched in T. apply clip_late_fail; [exact T|]. assert (num <> []) by (intros ->; discriminate Z).
  assert (0 < length num)%nat by (destruct num; [congruence|cbn; lia]).
  exists (nth (length num - 1) first 0%nat). split; [apply nth_In; lia|]. rewrite N by lia. pose proof (last_split num 1%nat H). lia.
Qed.
Lemma clip_untouched faces first num fr : (forall f, In f faces -> ~ touched fr f) ->
  clip_faces faces first num fr = Ok (Clipped faces first (map Z.of_nat num) None None None None).
Proof.
  intros H. apply early_result. destruct (early fr faces) eqn:Ea; [reflexivity|]. apply early_touched in Ea. destruct Ea as (f & I & T). exfalso. exact (H f I T).
Qed.
