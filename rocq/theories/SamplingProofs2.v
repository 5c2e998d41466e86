From Verif Require Import Base RBase KnnSpec Sampling SamplingSpec SamplingProofs.
Local Open Scope R_scope.

(* ---- std::max_element *)
Lemma dlt_new a b c : dlt a b = true -> dlt a c = false -> dlt c b = true /\ dlt b c = false.
Proof.
  destruct a as [a|], b as [b|], c as [c|]; cbn; try discriminate; intros H1 H2; split; try reflexivity.
  - apply Rltb_true in H1. apply Rltb_false in H2. apply Rltb_true. lra.
  - apply Rltb_true in H1. apply Rltb_false in H2. apply Rltb_false. lra.
Qed.
Lemma dlt_irrefl a : dlt a a = false.
Proof. destruct a; cbn; [|reflexivity]. apply Rltb_false. lra. Qed.
Definition first_max (l : list (option R)) (m : nat) : Prop := (m < length l)%nat /\
  (forall i, (i < length l)%nat -> dlt (nth m l None) (nth i l None) = false) /\
  (forall i, (i < m)%nat -> dlt (nth i l None) (nth m l None) = true).
Lemma max_el_ok l : forall pre m, first_max pre m -> first_max (pre ++ l) (max_el (nth m pre None) m (length pre) l).
Proof.
  induction l as [|x l IH]; intros pre m [Hm [H1 H2]]; cbn [max_el].
  - rewrite app_nil_r. split; [exact Hm|]. split; assumption.
  - replace (pre ++ x :: l) with ((pre ++ [x]) ++ l) by (rewrite <- app_assoc; reflexivity).
    assert (L : length (pre ++ [x]) = S (length pre)) by (rewrite app_length; cbn; lia).
    assert (N : forall i, (i < length pre)%nat -> nth i (pre ++ [x]) None = nth i pre None) by (intros; apply app_nth1; assumption).
    assert (X : nth (length pre) (pre ++ [x]) None = x) by apply nth_middle.
    destruct (dlt (nth m pre None) x) eqn:E.
    + specialize (IH (pre ++ [x]) (length pre)). rewrite L, X in IH. apply IH. split; [lia|]. rewrite L, X. split.
      * intros i Hi. destruct (Nat.eq_dec i (length pre)) as [->|]; [rewrite X; apply dlt_irrefl|]. rewrite N by lia. apply (dlt_new _ _ _ E), H1. lia.
      * intros i Hi. rewrite N by lia. apply (dlt_new _ _ _ E), H1. lia.
    + specialize (IH (pre ++ [x]) m). rewrite L, N in IH by lia. apply IH. split; [lia|]. rewrite L, N by lia. split.
      * intros i Hi. destruct (Nat.eq_dec i (length pre)) as [->|]; [rewrite X; exact E|]. rewrite N by lia. apply H1. lia.
      * intros i Hi. rewrite N by lia. apply H2. lia.
Qed.
Lemma max_element_ok l : l <> [] -> first_max l (max_element l).
Proof.
  destruct l as [|x l]; [contradiction|]. intros _. cbn [max_element]. apply (max_el_ok l [x] 0). split; [cbn; lia|]. split.
  - intros i Hi. cbn in Hi. replace i with 0%nat by lia. apply dlt_irrefl.
  - intros i Hi. lia.
Qed.

Lemma nth_map_seq' {A} (f : nat -> A) n i d : (i < n)%nat -> nth i (map f (seq 0 n)) d = f i.
Proof. intros H. rewrite (nth_map_lt f _ i 0%nat) by (rewrite seq_length; exact H). rewrite seq_nth by exact H. reflexivity. Qed.

Section Fps.
  Variables (pts : list (list R)) (len : nat).
  Hypothesis Hlen : (len <= length pts)%nat.
  Let d (i j : nat) : R := dist_L2sq (pt pts i) (pt pts j).
  Definition mstep (p : nat) (m : option R) (s : nat) : option R :=
    match m with None => Some (dist_L2sq (pt pts s) (pt pts p)) | Some x => Some (Rmin (dist_L2sq (pt pts s) (pt pts p)) x) end.
  Definition mind (sel : list nat) (p : nat) : option R := fold_left (mstep p) sel None.
  Lemma mind_snoc sel s p : mind (sel ++ [s]) p = mstep p (mind sel p) s.
  Proof. unfold mind. rewrite fold_left_app. reflexivity. Qed.
  Lemma mind_some sel p : sel <> [] -> exists m, mind sel p = Some m /\ (exists s, In s sel /\ d s p = m) /\ forall s, In s sel -> m <= d s p.
  Proof.
    induction sel as [|s sel IH] using rev_ind; [contradiction|]. intros _. rewrite mind_snoc. destruct sel as [|a sel'].
    - cbn [mind fold_left mstep]. eexists. split; [reflexivity|]. split; [exists s; split; [left; reflexivity|reflexivity]|].
      intros s' [<-|[]]. unfold d. lra.
    - destruct (IH ltac:(discriminate)) as [m [E [[s0 [I0 D0]] B]]]. rewrite E. cbn [mstep]. fold (d s p). eexists. split; [reflexivity|]. split.
      + unfold Rmin. destruct Rle_dec; [exists s; split; [apply in_or_app; right; left; reflexivity|reflexivity]|]. exists s0. split; [apply in_or_app; left; exact I0|exact D0].
      + intros s' Hs. apply in_app_or in Hs as [Hs|[<-|[]]]; [apply (Rle_trans _ m); [apply Rmin_r|apply B, Hs]|apply Rmin_l].
  Qed.
  Lemma mind_zero sel p : In p sel -> mind sel p = Some 0.
  Proof.
    intros H. destruct (mind_some sel p) as [m [E [[s [_ D]] B]]]; [intros ->; contradiction|]. rewrite E. f_equal.
    specialize (B p H). unfold d in *. rewrite d2_self in B. rewrite <- D in *. assert (N := d2_nonneg (pt pts s) (pt pts p)). lra.
  Qed.
  Definition is_in (sel : list nat) (p : nat) : bool := existsb (Nat.eqb p) sel.
  Lemma is_in_true sel p : is_in sel p = true <-> In p sel.
  Proof. unfold is_in. rewrite existsb_exists. split; [intros [x [H E]]; apply Nat.eqb_eq in E; subst; exact H|intros H; exists p; split; [exact H|apply Nat.eqb_refl]]. Qed.

  (* one greedy choice *)
  Definition greedy (sel : list nat) : Prop := forall k p, (0 < k < length sel)%nat -> (p < len)%nat ->
      exists s, In s (firstn k sel) /\ forall s', In s' (firstn k sel) -> d s p <= d s' (nth k sel 0%nat).
  Lemma firstn_snoc {A} (l : list A) x k : (k <= length l)%nat -> firstn k (l ++ [x]) = firstn k l.
  Proof. intros H. rewrite firstn_app. replace (k - length l)%nat with 0%nat by lia. cbn. apply app_nil_r. Qed.
  Lemma greedy_snoc sel q : greedy sel -> sel <> [] -> (q < len)%nat ->
    (forall p m mq, (p < len)%nat -> mind sel p = Some m -> mind sel q = Some mq -> m <= mq) -> greedy (sel ++ [q]).
  Proof.
    intros G N Hq M k p Hk Hp. rewrite app_length in Hk. cbn in Hk. rewrite firstn_snoc by lia.
    destruct (Nat.eq_dec k (length sel)) as [->|].
    - rewrite firstn_all, nth_middle. destruct (mind_some sel p N) as [m [E [[s [I D]] B]]]. destruct (mind_some sel q N) as [mq [Eq [_ Bq]]].
      exists s. split; [exact I|]. intros s' Hs. rewrite D. apply (Rle_trans _ mq); [apply (M p m mq Hp E Eq)|apply Bq, Hs].
    - rewrite app_nth1 by lia. apply G; [lia|exact Hp].
  Qed.
  Lemma first_snoc sel q : fps_first d sel -> sel <> [] ->
    (forall p m mq, (p < q)%nat -> mind sel p = Some m -> mind sel q = Some mq -> m < mq) -> fps_first d (sel ++ [q]).
  Proof.
    intros G N M k p Hk Hp. rewrite app_length in Hk. cbn in Hk. rewrite firstn_snoc by lia.
    destruct (Nat.eq_dec k (length sel)) as [->|].
    - rewrite firstn_all, nth_middle in *. destruct (mind_some sel p N) as [m [E [[s [I D]] B]]]. destruct (mind_some sel q N) as [mq [Eq [_ Bq]]].
      exists s. split; [exact I|]. intros s' Hs. rewrite D. apply (Rlt_le_trans _ mq); [apply (M p m mq Hp E Eq)|apply Bq, Hs].
    - rewrite app_nth1 in * by lia. apply G; [lia|exact Hp].
  Qed.
  (* the row of outputs *)
  Lemma row_upd max_K sel q : (length sel < max_K)%nat -> upd (padded_row max_K sel) (length sel) (Z.of_nat q) = Ok (padded_row max_K (sel ++ [q])).
  Proof.
    intros H. unfold padded_row. rewrite app_length. cbn [length]. replace (max_K - length sel)%nat with (S (max_K - (length sel + 1))) by lia.
    rewrite map_app.
    assert (U := upd_repeat (map Z.of_nat sel) (-1)%Z (Z.of_nat q) (max_K - (length sel + 1))). rewrite map_length in U. exact U.
  Qed.
  Lemma mask_upd sel q : (q < len)%nat -> upd (map (is_in sel) (seq 0 len)) q true = Ok (map (is_in (sel ++ [q])) (seq 0 len)).
  Proof.
    intros Hq. destruct (upd_ok (map (is_in sel) (seq 0 len)) q true) as [l' E]; [rewrite map_length, seq_length; exact Hq|]. rewrite E. f_equal.
    assert (L := upd_length _ _ _ _ E). rewrite map_length, seq_length in L.
    apply (nth_ext l' (map (is_in (sel ++ [q])) (seq 0 len)) true true); [rewrite map_length, seq_length; exact L|].
    intros i Hi. rewrite (upd_nth _ _ _ _ true i E). rewrite !nth_map_seq' by lia. unfold is_in. rewrite existsb_app. cbn [existsb].
    destruct (Nat.eqb_spec i q); [rewrite !Bool.orb_true_r; reflexivity|rewrite !Bool.orb_false_r; reflexivity].
  Qed.
  Lemma fps_dists_ok sel last : (last < len)%nat ->
    fps_dists pts len last (map (is_in (sel ++ [last])) (seq 0 len)) (map (mind sel) (seq 0 len)) = Ok (map (mind (sel ++ [last])) (seq 0 len)).
  Proof.
    intros Hl. unfold fps_dists. apply rmap_ok. intros p Hp. apply in_seq in Hp.
    rewrite (rget_nth _ p true) by (rewrite map_length, seq_length; lia). cbn [rbind]. rewrite nth_map_seq' by lia.
    rewrite (rget_nth _ p None) by (rewrite map_length, seq_length; lia). cbn [rbind]. rewrite nth_map_seq' by lia.
    destruct (is_in (sel ++ [last]) p) eqn:E.
    - apply is_in_true in E. rewrite mind_zero by exact E. reflexivity.
    - rewrite (rget_nth pts last []) by lia. cbn [rbind]. rewrite (rget_nth pts p []) by lia. cbn [rbind]. rewrite sqdist_spec. f_equal.
      rewrite mind_snoc. fold (pt pts last). fold (pt pts p). destruct (mind sel p) as [m|]; cbn [dlt mstep]; [|reflexivity].
      destruct (Rltb_spec (dist_L2sq (pt pts last) (pt pts p)) m); unfold Rmin; destruct Rle_dec; try reflexivity; f_equal; lra.
  Qed.
  Record fps_inv (max_K start k : nat) (s : fps_state) (sel0 : list nat) : Prop := {
    fi_sel_len : length (sel0 ++ [fs_last s]) = k;
    fi_row : fs_row s = padded_row max_K (sel0 ++ [fs_last s]);
    fi_mask : fs_mask s = map (is_in (sel0 ++ [fs_last s])) (seq 0 len);
    fi_dists : fs_dists s = map (mind sel0) (seq 0 len);
    fi_in : forall q, In q (sel0 ++ [fs_last s]) -> (q < len)%nat;
    fi_0 : nth 0 (sel0 ++ [fs_last s]) 0%nat = start;
    fi_greedy : greedy (sel0 ++ [fs_last s]);
    fi_ties : fps_first d (sel0 ++ [fs_last s]) }.
  Lemma mind_first_max sel q : sel <> [] -> first_max (map (mind sel) (seq 0 len)) q ->
    (q < len)%nat /\ (forall p m mq, (p < len)%nat -> mind sel p = Some m -> mind sel q = Some mq -> m <= mq) /\
    (forall p m mq, (p < q)%nat -> mind sel p = Some m -> mind sel q = Some mq -> m < mq).
  Proof.
    intros N [Hq [H1 H2]]. rewrite map_length, seq_length in *. split; [exact Hq|]. split.
    - intros p m mq Hp E1 E2. specialize (H1 p Hp). rewrite !nth_map_seq' in H1 by lia. rewrite E1, E2 in H1. cbn in H1. apply Rltb_false, H1.
    - intros p m mq Hp E1 E2. specialize (H2 p Hp). rewrite !nth_map_seq' in H2 by lia. rewrite E1, E2 in H2. cbn in H2. apply Rltb_true, H2.
  Qed.
  Lemma fps_iter_ok max_K start k s sel0 : (k < max_K)%nat -> fps_inv max_K start k s sel0 ->
    exists s', fps_iter pts len s k = Ok s' /\ fps_inv max_K start (S k) s' (sel0 ++ [fs_last s]).
  Proof.
    intros Hk [I1 I2 I3 I4 I5 I6 I7 I8]. set (sel := sel0 ++ [fs_last s]) in *.
    assert (Hl : (fs_last s < len)%nat) by (apply I5; unfold sel; apply in_or_app; right; left; reflexivity).
    assert (N : sel <> []) by (unfold sel; destruct sel0; discriminate).
    unfold fps_iter. rewrite I3, I4. unfold sel at 1. rewrite fps_dists_ok by exact Hl. cbn [rbind]. fold sel.
    assert (F := max_element_ok (map (mind sel) (seq 0 len))). set (q := max_element (map (mind sel) (seq 0 len))) in *.
    destruct (mind_first_max sel q N) as [Q1 [Q2 Q3]]; [apply F; intros E; apply (f_equal (@length _)) in E; rewrite map_length, seq_length in E; cbn in E; lia|].
    rewrite I2. rewrite <- I1. rewrite row_upd by lia. cbn [rbind]. rewrite mask_upd by exact Q1. cbn [rbind].
    eexists. split; [reflexivity|]. constructor; cbn [fs_row fs_last fs_mask fs_dists]; try reflexivity.
    - rewrite app_length. cbn. lia.
    - intros x Hx. apply in_app_or in Hx as [Hx|[<-|[]]]; [apply I5, Hx|exact Q1].
    - rewrite app_nth1; [exact I6|]. destruct sel; [contradiction|cbn; lia].
    - apply greedy_snoc; assumption.
    - apply first_snoc; assumption.
  Qed.
  Lemma greedy_single s : greedy [s].
  Proof. intros k p Hk. cbn in Hk. lia. Qed.
  Lemma first_single s : fps_first d [s].
  Proof. intros k p Hk. cbn in Hk. lia. Qed.
  Lemma row_start max_K start : (0 < max_K)%nat -> upd (repeat (-1)%Z max_K) 0 (Z.of_nat start) = Ok (padded_row max_K [start]).
  Proof. intros H. destruct max_K as [|m]; [lia|]. cbn. rewrite Nat.sub_0_r. reflexivity. Qed.
  Lemma fps_cloud_ok max_K K start mask dists : (start < len)%nat -> (0 < K <= max_K)%nat ->
    exists sel mask' dists', fps_cloud max_K pts len K start mask dists = Ok (padded_row max_K sel, mask', dists') /\
      is_fps d len K start sel /\ fps_first d sel.
  Proof.
    intros Hs HK. unfold fps_cloud. cbv zeta. rewrite row_start by lia. cbn [rbind].
    assert (LM : forall A (v : A) l, length (resize len v l) = len).
    { intros A v l. unfold resize. rewrite app_length, repeat_length, firstn_length. lia. }
    assert (E1 : map (fun _ : bool => false) (resize len false mask) = map (is_in []) (seq 0 len)).
    { apply (nth_ext _ _ false false); rewrite !map_length, LM, ?seq_length; [reflexivity|]. intros i Hi. rewrite (nth_map_lt _ _ i false) by (rewrite LM; exact Hi). rewrite nth_map_seq' by exact Hi. reflexivity. }
    rewrite E1. rewrite mask_upd by exact Hs. cbn [rbind].
    assert (E2 : map (fun _ : option R => None) (resize len (Some 0) dists) = map (mind []) (seq 0 len)).
    { apply (nth_ext _ _ None None); rewrite !map_length, LM, ?seq_length; [reflexivity|]. intros i Hi. rewrite (nth_map_lt _ _ i None) by (rewrite LM; exact Hi). rewrite nth_map_seq' by exact Hi. reflexivity. }
    rewrite E2.
    destruct (rfold_seq_inv (fps_iter pts len) (fun k s => exists sel0, fps_inv max_K start k s sel0) (Nat.min len K - 1) 1
       (FS (padded_row max_K [start]) start (map (is_in ([] ++ [start])) (seq 0 len)) (map (mind []) (seq 0 len)))) as [s [E [sel0 [I1 I2 I3 I4 I5 I6 I7 I8]]]].
    - exists []. constructor; cbn [fs_last fs_row fs_mask fs_dists app]; try reflexivity; [intros q [<-|[]]; exact Hs|apply greedy_single|apply first_single].
    - intros k s Hk [sel0 I]. destruct (fps_iter_ok max_K start k s sel0 ltac:(lia) I) as [s' [E I']]. exists s'. split; [exact E|]. exists (sel0 ++ [fs_last s]). exact I'.
    - rewrite E. cbn [rbind]. exists (sel0 ++ [fs_last s]), (fs_mask s), (fs_dists s). rewrite I2. split; [reflexivity|]. split; [|exact I8].
      constructor; try assumption. rewrite I1. lia.
  Qed.

  (* ---- the naive version *)
  Lemma fps_naive_ok argmax max_K K start : argmax_ok argmax -> (start < len)%nat -> (0 < K <= max_K)%nat ->
    exists sel, fps_naive argmax max_K pts len K start = Ok (padded_row max_K sel) /\ is_fps d len K start sel.
  Proof.
    intros HA Hs HK. unfold fps_naive. rewrite row_start by lia. cbn [rbind].
    destruct (rfold_seq_inv (fps_naive_iter argmax pts len)
      (fun k s => exists sel0, let sel := sel0 ++ [snd (fst s)] in length sel = k /\ fst (fst s) = padded_row max_K sel /\
         snd s = map (mind sel0) (seq 0 len) /\ (forall q, In q sel -> (q < len)%nat) /\ nth 0 sel 0%nat = start /\ greedy sel)
      (Nat.min len K - 1) 1 (padded_row max_K [start], start, repeat None len)) as [s [E [sel0 [I1 [I2 [I3 [I4 [I5 I6]]]]]]]].
    - exists []. cbn [fst snd app]. repeat split; try reflexivity; [|intros q [<-|[]]; exact Hs|apply greedy_single].
      apply (nth_ext _ _ None None); rewrite ?map_length, ?seq_length, repeat_length; [reflexivity|]. intros i Hi.
      rewrite nth_map_seq' by exact Hi. rewrite nth_repeat. reflexivity.
    - intros k [[row last] closest] Hk [sel0 [I1 [I2 [I3 [I4 [I5 I6]]]]]]. cbn [fst snd] in *. set (sel := sel0 ++ [last]) in *.
      assert (Hl : (last < len)%nat) by (apply I4; unfold sel; apply in_or_app; right; left; reflexivity).
      assert (N : sel <> []) by (unfold sel; destruct sel0; discriminate).
      unfold fps_naive_iter. rewrite (rget_nth pts last []) by lia. cbn [rbind].
      rewrite (rmap_ok _ (mind sel)).
      2:{ intros p Hp. apply in_seq in Hp. rewrite (rget_nth pts p []) by lia. cbn [rbind]. rewrite I3. rewrite (rget_nth _ p None) by (rewrite map_length, seq_length; lia).
          cbn [rbind]. rewrite nth_map_seq' by lia. rewrite sqdist_spec. unfold sel. rewrite mind_snoc. reflexivity. }
      cbn [rbind]. set (q := argmax (map (mind sel) (seq 0 len))).
      destruct (HA (map (mind sel) (seq 0 len))) as [Q1 Q2]; [intros E; apply (f_equal (@length _)) in E; rewrite map_length, seq_length in E; cbn in E; lia|].
      fold q in Q1, Q2. rewrite map_length, seq_length in Q1, Q2. rewrite I2. rewrite <- I1. rewrite row_upd by lia. cbn [rbind].
      eexists. split; [reflexivity|]. exists sel. cbn [fst snd]. split; [rewrite app_length; cbn; lia|]. split; [reflexivity|]. split; [reflexivity|]. split; [|split].
      + intros x Hx. apply in_app_or in Hx as [Hx|[<-|[]]]; [apply I4, Hx|exact Q1].
      + rewrite app_nth1; [exact I5|]. destruct sel; [contradiction|cbn; lia].
      + apply greedy_snoc; try assumption. intros p m mq Hp E1 E2. specialize (Q2 p Hp). rewrite !nth_map_seq' in Q2 by lia. rewrite E1, E2 in Q2. cbn in Q2. apply Rltb_false, Q2.
    - rewrite E. cbn [rbind]. cbv zeta in *. exists (sel0 ++ [snd (fst s)]). rewrite I2. split; [reflexivity|]. constructor; try assumption. rewrite I1. lia.
  Qed.
End Fps.

(* greedy selection with smallest-index ties is unique *)
Lemma fps_unique dist len K start a b : is_fps dist len K start a -> is_fps dist len K start b -> fps_first dist a -> fps_first dist b -> a = b.
Proof.
  intros [A1 A2 A3 A4] [B1 B2 B3 B4] A5 B5.
  assert (H : forall k, (k <= length a)%nat -> firstn k a = firstn k b).
  { induction k as [|k IH]; intros Hk; [reflexivity|]. specialize (IH ltac:(lia)).
    assert (SN : forall (l : list nat), (k < length l)%nat -> firstn (S k) l = firstn k l ++ [nth k l 0%nat]).
    { intros l. clear. revert k. induction l as [|x l IHl]; intros [|k] H; cbn in H; try lia; [reflexivity|]. cbn [firstn nth app]. rewrite <- IHl by lia. reflexivity. }
    rewrite !SN by lia. rewrite IH. f_equal. f_equal. destruct k as [|k]; [congruence|]. set (j := S k) in *.
    destruct (Nat.lt_trichotomy (nth j a 0%nat) (nth j b 0%nat)) as [L|[E|L]]; [|exact E|].
    - destruct (B5 j (nth j a 0%nat) ltac:(lia) L) as [s [I S1]].
      assert (Hb : (nth j b 0 < len)%nat) by (apply B3, nth_In; lia). destruct (A4 j (nth j b 0%nat) ltac:(lia) Hb) as [s' [I' S2]].
      rewrite IH in I', S2. specialize (S1 s' I'). specialize (S2 s I). lra.
    - destruct (A5 j (nth j b 0%nat) ltac:(lia) L) as [s [I S1]].
      assert (Ha : (nth j a 0 < len)%nat) by (apply A3, nth_In; lia). destruct (B4 j (nth j a 0%nat) ltac:(lia) Ha) as [s' [I' S2]].
      rewrite IH in I, S1. specialize (S1 s' I'). specialize (S2 s I). lra. }
  specialize (H (length a) (Nat.le_refl _)). rewrite firstn_all in H. rewrite H. replace (length a) with (length b) by congruence. apply firstn_all.
Qed.
(* points that are pairwise apart are never returned twice *)
Lemma fps_nodup dist len K start sel : is_fps dist len K start sel ->
  (forall i, dist i i = 0) -> (forall i j, (i < len)%nat -> (j < len)%nat -> i <> j -> 0 < dist i j) -> NoDup sel.
Proof.
  intros [A1 A2 A3 A4] D0 D1.
  assert (H : forall k, (k <= length sel)%nat -> NoDup (firstn k sel)).
  { induction k as [|k IH]; intros Hk; [constructor|]. specialize (IH ltac:(lia)).
    assert (SN : firstn (S k) sel = firstn k sel ++ [nth k sel 0%nat]).
    { clear -Hk. revert k Hk. induction sel as [|x l IHl]; intros [|k] H; cbn in H; try lia; [reflexivity|]. cbn [firstn nth app]. rewrite <- IHl by lia. reflexivity. }
    rewrite SN. apply NoDup_rev in IH. rewrite <- (rev_involutive (firstn k sel ++ _)). apply NoDup_rev. rewrite rev_app_distr. cbn [rev app]. constructor; [|exact IH].
    rewrite <- in_rev. intros X. destruct k as [|k]; [contradiction|]. set (j := S k) in *.
    (* some point is not selected yet *)
    assert (P : exists p, (p < len)%nat /\ ~ In p (firstn j sel)).
    { destruct (Nat.lt_ge_cases j len) as [L|L]; [|lia].
      apply Classical_Prop.NNPP. intros C. assert (incl (seq 0 len) (firstn j sel)).
      { intros p Hp. apply in_seq in Hp. apply Classical_Prop.NNPP. intros C2. apply C. exists p. split; [lia|exact C2]. }
      apply NoDup_incl_length in H; [|apply seq_NoDup]. rewrite seq_length, firstn_length in H. lia. }
    destruct P as [p [Hp Np]]. destruct (A4 j p ltac:(lia) Hp) as [s [I S1]]. specialize (S1 _ X). rewrite D0 in S1.
    assert (Is : In s sel) by (rewrite <- (firstn_skipn j sel); apply in_or_app; left; exact I).
    assert (s <> p) by (intros ->; contradiction). specialize (D1 s p (A3 s Is) Hp H). lra. }
  specialize (H (length sel) (Nat.le_refl _)). rewrite firstn_all in H. exact H.
Qed.
