(* The result of clip_faces. *)
From Verif Require Import Base RBase Geom LinAlg Symeig Clip ClipSpec ClipProofs ClipProofs2 ClipProofs3 ClipProofs4.
From Coq Require Import Psatz.

Definition early (fr : frustum) (faces : list face) : bool :=
  ((sum_nat (map (num_behind (f_zclip fr)) faces) =? 0) && (count_if (fun b => b) (map (culled fr) faces) =? 0))%nat%bool.
Lemma rbind_ok {A B} (r : result A) (k : A -> result B) a : r = Ok a -> rbind r k = k a.
Proof. intros ->. reflexivity. Qed.
Lemma combine_map_r {A B C} (f : A -> B) (g : A -> C) l : combine (map f l) (map g l) = map (fun x => (f x, g x)) l.
Proof. apply combine_maps. Qed.
Lemma combine_map_id {A B} (f : A -> B) l : combine (map f l) l = map (fun x => (f x, x)) l.
Proof. rewrite <- (map_id l) at 2. apply combine_maps. Qed.

Lemma rmap_map_total {A B C} (u : A -> B) (f : B -> result C) (g : A -> C) l : (forall a, f (u a) = Ok (g a)) -> rmap f (map u l) = Ok (map g l).
Proof. intros H. induction l as [|a l IH]; [reflexivity|]. cbn [map rmap]. rewrite H. cbn [rbind]. rewrite IH. reflexivity. Qed.

Section Main.
  Variables (fr : frustum) (faces : list face) (first num : list nat).
  Notation G := (G fr faces).
  Notation off := (offs G).
  Notation F := (length faces).
  Notation E := (E fr faces).
  Notation fc := (fc faces).
  Notation ix1 := (nonzero (map (c1 fr) faces)).
  Notation ix3 := (nonzero (map (c3 fr) faces)).
  Notation ix4 := (nonzero (map (c4 fr) faces)).

  Definition conv_ok (cf : clipped) : Prop :=
    match c_conv cf, c_conv_idx cf with
    | Some conv, Some idx => length idx = length E /\ forall k i g om, nth_error E k = Some (i, (g, om)) ->
        match om with
        | None => nth_error idx k = Some (-1)%Z
        | Some m => exists t, nth_error idx k = Some (Z.of_nat t) /\ nth_error conv t = Some m
        end
    | None, None => forall k i g om, nth_error E k = Some (i, (g, om)) -> om = None
    | _, _ => False
    end.
  Definition nb_ok (cf : clipped) : Prop :=
    match c_neighbor cf with
    | Some nb => length nb = length E /\ forall i j, (i < F)%nat -> (j < length (G i))%nat ->
        nth_error nb (off i + j) = Some (if (length (G i) =? 2)%nat then Z.of_nat (off i + (1 - j)) else (-1)%Z)
    | None => forall i, (i < F)%nat -> (length (G i) <= 1)%nat
    end.
  Definition new_num : list Z :=
    map (fun p => (Z.of_nat (fst p) - Z.of_nat (snd p))%Z) (combine (tl (map off first) ++ [off F]) (map off first)).

  Lemma early_pieces : early fr faces = true -> forall i, (i < F)%nat -> G i = [(fc i, None)].
  Proof.
    unfold early. intros H i L. apply andb_prop in H. destruct H as [H1 H2]. apply Nat.eqb_eq in H1. apply Nat.eqb_eq in H2.
    assert (I : In (fc i) faces) by (apply nth_In; exact L). unfold ClipProofs4.G, pieces.
    assert (K : culled fr (fc i) = false).
    { destruct (culled fr (fc i)) eqn:K; [|reflexivity]. exfalso. unfold count_if in H2. apply length_zero_iff_nil in H2.
      assert (X : In true (filter (fun b => b) (map (culled fr) faces))). { apply filter_In. split; [rewrite <- K; apply in_map; exact I|reflexivity]. }
      rewrite H2 in X. destruct X. }
    assert (N : num_behind (f_zclip fr) (fc i) = 0%nat).
    { revert H1 I. generalize (fc i). clear. induction faces as [|f l IH]; intros f' H I; [destruct I|]. cbn [map] in H.
      change (sum_nat (?a :: ?b)) with (a + sum_nat b)%nat in H. destruct I as [->|I]; [lia|]. apply IH; [lia|exact I]. }
    rewrite K, N. reflexivity.
  Qed.
  Lemma early_result : early fr faces = true -> clip_faces faces first num fr = Ok (Clipped faces first (map Z.of_nat num) None None None None).
  Proof. unfold early. intros H. unfold clip_faces. cbv zeta. rewrite H. reflexivity. Qed.
  Lemma late_nonempty : early fr faces = false -> faces <> [].
  Proof. intros H ->. discriminate H. Qed.

  Lemma split_eq c sel ix : (forall i, In i ix -> filter (sel (fc i)) all3 = [pick (sel (fc i))]) ->
    split_faces fr c sel (map fc ix) = map (fun i => cut_of fr c (pick (sel (fc i))) (fc i)) ix.
  Proof.
    intros H. unfold split_faces. replace (flat_map (fun f => filter (sel f) all3) (map fc ix)) with (map (fun i => pick (sel (fc i))) ix).
    - rewrite combine_maps, map_map. reflexivity.
    - induction ix as [|i ix IH]; [reflexivity|]. cbn [map flat_map]. rewrite (H i (or_introl eq_refl)). cbn [app]. f_equal. apply IH. intros; apply H; right; assumption.
  Qed.

  Lemma ix3_class i : In i ix3 -> filter (fun k => negb (behind (f_zclip fr) (fc i) k)) all3 = [pick (fun k => negb (behind (f_zclip fr) (fc i) k))] /\
    (forall c, f_zclip fr = Some c -> G i = [(T3 fr c (fc i), Some (M0 fr c (fc i)))]) /\ f_zclip fr <> None.
  Proof.
    intros H. apply ix_c in H. unfold ClipProofs4.G.
    destruct (class fr (fc i)) as [(A & B & C & D & P)|[(A & B & C & D & P)|[(A & B & C & D & Fi & c & Z & P)|(A & B & C & D & Fi & c & Z & P)]]]; try congruence.
    split; [exact Fi|]. split; [|congruence]. intros c' Z'. rewrite Z in Z'. injection Z' as <-. exact P.
  Qed.
  Lemma ix4_class i : In i ix4 -> filter (behind (f_zclip fr) (fc i)) all3 = [pick (behind (f_zclip fr) (fc i))] /\
    (forall c, f_zclip fr = Some c -> G i = [(T41 fr c (fc i), Some (M1 fr c (fc i))); (T42 fr c (fc i), Some (M2 fr c (fc i)))]) /\ f_zclip fr <> None.
  Proof.
    intros H. apply ix_c in H. unfold ClipProofs4.G.
    destruct (class fr (fc i)) as [(A & B & C & D & P)|[(A & B & C & D & P)|[(A & B & C & D & Fi & c & Z & P)|(A & B & C & D & Fi & c & Z & P)]]]; try congruence.
    split; [exact Fi|]. split; [|congruence]. intros c' Z'. rewrite Z in Z'. injection Z' as <-. exact P.
  Qed.
  Lemma ix1_class i : In i ix1 -> G i = [(fc i, None)].
  Proof.
    intros H. apply ix_c in H. unfold ClipProofs4.G.
    destruct (class fr (fc i)) as [(A & B & C & D & P)|[(A & B & C & D & P)|[(A & B & C & D & Fi & c & Z & P)|(A & B & C & D & Fi & c & Z & P)]]]; try congruence.
  Qed.

  (* the writes, in the shape the code gives them *)
  Section Writes.
    Context {A : Type} (h : nat * (face * option mat3) -> A) (h1 h3 h4 h4' : nat -> A).
    Hypothesis H1 : forall i, In i ix1 -> h (i, (fc i, None)) = h1 i.
    Hypothesis H3 : forall i x, In i ix3 -> nth_error (G i) 0 = Some x -> h (i, x) = h3 i.
    Hypothesis H4 : forall i x, In i ix4 -> nth_error (G i) 0 = Some x -> h (i, x) = h4 i.
    Hypothesis H4' : forall i x, In i ix4 -> nth_error (G i) 1 = Some x -> h (i, x) = h4' i.
    Lemma len4 i : In i ix4 -> length (G i) = 2%nat.
    Proof. intros I. destruct (ix4_class i I) as (_ & X & N). destruct (f_zclip fr) as [c|]; [|congruence]. rewrite (X c eq_refl). reflexivity. Qed.
    Lemma len3 i : In i ix3 -> length (G i) = 1%nat.
    Proof. intros I. destruct (ix3_class i I) as (_ & X & N). destruct (f_zclip fr) as [c|]; [|congruence]. rewrite (X c eq_refl). reflexivity. Qed.
    Lemma writes_eq : map (fun ij => (place fr faces ij, h (val fr faces ij))) (Pos fr faces) =
      map (fun i => (off i, h1 i)) ix1 ++ map (fun i => (off i, h3 i)) ix3 ++ map (fun i => (off i, h4 i)) ix4 ++ map (fun i => (S (off i), h4' i)) ix4.
    Proof.
      unfold Pos. rewrite !map_app, !map_map. unfold place, val. cbn [fst snd].
      assert (T : forall i j, (j < length (G i))%nat -> nth_error (G i) j = Some (nth j (G i) (zero_face, None))) by (intros; apply nth_error_nth'; assumption).
      f_equal; [|f_equal; [|f_equal]]; apply map_ext_in; intros i I; f_equal; try lia.
      - rewrite (ix1_class i I). cbn [nth]. apply H1. exact I.
      - apply H3; [exact I|]. apply T. rewrite len3 by exact I. lia.
      - apply H4; [exact I|]. apply T. rewrite len4 by exact I. lia.
      - apply H4'; [exact I|]. apply T. rewrite len4 by exact I. lia.
    Qed.
    Lemma puts l : length l = off F -> exists l1 l2 l3,
      put (map (fun i => (off i, h1 i)) ix1) l = Ok l1 /\ put (map (fun i => (off i, h3 i)) ix3) l1 = Ok l2 /\
      put (map (fun i => (off i, h4 i)) ix4) l2 = Ok l3 /\ put (map (fun i => (S (off i), h4' i)) ix4) l3 = Ok (map h E).
    Proof.
      intros L. pose proof (put_pos fr faces h l) as P. rewrite writes_eq in P. specialize (P ltac:(unfold ClipProofs4.E; rewrite blocks_length; exact L)).
      rewrite !put_app in P. destruct (put (map (fun i => (off i, h1 i)) ix1) l) as [l1|]; [|discriminate P]. cbn [rbind] in P. rewrite !put_app in P.
      destruct (put (map (fun i => (off i, h3 i)) ix3) l1) as [l2|] eqn:E2; [|discriminate P]. cbn [rbind] in P. rewrite !put_app in P.
      destruct (put (map (fun i => (off i, h4 i)) ix4) l2) as [l3|] eqn:E3; [|discriminate P]. cbn [rbind] in P.
      exists l1, l2, l3. repeat split; assumption.
    Qed.
  End Writes.

  (* the pieces that were cut *)
  Definition Pt : list (nat * nat) := map (fun i => (i, 0%nat)) ix3 ++ map (fun i => (i, 0%nat)) ix4 ++ map (fun i => (i, 1%nat)) ix4.
  Definition P4 : list (nat * nat) := map (fun i => (i, 0%nat)) ix4 ++ map (fun i => (i, 1%nat)) ix4.
  Notation place := (place fr faces).
  Notation val := (val fr faces).
  Lemma Pos_Pt : Pos fr faces = map (fun i => (i, 0%nat)) ix1 ++ Pt.
  Proof. reflexivity. Qed.
  Lemma Pt_in ij : In ij Pt -> In ij (Pos fr faces).
  Proof. intros H. rewrite Pos_Pt. apply in_or_app. right. exact H. Qed.
  Lemma P4_in ij : In ij P4 -> In ij Pt.
  Proof. intros H. apply in_or_app. right. exact H. Qed.
  Lemma nodup_tail {A} (l1 l2 : list A) : NoDup (l1 ++ l2) -> NoDup l2.
  Proof. induction l1 as [|a l IH]; intros H; [exact H|]. inversion H; subst. apply IH. assumption. Qed.
  Lemma nodup_disjoint {A} (l1 l2 : list A) a : NoDup (l1 ++ l2) -> In a l1 -> In a l2 -> False.
  Proof.
    induction l1 as [|b l IH]; intros N I J; [destruct I|]. inversion N; subst. destruct I as [->|I]; [|apply IH; assumption].
    match goal with H : ~ In a _ |- _ => apply H end. apply in_or_app. right. exact J.
  Qed.
  Lemma Pt_nodup : NoDup (map place Pt).
  Proof.
    apply nodup_map.
    - intros a b Ha Hb. apply place_inj; apply Pt_in; assumption.
    - apply (nodup_tail (map (fun i => (i, 0%nat)) ix1)). rewrite <- Pos_Pt. apply Pos_nodup.
  Qed.
  Lemma P4_nodup : NoDup (map place P4).
  Proof. pose proof Pt_nodup as H. unfold Pt in H. fold P4 in H. rewrite map_app in H. apply nodup_tail in H. exact H. Qed.
  Definition mat_at (ij : nat * nat) : mat3 := match snd (snd (val ij)) with Some m => m | None => id3 end.
  Lemma Pt_mat ij : In ij Pt -> snd (snd (val ij)) = Some (mat_at ij).
  Proof.
    unfold Pt, mat_at. rewrite !in_app_iff, !in_map_iff. unfold ClipProofs4.val.
    intros [(i & <- & I)|[(i & <- & I)|(i & <- & I)]]; cbn [fst snd].
    - destruct (ix3_class i I) as (_ & X & N). destruct (f_zclip fr) as [c|]; [|congruence]. rewrite (X c eq_refl). reflexivity.
    - destruct (ix4_class i I) as (_ & X & N). destruct (f_zclip fr) as [c|]; [|congruence]. rewrite (X c eq_refl). reflexivity.
    - destruct (ix4_class i I) as (_ & X & N). destruct (f_zclip fr) as [c|]; [|congruence]. rewrite (X c eq_refl). reflexivity.
  Qed.
  Lemma conv_list c : f_zclip fr = Some c ->
    map (fun i => M0 fr c (fc i)) ix3 ++ map (fun i => M1 fr c (fc i)) ix4 ++ map (fun i => M2 fr c (fc i)) ix4 = map mat_at Pt.
  Proof.
    intros Z. unfold Pt. rewrite !map_app, !map_map. f_equal; [|f_equal]; apply map_ext_in; intros i I; unfold mat_at, ClipProofs4.val; cbn [fst snd].
    - rewrite (proj1 (proj2 (ix3_class i I)) c Z). reflexivity.
    - rewrite (proj1 (proj2 (ix4_class i I)) c Z). reflexivity.
    - rewrite (proj1 (proj2 (ix4_class i I)) c Z). reflexivity.
  Qed.
  Lemma place_list : map off ix3 ++ map off ix4 ++ map (fun i => S (off i)) ix4 = map place Pt.
  Proof.
    unfold Pt. rewrite !map_app, !map_map. f_equal; [|f_equal]; apply map_ext; intros i; unfold ClipProofs4.place; cbn [fst snd]; lia.
  Qed.
  Lemma in_numbered {A} (f : A -> nat) (l : list A) k v : In (k, v) (combine (map f l) (map Z.of_nat (seq 0 (length l)))) <->
    exists t a, nth_error l t = Some a /\ k = f a /\ v = Z.of_nat t.
  Proof.
    assert (G : forall s, In (k, v) (combine (map f l) (map Z.of_nat (seq s (length l)))) <-> exists t a, nth_error l t = Some a /\ k = f a /\ v = Z.of_nat (s + t)).
    { induction l as [|a l IH]; intros s; cbn [map length seq combine In].
      - split; [intros []|]. intros (t & a & H & _). destruct t; discriminate H.
      - rewrite IH. split.
        + intros [X|(t & b & H & -> & ->)]; [injection X as <- <-; exists 0%nat, a; repeat split; f_equal; lia|]. exists (S t), b. split; [exact H|]. split; [reflexivity|f_equal; lia].
        + intros ([|t] & b & H & -> & ->); cbn [nth_error] in H; [left; injection H as <-; do 2 f_equal; lia|]. right. exists t, b. split; [exact H|]. split; [reflexivity|f_equal; lia]. }
    apply (G 0%nat).
  Qed.
  Lemma E_pos k x : nth_error E k = Some x -> exists ij, In ij (Pos fr faces) /\ k = place ij /\ val ij = x.
  Proof.
    intros H. destruct (Pos_find fr faces k) as (ij & I & ->). { apply nth_error_Some. rewrite H. discriminate. }
    exists ij. split; [exact I|]. split; [reflexivity|]. rewrite (Pos_val fr faces ij I) in H. injection H as <-. reflexivity.
  Qed.
  Lemma place_lt ij : In ij (Pos fr faces) -> (place ij < off F)%nat.
  Proof. intros H. rewrite <- blocks_length. fold E. apply nth_error_Some. fold (ClipProofs4.E fr faces). rewrite (Pos_val fr faces ij H). discriminate. Qed.
  Lemma fst_combine {A B} (l : list A) (m : list B) : length l = length m -> map fst (combine l m) = l.
  Proof. revert m. induction l as [|a l IH]; intros [|b m] H; try discriminate H; [reflexivity|]. cbn. f_equal. apply IH. injection H as H. exact H. Qed.

  Lemma conv_put : exists idx, put (combine (map place Pt) (map Z.of_nat (seq 0 (length (map mat_at Pt))))) (repeat (-1)%Z (off F)) = Ok idx /\
    length idx = length E /\ forall k i g om, nth_error E k = Some (i, (g, om)) ->
        match om with
        | None => nth_error idx k = Some (-1)%Z
        | Some m => exists t, nth_error idx k = Some (Z.of_nat t) /\ nth_error (map mat_at Pt) t = Some m
        end.
  Proof.
    rewrite map_length. destruct (put_spec (combine (map place Pt) (map Z.of_nat (seq 0 (length Pt)))) (repeat (-1)%Z (off F))) as (idx & P & L & W & O).
    - rewrite fst_combine by (rewrite !map_length, seq_length; reflexivity). apply Pt_nodup.
    - intros k v H. apply in_numbered in H. destruct H as (t & ij & H & -> & _). rewrite repeat_length. apply place_lt, Pt_in, (nth_error_In _ _ H).
    - rewrite fst_combine in O by (rewrite !map_length, seq_length; reflexivity).
      exists idx. split; [exact P|]. split; [rewrite L, repeat_length; unfold ClipProofs4.E; rewrite blocks_length; reflexivity|].
      intros k i g om H. destruct (E_pos k _ H) as (ij & I & -> & V). pose proof I as I'. rewrite Pos_Pt in I. apply in_app_or in I. destruct I as [I|I].
      + assert (X : om = None). { apply in_map_iff in I. destruct I as (i' & <- & I). unfold ClipProofs4.val in V. cbn [fst snd] in V. rewrite (ix1_class i' I) in V. cbn [nth] in V. injection V as _ _ <-. reflexivity. }
        subst om. rewrite O.
        * rewrite nth_error_repeat; [reflexivity|apply place_lt; exact I'].
        * intros J. apply in_map_iff in J. destruct J as (ij' & Q & J). apply place_inj in Q; [|apply Pt_in; exact J|exact I']. subst ij'.
          apply (nodup_disjoint (map (fun i => (i, 0%nat)) ix1) Pt ij); [rewrite <- Pos_Pt; apply Pos_nodup|exact I|exact J].
      + pose proof (Pt_mat ij I) as M. rewrite V in M. cbn [snd] in M. subst om. destruct (In_nth_error _ _ I) as [t T]. exists t. split.
        * apply W. apply in_numbered. exists t, ij. repeat split. exact T.
        * apply map_nth_error. exact T.
  Qed.
  Lemma nb_put : exists nb1 nb, put (map (fun i => (off i, Z.of_nat (S (off i)))) ix4) (repeat (-1)%Z (off F)) = Ok nb1 /\
    put (map (fun i => (S (off i), Z.of_nat (off i))) ix4) nb1 = Ok nb /\ length nb = length E /\
    forall i j, (i < F)%nat -> (j < length (G i))%nat ->
        nth_error nb (off i + j) = Some (if (length (G i) =? 2)%nat then Z.of_nat (off i + (1 - j)) else (-1)%Z).
  Proof.
    set (A := map (fun i => (off i, Z.of_nat (S (off i)))) ix4). set (B := map (fun i => (S (off i), Z.of_nat (off i))) ix4).
    assert (K : map fst (A ++ B) = map place P4).
    { unfold A, B, P4. rewrite !map_app, !map_map. f_equal; apply map_ext; intros i; unfold ClipProofs4.place; cbn [fst snd]; lia. }
    destruct (put_spec (A ++ B) (repeat (-1)%Z (off F))) as (nb & P & L & W & O).
    - rewrite K. apply P4_nodup.
    - intros k v H. rewrite repeat_length. assert (J : In k (map place P4)) by (rewrite <- K; apply (in_map fst) in H; exact H).
      apply in_map_iff in J. destruct J as (ij & <- & J). apply place_lt, Pt_in, P4_in, J.
    - rewrite put_app in P. destruct (put A (repeat (-1)%Z (off F))) as [nb1|]; [|discriminate P]. cbn [rbind] in P. exists nb1, nb.
      split; [reflexivity|]. split; [exact P|]. split; [rewrite L, repeat_length; unfold ClipProofs4.E; rewrite blocks_length; reflexivity|].
      intros i j Li Lj. destruct (length (G i) =? 2)%nat eqn:T.
      + apply Nat.eqb_eq in T. assert (I : In i ix4).
        { apply (nonzero_in (c4 fr) zero_face). split; [exact Li|]. unfold ClipProofs4.G in T. fold (fc i).
          destruct (class fr (fc i)) as [(A1 & B1 & C1 & D & Q)|[(A1 & B1 & C1 & D & Q)|[(A1 & B1 & C1 & D & _ & c & Zc & Q)|(A1 & B1 & C1 & D & _ & c & Zc & Q)]]]; rewrite Q in T; try discriminate T. exact D. }
        apply W. apply in_or_app. destruct j as [|[|j]]; [left|right|lia].
        * apply in_map_iff. exists i. split; [|exact I]. f_equal; [lia|]. f_equal. lia.
        * apply in_map_iff. exists i. split; [|exact I]. f_equal; [lia|]. f_equal. lia.
      + assert (Po : In (i, j) (Pos fr faces)) by (apply Pos_in; split; assumption). rewrite O.
        * rewrite nth_error_repeat; [reflexivity|]. apply (place_lt (i, j)). exact Po.
        * rewrite K. intros J. apply in_map_iff in J. destruct J as (ij & Q & J). change (off i + j)%nat with (place (i, j)) in Q.
          apply place_inj in Q; [|apply Pt_in, P4_in; exact J|exact Po]. subst ij. apply Nat.eqb_neq in T. apply T. apply len4.
          unfold P4 in J. rewrite in_app_iff, !in_map_iff in J. destruct J as [(i' & X & J)|(i' & X & J)]; injection X as <- <-; exact J.
  Qed.

  Lemma clip_late_fail : early fr faces = false -> (exists i, In i first /\ (F <= i)%nat) -> clip_faces faces first num fr = Fail EIndex.
  Proof.
    intros Ea (i & I & L). unfold clip_faces. cbv zeta. fold (early fr faces). rewrite Ea.
    change (map (fun f => (num_behind (f_zclip fr) f =? 3)%nat || culled fr f) faces) with (map (c2 fr) faces).
    change (map (fun f => (num_behind (f_zclip fr) f =? 1)%nat && negb (culled fr f)) faces) with (map (c4 fr) faces).
    set (dl := map (fun p => b2z (fst p) - b2z (snd p))%Z (combine (map (c4 fr) faces) (map (c2 fr) faces))).
    assert (Ld : length dl = F) by (unfold dl; rewrite map_length, combine_length, !map_length; lia).
    destruct (excl_last dl 0) as (x & y & X & Y & _). { intros H. apply (late_nonempty Ea). apply length_zero_iff_nil. rewrite <- Ld, H. reflexivity. }
    rewrite Ld in X, Y. rewrite (rbind_ok _ _ _ X), (rbind_ok _ _ _ Y).
    rewrite (take_fail _ first); [reflexivity|]. exists i. split; [exact I|]. rewrite to_eq, map_length, seq_length. exact L.
  Qed.

  Lemma clip_late : early fr faces = false -> (forall i, In i first -> (i < F)%nat) ->
    exists cf, clip_faces faces first num fr = Ok cf /\ c_verts cf = map (fun x => fst (snd x)) E /\ c_source cf = Some (map fst E) /\
      c_first cf = map off first /\ c_num cf = new_num /\ conv_ok cf /\ nb_ok cf.
  Proof.
    intros Ea Fi. unfold clip_faces. cbv zeta. fold (early fr faces). rewrite Ea.
    change (map (fun f => (num_behind (f_zclip fr) f =? 0)%nat && negb (culled fr f)) faces) with (map (c1 fr) faces).
    change (map (fun f => (num_behind (f_zclip fr) f =? 3)%nat || culled fr f) faces) with (map (c2 fr) faces).
    change (map (fun f => (num_behind (f_zclip fr) f =? 2)%nat && negb (culled fr f)) faces) with (map (c3 fr) faces).
    change (map (fun f => (num_behind (f_zclip fr) f =? 1)%nat && negb (culled fr f)) faces) with (map (c4 fr) faces).
    rewrite to_eq. pose proof (delta_eq fr faces) as De.
    set (dl := map (fun p => b2z (fst p) - b2z (snd p))%Z (combine (map (c4 fr) faces) (map (c2 fr) faces))) in *.
    assert (Ld : length dl = F) by (unfold dl; rewrite map_length, combine_length, !map_length; lia).
    destruct (excl_last dl 0) as (x & y & X & Y & XY). { intros H. apply (late_nonempty Ea). apply length_zero_iff_nil. rewrite <- Ld, H. reflexivity. }
    rewrite Ld in X, Y. rewrite (rbind_ok _ _ _ X), (rbind_ok _ _ _ Y). clear X Y.
    replace (Z.to_nat (Z.of_nat F + x + y)) with (off F) by lia. clear XY De. clearbody dl. clear dl Ld.
    rewrite (rbind_ok _ _ _ (take_off fr faces first Fi)).
    rewrite (rbind_ok _ _ _ (take_off fr faces ix1 (ix_lt faces (c1 fr)))).
    rewrite (rbind_ok _ _ _ (take_ok zero_face faces ix1 (ix_lt faces (c1 fr)))). fold fc.
    change (map (fun i => nth i faces zero_face) ix1) with (map fc ix1). rewrite combine_maps, combine_map_id.
    destruct (f_zclip fr) as [c|] eqn:Z.
    2:{ assert (N3 : ix3 = []). { destruct ix3 as [|i l] eqn:I3; [reflexivity|]. exfalso. apply (proj2 (proj2 (ix3_class i ltac:(rewrite I3; left; reflexivity)))). exact Z. }
        assert (N4 : ix4 = []). { destruct ix4 as [|i l] eqn:I4; [reflexivity|]. exfalso. apply (proj2 (proj2 (ix4_class i ltac:(rewrite I4; left; reflexivity)))). exact Z. }
        destruct (puts (fun x => fst (snd x)) fc fc fc fc) with (l := repeat zero_face (off F)) as (v1 & v2 & v3 & P1 & P2 & P3 & P4);
          [reflexivity|rewrite N3; intros ? ? []|rewrite N4; intros ? ? []|rewrite N4; intros ? ? []|apply repeat_length|].
        destruct (puts fst (fun i => i) (fun i => i) (fun i => i) (fun i => i)) with (l := repeat 0%nat (off F)) as (s1 & s2 & s3 & Q1 & Q2 & Q3 & Q4);
          [reflexivity|rewrite N3; intros ? ? []|rewrite N4; intros ? ? []|rewrite N4; intros ? ? []|apply repeat_length|].
        rewrite (rbind_ok _ _ _ P1), (rbind_ok _ _ _ Q1). rewrite N3, N4 in *. cbn in P2, P3, P4, Q2, Q3, Q4. cbn [length Nat.add Nat.eqb].
        eexists. split; [reflexivity|]. cbn [c_verts c_source c_first c_num]. split; [congruence|]. split; [congruence|]. do 2 (split; [reflexivity|]).
        assert (O : forall i, (i < F)%nat -> (length (G i) <= 1)%nat /\ forall j g om, nth_error (G i) j = Some (g, om) -> om = None).
        { intros i L. unfold ClipProofs4.G.
          destruct (class fr (fc i)) as [(A & B & C & D & P)|[(A & B & C & D & P)|[(A & B & C & D & _ & c & Zc & P)|(A & B & C & D & _ & c & Zc & P)]]]; rewrite P; cbn [length]; split; try lia; try congruence;
          intros [|[|j]] g om H; cbn in H; congruence. }
        split.
        - unfold conv_ok. cbn [c_conv c_conv_idx]. intros k i g om H. apply blocks_at in H. destruct H as (L & j & H & _). apply (proj2 (O i L) j g om H).
        - unfold nb_ok. cbn [c_neighbor]. intros i L. apply (O i L). }
    destruct (puts (fun x => fst (snd x)) fc (fun i => T3 fr c (fc i)) (fun i => T41 fr c (fc i)) (fun i => T42 fr c (fc i))) with (l := repeat zero_face (off F)) as (v1 & v2 & v3 & P1 & P2 & P3 & P4);
      [reflexivity| | | |apply repeat_length|].
    { intros i g I. rewrite (proj1 (proj2 (ix3_class i I)) c Z). cbn. intros X. injection X as <-. reflexivity. }
    { intros i g I. rewrite (proj1 (proj2 (ix4_class i I)) c Z). cbn. intros X. injection X as <-. reflexivity. }
    { intros i g I. rewrite (proj1 (proj2 (ix4_class i I)) c Z). cbn. intros X. injection X as <-. reflexivity. }
    destruct (puts fst (fun i => i) (fun i => i) (fun i => i) (fun i => i)) with (l := repeat 0%nat (off F)) as (s1 & s2 & s3 & Q1 & Q2 & Q3 & Q4);
      [reflexivity|reflexivity|reflexivity|reflexivity|apply repeat_length|].
    rewrite (rbind_ok _ _ _ P1), (rbind_ok _ _ _ Q1).
    destruct (length ix3 + length ix4 =? 0)%nat eqn:N34.
    { apply Nat.eqb_eq in N34. assert (N3 : ix3 = []) by (apply length_zero_iff_nil; lia). assert (N4 : ix4 = []) by (apply length_zero_iff_nil; lia).
      rewrite N3, N4 in *. cbn in P2, P3, P4, Q2, Q3, Q4.
      eexists. split; [reflexivity|]. cbn [c_verts c_source c_first c_num]. split; [congruence|]. split; [congruence|]. do 2 (split; [reflexivity|]).
      assert (O : forall i, (i < F)%nat -> (length (G i) <= 1)%nat /\ forall j g om, nth_error (G i) j = Some (g, om) -> om = None).
      { intros i L. unfold ClipProofs4.G.
        destruct (class fr (fc i)) as [(A & B & C & D & P)|[(A & B & C & D & P)|[(A & B & C & D & _ & c' & Zc & P)|(A & B & C & D & _ & c' & Zc & P)]]].
        - rewrite P. split; [cbn; lia|]. intros [|[|j]] g om H; cbn in H; congruence.
        - rewrite P. split; [cbn; lia|]. intros [|j] g om H; cbn in H; congruence.
        - exfalso. assert (I : In i ix3) by (apply (nonzero_in (c3 fr) zero_face); split; assumption). rewrite N3 in I. destruct I.
        - exfalso. assert (I : In i ix4) by (apply (nonzero_in (c4 fr) zero_face); split; assumption). rewrite N4 in I. destruct I. }
      split.
      - unfold conv_ok. cbn [c_conv c_conv_idx]. intros k i g om H. apply blocks_at in H. destruct H as (L & j & H & _). apply (proj2 (O i L) j g om H).
      - unfold nb_ok. cbn [c_neighbor]. intros i L. apply (O i L). }
    rewrite (rbind_ok _ _ _ (take_ok zero_face faces ix3 (ix_lt faces (c3 fr)))). change (map (fun i => nth i faces zero_face) ix3) with (map fc ix3).
    rewrite (rbind_ok _ _ _ (take_off fr faces ix3 (ix_lt faces (c3 fr)))).
    assert (S3 : split_faces fr c (fun f k => negb (behind (Some c) f k)) (map fc ix3) = map (fun i => cut_of fr c (pick (fun k => negb (behind (f_zclip fr) (fc i) k))) (fc i)) ix3).
    { rewrite (split_eq c (fun f k => negb (behind (Some c) f k)) ix3); [rewrite Z; reflexivity|]. intros i I. rewrite <- Z. apply ix3_class. exact I. }
    rewrite S3. clear S3.
    rewrite (rbind_ok _ _ _ (rmap_map_total (fun i => cut_of fr c (pick (fun k => negb (behind (f_zclip fr) (fc i) k))) (fc i)) (tri_of 3 4 0) (fun i => T3 fr c (fc i)) ix3 (fun i => eq_refl))).
    rewrite (rbind_ok _ _ _ (rmap_map_total (fun i => cut_of fr c (pick (fun k => negb (behind (f_zclip fr) (fc i) k))) (fc i)) (mat_of 3 4 0) (fun i => M0 fr c (fc i)) ix3 (fun i => eq_refl))).
    rewrite combine_maps, combine_map_id. rewrite (rbind_ok _ _ _ P2), (rbind_ok _ _ _ Q2).
    rewrite (rbind_ok _ _ _ (take_ok zero_face faces ix4 (ix_lt faces (c4 fr)))). change (map (fun i => nth i faces zero_face) ix4) with (map fc ix4).
    rewrite (rbind_ok _ _ _ (take_off fr faces ix4 (ix_lt faces (c4 fr)))).
    assert (S4 : split_faces fr c (behind (Some c)) (map fc ix4) = map (fun i => cut_of fr c (pick (behind (f_zclip fr) (fc i))) (fc i)) ix4).
    { rewrite (split_eq c (behind (Some c)) ix4); [rewrite Z; reflexivity|]. intros i I. rewrite <- Z. apply ix4_class. exact I. }
    rewrite S4. clear S4.
    rewrite (rbind_ok _ _ _ (rmap_map_total (fun i => cut_of fr c (pick (behind (f_zclip fr) (fc i))) (fc i)) (tri_of 3 1 4) (fun i => T41 fr c (fc i)) ix4 (fun i => eq_refl))).
    rewrite (rbind_ok _ _ _ (rmap_map_total (fun i => cut_of fr c (pick (behind (f_zclip fr) (fc i))) (fc i)) (tri_of 4 1 2) (fun i => T42 fr c (fc i)) ix4 (fun i => eq_refl))).
    rewrite (map_map off S ix4). rewrite !combine_maps.
    rewrite (rbind_ok _ _ _ P3), (rbind_ok _ _ _ P4).
    rewrite (rbind_ok _ _ _ (rmap_map_total (fun i => cut_of fr c (pick (behind (f_zclip fr) (fc i))) (fc i)) (mat_of 3 1 4) (fun i => M1 fr c (fc i)) ix4 (fun i => eq_refl))).
    rewrite (rbind_ok _ _ _ (rmap_map_total (fun i => cut_of fr c (pick (behind (f_zclip fr) (fc i))) (fc i)) (mat_of 4 1 2) (fun i => M2 fr c (fc i)) ix4 (fun i => eq_refl))).
    rewrite !combine_map_id. rewrite (rbind_ok _ _ _ Q3), (rbind_ok _ _ _ Q4).
    rewrite (conv_list c Z), place_list. destruct conv_put as (idx & I1 & I2 & I3). rewrite (rbind_ok _ _ _ I1).
    rewrite !map_map, !combine_maps. destruct nb_put as (nb1 & nb & J1 & J2 & J3 & J4). rewrite (rbind_ok _ _ _ J1), (rbind_ok _ _ _ J2).
    eexists. split; [reflexivity|]. cbn [c_verts c_source c_first c_num]. do 4 (split; [reflexivity|]). split.
    - unfold conv_ok. cbn [c_conv c_conv_idx]. split; assumption.
    - unfold nb_ok. cbn [c_neighbor]. split; assumption.
  Qed.
End Main.
