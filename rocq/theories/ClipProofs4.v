(* clip_faces lists the pieces of the faces in order. *)
From Verif Require Import Base RBase Geom LinAlg Symeig Clip ClipSpec ClipProofs ClipProofs2 ClipProofs3.
From Coq Require Import Psatz.

Lemma nodup_app {A} (l1 l2 : list A) : NoDup l1 -> NoDup l2 -> (forall a, In a l1 -> In a l2 -> False) -> NoDup (l1 ++ l2).
Proof.
  induction l1 as [|a l1 IH]; intros N1 N2 D; [exact N2|]. inversion N1; subst. cbn [app]. constructor.
  - intros H. apply in_app_or in H. destruct H as [H|H]; [contradiction|]. apply (D a); [left; reflexivity|exact H].
  - apply IH; [assumption|exact N2|]. intros b H K. apply (D b); [right; exact H|exact K].
Qed.
Lemma nodup_map {A B} (f : A -> B) l : (forall a b, In a l -> In b l -> f a = f b -> a = b) -> NoDup l -> NoDup (map f l).
Proof.
  induction l as [|a l IH]; intros I N; [constructor|]. inversion N; subst. cbn [map]. constructor.
  - intros H. apply in_map_iff in H. destruct H as (b & E & J). apply I in E; [subst; contradiction|right; exact J|left; reflexivity].
  - apply IH; [|assumption]. intros; apply I; try (right; assumption). assumption.
Qed.

Section Layout.
  Variables (fr : frustum) (faces : list face).
  Definition fc i := nth i faces zero_face.
  Definition G i := pieces fr (fc i).
  Notation off := (offs G).
  Notation F := (length faces).
  Definition E := blocks G F.

  Definition c1 f := (num_behind (f_zclip fr) f =? 0)%nat && negb (culled fr f).
  Definition c2 f := (num_behind (f_zclip fr) f =? 3)%nat || culled fr f.
  Definition c3 f := (num_behind (f_zclip fr) f =? 2)%nat && negb (culled fr f).
  Definition c4 f := (num_behind (f_zclip fr) f =? 1)%nat && negb (culled fr f).
  Definition T3 (c : R) (f : face) : face :=
    let P k := nth k (fst (cut_of fr c (pick (fun k => negb (behind (f_zclip fr) f k))) f)) (V3 0 0 0) in (P 3, P 4, P 0)%nat.
  Definition M0 (c : R) (f : face) : mat3 :=
    let B k := nth k (snd (cut_of fr c (pick (fun k => negb (behind (f_zclip fr) f k))) f)) (V3 0 0 0) in stack2 (B 3%nat) (B 4%nat) (B 0%nat).
  Definition T41 (c : R) (f : face) : face :=
    let P k := nth k (fst (cut_of fr c (pick (behind (f_zclip fr) f)) f)) (V3 0 0 0) in (P 3, P 1, P 4)%nat.
  Definition T42 (c : R) (f : face) : face :=
    let P k := nth k (fst (cut_of fr c (pick (behind (f_zclip fr) f)) f)) (V3 0 0 0) in (P 4, P 1, P 2)%nat.
  Definition M1 (c : R) (f : face) : mat3 :=
    let B k := nth k (snd (cut_of fr c (pick (behind (f_zclip fr) f)) f)) (V3 0 0 0) in stack2 (B 3%nat) (B 1%nat) (B 4%nat).
  Definition M2 (c : R) (f : face) : mat3 :=
    let B k := nth k (snd (cut_of fr c (pick (behind (f_zclip fr) f)) f)) (V3 0 0 0) in stack2 (B 4%nat) (B 1%nat) (B 2%nat).

  Lemma class f :
    (c1 f = true /\ c2 f = false /\ c3 f = false /\ c4 f = false /\ pieces fr f = [(f, None)]) \/
    (c1 f = false /\ c2 f = true /\ c3 f = false /\ c4 f = false /\ pieces fr f = []) \/
    (c1 f = false /\ c2 f = false /\ c3 f = true /\ c4 f = false /\ filter (fun k => negb (behind (f_zclip fr) f k)) all3 = [pick (fun k => negb (behind (f_zclip fr) f k))] /\
      exists c, f_zclip fr = Some c /\ pieces fr f = [(T3 c f, Some (M0 c f))]) \/
    (c1 f = false /\ c2 f = false /\ c3 f = false /\ c4 f = true /\ filter (behind (f_zclip fr) f) all3 = [pick (behind (f_zclip fr) f)] /\
      exists c, f_zclip fr = Some c /\ pieces fr f = [(T41 c f, Some (M1 c f)); (T42 c f, Some (M2 c f))]).
  Proof.
    unfold c1, c2, c3, c4. destruct (culled fr f) eqn:K.
    { right; left. rewrite !Bool.andb_false_r, Bool.orb_true_r. unfold pieces. rewrite K. repeat split. }
    destruct (pieces_cases fr f K) as [(P & N)|[(P & N & c & Z & A)|[(N & c & i & Z & I & Fi & A & B & D & P)|(N & c & i & Z & I & Fi & A & B & D & P)]]];
      rewrite N; cbn [Nat.eqb negb andb orb].
    - left. repeat split. exact P.
    - right; left. repeat split. exact P.
    - right; right; left. do 4 (split; [reflexivity|]). subst i. split; [exact Fi|]. exists c. split; [exact Z|exact P].
    - right; right; right. do 4 (split; [reflexivity|]). subst i. split; [exact Fi|]. exists c. split; [exact Z|exact P].
  Qed.
  Lemma class_len f : (1 + b2z (c4 f) - b2z (c2 f))%Z = Z.of_nat (length (pieces fr f)).
  Proof.
    destruct (class f) as [(A & B & C & D & P)|[(A & B & C & D & P)|[(A & B & C & D & _ & c & Z & P)|(A & B & C & D & _ & c & Z & P)]]]; rewrite B, D, P; reflexivity.
  Qed.

  Notation ix1 := (nonzero (map c1 faces)).
  Notation ix3 := (nonzero (map c3 faces)).
  Notation ix4 := (nonzero (map c4 faces)).

  Lemma off_eq i : (i <= F)%nat -> off i = sum_nat (map (fun f => length (pieces fr f)) (firstn i faces)).
  Proof.
    intros L. unfold offs. replace (map (fun i => length (G i)) (seq 0 i)) with (map (fun f => length (pieces fr f)) (map fc (seq 0 i))) by (rewrite map_map; reflexivity).
    do 2 f_equal. apply nth_error_ext. intros k. destruct (Nat.lt_ge_cases k i) as [H|H].
    - rewrite nth_error_firstn, (proj2 (Nat.ltb_lt k i) H). rewrite (map_nth_error fc k (seq 0 i) (nth_error_seq_lt 0 i k H)). symmetry. apply nth_error_nth'. lia.
    - rewrite !(proj2 (nth_error_None _ _)); [reflexivity| |]; [rewrite firstn_length; lia|rewrite map_length, seq_length; lia].
  Qed.
  Lemma to_eq : nn (excl 0 (map (fun p => 1 + b2z (fst p) - b2z (snd p))%Z (combine (map c4 faces) (map c2 faces)))) = map off (seq 0 F).
  Proof.
    rewrite combine_maps, map_map. cbn [fst snd].
    rewrite (map_ext _ (fun f => Z.of_nat (length (pieces fr f)))) by (intros; apply class_len).
    change 0%Z with (Z.of_nat 0). rewrite (excl_nat (fun f => length (pieces fr f)) faces 0). apply map_ext_in. intros i I. apply in_seq in I.
    rewrite off_eq by lia. reflexivity.
  Qed.
  Lemma delta_eq : zsum (map (fun p => b2z (fst p) - b2z (snd p))%Z (combine (map c4 faces) (map c2 faces))) = (Z.of_nat (off F) - Z.of_nat F)%Z.
  Proof.
    rewrite off_eq by lia. rewrite firstn_all, combine_maps, map_map. cbn [fst snd]. induction faces as [|f l IH]; [reflexivity|].
    cbn [map zsum]. change (sum_nat (?a :: ?b)) with (a + sum_nat b)%nat. rewrite IH. pose proof (class_len f). cbn [length]. lia.
  Qed.
  Lemma take_off ix : (forall i, In i ix -> (i < F)%nat) -> take (map off (seq 0 F)) ix = Ok (map off ix).
  Proof.
    intros H. rewrite (take_ok (off 0)) by (intros i I; rewrite map_length, seq_length; apply H; exact I). f_equal. apply map_ext_in. intros i I.
    rewrite map_nth, seq_nth by (apply H; exact I). reflexivity.
  Qed.
  Lemma ix_lt c i : In i (nonzero (map c faces)) -> (i < F)%nat.
  Proof. intros H. apply (nonzero_in c zero_face) in H. apply H. Qed.
  Lemma ix_c c i : In i (nonzero (map c faces)) -> c (fc i) = true.
  Proof. intros H. apply (nonzero_in c zero_face) in H. apply H. Qed.

  (* ---- all writes ---- *)
  Definition Pos : list (nat * nat) := map (fun i => (i, 0%nat)) ix1 ++ map (fun i => (i, 0%nat)) ix3 ++ map (fun i => (i, 0%nat)) ix4 ++ map (fun i => (i, 1%nat)) ix4.
  Definition val (ij : nat * nat) : nat * (face * option mat3) := (fst ij, nth (snd ij) (G (fst ij)) (zero_face, None)).
  Definition place (ij : nat * nat) : nat := (off (fst ij) + snd ij)%nat.
  Lemma Pos_in i j : In (i, j) Pos <-> (i < F)%nat /\ (j < length (G i))%nat.
  Proof.
    unfold Pos. rewrite !in_app_iff, !in_map_iff. split.
    - intros [(i' & X & H)|[(i' & X & H)|[(i' & X & H)|(i' & X & H)]]]; injection X as <- <-; (split; [apply (ix_lt _ _ H)|]); apply ix_c in H; unfold G;
      destruct (class (fc i')) as [(A & B & C & D & P)|[(A & B & C & D & P)|[(A & B & C & D & _ & c & Z & P)|(A & B & C & D & _ & c & Z & P)]]]; rewrite P;
      try (rewrite A in H; discriminate H); try (rewrite C in H; discriminate H); try (rewrite D in H; discriminate H); cbn; lia.
    - intros [L J]. unfold G in J. destruct (class (fc i)) as [(A & B & C & D & P)|[(A & B & C & D & P)|[(A & B & C & D & _ & c & Z & P)|(A & B & C & D & _ & c & Z & P)]]]; rewrite P in J; cbn in J.
      + left. exists i. split; [f_equal; lia|]. apply (nonzero_in c1 zero_face). split; assumption.
      + lia.
      + right; left. exists i. split; [f_equal; lia|]. apply (nonzero_in c3 zero_face). split; assumption.
      + right; right. destruct j as [|[|j]]; [left|right|lia]; exists i; (split; [reflexivity|]); apply (nonzero_in c4 zero_face); split; assumption.
  Qed.
  Lemma Pos_val ij : In ij Pos -> nth_error E (place ij) = Some (val ij).
  Proof.
    destruct ij as [i j]. intros H. apply Pos_in in H. destruct H as [L J]. unfold place, val. cbn [fst snd]. apply blocks_nth; [exact L|]. apply nth_error_nth'. exact J.
  Qed.
  Lemma Pos_find k : (k < length E)%nat -> exists ij, In ij Pos /\ k = place ij.
  Proof.
    unfold E. rewrite blocks_length. intros H. destruct (blocks_find G F k H) as (i & j & x & L & X & ->). exists (i, j). split; [|reflexivity].
    apply Pos_in. split; [exact L|]. apply nth_error_Some. rewrite X. discriminate.
  Qed.
  Lemma place_inj ij ij' : In ij Pos -> In ij' Pos -> place ij = place ij' -> ij = ij'.
  Proof.
    destruct ij as [i j], ij' as [i' j']. intros H H'. apply Pos_in in H. apply Pos_in in H'. unfold place. cbn [fst snd]. intros X.
    destruct (blocks_inj G i j i' j' (proj2 H) (proj2 H') X) as [-> ->]. reflexivity.
  Qed.
  Lemma put_pos {A} (h : nat * (face * option mat3) -> A) l : length l = length E ->
    put (map (fun ij => (place ij, h (val ij))) Pos) l = Ok (map h E).
  Proof.
    intros L. apply put_all; [rewrite map_length; exact L| |].
    - intros k v H. apply in_map_iff in H. destruct H as (ij & X & I). injection X as <- <-. apply map_nth_error, Pos_val, I.
    - intros k H. rewrite map_length in H. destruct (Pos_find k H) as (ij & I & ->). left. exists (h (val ij)). apply in_map_iff. exists ij. split; [reflexivity|exact I].
  Qed.
  Lemma Pos_nodup : NoDup Pos.
  Proof.
    assert (N : forall c j, NoDup (map (fun i => (i, j) : nat * nat) (nonzero (map c faces)))).
    { intros c j. apply nodup_map; [|apply nonzero_nodup]. intros a b _ _ X. injection X as ->. reflexivity. }
    unfold Pos. repeat apply nodup_app; try apply N;
    intros [i j] H K; repeat rewrite in_app_iff in H; repeat rewrite in_app_iff in K; repeat rewrite in_map_iff in H; repeat rewrite in_map_iff in K.
    - destruct H as (i1 & X & H). injection X as <- <-. destruct K as (i2 & X & K). discriminate X.
    - destruct H as (i1 & X & H). injection X as <- <-. apply ix_c in H.
      destruct K as [(i2 & X & K)|(i2 & X & K)]; injection X as ->; try discriminate; apply ix_c in K; unfold c1, c3, c4 in H, K;
      destruct (num_behind (f_zclip fr) (fc i1)) as [|[|[|n]]]; discriminate.
    - destruct H as (i1 & X & H). injection X as <- <-. apply ix_c in H.
      destruct K as [(i2 & X & K)|[(i2 & X & K)|(i2 & X & K)]]; injection X as ->; try discriminate; apply ix_c in K; unfold c1, c3, c4 in H, K;
      destruct (num_behind (f_zclip fr) (fc i1)) as [|[|[|n]]]; discriminate.
  Qed.
End Layout.
