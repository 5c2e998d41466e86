(* The frames of a batch of clouds. *)
From Verif Require Import Base RBase Geom LinAlg TopK Knn KnnSpec.
From Verif Require Import Alignment AlignmentSpec AlignmentProofs AlignmentProofs2 AlignmentProofs3 AlignmentProofs4 Symeig Spectral SymeigSpec SymeigProofs SymeigProofs2.
From Verif Require Import Normals NormalsSpec NormalsProofs NormalsProofs2.
From Coq Require Import Psatz.
Local Open Scope R_scope.

Definition no_frame : vec3 * frame := (vzero, (vzero, vzero, vzero)).

Section Batch.
  Variable sort : list ext -> list nat.
  Hypothesis Hsort : sorts sort.
  Variables (x : points) (K : nat).
  Hypothesis Px : padded_batch x.
  Hypothesis B1 : rows x <> [].
  Hypothesis HK : (1 <= K)%nat.
  Hypothesis Big : Forall (fun n => (K < n)%nat) (nums x).
  Let num i := nth i (nums x) 0%nat.
  Let row i := nth i (rows x) [].

  Lemma num_big i : (i < length (rows x))%nat -> (K < num i <= width x)%nat /\ length (row i) = width x.
  Proof.
    intros H. destruct Px as (L & Q & W). rewrite Forall_forall in Q, W. pose proof Big as G. rewrite Forall_forall in G.
    unfold num, row. assert (I : In (nth i (nums x) 0%nat) (nums x)) by (apply nth_In; lia). split; [split; [apply G, I|apply W, I]|apply Q, nth_In, H].
  Qed.
  Lemma least_le n l i : (i < length (n :: l))%nat -> (fold_right Nat.min n l <= nth i (n :: l) 0)%nat.
  Proof.
    revert i. induction l as [|m l IH]; intros i H; [destruct i as [|[|i]]; cbn in *; lia|].
    cbn [fold_right]. destruct i as [|[|i]].
    - specialize (IH 0%nat ltac:(cbn; lia)). cbn [nth] in *. lia.
    - cbn [nth]. lia.
    - specialize (IH (S i) ltac:(cbn in *; lia)). cbn [nth] in *. lia.
  Qed.

  Lemma frames_form : exists nbs : nat -> nat -> list vec3,
    (forall i j, (i < length (rows x))%nat -> (j < width x)%nat -> length (nbs i j) = K /\
       ((j < num i)%nat -> neighbourhood K (cloud x i) (nth j (cloud x i) vzero) (nbs i j))) /\
    forall eigh eps amax amin d ws, exists out,
      local_coord_frames sort eigh eps amax amin 3 x K d ws = Ok out /\ length out = length (rows x) /\
      forall i, (i < length (rows x))%nat -> length (nth i out []) = width x /\
        forall j, (j < width x)%nat ->
          nth j (nth i out []) no_frame = point_frame eigh eps amax amin K d ws (nth j (row i) vzero) (nbs i j).
  Proof.
    assert (EX : existsb (fun n => (n <=? K)%nat) (nums x) = false).
    { destruct existsb eqn:E; [|reflexivity]. apply existsb_exists in E. destruct E as (n & I & L). apply Nat.leb_le in L.
      pose proof Big as G. rewrite Forall_forall in G. specialize (G n I). lia. }
    assert (En : exists n0 l0, nums x = n0 :: l0).
    { destruct Px as (L & _). destruct (nums x) as [|n0 l0]; [destruct (rows x); [contradiction|discriminate]|exists n0, l0; reflexivity]. }
    destruct En as (n0 & l0 & En).
    set (least := fold_right Nat.min n0 l0) in *.
    assert (LE : forall i, (i < length (rows x))%nat -> (least <= num i)%nat).
    { intros i H. unfold num. rewrite En. apply least_le. rewrite <- En, (proj1 Px). exact H. }
    set (m := fun i => div3 (vsum3 (row i)) (INR (num i))).
    set (nn := fun i => match neighbours sort K least (num i) (centred (num i) (row i)) with Ok l => l | Fail _ => [] end).
    assert (NB : forall i, (i < length (rows x))%nat ->
      neighbours sort K least (num i) (centred (num i) (row i)) = Ok (nn i) /\ length (nn i) = width x /\
      forall j, (j < width x)%nat -> length (nth j (nn i) []) = K /\
        ((j < num i)%nat -> neighbourhood K (firstn (num i) (centred (num i) (row i))) (nth j (centred (num i) (row i)) vzero) (nth j (nn i) []))).
    { intros i H. destruct (num_big i H) as [[G1 G2] G3].
      destruct (neighbours_ok sort K least (num i) (centred (num i) (row i)) Hsort) as (l & E & L & F).
      - lia.
      - unfold centred. rewrite map_length. lia.
      - apply LE, H.
      - unfold nn. rewrite E. unfold centred in L, F |- *. rewrite map_length, G3 in L, F. split; [reflexivity|]. split; [exact L|exact F]. }
    set (back := fun i j => map (tr (opposite (m i))) (nth j (nn i) [])).
    assert (TT : forall a p, tr (opposite a) (tr a p) = p).
    { intros a p. unfold tr, opposite. unfold sub3, scal3. destruct p. cbn. f_equal; ring. }
    assert (TT' : forall a p, tr a (tr (opposite a) p) = p).
    { intros a p. unfold tr, opposite. unfold sub3, scal3. destruct p. cbn. f_equal; ring. }
    exists back. split.
    - intros i j H J. destruct (NB i H) as (_ & _ & F). destruct (F j J) as [F1 F2]. split; [unfold back; rewrite map_length; exact F1|].
      intros J'. specialize (F2 J'). destruct (num_big i H) as [[G1 G2] G3].
      assert (LC : length (cloud x i) = num i).
      { unfold cloud. rewrite firstn_length. fold (row i) (num i). lia. }
      assert (CC : firstn (num i) (centred (num i) (row i)) = map (tr (m i)) (cloud x i)).
      { unfold centred, cloud. fold (row i) (num i). rewrite firstn_map. reflexivity. }
      assert (CJ : nth j (centred (num i) (row i)) vzero = tr (m i) (nth j (cloud x i) vzero)).
      { unfold centred, cloud. fold (row i) (num i). rewrite (nth_map_lt _ (row i) j vzero), nth_firstn_lt by lia. reflexivity. }
      rewrite CC, CJ in F2. apply neighbourhood_tr in F2; [|lia]. destruct F2 as (qs & E & Q).
      unfold back. rewrite E, map_map, (map_ext _ (fun p => p)), map_id by (intros; apply TT). exact Q.
    - intros eigh eps amax amin d ws. unfold local_coord_frames. cbn [Nat.eqb negb]. rewrite EX, En. fold least. cbn [rbind].
      destruct K as [|K'] eqn:EK; [lia|]. rewrite <- EK in *.
      set (val := fun i => map (fun pq => point_frame eigh eps amax amin K d ws (fst pq) (snd pq)) (combine (centred (num i) (row i)) (nn i))).
      assert (M : rmap (fun i => r <- rget (rows x) i ;; num0 <- rget (n0 :: l0) i ;;
          let c := centred num0 r in nn0 <- neighbours sort K least num0 c ;;
          Ok (map (fun pq => point_frame eigh eps amax amin K d ws (fst pq) (snd pq)) (combine c nn0))) (seq 0 (length (rows x))) = Ok (map val (seq 0 (length (rows x))))).
      { apply rmap_ok. intros i Hi. apply in_seq in Hi. rewrite (rget_nth _ _ []) by lia. cbn [rbind].
        rewrite (rget_nth _ _ 0%nat) by (rewrite <- En, (proj1 Px); lia). cbn [rbind]. cbv zeta.
        rewrite <- En. fold (row i) (num i). rewrite (proj1 (NB i ltac:(lia))). reflexivity. }
      exists (map val (seq 0 (length (rows x)))). split; [exact M|]. split; [rewrite map_length, seq_length; reflexivity|].
      intros i H. rewrite (nth_map_lt _ _ _ 0%nat), seq_nth by (rewrite ?seq_length; exact H). cbn [Nat.add].
      destruct (num_big i H) as [[G1 G2] G3]. destruct (NB i H) as (_ & N2 & N3).
      assert (LC : length (combine (centred (num i) (row i)) (nn i)) = width x).
      { rewrite combine_length. unfold centred. rewrite map_length. lia. }
      unfold val. split; [rewrite map_length; exact LC|]. intros j J.
      rewrite (nth_map_lt _ _ _ (vzero, [])) by lia.
      rewrite combine_nth by (unfold centred; rewrite map_length; lia). cbn [fst snd].
      destruct (N3 j J) as [N4 _].
      unfold centred at 1. rewrite (nth_map_lt _ (row i) j vzero) by lia.
      unfold back. rewrite <- (point_frame_tr eigh eps amax amin K d ws (m i) (nth j (row i) vzero) (map (tr (opposite (m i))) (nth j (nn i) []))); [|rewrite map_length; exact N4|lia].
      rewrite map_map, (map_ext _ (fun p => p)), map_id by (intros; apply TT'). reflexivity.
  Qed.

  (* whichever solver is used, the vectors form an orthonormal basis *)
  Lemma solver_frame eigh eps amax amin ws l :
    (forall a, symmetric a -> eigh_of a (eigh a)) -> (ws = true -> normalize_eps <= eps /\ is_argmax amax /\ is_argmin amin) ->
    let '(_, (v1, v2, v3)) := (if ws : bool then symeig3x3 eps amax amin (covariance K l) else eigh (covariance K l)) in orthonormal v1 v2 v3.
  Proof.
    intros H1 H2. destruct ws.
    - destruct (H2 eq_refl) as (E & A & B). exact (vectors_frame eps amax amin E A B (covariance K l) (se_values eps (covariance K l))).
    - specialize (H1 _ (covariance_sym K l)). destruct (eigh (covariance K l)) as [e [[v1 v2] v3]]. apply H1.
  Qed.
  Lemma point_frame_ok eigh eps amax amin d ws p l :
    (forall a, symmetric a -> eigh_of a (eigh a)) -> (ws = true -> normalize_eps <= eps /\ is_argmax amax /\ is_argmin amin) ->
    length l = K ->
    let '(e, (n, y, z)) := point_frame eigh eps amax amin K d ws p l in
    orthonormal n y z /\ (d = true -> det3 (columns n y z) = -1) /\ (ws = false -> principal l e n y z) /\
    (d = true -> (has_majority K p l n -> (K < 2 * in_front p l n)%nat) /\ (has_majority K p l z -> (K < 2 * in_front p l z)%nat)).
  Proof.
    intros H1 H2 L. pose proof (solver_frame eigh eps amax amin ws l H1 H2) as O.
    assert (PR : ws = false -> let '(e, (v1, v2, v3)) := eigh (covariance K l) in principal l e v1 v2 v3).
    { intros _. specialize (H1 _ (covariance_sym K l)). destruct (eigh (covariance K l)) as [e [[v1 v2] v3]]. exact (eigh_principal K l e v1 v2 v3 L H1). }
    unfold point_frame.
    assert (PR' : ws = false -> let '(e, (v1, v2, v3)) := (if ws then symeig3x3 eps amax amin (covariance K l) else eigh (covariance K l)) in principal l e v1 v2 v3) by (intros ->; apply PR; reflexivity).
    destruct (if ws then _ else _) as [e [[v1 v2] v3]]. destruct d.
    - pose proof (disambiguate_cases K p l v1) as C1. pose proof (disambiguate_cases K p l v3) as C3.
      destruct (frame_signs v1 v2 v3 _ _ O C1 C3) as (O' & D & C2). split; [exact O'|]. split; [intros _; exact D|]. split.
      + intros W. exact (principal_signs l e v1 v2 v3 _ _ _ (PR' W) C1 C2 C3).
      + intros _. split; intros M.
        * apply disambiguate_majority; [exact L|]. destruct C1 as [C|C]; rewrite C in M; [exact M|apply majority_sign, M].
        * apply disambiguate_majority; [exact L|]. destruct C3 as [C|C]; rewrite C in M; [exact M|apply majority_sign, M].
    - split; [exact O|]. split; [discriminate|]. split; [exact PR'|discriminate].
  Qed.

  (* a solver with the opposite signs *)
  Lemma reversed_ok eigh : (forall a, symmetric a -> eigh_of a (eigh a)) -> forall a, symmetric a -> eigh_of a (reversed eigh a).
  Proof.
    intros H a S. specialize (H a S). unfold reversed. destruct (eigh a) as [e [[v1 v2] v3]]. destruct H as [(O & A & B & C) Or]. split; [|exact Or].
    destruct O as (O1 & O2 & O3 & O4 & O5 & O6).
    assert (DD : forall u v, dot3 (opposite u) (opposite v) = dot3 u v) by (intros u v; unfold opposite; m3r; ring).
    assert (MM : forall b v t, mulv3 b v = scal3 t v -> mulv3 b (opposite v) = scal3 t (opposite v)).
    { intros b v t Q. transitivity (opposite (mulv3 b v)); [unfold opposite; clear; m3r; apply V3_eq; ring|]. rewrite Q. unfold opposite. clear. m3r. apply V3_eq; ring. }
    split; [unfold orthonormal; rewrite !DD; repeat split; assumption|]. repeat split; apply MM; assumption.
  Qed.
  Lemma point_frame_reversed eigh eps amax amin p l : length l = K ->
    let '(e, (n, y, z)) := point_frame eigh eps amax amin K true false p l in
    has_majority K p l n -> has_majority K p l z ->
    point_frame (reversed eigh) eps amax amin K true false p l = (e, (n, y, z)).
  Proof.
    intros L. unfold point_frame, reversed. destruct (eigh (covariance K l)) as [e [[v1 v2] v3]]. intros M1 M3.
    assert (N1 : has_majority K p l v1) by (destruct (disambiguate_cases K p l v1) as [C|C]; rewrite C in M1; [exact M1|apply majority_sign, M1]).
    assert (N3 : has_majority K p l v3) by (destruct (disambiguate_cases K p l v3) as [C|C]; rewrite C in M3; [exact M3|apply majority_sign, M3]).
    rewrite (proj2 (disambiguate_majority K p l v1 L N1)), (proj2 (disambiguate_majority K p l v3 L N3)). reflexivity.
  Qed.
  Lemma point_frame_flat eigh eps amax amin u c p l : (forall a, symmetric a -> eigh_of a (eigh a)) -> length l = K ->
    In p l -> dot3 u u = 1 -> (forall q, In q l -> dot3 u q = c) ->
    fst (fst (snd (point_frame (reversed eigh) eps amax amin K true false p l))) =
    opposite (fst (fst (snd (point_frame eigh eps amax amin K true false p l)))).
  Proof.
    intros H1 L I U F. specialize (H1 _ (covariance_sym K l)). unfold point_frame, reversed.
    destruct (eigh (covariance K l)) as [e [[v1 v2] v3]]. pose proof (eigh_principal K l e v1 v2 v3 L H1) as P.
    cbn [fst snd]. assert (T : thickness l v1 = 0).
    { pose proof (extremal _ _ _ _ _ P u U) as [X _]. rewrite (flat_thickness u l c F) in X. apply Rle_antisym; [exact X|].
      unfold thickness. apply Rmult_le_pos; [|destruct l; [contradiction|apply Rlt_le, Rinv_0_lt_compat, lt_0_INR; cbn; lia]].
      apply rsum_nonneg. apply Forall_forall. intros t Ht. apply in_map_iff in Ht. destruct Ht as (q & <- & _). apply pow2_ge_0. }
    destruct (flat_front l v1 p I T) as [F1 F2]. rewrite !disambiguate_eq, F1, F2.
    destruct (Nat.ltb_spec (2 * 0) K); [reflexivity|lia].
  Qed.
End Batch.
