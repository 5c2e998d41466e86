From Coq Require Import Sorting.
From Verif Require Import Base RBase TopK Knn KnnSpec.
Local Open Scope R_scope.

Lemma pair_ltb_strict : strict_total pair_ltb.
Proof.
  unfold pair_ltb. constructor.
  - intros [a i]; cbn [fst snd]. rewrite Nat.ltb_irrefl, andb_false_r. destruct (Rltb_spec a a); [lra|reflexivity].
  - intros [a i] [b j] [c k]; cbn [fst snd].
    destruct (Rltb_spec a b), (Rltb_spec b a), (Rltb_spec b c), (Rltb_spec c b), (Rltb_spec a c), (Rltb_spec c a);
      cbn [orb andb negb]; try lra; intros; try discriminate; auto; apply Nat.ltb_lt in H, H0; apply Nat.ltb_lt; lia.
  - intros [a i] [b j]; cbn [fst snd].
    destruct (Rltb_spec a b), (Rltb_spec b a); cbn [orb andb negb]; intros; try discriminate; try lra.
    apply Nat.ltb_ge in H, H0. f_equal; [lra|lia].
Qed.

Lemma insert_last {E} (ltb : E -> E -> bool) e q : (forall x, In x q -> ltb e x = false) -> insert ltb e q = q ++ [e].
Proof.
  induction q as [|x q IH]; intros H; cbn; [reflexivity|].
  rewrite H by (left; reflexivity). f_equal. apply IH. intros; apply H; right; assumption.
Qed.

Lemma knn_step_push K q e :
  (1 <= K)%nat -> (length q <= K)%nat -> StronglySorted (le pair_ltb) q ->
  (forall x, In x q -> (snd x < snd e)%nat) ->
  knn_step K q e = push_bounded pair_ltb K q e.
Proof.
  intros HK HL HS HI. unfold knn_step, push_bounded. rewrite insert_length.
  destruct (Nat.ltb_spec (length q) K) as [L|L].
  - cbn [orb]. destruct (Nat.leb_spec K (length q)); [lia|].
    destruct (Nat.ltb_spec K (S (length q))); [lia|]. reflexivity.
  - cbn [orb]. assert (length q = K) by lia.
    destruct (Nat.leb_spec K (length q)); [|lia].
    destruct (Nat.ltb_spec K (S (length q))); [|lia].
    unfold pq_top. destruct (nth_error q (length q - 1)) as [t|] eqn:Et.
    2:{ apply nth_error_None in Et; lia. }
    destruct (Rltb_spec (fst e) (fst t)) as [Lt|Ge]; [reflexivity|].
    rewrite insert_last. { unfold pq_pop. symmetry. apply removelast_last. }
    intros x Hx. assert (fst x <= fst t).
    { apply In_nth_error in Hx. destruct Hx as [i Hi].
      assert (i < length q)%nat by (apply nth_error_Some; congruence).
      destruct (Nat.eq_dec i (length q - 1)) as [->|N]; [rewrite Et in Hi; injection Hi as ->; lra|].
      assert (X := sorted_nth _ _ HS i (length q - 1)%nat x t ltac:(lia) Hi Et).
      unfold le, pair_ltb in X. destruct (Rltb_spec (fst t) (fst x)); [discriminate|lra]. }
    specialize (HI x Hx). unfold pair_ltb.
    destruct (Rltb_spec (fst e) (fst x)); [lra|]. cbn [orb].
    destruct (Nat.ltb_spec (snd e) (snd x)); [lia|]. apply andb_false_r.
Qed.

Lemma push_bounded_incl K q e x : In x (push_bounded pair_ltb K q e) -> (length q <= K)%nat -> x = e \/ In x q.
Proof.
  intros H L. rewrite (push_bounded_firstn _ ) in H by assumption.
  assert (In x (insert pair_ltb e q)).
  { rewrite <- (firstn_skipn K). apply in_or_app. left; assumption. }
  apply (Permutation_in _ (insert_perm _ e q)) in H0. destruct H0; auto.
Qed.

Lemma fold_knn_push K es : (1 <= K)%nat ->
  forall q b, (length q <= K)%nat -> StronglySorted (le pair_ltb) q ->
  (forall x, In x q -> (snd x < b)%nat) ->
  map snd es = seq b (length es) ->
  fold_left (knn_step K) es q = fold_left (push_bounded pair_ltb K) es q.
Proof.
  intros HK. induction es as [|e es IH]; intros q b HL HS HI HE; [reflexivity|].
  cbn [length seq map] in HE. injection HE as He HE. cbn [fold_left].
  rewrite knn_step_push; auto; [|intros x Hx; rewrite He; auto].
  apply (IH _ (S b)); auto.
  - rewrite push_bounded_firstn by assumption. rewrite firstn_length. lia.
  - rewrite push_bounded_firstn by assumption.
    assert (S := insert_sorted _ pair_ltb_strict e q HS).
    rewrite <- (firstn_skipn K) in S. revert S. generalize (firstn K (insert pair_ltb e q)), (skipn K (insert pair_ltb e q)).
    induction l as [|x l IHl]; intros m S; [constructor|]. cbn in S. inversion S; subst. constructor; [eauto|].
    apply Forall_app in H2. tauto.
  - intros x Hx. apply push_bounded_incl in Hx; [|assumption]. destruct Hx as [->|Hx]; [lia|]. specialize (HI x Hx). lia.
Qed.

Definition events (dist : nat -> R) n : list (R * nat) := map (fun j => (dist j, j)) (seq 0 n).
Lemma events_snd dist n : map snd (events dist n) = seq 0 n.
Proof. unfold events. rewrite map_map. apply map_id. Qed.
Lemma events_length dist n : length (events dist n) = n.
Proof. unfold events. rewrite map_length, seq_length. reflexivity. Qed.
Lemma events_in dist n e : In e (events dist n) <-> (snd e < n)%nat /\ fst e = dist (snd e).
Proof.
  unfold events. rewrite in_map_iff. split.
  - intros [j [<- Hj]]. apply in_seq in Hj. cbn; split; [lia|reflexivity].
  - intros [H1 H2]. exists (snd e). split; [destruct e; cbn in *; congruence|apply in_seq; lia].
Qed.

Lemma knn_fold_best K dist n : (1 <= K)%nat ->
  is_best pair_ltb K (events dist n) (fold_left (knn_step K) (events dist n) []).
Proof.
  intros HK. rewrite (fold_knn_push K _ HK [] 0).
  - rewrite fold_push_isort. apply firstn_isort_best, pair_ltb_strict.
  - cbn; lia.
  - constructor.
  - intros x [].
  - rewrite events_length. apply events_snd.
Qed.

Lemma nth_fill_l {A} K (z : A) l k : (k < length l)%nat -> nth k (fill_row K z l) z = nth k l z.
Proof. intros. unfold fill_row. apply app_nth1; assumption. Qed.
Lemma nth_fill_r {A} K (z : A) l k : (length l <= k)%nat -> nth k (fill_row K z l) z = z.
Proof. intros. unfold fill_row. rewrite app_nth2 by assumption. apply nth_repeat. Qed.
Lemma fill_length {A} K (z : A) l : (length l <= K)%nat -> length (fill_row K z l) = K.
Proof. intros. unfold fill_row. rewrite app_length, repeat_length. lia. Qed.
Lemma firstn_fill {A} K (z : A) l : firstn (length l) (fill_row K z l) = l.
Proof. unfold fill_row. rewrite firstn_app, Nat.sub_diag, firstn_all, firstn_O. apply app_nil_r. Qed.


Lemma best_is_knn K dist n q : is_best pair_ltb K (events dist n) q ->
  is_knn dist n K (fill_row K 0 (map fst q)) (fill_row K 0%nat (map snd q)).
Proof.
  intros [HL HS [rest [HP HR]]]. rewrite events_length in HL.
  assert (HIn : forall k, (k < length q)%nat -> In (nth k q (0,0%nat)) (events dist n)).
  { intros k Hk. apply (Permutation_in _ (Permutation_sym HP)). apply in_or_app. left. apply nth_In. assumption. }
  assert (Hf : firstn (Nat.min K n) (fill_row K 0%nat (map snd q)) = map snd q).
  { rewrite <- HL, <- (map_length snd q). apply firstn_fill. }
  assert (HN : NoDup (map snd (q ++ rest))).
  { eapply Permutation_NoDup; [apply Permutation_map; exact HP|]. rewrite events_snd. apply seq_NoDup. }
  rewrite map_app in HN.
  constructor.
  - apply fill_length. rewrite map_length; lia.
  - apply fill_length. rewrite map_length; lia.
  - rewrite Hf. clear - HN. revert HN. generalize (map snd rest). induction (map snd q) as [|a l IH]; intros m H; [constructor|].
    cbn in H. inversion H; subst. constructor; [|eauto]. intros X; apply H2, in_or_app; auto.
  - rewrite <- HL. intros k Hk. rewrite !nth_fill_l by (rewrite map_length; lia).
    rewrite (nth_map_lt fst q k (0,0%nat)), (nth_map_lt snd q k (0,0%nat)) by assumption.
    specialize (HIn k Hk). apply events_in in HIn. tauto.
  - rewrite <- HL. intros i j Hij Hj. rewrite !nth_fill_l by (rewrite map_length; lia).
    rewrite (nth_map_lt fst q i (0,0%nat)), (nth_map_lt fst q j (0,0%nat)) by lia.
    assert (X := HS i j _ _ Hij (nth_error_nth' q (0,0%nat) (n:=i) ltac:(lia)) (nth_error_nth' q (0,0%nat) (n:=j) ltac:(lia))).
    unfold pair_ltb in X. destruct (Rltb_spec (fst (nth j q (0,0%nat))) (fst (nth i q (0,0%nat)))); [discriminate|lra].
  - rewrite Hf. rewrite <- HL. intros j Hj Hnin k Hk. rewrite nth_fill_l by (rewrite map_length; lia).
    rewrite (nth_map_lt fst q k (0,0%nat)) by assumption.
    assert (In (dist j, j) rest).
    { assert (In (dist j, j) (q ++ rest)) by (apply (Permutation_in _ HP), events_in; cbn; auto).
      apply in_app_or in H. destruct H as [H|H]; [|assumption].
      exfalso. apply Hnin. apply (in_map snd) in H. exact H. }
    assert (X := HR (nth k q (0,0%nat)) (dist j, j) (nth_In _ _ Hk) H).
    unfold pair_ltb in X. cbn [fst snd] in X. destruct (Rltb_spec (dist j) (fst (nth k q (0,0%nat)))); [discriminate|lra].
  - rewrite <- HL. intros k Hk. rewrite !nth_fill_r by (rewrite map_length; lia). auto.
Qed.

Lemma pdist_L1 p q : pdist 1 p q = dist_L1 p q.
Proof.
  unfold pdist. cbn [Nat.eqb]. cut (forall a, fold_left (fun dist c => let diff := fst c - snd c in dist + Rabs diff) (combine p q) a = a + dist_L1 p q).
  { intros H. rewrite H. lra. }
  revert q; induction p as [|x p IH]; intros [|y q] a; cbn; try lra.
  rewrite IH. lra.
Qed.
Lemma pdist_L2 p q : pdist 2 p q = dist_L2sq p q.
Proof.
  unfold pdist. cbn [Nat.eqb]. cut (forall a, fold_left (fun dist c => let diff := fst c - snd c in dist + diff * diff) (combine p q) a = a + dist_L2sq p q).
  { intros H. rewrite H. lra. }
  revert q; induction p as [|x p IH]; intros [|y q] a; cbn; try lra.
  rewrite IH. lra.
Qed.



Lemma knn_queue_ok norm K p p2 n : (n <= length p2)%nat ->
  knn_queue norm K p p2 n = Ok (fold_left (knn_step K) (events (fun j => pdist norm p (nth j p2 [])) n) []).
Proof.
  intros H. unfold knn_queue, events. rewrite fold_left_map.
  apply rfold_ok_fold. intros b a Ha. apply in_seq in Ha. rewrite (rget_nth _ _ []) by lia. reflexivity.
Qed.

Lemma knn_query_ok norm K p p2 n : (1 <= K)%nat -> (n <= length p2)%nat ->
  exists ds js, knn_query norm K p p2 n = Ok (ds, js) /\
    is_knn (fun j => pdist norm p (nth j p2 [])) n K ds js.
Proof.
  intros HK Hn. unfold knn_query. rewrite knn_queue_ok by assumption. cbn [rbind].
  eexists _, _. split; [reflexivity|]. apply best_is_knn, knn_fold_best, HK.
Qed.

(* ---- Python layer ---- *)
Definition ext_ltb (a b : ext) : bool :=
  match a, b with Fin x, Fin y => Rltb x y | Fin _, Inf => true | Inf, _ => false end.
Lemma ext_strict : strict_total ext_ltb.
Proof.
  constructor.
  - intros [a|]; cbn; auto. apply Rltb_false; lra.
  - intros [a|] [b|] [c|]; cbn; auto; try discriminate. rewrite !Rltb_true. lra.
  - intros [a|] [b|]; cbn; auto; try discriminate. rewrite !Rltb_false. intros; f_equal; lra.
Qed.
Lemma ext_le_le a b : ext_le a b <-> le ext_ltb a b.
Proof. destruct a, b; unfold le; cbn; rewrite ?Rltb_false; split; auto; try discriminate; tauto. Qed.

Lemma sorted_of_nth {A} (P : A -> A -> Prop) d (l : list A) :
  (forall i j, (i < j < length l)%nat -> P (nth i l d) (nth j l d)) -> StronglySorted P l.
Proof.
  induction l as [|a l IH]; intros H; constructor.
  - apply IH. intros i j Hij. apply (H (S i) (S j)). cbn; lia.
  - apply Forall_forall. intros x Hx. apply (In_nth _ _ d) in Hx. destruct Hx as [j [Hj <-]].
    apply (H 0%nat (S j)). cbn; lia.
Qed.

Lemma gather_perm {A} (d : A) l si : Permutation si (seq 0 (length l)) -> Permutation (gather d l si) l.
Proof.
  intros H. unfold gather. rewrite H. clear.
  match goal with |- Permutation ?a ?b => assert (E : a = b); [|rewrite E; reflexivity] end.
  apply (nth_ext _ _ d d). { rewrite map_length, seq_length; reflexivity. }
  intros n Hn. rewrite map_length, seq_length in Hn. rewrite (nth_map_lt _ _ _ 0%nat) by (rewrite seq_length; lia).
  rewrite seq_nth by lia. reflexivity.
Qed.

Lemma sort_sorted sort l : sorts sort ->
  (forall i j, (i < j < length l)%nat -> ext_le (nth i l Inf) (nth j l Inf)) ->
  gather Inf l (sort l) = l.
Proof.
  intros HS Hl. destruct (HS l) as [HP HO]. apply (sorted_perm_unique _ ext_strict).
  - apply (sorted_of_nth _ Inf). intros i j Hij. apply ext_le_le, HO.
    unfold gather in Hij. rewrite map_length, (Permutation_length HP), seq_length in Hij. exact Hij.
  - apply (sorted_of_nth _ Inf). intros i j Hij. apply ext_le_le, Hl, Hij.
  - apply gather_perm, HP.
Qed.

Lemma sort_row sort K minl n rs ds js :
  sorts sort -> (minl <= n)%nat -> length ds = K -> length js = K ->
  (forall i j, (i < j)%nat -> (j < Nat.min K n)%nat -> nth i ds 0 <= nth j ds 0) ->
  (forall k, (Nat.min K n <= k < K)%nat -> nth k ds 0 = 0) ->
  exists si, Permutation si (seq 0 K) /\
    knn_sort_row sort K minl n rs (ds, js) = (map Fin ds, gather 0%nat js si) /\
    forall k, (k < K)%nat -> nth (nth k si 0%nat) ds 0 = nth k ds 0 /\
       ((k < Nat.min K n)%nat <-> (nth k si 0 < Nat.min K n)%nat).
Proof.
  intros HS Hml Ld Lj Hasc Hpad.
  assert (Hid : exists si, Permutation si (seq 0 K) /\ (map Fin ds, js) = (map Fin ds, gather 0%nat js si) /\
    forall k, (k < K)%nat -> nth (nth k si 0%nat) ds 0 = nth k ds 0 /\
       ((k < Nat.min K n)%nat <-> (nth k si 0 < Nat.min K n)%nat)).
  { exists (seq 0 K). split; [reflexivity|]. split.
    - f_equal. unfold gather. apply (nth_ext _ _ 0%nat 0%nat). { rewrite map_length, seq_length; lia. }
      intros k Hk. rewrite (nth_map_lt _ _ _ 0%nat) by (rewrite seq_length; lia). rewrite seq_nth by lia. reflexivity.
    - intros k Hk. rewrite seq_nth by lia. cbn. tauto. }
  unfold knn_sort_row. cbn [fst snd].
  destruct (Nat.ltb_spec 1 K) as [HK|HK]; cbn [andb]; [|exact Hid].
  destruct rs; [|exact Hid].
  set (m := map (fun k => if (n <=? k)%nat then Inf else nth k (map Fin ds) Inf) (seq 0 K)).
  assert (Lm : length m = K) by (unfold m; rewrite map_length, seq_length; reflexivity).
  assert (Hm : forall k, (k < K)%nat -> nth k m Inf = if (k <? Nat.min K n)%nat then Fin (nth k ds 0) else Inf).
  { intros k Hk. unfold m. rewrite (nth_map_lt _ _ _ 0%nat) by (rewrite seq_length; lia).
    rewrite seq_nth by lia. cbn [Nat.add].
    destruct (Nat.leb_spec n k), (Nat.ltb_spec k (Nat.min K n)); try lia; auto.
    apply (nth_map_lt Fin). lia. }
  assert (Sm : gather Inf m (sort m) = m).
  { apply sort_sorted; [assumption|]. intros i j Hij. rewrite Lm in Hij. rewrite !Hm by lia.
    destruct (Nat.ltb_spec i (Nat.min K n)), (Nat.ltb_spec j (Nat.min K n)); cbn; auto; try lia.
    apply Hasc; lia. }
  assert (HPm : Permutation (sort m) (seq 0 K)) by (rewrite <- Lm; apply HS).
  assert (Hsi : forall k, (k < K)%nat -> nth (nth k (sort m) 0%nat) ds 0 = nth k ds 0 /\
       ((k < Nat.min K n)%nat <-> (nth k (sort m) 0 < Nat.min K n)%nat)).
  { intros k Hk. assert (X := f_equal (fun l => nth k l Inf) Sm). cbn beta in X.
    assert (Ls : length (sort m) = K) by (rewrite (Permutation_length HPm); apply seq_length).
    assert (Hs : (nth k (sort m) 0 < K)%nat).
    { assert (Y : In (nth k (sort m) 0%nat) (sort m)) by (apply nth_In; lia).
      apply (Permutation_in _ HPm), in_seq in Y. lia. }
    unfold gather in X. rewrite (nth_map_lt _ _ _ 0%nat) in X by lia. rewrite !Hm in X by lia.
    destruct (Nat.ltb_spec (nth k (sort m) 0%nat) (Nat.min K n)), (Nat.ltb_spec k (Nat.min K n)); try discriminate.
    - injection X as X. split; [assumption|lia].
    - split; [|lia]. rewrite !Hpad by lia. reflexivity. }
  destruct (Nat.ltb_spec minl K).
  - exists (sort m). split; [assumption|]. split; [|assumption]. fold m. rewrite Sm. f_equal.
    apply (nth_ext _ _ Inf Inf). { rewrite !map_length, seq_length; lia. }
    intros k Hk. rewrite map_length, seq_length in Hk.
    rewrite (nth_map_lt _ _ _ 0%nat), (nth_map_lt Fin ds k 0) by (rewrite ?seq_length; lia).
    rewrite seq_nth by lia. cbn [Nat.add]. rewrite Hm by lia.
    destruct (Nat.leb_spec n k), (Nat.ltb_spec k (Nat.min K n)); try lia; auto.
    rewrite Hpad by lia. reflexivity.
  - assert (Em : m = map Fin ds).
    { apply (nth_ext _ _ Inf Inf). { rewrite Lm, map_length; lia. }
      intros k Hk. rewrite Lm in Hk. rewrite Hm, (nth_map_lt Fin ds k 0) by lia.
      destruct (Nat.ltb_spec k (Nat.min K n)); [reflexivity|lia]. }
    rewrite <- Em, Sm. exists (sort m). auto.
Qed.

Lemma firstn_gather {A} (d : A) l si k : firstn k (gather d l si) = gather d l (firstn k si).
Proof. apply firstn_map. Qed.
Lemma firstn_as_gather {A} (d : A) l k : (k <= length l)%nat -> gather d l (seq 0 k) = firstn k l.
Proof.
  intros H. unfold gather. apply (nth_ext _ _ d d). { rewrite map_length, seq_length, firstn_length; lia. }
  intros i Hi. rewrite map_length, seq_length in Hi. rewrite (nth_map_lt _ _ _ 0%nat) by (rewrite seq_length; lia).
  rewrite seq_nth by lia. rewrite <- (firstn_skipn k l) at 1. cbn [Nat.add].
  rewrite app_nth1 by (rewrite firstn_length; lia). reflexivity.
Qed.

Lemma sort_row_knn sort K minl n rs ds js dist :
  sorts sort -> (minl <= n)%nat -> is_knn dist n K ds js ->
  exists js', knn_sort_row sort K minl n rs (ds, js) = (map Fin ds, js') /\ is_knn dist n K ds js'.
Proof.
  intros HS Hml H. destruct H as [Ld Lj HN HV HA HB HPad].
  destruct (sort_row sort K minl n rs ds js HS Hml Ld Lj HA (fun k Hk => proj1 (HPad k Hk))) as [si [HP [-> Hsi]]].
  eexists. split; [reflexivity|].
  assert (Ls : length si = K) by (rewrite (Permutation_length HP); apply seq_length).
  set (mn := Nat.min K n) in *.
  assert (HQ : Permutation (firstn mn si) (seq 0 mn)).
  { apply NoDup_Permutation_bis.
    - assert (N : NoDup si) by (apply (Permutation_NoDup (Permutation_sym HP)), seq_NoDup).
      rewrite <- (firstn_skipn mn) in N. clear - N. revert N. generalize (skipn mn si).
      induction (firstn mn si) as [|a l IH]; intros m H; [constructor|].
      cbn in H. inversion H; subst. constructor; [|eauto]. intros X; apply H2, in_or_app; auto.
    - rewrite seq_length, firstn_length. lia.
    - intros x Hx. apply (In_nth _ _ 0%nat) in Hx. destruct Hx as [k [Hk Ek]]. rewrite firstn_length in Hk.
      assert (E : nth k si 0%nat = x).
      { rewrite <- Ek. rewrite <- (firstn_skipn mn si) at 1. apply app_nth1. rewrite firstn_length. lia. }
      apply in_seq. assert (Y := proj2 (Hsi k ltac:(lia))). rewrite E in Y. lia. }
  assert (HJ : Permutation (firstn mn (gather 0%nat js si)) (firstn mn js)).
  { rewrite firstn_gather. unfold gather at 1. rewrite HQ. fold (gather 0%nat js (seq 0 mn)).
    rewrite firstn_as_gather by lia. reflexivity. }
  assert (Hg : forall k, (k < K)%nat -> nth k (gather 0%nat js si) 0%nat = nth (nth k si 0%nat) js 0%nat).
  { intros k Hk. unfold gather. apply (nth_map_lt (fun i => nth i js 0%nat)). lia. }
  constructor; fold mn; auto.
  - unfold gather. rewrite map_length. assumption.
  - apply (Permutation_NoDup (Permutation_sym HJ) HN).
  - intros k Hk. rewrite Hg by lia. destruct (Hsi k ltac:(lia)) as [E1 E2].
    destruct (HV (nth k si 0%nat) ltac:(lia)) as [V1 V2]. split; [assumption|]. rewrite <- V2, E1. reflexivity.
  - intros j Hj Hnin. apply HB; [assumption|]. intros X. apply Hnin.
    apply (Permutation_in _ (Permutation_sym HJ)). assumption.
  - intros k Hk. split; [apply HPad; assumption|]. rewrite Hg by lia.
    destruct (Hsi k ltac:(lia)) as [E1 E2].
    assert (In (nth k si 0%nat) (seq 0 K)) by (apply (Permutation_in _ HP), nth_In; lia).
    apply in_seq in H. apply HPad. lia.
Qed.

Lemma sort_row_zero sort K minl n rs :
  sorts sort -> (minl <= n)%nat ->
  knn_sort_row sort K minl n rs (repeat 0 K, repeat 0%nat K) = (map Fin (repeat 0 K), repeat 0%nat K).
Proof.
  intros HS Hml.
  assert (Z : forall k, nth k (repeat 0 K) 0 = 0) by (intros; apply nth_repeat).
  destruct (sort_row sort K minl n rs (repeat 0 K) (repeat 0%nat K) HS Hml) as [si [HP [-> _]]];
    rewrite ?repeat_length; auto.
  - intros i j _ _. rewrite !Z. lra.
  - f_equal. unfold gather. assert (L : length si = K) by (rewrite (Permutation_length HP); apply seq_length).
    transitivity (repeat 0%nat (length si)); [|rewrite L; reflexivity].
    clear. induction si as [|a si IH]; cbn [map length repeat]; [reflexivity|]. f_equal; [apply nth_repeat|exact IH].
Qed.

Definition the_dist (norm : nat) : list R -> list R -> R := if (norm =? 1)%nat then dist_L1 else dist_L2sq.

Lemma is_knn_ext d d' n K ds js : (forall j, d j = d' j) -> is_knn d n K ds js -> is_knn d' n K ds js.
Proof.
  intros H [? ? ? HV ? HB ?]. constructor; auto.
  - intros k Hk. rewrite <- H. auto.
  - intros j Hj Hn k Hk. rewrite <- H. auto.
Qed.

Lemma knn_points_correct sort norm K rs minl p1 p2 n1 n2 :
  sorts sort -> norm = 1%nat \/ norm = 2%nat -> (1 <= K)%nat ->
  (n1 <= length p1)%nat -> (n2 <= length p2)%nat -> (minl <= n2)%nat ->
  exists rows, knn_points sort norm K rs minl p1 p2 n1 n2 = Ok rows /\
    length rows = length p1 /\
    forall i, (i < length p1)%nat ->
      exists ds js, nth_error rows i = Some (map Fin ds, js) /\
        if (i <? n1)%nat
        then is_knn (fun j => the_dist norm (nth i p1 []) (nth j p2 [])) n2 K ds js
        else ds = repeat 0 K /\ js = repeat 0%nat K.
Proof.
  intros HS Hnorm HK H1 H2 Hml.
  assert (HD : forall p q, pdist norm p q = the_dist norm p q).
  { intros p q. destruct Hnorm as [-> | ->]; [apply pdist_L1|apply pdist_L2]. }
  unfold knn_points. destruct (negb ((norm =? 1)%nat || (norm =? 2)%nat)) eqn:En.
  { destruct Hnorm as [-> | ->]; discriminate. }
  unfold knn_cloud.
  assert (E : exists rows, rmap (fun i1 => if (i1 <? n1)%nat
                  then p <- rget p1 i1 ;; knn_query norm K p p2 n2
                  else Ok (repeat 0 K, repeat 0%nat K)) (seq 0 (length p1)) = Ok rows /\
      length rows = length p1 /\
      forall i, (i < length p1)%nat -> exists ds js, nth_error rows i = Some (ds, js) /\
        if (i <? n1)%nat
        then is_knn (fun j => the_dist norm (nth i p1 []) (nth j p2 [])) n2 K ds js
        else ds = repeat 0 K /\ js = repeat 0%nat K).
  { set (f := fun i1 => if (i1 <? n1)%nat
                  then match knn_query norm K (nth i1 p1 []) p2 n2 with Ok r => r | Fail _ => ([], []) end
                  else (repeat 0 K, repeat 0%nat K)).
    exists (map f (seq 0 (length p1))). split.
    - assert (G : forall l, (forall i, In i l -> (i < length p1)%nat) ->
         rmap (fun i1 => if (i1 <? n1)%nat
                  then p <- rget p1 i1 ;; knn_query norm K p p2 n2
                  else Ok (repeat 0 K, repeat 0%nat K)) l = Ok (map f l)).
      { induction l as [|i l IH]; intros Hl; cbn [rmap map]; [reflexivity|].
        rewrite IH by (intros; apply Hl; right; assumption).
        assert (Hi : (i < length p1)%nat) by (apply Hl; left; reflexivity).
        unfold f at 2. destruct (i <? n1)%nat; [|reflexivity].
        rewrite (rget_nth _ _ [] Hi). cbn [rbind].
        destruct (knn_query_ok norm K (nth i p1 []) p2 n2 HK H2) as [ds [js [-> _]]]. reflexivity. }
      apply G. intros i Hi. apply in_seq in Hi. lia.
    - split; [rewrite map_length, seq_length; reflexivity|].
      intros i Hi. destruct (knn_query_ok norm K (nth i p1 []) p2 n2 HK H2) as [ds [js [Eq Hk]]].
      destruct (i <? n1)%nat eqn:Ei.
      + exists ds, js. split; [|eapply is_knn_ext; [|exact Hk]; intros; apply HD].
        rewrite nth_error_map, (nth_error_nth' _ 0%nat) by (rewrite seq_length; lia).
        rewrite seq_nth by lia. cbn [option_map Nat.add]. unfold f. rewrite Ei, Eq. reflexivity.
      + eexists _, _. split; [|split; reflexivity].
        rewrite nth_error_map, (nth_error_nth' _ 0%nat) by (rewrite seq_length; lia).
        rewrite seq_nth by lia. cbn [option_map Nat.add]. unfold f. rewrite Ei. reflexivity. }
  destruct E as [rows [-> [HL HR]]]. cbn [rbind]. eexists. split; [reflexivity|].
  split; [rewrite map_length; assumption|].
  intros i Hi. destruct (HR i Hi) as [ds [js [En' Hrow]]].
  rewrite nth_error_map, En'. cbn [option_map].
  destruct (i <? n1)%nat.
  - destruct (sort_row_knn sort K minl n2 rs ds js _ HS Hml Hrow) as [js' [-> Hk]].
    exists ds, js'. split; [reflexivity|assumption].
  - destruct Hrow as [-> ->]. exists (repeat 0 K), (repeat 0%nat K). rewrite sort_row_zero by assumption. auto.
Qed.

(* knn_gather picks the neighbours out of x and zeroes the entries that have none *)
Lemma rmap_ok_map {A B} (f : A -> result B) (g : A -> B) l :
  (forall a, In a l -> f a = Ok (g a)) -> rmap f l = Ok (map g l).
Proof.
  induction l as [|a l IH]; intros H; cbn; [reflexivity|].
  rewrite H by (left; reflexivity). rewrite IH by (intros; apply H; right; assumption). reflexivity.
Qed.
Lemma knn_gather_ok {A} (zero : A) minl K n (x : list A) js :
  length js = K -> (minl <= n)%nat -> (1 <= length x)%nat ->
  (forall k, (k < Nat.min K n)%nat -> (nth k js 0 < length x)%nat) ->
  (forall k, (Nat.min K n <= k < K)%nat -> nth k js 0 = 0)%nat ->
  exists out, knn_gather zero minl K n x js = Ok out /\ length out = K /\
    (forall k, (k < Nat.min K n)%nat -> nth_error out k = nth_error x (nth k js 0%nat)) /\
    (forall k, (Nat.min K n <= k < K)%nat -> nth_error out k = Some zero).
Proof.
  intros Lj Hml Hx Hv Hp. unfold knn_gather.
  assert (Hin : forall a, In a js -> (a < length x)%nat).
  { intros a Ha. apply (In_nth _ _ 0%nat) in Ha. destruct Ha as [k [Hk <-]].
    destruct (Nat.lt_ge_cases k (Nat.min K n)); [auto|]. rewrite Hp; lia. }
  rewrite (rmap_ok_map _ (fun i => nth i x zero)).
  2:{ intros a Ha. rewrite (nth_error_nth' _ zero) by auto. reflexivity. }
  cbn [rbind]. eexists. split; [reflexivity|].
  assert (Lo : length (map (fun i => nth i x zero) js) = K) by (rewrite map_length; assumption).
  assert (No : forall k, (k < K)%nat -> nth k (map (fun i => nth i x zero) js) zero = nth (nth k js 0%nat) x zero).
  { intros k Hk. apply (nth_map_lt (fun i => nth i x zero)). lia. }
  destruct (Nat.ltb_spec minl K).
  - split; [rewrite map_length, seq_length; reflexivity|].
    assert (Nk : forall k, (k < K)%nat -> nth_error (map (fun k => if (n <=? k)%nat then zero else nth k (map (fun i => nth i x zero) js) zero) (seq 0 K)) k
        = Some (if (n <=? k)%nat then zero else nth (nth k js 0%nat) x zero)).
    { intros k Hk. rewrite nth_error_map, (nth_error_nth' _ 0%nat) by (rewrite seq_length; lia).
      rewrite seq_nth by lia. cbn [option_map Nat.add]. rewrite No by lia. reflexivity. }
    split; intros k Hk; rewrite Nk by lia.
    + destruct (Nat.leb_spec n k); [lia|]. symmetry. apply nth_error_nth'. apply Hv. assumption.
    + destruct (Nat.leb_spec n k); [reflexivity|lia].
  - split; [assumption|]. split; intros k Hk; [|lia].
    rewrite (nth_error_nth' _ zero) by lia. rewrite No by lia. symmetry. apply nth_error_nth'. apply Hv; assumption.
Qed.

(* ---- backward ---- *)
Lemma deriv_abs_shift c x : x <> c -> derivable_pt_lim (fun t => Rabs (t - c)) x (if Rltb c x then 1 else -1).
Proof.
  intros N. destruct (Rltb_spec c x).
  - intros eps He. assert (Hd : 0 < x - c) by lra. exists (mkposreal _ Hd). intros h h0 hl. cbn in hl.
    apply Rabs_def2 in hl.
    rewrite (Rabs_right (x + h - c)), (Rabs_right (x - c)) by lra.
    replace ((x + h - c - (x - c)) / h - 1) with 0 by (field; assumption). rewrite Rabs_R0; assumption.
  - assert (Hd : 0 < c - x) by lra. intros eps He. exists (mkposreal _ Hd). intros h h0 hl. cbn in hl.
    apply Rabs_def2 in hl.
    rewrite (Rabs_left (x + h - c)), (Rabs_left (x - c)) by lra.
    replace ((- (x + h - c) - - (x - c)) / h - -1) with 0 by (field; assumption). rewrite Rabs_R0; assumption.
Qed.
Lemma deriv_sq_shift c x : derivable_pt_lim (fun t => (t - c) ^ 2) x (2 * (x - c)).
Proof.
  apply (deriv_ext _ (fun t => (t - c) * (t - c))); [intros; ring|].
  apply (deriv_val _ _ (1 * (x - c) + (x - c) * 1)); [ring|].
  assert (D : derivable_pt_lim (fun t => t - c) x 1) by (apply (deriv_affine _ (- c)); intros; ring).
  apply (deriv_mult (fun t => t - c) (fun t => t - c)); assumption.
Qed.
Lemma coord_dist_sym norm x y : coord_dist norm x y = coord_dist norm y x.
Proof. unfold coord_dist. destruct (norm =? 1)%nat; [apply Rabs_minus_sym|ring]. Qed.
Definition coord_grad (norm : nat) (x y : R) : R :=
  if (norm =? 1)%nat then (if Rltb y x then 1 else -1) else 2 * (x - y).
Lemma coord_deriv norm x y : (norm = 1%nat -> x <> y) -> derivable_pt_lim (fun t => coord_dist norm t y) x (coord_grad norm x y).
Proof.
  intros H. unfold coord_dist, coord_grad. destruct (Nat.eqb_spec norm 1); [apply deriv_abs_shift; auto|apply deriv_sq_shift].
Qed.
Lemma coord_grad_anti norm x y : (norm = 1%nat -> x <> y) -> coord_grad norm y x = - coord_grad norm x y.
Proof.
  intros H. unfold coord_grad. destruct (Nat.eqb_spec norm 1) as [E|E].
  - specialize (H E). destruct (Rltb_spec y x), (Rltb_spec x y); lra.
  - ring.
Qed.
Lemma knn_diff_grad norm p1 p2 g i k j d : knn_diff norm p1 p2 g i k j d = g i k * coord_grad norm (p1 i d) (p2 j d).
Proof. unfold knn_diff, coord_grad. destruct (norm =? 1)%nat; [reflexivity|ring]. Qed.

Lemma min_if K n : (if (n <? K)%nat then n else K) = Nat.min K n.
Proof. destruct (Nat.ltb_spec n K); lia. Qed.

Lemma knn_grad_p1_ok norm D K n1 n2 idx g p1 p2 i d :
  (i < n1)%nat -> (d < D)%nat ->
  (norm = 1%nat -> forall k, (k < Nat.min K n2)%nat -> idx i k <> (-1)%Z -> p1 i d <> p2 (Z.to_nat (idx i k)) d) ->
  derivable_pt_lim (fun t => knn_loss norm D K n1 n2 idx g (with_entry p1 i d t) p2) (p1 i d)
    (knn_grad_p1 norm K n1 n2 idx p1 p2 g i d).
Proof.
  intros Hi Hd Hne. unfold knn_loss, knn_grad_p1. rewrite min_if.
  apply deriv_sumf. intros i1 Hi1. apply deriv_sumf. intros k Hk.
  destruct (Z.eqb_spec (idx i1 k) (-1)) as [E|NE]; [apply deriv_const|].
  set (j := Z.to_nat (idx i1 k)).
  apply (deriv_val _ _ (g i1 k * sumf D (fun d' => if ((i1 =? i) && (d' =? d))%nat%bool then coord_grad norm (p1 i d) (p2 j d) else 0))).
  - destruct (Nat.eqb_spec i1 i) as [->|]; cbn [andb].
    + rewrite sumf_single by assumption. rewrite knn_diff_grad. reflexivity.
    + rewrite sumf_zero by reflexivity. ring.
  - apply deriv_scal, deriv_sumf. intros d' Hd'. unfold with_entry.
    destruct (Nat.eqb_spec i1 i) as [->|]; cbn [andb]; [|apply deriv_const].
    destruct (Nat.eqb_spec d' d) as [->|]; cbn [andb]; [|apply deriv_const].
    apply coord_deriv. intros E. apply Hne; assumption.
Qed.

Lemma knn_grad_p2_ok norm D K n1 n2 idx g p1 p2 j d :
  (d < D)%nat ->
  (norm = 1%nat -> forall i k, (i < n1)%nat -> (k < Nat.min K n2)%nat -> idx i k = Z.of_nat j -> p1 i d <> p2 j d) ->
  (forall i k, (i < n1)%nat -> (k < Nat.min K n2)%nat -> (-1 <= idx i k)%Z) ->
  derivable_pt_lim (fun t => knn_loss norm D K n1 n2 idx g p1 (with_entry p2 j d t)) (p2 j d)
    (knn_grad_p2 norm K n1 n2 idx p1 p2 g j d).
Proof.
  intros Hd Hne Hidx. unfold knn_loss, knn_grad_p2. rewrite min_if.
  apply deriv_sumf. intros i1 Hi1. apply deriv_sumf. intros k Hk.
  destruct (Z.eqb_spec (idx i1 k) (-1)) as [E|NE]; [apply deriv_const|].
  specialize (Hidx i1 k Hi1 Hk).
  apply (deriv_val _ _ (g i1 k * sumf D (fun d' => if ((Z.to_nat (idx i1 k) =? j) && (d' =? d))%nat%bool then coord_grad norm (p2 j d) (p1 i1 d) else 0))).
  - destruct (Nat.eqb_spec (Z.to_nat (idx i1 k)) j) as [Ej|]; cbn [andb].
    + rewrite sumf_single by assumption. rewrite knn_diff_grad, Ej.
      rewrite coord_grad_anti. { ring. } intros E1. apply (Hne E1 i1 k); lia.
    + rewrite sumf_zero by reflexivity. ring.
  - apply deriv_scal, deriv_sumf. intros d' Hd'. unfold with_entry.
    destruct (Nat.eqb_spec (Z.to_nat (idx i1 k)) j) as [Ej|]; cbn [andb]; [|apply deriv_const].
    destruct (Nat.eqb_spec d' d) as [->|]; cbn [andb]; [|apply deriv_const].
    apply (deriv_ext _ (fun t => coord_dist norm t (p1 i1 d))); [intros; apply coord_dist_sym|].
    apply coord_deriv. intros E X. apply (Hne E i1 k); auto; lia.
Qed.

Lemma knn_grad_pad norm K n1 n2 idx p1 p2 g i d : (n1 <= i)%nat -> knn_grad_p1 norm K n1 n2 idx p1 p2 g i d = 0.
Proof.
  intros H. apply sumf_zero. intros i1 Hi1. apply sumf_zero. intros k _.
  destruct (_ =? -1)%Z; [reflexivity|]. destruct (Nat.eqb_spec i1 i); [lia|reflexivity].
Qed.

(* the assumption on torch.sort is satisfiable: sort (value, position) pairs *)
Definition epair_ltb (a b : ext * nat) : bool :=
  ext_ltb (fst a) (fst b) || (negb (ext_ltb (fst b) (fst a)) && (snd a <? snd b)%nat).
Lemma epair_strict : strict_total epair_ltb.
Proof.
  pose proof ext_strict as [I T C].
  unfold epair_ltb. constructor.
  - intros [a i]; cbn [fst snd]. rewrite Nat.ltb_irrefl, andb_false_r, I. reflexivity.
  - intros [a i] [b j] [c k]; cbn [fst snd].
    destruct (ext_ltb a b) eqn:E1, (ext_ltb b c) eqn:E2; cbn [orb].
    + intros _ _. rewrite (T a b c) by assumption. reflexivity.
    + intros _. destruct (ext_ltb c b) eqn:E3; cbn; [discriminate|]. rewrite (C b c) in E1 by assumption. rewrite E1. reflexivity.
    + destruct (ext_ltb b a) eqn:E3; cbn; [discriminate|]. rewrite (C a b) by assumption. rewrite E2. reflexivity.
    + destruct (ext_ltb b a) eqn:E3; cbn [negb andb]; [discriminate|].
      destruct (ext_ltb c b) eqn:E4; cbn [negb andb]; [discriminate|].
      rewrite (C a b), (C b c), I by assumption. cbn [negb andb orb]. rewrite !Nat.ltb_lt. lia.
  - intros [a i] [b j]; cbn [fst snd]. destruct (ext_ltb a b) eqn:E1, (ext_ltb b a) eqn:E2; cbn [orb andb negb]; try discriminate.
    rewrite !Nat.ltb_ge. intros. f_equal; [auto|lia].
Qed.
Definition argsort (l : list ext) : list nat := map snd (isort epair_ltb (combine l (seq 0 (length l)))).
Lemma combine_seq_nth l : forall b e, In e (combine l (seq b (length l))) -> nth (snd e - b) l Inf = fst e /\ (b <= snd e)%nat.
Proof.
  induction l as [|a l IH]; intros b e H; [destruct H|]. cbn [length seq combine] in H. destruct H as [<-|H].
  - cbn. rewrite Nat.sub_diag. auto.
  - apply IH in H. destruct H as [H1 H2]. split; [|lia]. replace (snd e - b)%nat with (S (snd e - S b)) by lia. exact H1.
Qed.
Lemma argsort_sorts : sorts argsort.
Proof.
  intros l. unfold argsort. set (z := combine l (seq 0 (length l))).
  assert (P := isort_perm epair_ltb z). split.
  - rewrite P. unfold z. clear. generalize 0%nat. induction l as [|a l IH]; intros b; cbn; [reflexivity|]. rewrite IH. reflexivity.
  - intros i j Hij.
    assert (L : length (isort epair_ltb z) = length l).
    { rewrite (Permutation_length P). unfold z. rewrite combine_length, seq_length. lia. }
    assert (G : gather Inf l (map snd (isort epair_ltb z)) = map fst (isort epair_ltb z)).
    { unfold gather. rewrite map_map. apply map_ext_in. intros e He. apply (Permutation_in _ P) in He.
      apply combine_seq_nth in He. rewrite Nat.sub_0_r in He. tauto. }
    rewrite G. rewrite !(nth_map_lt fst _ _ (Inf, 0%nat)) by lia.
    assert (X := sorted_nth _ _ (isort_sorted _ epair_strict z) i j _ _ (proj1 Hij)
       (nth_error_nth' (isort epair_ltb z) (Inf,0%nat) (n:=i) ltac:(lia))
       (nth_error_nth' (isort epair_ltb z) (Inf,0%nat) (n:=j) ltac:(lia))).
    apply ext_le_le. unfold le in *. unfold epair_ltb at 1 in X.
    apply Bool.orb_false_iff in X. apply X.
Qed.

(* the reported distances are determined by the cloud *)
Lemma pigeon_outside m (s js : list nat) : NoDup js -> (length js = m)%nat -> NoDup s -> (length s < m)%nat ->
  exists j, In j js /\ ~ In j s.
Proof.
  intros N L Ns Ls. destruct (Forall_Exists_dec (fun j => In j s) (fun j => in_dec Nat.eq_dec j s) js) as [F|E].
  - exfalso. rewrite Forall_forall in F. assert (X := NoDup_incl_length N F). lia.
  - apply Exists_exists in E. exact E.
Qed.
Lemma NoDup_firstn_le {A} (l : list A) k m : (k <= m)%nat -> NoDup (firstn m l) -> NoDup (firstn k l).
Proof.
  intros H N. replace (firstn k l) with (firstn k (firstn m l)) by (rewrite firstn_firstn; f_equal; lia).
  rewrite <- (firstn_skipn k (firstn m l)) in N. revert N. generalize (skipn k (firstn m l)).
  induction (firstn k (firstn m l)) as [|a q IH]; intros r N; [constructor|].
  cbn in N. inversion N; subst. constructor; [|eauto]. intros X; apply H2, in_or_app; auto.
Qed.
Lemma is_knn_le dist n K ds js ds' js' : is_knn dist n K ds js -> is_knn dist n K ds' js' ->
  forall k, (k < Nat.min K n)%nat -> nth k ds 0 <= nth k ds' 0.
Proof.
  intros [Ld Lj HN HV HA HB HP] [Ld' Lj' HN' HV' HA' HB' HP'] k Hk.
  (* among the first k+1 of js' one is not among the first k of js *)
  destruct (pigeon_outside (S k) (firstn k js) (firstn (S k) js')) as [j [Hj Hnj]].
  { apply (NoDup_firstn_le _ _ (Nat.min K n)); [lia|assumption]. }
  { rewrite firstn_length; lia. }
  { apply (NoDup_firstn_le _ _ (Nat.min K n)); [lia|assumption]. }
  { rewrite firstn_length; lia. }
  apply (In_nth _ _ 0%nat) in Hj. destruct Hj as [i [Hi Ei]]. rewrite firstn_length in Hi.
  rewrite nth_firstn_lt in Ei by lia.
  destruct (HV' i ltac:(lia)) as [V1 V2]. rewrite Ei in V1, V2.
  assert (B : nth i ds' 0 <= nth k ds' 0).
  { destruct (Nat.eq_dec i k) as [->|]; [lra|]. apply HA'; lia. }
  cut (nth k ds 0 <= dist j); [lra|].
  destruct (in_dec Nat.eq_dec j (firstn (Nat.min K n) js)) as [I|NI]; [|apply HB; assumption].
  apply (In_nth _ _ 0%nat) in I. destruct I as [p [Hp Ep]]. rewrite firstn_length in Hp.
  rewrite nth_firstn_lt in Ep by lia. destruct (HV p ltac:(lia)) as [W1 W2]. rewrite Ep in W2. rewrite <- W2.
  destruct (Nat.eq_dec p k) as [->|]; [lra|]. apply HA; [|lia].
  destruct (Nat.lt_ge_cases k p); [assumption|]. exfalso. apply Hnj. rewrite <- Ep.
  rewrite <- (nth_firstn_lt 0%nat js k p) by lia. apply nth_In. rewrite firstn_length. lia.
Qed.
Lemma is_knn_dists_unique dist n K ds js ds' js' : is_knn dist n K ds js -> is_knn dist n K ds' js' -> ds = ds'.
Proof.
  intros H H'. apply (nth_ext _ _ 0 0).
  - rewrite (knn_len_d _ _ _ _ _ H), (knn_len_d _ _ _ _ _ H'). reflexivity.
  - intros k Hk. rewrite (knn_len_d _ _ _ _ _ H) in Hk.
    destruct (Nat.lt_ge_cases k (Nat.min K n)).
    + apply Rle_antisym; eapply is_knn_le; eauto.
    + rewrite (proj1 (knn_padding _ _ _ _ _ H k ltac:(lia))), (proj1 (knn_padding _ _ _ _ _ H' k ltac:(lia))). reflexivity.
Qed.
