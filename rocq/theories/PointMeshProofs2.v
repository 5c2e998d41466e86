From Coq Require Import Permutation.
From Verif Require Import PackingSpec PointcloudsSpec.
From Verif Require Import Base RBase Geom GeomSpec FaceAreas FaceAreasSpec MeshesSpec LaplaceSpec Sampling SamplingProofs Reduce ReduceProofs PointMesh PointMeshSpec PointMeshProofs.
Local Open Scope R_scope.

Lemma threads_pos : (0 < threads)%nat.
Proof. unfold threads. lia. Qed.
Lemma threads_is : (2 ^ 1 * 64)%nat = threads.
Proof. reflexivity. Qed.
Opaque threads.

Section D.
Context {A B : Type} (d : A -> B -> R).

Section Block.
Context (a : A) (pre bs post : list B) (Hb : forall b, In b bs -> d a b < flt_max).
Notation Bs := (pre ++ bs ++ post).
Lemma get_mid j b : nth_error bs j = Some b -> rget Bs (length pre + j) = Ok b.
Proof. intros H. apply rget_some. rewrite nth_error_app2 by lia. replace (length pre + j - length pre)%nat with j by lia. rewrite nth_error_app1; [exact H|]. apply nth_error_Some. congruence. Qed.

(* what a thread has found after its first K targets *)
Lemma thread_prefix tid K : (forall k, (k < K)%nat -> (tid + k * threads < length bs)%nat) ->
  exists r, rfold (fun st j => b <- rget Bs (length pre + j) ;; let dist := d a b in let min_dist := if (j =? tid)%nat then dist else fst st in
                               Ok (if Rleb dist min_dist then (dist, Z.of_nat (length pre + j)) else (min_dist, snd st)))
                  (map (fun k => tid + k * threads)%nat (seq 0 K)) (flt_max, 0%Z) = Ok r /\
    (K = 0%nat -> r = (flt_max, 0%Z)) /\
    ((0 < K)%nat -> exists k b, (k < K)%nat /\ nth_error bs (tid + k * threads) = Some b /\ r = (d a b, Z.of_nat (length pre + (tid + k * threads))) /\
       forall k' b', (k' < K)%nat -> nth_error bs (tid + k' * threads) = Some b' -> d a b <= d a b').
Proof.
  pose proof threads_pos as HT. induction K as [|K IH]; intros H.
  - exists (flt_max, 0%Z). split; [reflexivity|]. split; [reflexivity|lia].
  - destruct IH as (r & E & H0 & H1); [intros k Hk; apply H; lia|]. rewrite seq_S, map_app. change (map (fun k => (tid + k * threads)%nat) [(0 + K)%nat]) with [(tid + K * threads)%nat]. rewrite rfold_snoc, E. cbn [rbind].
    destruct (nth_error bs (tid + K * threads)) as [b|] eqn:Eb; [|apply nth_error_None in Eb; specialize (H K ltac:(lia)); lia].
    rewrite (get_mid _ _ Eb). cbn [rbind]. destruct K as [|K].
    + rewrite Nat.mul_0_l, Nat.add_0_r, Nat.eqb_refl in *. cbn [Nat.mul Nat.add] in *. destruct (Rleb_spec (d a b) (d a b)); [|lra]. eexists. split; [reflexivity|]. split; [discriminate|]. intros _. exists 0%nat, b. cbn [Nat.mul]. rewrite Nat.add_0_r. split; [lia|]. split; [exact Eb|]. split; [reflexivity|]. intros k' b' Hk' Hb'. assert (k' = 0)%nat as -> by lia. cbn [Nat.mul] in Hb'. rewrite Nat.add_0_r in Hb'. assert (b' = b) as -> by congruence. lra.
    + replace (tid + S K * threads =? tid)%nat with false by (symmetry; apply Nat.eqb_neq; lia). destruct H1 as (k & c & Hk & Hc & -> & Hm); [lia|]. cbn [fst snd]. destruct (Rleb_spec (d a b) (d a c)) as [L|L].
      * eexists. split; [reflexivity|]. split; [discriminate|]. intros _. exists (S K), b. split; [lia|]. split; [exact Eb|]. split; [reflexivity|]. intros k' b' Hk' Hb'. destruct (Nat.eq_dec k' (S K)) as [->|N]; [assert (b' = b) as -> by congruence; lra|]. specialize (Hm k' b' ltac:(lia) Hb'). lra.
      * eexists. split; [reflexivity|]. split; [discriminate|]. intros _. exists k, c. split; [lia|]. split; [exact Hc|]. split; [reflexivity|]. intros k' b' Hk' Hb'. destruct (Nat.eq_dec k' (S K)) as [->|N]; [assert (b' = b) as -> by congruence; lra|]. apply (Hm k' b'); [lia|exact Hb'].
Qed.
Lemma thread_ok tid : (tid < threads)%nat -> exists r, thread_scan d Bs a (length pre) (length bs) tid = Ok r /\
  ((forall j b, nth_error bs j = Some b -> (j mod threads)%nat <> tid) -> r = (flt_max, 0%Z)) /\
  ((exists j b, nth_error bs j = Some b /\ (j mod threads)%nat = tid) -> exists j b, nth_error bs j = Some b /\ r = (d a b, Z.of_nat (length pre + j)) /\
     forall j' b', (j' mod threads)%nat = tid -> nth_error bs j' = Some b' -> d a b <= d a b').
Proof.
  intros Ht. pose proof threads_pos as HT. set (K := ((length bs - tid + threads - 1) / threads)%nat). destruct (thread_prefix tid K) as (r & E & H0 & H1).
  { intros k Hk. assert (X : In (tid + k * threads)%nat (grid_stride tid threads (length bs))) by (unfold grid_stride; apply in_map_iff; exists k; split; [reflexivity|apply in_seq; fold K; lia]). apply grid_stride_in in X; [|lia|exact Ht]. lia. }
  assert (M : forall j b, nth_error bs j = Some b -> (j mod threads)%nat = tid -> exists k, (k < K)%nat /\ j = (tid + k * threads)%nat).
  { intros j b Hj Hm. assert (X : In j (grid_stride tid threads (length bs))) by (apply grid_stride_in; [lia|exact Ht|split; [apply nth_error_Some; congruence|exact Hm]]). unfold grid_stride in X. apply in_map_iff in X as (k & <- & Hk). apply in_seq in Hk. fold K in Hk. exists k. split; [lia|reflexivity]. }
  exists r. split; [exact E|]. split.
  - intros N. destruct (Nat.eq_dec K 0) as [Z|NZ]; [apply H0; exact Z|]. exfalso. destruct H1 as (k & b & Hk & Hb' & _); [lia|]. apply (N _ _ Hb'). rewrite Nat.mod_add by lia. apply Nat.mod_small. exact Ht.
  - intros (j0 & b0 & Hj0 & Hm0). destruct (M j0 b0 Hj0 Hm0) as (k0 & Hk0 & _). destruct H1 as (k & b & Hk & Hb' & Er & Hmin); [lia|]. exists (tid + k * threads)%nat, b. split; [exact Hb'|]. split; [exact Er|]. intros j' b' Hm' Hj'. destruct (M j' b' Hj' Hm') as (k' & Hk' & ->). apply (Hmin k'); assumption.
Qed.
Lemma block_nearest r : block_result d Bs a (length pre) (length bs) r -> nearest_of d a bs (length pre) r.
Proof.
  intros H. unfold block_result in H. pose proof threads_pos as HT.
  assert (HA : exists l, rmap (thread_scan d Bs a (length pre) (length bs)) (seq 0 threads) = Ok l /\ Forall2 (fun t r => thread_scan d Bs a (length pre) (length bs) t = Ok r) (seq 0 threads) l).
  { assert (G : Forall (fun t => (t < threads)%nat) (seq 0 threads)) by (apply Forall_forall; intros t Ht; apply in_seq in Ht; lia). revert G. generalize (seq 0 threads). induction l as [|t l IH]; intros G; [exists []; split; [reflexivity|constructor]|]. apply Forall_cons_iff in G as (Ht & G). destruct (thread_ok t Ht) as (x & Ex & _). destruct (IH G) as (l' & E & F). exists (x :: l'). cbn [rmap]. rewrite Ex, E. split; [reflexivity|constructor; assumption]. }
  destruct HA as (l & El & Fl). rewrite El in H. destruct H as (m' & HR & ->). apply block_min in HR as (Hle & q & Hq & Hv & Hi). rewrite threads_is in *.
  assert (Q : forall q, (q < threads)%nat -> exists r, mval (shared l) q = fst r /\ midx (shared l) q = snd r /\ thread_scan d Bs a (length pre) (length bs) q = Ok r).
  { intros q' Hq'. assert (L : (q' < length l)%nat) by (rewrite <- (Base.Forall2_length _ _ _ Fl), seq_length; exact Hq'). exists (nth q' l (0, 0%Z)). split; [reflexivity|]. split; [reflexivity|]. apply (f2_at _ _ _ Fl q').
    - rewrite (nth_error_nth' _ 0%nat) by (rewrite seq_length; exact Hq'). rewrite seq_nth by exact Hq'. reflexivity.
    - apply nth_error_nth'. exact L. }
  destruct (Q q Hq) as (r & R1 & R2 & Er). rewrite Hv, Hi, R1, R2. destruct (thread_ok q Hq) as (r' & Er' & C0 & C1). assert (r' = r) as -> by congruence.
  destruct bs as [|b0 bs'] eqn:Ebs.
  - cbn [nearest_of]. rewrite C0; [reflexivity|]. intros [|j] b; discriminate.
  - rewrite <- Ebs in *. assert (Nn : nearest_of d a bs (length pre) (fst r, snd r) <-> exists j b, nth_error bs j = Some b /\ (fst r, snd r) = (d a b, Z.of_nat (length pre + j)) /\ forall b', In b' bs -> d a b <= d a b') by (unfold nearest_of; rewrite Ebs; reflexivity). apply Nn. clear Nn.
    assert (Hex : (exists j b, nth_error bs j = Some b /\ (j mod threads)%nat = q) \/ (forall j b, nth_error bs j = Some b -> (j mod threads)%nat <> q)).
    { clear. induction bs as [|b bs'' IH] using rev_ind.
      - right. intros [|j] b; discriminate.
      - destruct IH as [(j & b' & H1 & H2)|N]; [left; exists j, b'; split; [apply nth_error_snoc; exact H1|exact H2]|]. destruct (Nat.eq_dec (length bs'' mod threads) q) as [E|NE].
        + left. exists (length bs''), b. split; [rewrite nth_error_app2, Nat.sub_diag by lia; reflexivity|exact E].
        + right. intros j b' H. destruct (Nat.lt_ge_cases j (length bs'')) as [L|L].
          * rewrite nth_error_app1 in H by exact L. apply (N j b' H).
          * assert (j = length bs'') as ->; [|exact NE]. assert (j < length (bs'' ++ [b]))%nat by (apply nth_error_Some; congruence). rewrite app_length in *. cbn in *. lia. }
    destruct Hex as [Hex|Hno].
    + destruct (C1 Hex) as (j & b & Hj & -> & _). exists j, b. split; [exact Hj|]. split; [reflexivity|]. intros b' Hin. apply In_nth_error in Hin as (j' & Hj'). cbn [fst] in *. assert (Hq' : (j' mod threads < threads)%nat) by (apply Nat.mod_upper_bound; lia). specialize (Hle _ Hq'). destruct (Q _ Hq') as (r2 & R3 & _ & E2). destruct (thread_ok _ Hq') as (r2' & E2' & _ & C2). assert (r2' = r2) as -> by congruence. destruct C2 as (j2 & b2 & _ & -> & Hm2); [exists j', b'; auto|]. specialize (Hm2 j' b' eq_refl Hj'). rewrite R3 in Hle. cbn [fst] in Hle. rewrite Hv, R1 in Hle. lra.
    + exfalso. rewrite C0 in R1 by exact Hno. cbn [fst] in R1. assert (H0 : (0 < threads)%nat) by lia. specialize (Hle 0%nat H0). destruct (Q 0%nat H0) as (r2 & R3 & _ & E2). destruct (thread_ok 0%nat H0) as (r2' & E2' & _ & C2). assert (r2' = r2) as -> by congruence. destruct C2 as (j2 & b2 & Hj2 & -> & _).
      * exists 0%nat, b0. split; [rewrite Ebs; reflexivity|]. apply Nat.mod_0_l. lia.
      * rewrite R3, Hv, R1 in Hle. cbn [fst] in Hle. pose proof (Hb b2 (nth_error_In _ _ Hj2)). lra.
Qed.
End Block.
End D.
