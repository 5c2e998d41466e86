From Verif Require Import Base RBase KnnSpec Sampling SamplingSpec.
Local Open Scope R_scope.

Lemma sqdist_acc c : forall a, fold_left (fun acc (c : R * R) => acc + (fst c - snd c) * (fst c - snd c)) c a
  = a + rsum (map (fun c => (fst c - snd c) * (fst c - snd c)) c).
Proof. induction c as [|x c IH]; intros a; cbn [fold_left map]; [rewrite rsum_nil; ring|]. rewrite IH, rsum_cons. ring. Qed.
Lemma sqdist_spec p : forall q, sqdist p q = dist_L2sq p q.
Proof.
  induction p as [|x p IH]; intros q; [reflexivity|]. destruct q as [|y q]; [reflexivity|].
  specialize (IH q). unfold sqdist in *. cbv zeta in *. cbn [combine fold_left dist_L2sq fst snd]. rewrite sqdist_acc in *. rewrite <- IH. ring.
Qed.
Lemma d2_nonneg p : forall q, 0 <= dist_L2sq p q.
Proof. induction p as [|x p IH]; intros [|y q]; cbn [dist_L2sq]; try lra. specialize (IH q). assert (0 <= (x - y) ^ 2) by apply pow2_ge_0. lra. Qed.
Lemma d2_self p : dist_L2sq p p = 0.
Proof. induction p as [|x p IH]; cbn; [reflexivity|]. rewrite IH. ring. Qed.
Lemma d2_sym p : forall q, dist_L2sq p q = dist_L2sq q p.
Proof. induction p as [|x p IH]; intros [|y q]; cbn; try reflexivity. rewrite IH. ring. Qed.
Lemma d2_zero p : forall q, length p = length q -> dist_L2sq p q = 0 -> p = q.
Proof.
  induction p as [|x p IH]; intros [|y q] L H; cbn in L; try lia; [reflexivity|]. cbn [dist_L2sq] in H. assert (N := d2_nonneg p q).
  assert (S := pow2_ge_0 (x - y)). assert (x - y = 0) by nra. f_equal; [lra|]. apply IH; [lia|]. lra.
Qed.
(* a point outside of the cube is outside of the ball *)
Lemma cube_ball r p : 0 <= r -> forall q, in_cube r (combine p q) = false -> r * r <= dist_L2sq p q.
Proof.
  intros Hr. induction p as [|x p IH]; intros [|y q] H; cbn in H; try discriminate.
  cbn [dist_L2sq]. assert (N := d2_nonneg p q). destruct (Rleb_spec (Rabs (x - y)) r) as [L|L].
  - specialize (IH q H). assert (0 <= (x - y) ^ 2) by apply pow2_ge_0. lra.
  - assert (r * r <= (x - y) ^ 2); [|lra]. rewrite <- (pow2_abs (x - y)). assert (0 <= Rabs (x - y)) by apply Rabs_pos. nra.
Qed.

(* ---- ball query *)
Lemma upd_repeat {A} (l : list A) d v n : upd (l ++ repeat d (S n)) (length l) v = Ok ((l ++ [v]) ++ repeat d n).
Proof. induction l as [|a l IH]; cbn [app length upd]; [reflexivity|]. rewrite IH. reflexivity. Qed.
Lemma bq_loop_eq skip r K p p2 : 0 <= r -> forall js l, (forall j, In j js -> (j < length p2)%nat) -> (length l <= K)%nat ->
  let hits := firstn (K - length l) (filter (fun j => Rltb (dist_L2sq p (pt p2 j)) (r * r)) js) in
  bq_loop skip r K p p2 js (length l) (map (fun h => Z.of_nat h) l ++ repeat (-1)%Z (K - length l))
    (map (fun h => dist_L2sq p (pt p2 h)) l ++ repeat 0 (K - length l)) =
  Ok (map Z.of_nat (l ++ hits) ++ repeat (-1)%Z (K - length (l ++ hits)),
      map (fun h => dist_L2sq p (pt p2 h)) (l ++ hits) ++ repeat 0 (K - length (l ++ hits))).
Proof.
  intros Hr. induction js as [|j js IH]; intros l Hj Hl; cbn [bq_loop filter].
  - rewrite firstn_nil, app_nil_r. reflexivity.
  - destruct (Nat.ltb_spec (length l) K) as [C|C].
    + rewrite (rget_nth p2 j []) by (apply Hj; left; reflexivity). cbn [rbind]. change (nth j p2 []) with (pt p2 j).
      rewrite sqdist_spec. destruct (Rltb_spec (dist_L2sq p (pt p2 j)) (r * r)) as [D|D].
      * destruct (in_cube r (combine p (pt p2 j))) eqn:Ec; [|apply cube_ball in Ec; [lra|exact Hr]].
        rewrite Bool.andb_false_r. replace (K - length l)%nat with (S (K - S (length l))) by lia.
        assert (U1 : upd (map (fun h => dist_L2sq p (pt p2 h)) l ++ repeat 0 (S (K - S (length l)))) (length l) (dist_L2sq p (pt p2 j))
           = Ok (map (fun h => dist_L2sq p (pt p2 h)) (l ++ [j]) ++ repeat 0 (K - S (length l)))).
        { rewrite map_app. rewrite <- (map_length (fun h => dist_L2sq p (pt p2 h)) l) at 2. apply upd_repeat. }
        assert (U2 : upd (map (fun h => Z.of_nat h) l ++ repeat (-1)%Z (S (K - S (length l)))) (length l) (Z.of_nat j)
           = Ok (map (fun h => Z.of_nat h) (l ++ [j]) ++ repeat (-1)%Z (K - S (length l)))).
        { rewrite map_app. rewrite <- (map_length (fun h => Z.of_nat h) l) at 2. apply upd_repeat. }
        rewrite U1. cbn [rbind]. rewrite U2. cbn [rbind firstn].
        assert (L : length (l ++ [j]) = S (length l)) by (rewrite app_length; cbn; lia).
        specialize (IH (l ++ [j])). rewrite L in IH. cbv zeta in IH. rewrite IH; [|intros; apply Hj; right; assumption|lia].
        rewrite <- !app_assoc. cbn [app]. reflexivity.
      * destruct (skip && negb (in_cube r (combine p (pt p2 j))))%bool; apply IH; try assumption; intros; apply Hj; right; assumption.
    + replace (K - length l)%nat with 0%nat by lia. cbn [firstn]. cbv zeta. rewrite !app_nil_r. replace (K - length l)%nat with 0%nat by lia. cbn [repeat]. rewrite !app_nil_r. reflexivity.
Qed.
Lemma bq_row_eq skip r K length2 p p2 : 0 <= r -> (length2 <= length p2)%nat ->
  let hits := firstn K (ball_hits (fun j => dist_L2sq p (pt p2 j)) (r * r) length2) in
  bq_row skip r K length2 p p2 = Ok (padded_row K hits, map (fun h => dist_L2sq p (pt p2 h)) hits ++ repeat 0 (K - length hits)).
Proof.
  intros Hr H2 hits. unfold bq_row. assert (B := bq_loop_eq skip r K p p2 Hr (seq 0 length2) []).
  cbn [length map app] in B. rewrite Nat.sub_0_r in B. apply B; [|lia]. intros j Hj. apply in_seq in Hj. lia.
Qed.
Lemma bq_cloud_eq skip r K l1 l2 p1 p2 : 0 <= r -> (l2 <= length p2)%nat ->
  bq_cloud skip r K l1 l2 p1 p2 = Ok (map (fun i =>
    let hits := if (i <? l1)%nat then firstn K (ball_hits (fun j => dist_L2sq (pt p1 i) (pt p2 j)) (r * r) l2) else [] in
    (padded_row K hits, map (fun h => dist_L2sq (pt p1 i) (pt p2 h)) hits ++ repeat 0 (K - length hits))) (seq 0 (length p1))).
Proof.
  intros Hr H2. unfold bq_cloud. apply rmap_ok. intros i Hi. apply in_seq in Hi. destruct (i <? l1)%nat.
  - rewrite (rget_nth p1 i []) by lia. cbn [rbind]. apply bq_row_eq; assumption.
  - unfold padded_row. cbn. rewrite Nat.sub_0_r. reflexivity.
Qed.
Lemma masked_gather_padded {A} (zero : A) pts K sel : (forall i, In i sel -> (i < length pts)%nat) -> pts <> [] ->
  masked_gather zero pts (padded_row K sel) = Ok (map (fun i => nth i pts zero) sel ++ repeat zero (K - length sel)).
Proof.
  intros Hs Hn. unfold masked_gather, padded_row.
  assert (E : forall l m, rmap (fun i : Z => let j := if (i =? -1)%Z then 0%Z else i in
                 if (j <? 0)%Z then Fail ERuntime
                 else match nth_error pts (Z.to_nat j) with
                      | Some v => Ok (if (i =? -1)%Z then zero else v)
                      | None => Fail ERuntime
                      end) (map Z.of_nat l ++ repeat (-1)%Z m) = Ok (map (fun i => nth i pts zero) l ++ repeat zero m) \/ exists i, In i l /\ (length pts <= i)%nat).
  { induction l as [|i l IH]; intros m.
    - left. destruct pts as [|p0 pts]; [contradiction|]. cbn [map app]. induction m as [|m IH]; cbn [repeat rmap]; [reflexivity|].
      cbn [Z.eqb Z.ltb Z.compare]. change (Pos.eqb 1 1) with true. cbn [nth_error Z.to_nat Z.compare]. change (0 <? 0)%Z with false. cbn [rbind]. rewrite IH. reflexivity.
    - destruct (Nat.lt_ge_cases i (length pts)) as [L|L]; [|right; exists i; split; [left; reflexivity|exact L]].
      destruct (IH m) as [E|[i' [I1 I2]]]; [|right; exists i'; split; [right; exact I1|exact I2]]. left. cbn [map app rmap]. cbv zeta in E |- *.
      destruct (Z.eqb_spec (Z.of_nat i) (-1)); [lia|]. destruct (Z.ltb_spec (Z.of_nat i) 0); [lia|]. rewrite Nat2Z.id.
      rewrite (nth_error_nth' pts zero L). cbn [rbind]. rewrite E. reflexivity. }
  destruct (E sel (K - length sel)%nat) as [F|[i [Hi Hb]]]; [exact F|]. specialize (Hs i Hi). lia.
Qed.

(* ---- grid-stride loops *)
Lemma grid_stride_in b g todo x : (0 < g)%nat -> (b < g)%nat -> (In x (grid_stride b g todo) <-> (x < todo)%nat /\ (x mod g = b)%nat).
Proof.
  intros Hg Hb. unfold grid_stride. rewrite in_map_iff. split.
  - intros [k [<- Hk]]. apply in_seq in Hk as [_ Hk]. rewrite Nat.add_0_l in Hk. split.
    + assert (K := Nat.div_mod (todo - b + g - 1) g ltac:(lia)). assert (M := Nat.mod_upper_bound (todo - b + g - 1) g ltac:(lia)).
      set (q := ((todo - b + g - 1) / g)%nat) in *. assert (g * S k <= g * q)%nat by (apply Nat.mul_le_mono_l; lia).
      replace (g * S k)%nat with (k * g + g)%nat in H by ring. lia.
    + rewrite Nat.mod_add by lia. apply Nat.mod_small, Hb.
  - intros [Hx <-]. exists (x / g)%nat. split; [assert (D := Nat.div_mod x g ltac:(lia)); lia|]. apply in_seq. split; [apply Nat.le_0_l|]. rewrite Nat.add_0_l.
    assert (D := Nat.div_mod x g ltac:(lia)). set (m := (x mod g)%nat) in *. set (q := (x / g)%nat) in *.
    enough (S q <= (todo - m + g - 1) / g)%nat by lia. apply Nat.div_le_lower_bound; [lia|]. nia.
Qed.
Lemma grid_stride_nodup b g todo : (0 < g)%nat -> NoDup (grid_stride b g todo).
Proof.
  intros Hg. unfold grid_stride. apply FinFun.Injective_map_NoDup; [|apply seq_NoDup]. intros x y H. nia.
Qed.
Lemma NoDup_flat_map {A B} (f : A -> list B) l : NoDup l -> (forall a, In a l -> NoDup (f a)) ->
  (forall a a' x, In a l -> In a' l -> In x (f a) -> In x (f a') -> a = a') -> NoDup (flat_map f l).
Proof.
  induction l as [|a l IH]; intros N H1 H2; cbn; [constructor|]. inversion N as [|? ? Ha Hl]; subst.
  assert (NoDup (flat_map f l)).
  { apply IH; [exact Hl|intros; apply H1; right; assumption|]. intros; eapply H2; eauto; right; assumption. }
  assert (NA := H1 a (or_introl eq_refl)).
  assert (D : forall x, In x (f a) -> ~ In x (flat_map f l)).
  { intros x Hx Hy. apply in_flat_map in Hy as [a' [Ha' Hx']]. assert (a = a') by (eapply H2; eauto; [left; reflexivity|right; assumption]). subst. contradiction. }
  clear -H NA D. induction (f a) as [|x r IHr]; cbn; [assumption|]. inversion NA; subst. constructor.
  - rewrite in_app_iff. intros [X|X]; [contradiction|]. apply (D x); [left; reflexivity|exact X].
  - apply IHr; [assumption|]. intros y Hy. apply D. right; exact Hy.
Qed.
Lemma NoDup_filter {A} (f : A -> bool) l : NoDup l -> NoDup (filter f l).
Proof. induction 1; cbn; [constructor|]. destruct (f x); [constructor; [rewrite filter_In; tauto|assumption]|assumption]. Qed.
Lemma chunks_cover P B i : (0 < B)%nat -> (i < P)%nat -> (i / B < chunks_per_cloud P B)%nat.
Proof. intros HB Hi. unfold chunks_per_cloud. assert (i / B <= (P - 1) / B)%nat by (apply Nat.div_le_mono; lia). lia. Qed.
Lemma kernel_items_perm N P g B len : (0 < g)%nat -> (0 < B)%nat -> (forall n, (n < N)%nat -> (len n <= P)%nat) ->
  NoDup (kernel_items N P g B len) /\
  forall n i, In (n, i) (kernel_items N P g B len) <-> (n < N)%nat /\ (i < len n)%nat.
Proof.
  intros Hg HB Hlen. set (cpc := chunks_per_cloud P B). assert (C0 : (0 < cpc)%nat) by (apply Nat.lt_0_succ).
  assert (IT : forall b t n i, (b < g)%nat -> (t < B)%nat -> (In (n, i) (thread_items N P g B b t) <->
       exists c, (c < N * cpc)%nat /\ (c mod g = b)%nat /\ n = (c / cpc)%nat /\ i = (B * (c mod cpc) + t)%nat)).
  { intros b t n i Hb Ht. unfold thread_items. fold cpc. cbv zeta. rewrite in_map_iff. split.
    - intros [c [E Hc]]. apply grid_stride_in in Hc; try lia. injection E as <- <-. exists c. tauto.
    - intros [c [H1 [H2 [-> ->]]]]. exists c. split; [reflexivity|]. apply grid_stride_in; lia. }
  split.
  - unfold kernel_items. apply NoDup_filter. apply NoDup_flat_map; [apply seq_NoDup| |].
    + intros b Hb. apply in_seq in Hb. apply NoDup_flat_map; [apply seq_NoDup| |].
      * intros t Ht. unfold thread_items. fold cpc. cbv zeta. assert (N1 := grid_stride_nodup b g (N * cpc) Hg).
        revert N1. generalize (grid_stride b g (N * cpc)). induction l as [|c l IH]; intros N1; cbn [map]; constructor; inversion N1; subst; [|apply IH; assumption].
        intros X. apply in_map_iff in X as [c' [E Hc']]. apply pair_equal_spec in E as [E1 E2].
        apply in_seq in Ht. apply Nat.div_mod_unique in E2 as [E2 _]; try lia.
        assert (c = c'); [|subst; contradiction]. rewrite (Nat.div_mod c cpc), (Nat.div_mod c' cpc) by lia. congruence.
      * intros t t' [n i] Ht Ht' H1 H2. apply in_seq in Ht, Ht'. apply IT in H1 as [c [_ [_ [-> ->]]]]; try lia. apply IT in H2 as [c' [_ [_ [_ E]]]]; try lia. apply Nat.div_mod_unique in E; lia.
    + intros b b' [n i] Hb Hb' H1 H2. apply in_seq in Hb, Hb'.
      apply in_flat_map in H1 as [t [Ht H1]]. apply in_flat_map in H2 as [t' [Ht' H2]]. apply in_seq in Ht, Ht'.
      apply IT in H1 as [c [_ [Eb [-> ->]]]]; try lia. apply IT in H2 as [c' [_ [Eb' [E1 E2]]]]; try lia.
      apply Nat.div_mod_unique in E2 as [E2 _]; try lia.
      assert (c = c') by (rewrite (Nat.div_mod c cpc), (Nat.div_mod c' cpc) by lia; congruence). subst. reflexivity.
  - intros n i. unfold kernel_items. rewrite filter_In, in_flat_map. cbn [fst snd]. rewrite Nat.ltb_lt. split.
    + intros [[b [Hb H1]] L]. apply in_seq in Hb. apply in_flat_map in H1 as [t [Ht H1]]. apply in_seq in Ht.
      apply IT in H1 as [c [Hc [_ [-> ->]]]]; try lia. split; [|exact L]. apply Nat.div_lt_upper_bound; lia.
    + intros [Hn Hi]. split; [|exact Hi]. assert (HP := Hlen n Hn).
      set (c := (n * cpc + i / B)%nat). assert (Q : (i / B < cpc)%nat) by (apply chunks_cover; lia).
      assert (Hc : (c < N * cpc)%nat) by (unfold c; nia).
      exists (c mod g)%nat. split; [apply in_seq; split; [apply Nat.le_0_l|]; rewrite Nat.add_0_l; apply Nat.mod_upper_bound; lia|].
      apply in_flat_map. exists (i mod B)%nat. split; [apply in_seq; split; [apply Nat.le_0_l|]; rewrite Nat.add_0_l; apply Nat.mod_upper_bound; lia|].
      apply IT; [apply Nat.mod_upper_bound; lia|apply Nat.mod_upper_bound; lia|]. exists c. split; [exact Hc|]. split; [reflexivity|].
      assert (E1 : (c / cpc = n)%nat) by (unfold c; rewrite Nat.div_add_l by lia; rewrite Nat.div_small by lia; lia).
      assert (E2 : (c mod cpc = i / B)%nat) by (unfold c; rewrite Nat.add_comm, Nat.mod_add by lia; apply Nat.mod_small; lia).
      rewrite E1, E2. split; [reflexivity|]. apply Nat.div_mod. lia.
Qed.
