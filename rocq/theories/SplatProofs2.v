(* Splatting: mass, the CUDA schedule, the backward pass. *)
From Coq Require Import ZArith Reals Lra.
From Verif Require Import Base RBase Geom Threads ThreadsProofs TexturesProofs Splat SplatSpec SplatProofs.
From Verif Require MeshesProofs10.
Local Open Scope R_scope.

(* ---- mass ---- *)
Definition axis_sum (n : nat) (l : R) : R := rsum (map (fun x => tent (l - IZR x)) (map Z.of_nat (seq 0 n))).
Lemma axis_sum_S n l : axis_sum (S n) l = axis_sum n l + tent (l - INR n).
Proof. unfold axis_sum. rewrite seq_S, map_app, map_app, rsum_app. cbn. rewrite <- INR_IZR_INZ. lra. Qed.
Lemma axis_sum_pos n l : 0 <= l -> axis_sum n l = Rmax 0 (Rmin 1 (INR n - l)).
Proof.
  intros Hl. induction n as [|n IH].
  - cbn. unfold axis_sum. cbn. rewrite Rmax_left; [reflexivity|]. eapply Rle_trans; [apply Rmin_r|]. lra.
  - rewrite axis_sum_S, IH, S_INR. set (m := INR n). destruct (Rle_dec l (m - 1)); [|destruct (Rle_dec l m)].
    + rewrite (Rmin_left 1 (m - l)), (Rmin_left 1 (m + 1 - l)) by lra. rewrite Rmax_right by lra. rewrite tent_zero by lra. lra.
    + rewrite (Rmin_right 1 (m - l)), (Rmin_left 1 (m + 1 - l)) by lra. rewrite !Rmax_right by lra. rewrite tent_neg by lra. lra.
    + rewrite (Rmin_right 1 (m - l)) by lra. rewrite (Rmax_left 0 (m - l)) by lra. destruct (Rle_dec l (m + 1)).
      * rewrite (Rmin_right 1 (m + 1 - l)) by lra. rewrite Rmax_right by lra. rewrite tent_pos by lra. lra.
      * rewrite (Rmin_right 1 (m + 1 - l)) by lra. rewrite Rmax_left by lra. rewrite tent_zero by lra. lra.
Qed.
Lemma axis_sum_neg n l : l <= 0 -> axis_sum n l = if Nat.eqb n 0 then 0 else tent l.
Proof.
  intros Hl. induction n as [|n IH]; [reflexivity|]. rewrite axis_sum_S, IH. destruct n as [|n]; cbn [Nat.eqb].
  - cbn. rewrite Rminus_0_r. lra.
  - rewrite (tent_zero (l - INR (S n))); [lra|]. left. rewrite S_INR. pose proof (pos_INR n). lra.
Qed.
Lemma axis_sum_range n l : 0 <= axis_sum n l <= 1.
Proof.
  split.
  - unfold axis_sum. apply rsum_nonneg. apply Forall_forall. intros r Hr. apply in_map_iff in Hr. destruct Hr as (x & <- & _). apply tent_range.
  - destruct (Rle_dec 0 l).
    + rewrite axis_sum_pos by lra. apply Rmax_lub; [lra|]. apply Rmin_l.
    + rewrite axis_sum_neg by lra. destruct (Nat.eqb n 0); [lra|]. apply tent_range.
Qed.
Lemma axis_sum_one n l : 0 <= l <= INR n - 1 -> axis_sum n l = 1.
Proof. intros H. rewrite axis_sum_pos by lra. rewrite Rmin_left by lra. rewrite Rmax_right by lra. reflexivity. Qed.
Lemma rsum_prod {A B} (f : A -> R) (g : B -> R) a b : rsum (map (fun p => f (fst p) * g (snd p)) (list_prod a b)) = rsum (map f a) * rsum (map g b).
Proof.
  induction a as [|x a IH]; [cbn; lra|]. cbn [list_prod map]. rewrite map_app, rsum_app, IH, rsum_cons, map_map. cbn [fst snd]. rewrite rsum_map_scal. lra.
Qed.
Lemma total_weight gz gy gx lz ly lx :
  rsum (map (tri_weight (lz, ly, lx)) (all_cells (gz, gy, gx))) = axis_sum (Z.to_nat gz) lz * axis_sum (Z.to_nat gy) ly * axis_sum (Z.to_nat gx) lx.
Proof.
  unfold all_cells, axis_sum. rewrite <- (rsum_prod (fun z => tent (lz - IZR z)) (fun y => tent (ly - IZR y))).
  rewrite <- (rsum_prod (fun p => tent (lz - IZR (fst p)) * tent (ly - IZR (snd p))) (fun x => tent (lx - IZR x))). apply rsum_map_ext. intros ((z, y), x) _. reflexivity.
Qed.
Lemma all_cells_in grid c : In c (all_cells grid) <-> inside grid c.
Proof.
  destruct grid as ((gz, gy), gx), c as ((z, y), x). unfold all_cells, inside. rewrite !in_prod_iff.
  assert (R1 : forall n a, In a (map Z.of_nat (seq 0 (Z.to_nat n))) <-> (0 <= a < n)%Z).
  { intros n a. rewrite in_map_iff. split; [intros (k & <- & Hk); apply in_seq in Hk; lia|]. intros Ha. exists (Z.to_nat a). split; [lia|]. apply in_seq. lia. }
  rewrite !R1. tauto.
Qed.

(* ---- the CUDA schedule ---- *)
Lemma chunk_loop_in fuel : forall c0 step limit c, (0 < step)%Z -> (limit - c0 <= Z.of_nat fuel)%Z ->
  (In c (chunk_loop fuel c0 step limit) <-> (c < limit)%Z /\ exists k, (0 <= k)%Z /\ c = (c0 + k * step)%Z).
Proof.
  induction fuel as [|f IH]; intros c0 step limit c Hs Hf; cbn [chunk_loop].
  - split; [intros []|]. intros (H1 & k & Hk & ->). nia.
  - destruct (Z.ltb_spec c0 limit) as [L|L].
    + cbn [In]. rewrite IH by lia. split.
      * intros [<-|(H1 & k & Hk & ->)]; [split; [lia|]; exists 0%Z; lia|]. split; [lia|]. exists (k + 1)%Z. lia.
      * intros (H1 & k & Hk & ->). destruct (Z.eq_dec k 0) as [->|Nk]; [left; lia|]. right. split; [lia|]. exists (k - 1)%Z. lia.
    + split; [intros []|]. intros (H1 & k & Hk & ->). nia.
Qed.
Lemma chunk_loop_nodup fuel : forall c0 step limit, (0 < step)%Z -> NoDup (chunk_loop fuel c0 step limit) /\ List.Forall (fun c => (c0 <= c)%Z) (chunk_loop fuel c0 step limit).
Proof.
  induction fuel as [|f IH]; intros c0 step limit Hs; cbn [chunk_loop]; [split; constructor|]. destruct (c0 <? limit)%Z; [|split; constructor]. destruct (IH (c0 + step)%Z step limit Hs) as (H1 & H2). rewrite Forall_forall in H2. split.
  - constructor; [|exact H1]. intros Hc. apply H2 in Hc. lia.
  - constructor; [lia|]. apply Forall_forall. intros c Hc. apply H2 in Hc. lia.
Qed.
Lemma nodup_label {A B} (f : A -> list B) (lab : B -> A) l : NoDup l -> (forall x, In x l -> NoDup (f x)) -> (forall x y, In x l -> In y (f x) -> lab y = x) -> NoDup (flat_map f l).
Proof.
  induction l as [|x l IH]; intros ND H1 H2; [constructor|]. inversion ND as [|x' l' Hx HN]; subst. cbn [flat_map]. apply MeshesProofs10.nodup_app; [apply H1; left; reflexivity|apply IH; [exact HN|intros; apply H1; right; assumption|intros; apply H2; [right|]; assumption]|].
  intros y Hy Hy'. apply in_flat_map in Hy'. destruct Hy' as (x' & Hx' & Hy'). apply H2 in Hy; [|left; reflexivity]. apply H2 in Hy'; [|right; assumption]. congruence.
Qed.
Section Schedule.
Variables (N P blocks threads : nat).
Hypotheses (Hb : (0 < blocks)%nat) (Ht : (0 < threads)%nat).
Let cpc := (1 + Z.quot (Z.of_nat P - 1) (Z.of_nat threads))%Z.
Notation tp := (thread_points N P (Z.of_nat blocks) (Z.of_nat threads)).
Lemma cpc_pos : (0 < P)%nat -> (1 <= cpc)%Z /\ (Z.of_nat P <= cpc * Z.of_nat threads)%Z.
Proof.
  intros HP. unfold cpc. rewrite Z.quot_div_nonneg by lia. pose proof (Z.div_mod (Z.of_nat P - 1) (Z.of_nat threads) ltac:(lia)). pose proof (Z.mod_pos_bound (Z.of_nat P - 1) (Z.of_nat threads) ltac:(lia)).
  pose proof (Z.div_pos (Z.of_nat P - 1) (Z.of_nat threads) ltac:(lia) ltac:(lia)). split; [lia|]. nia.
Qed.
Lemma point_of_thread block thread b i : (block < blocks)%nat -> (thread < threads)%nat ->
  (In (b, i) (tp block thread) <-> (b < N)%nat /\ (i < P)%nat /\ (i mod threads)%nat = thread /\ ((Z.of_nat b * cpc + Z.of_nat i / Z.of_nat threads) mod Z.of_nat blocks = Z.of_nat block)%Z).
Proof.
  intros HB HT. unfold thread_points. fold cpc. rewrite in_flat_map. split.
  - intros (c & Hc & Hi). apply chunk_loop_in in Hc; [|lia|lia]. destruct Hc as (Hc & k & Hk & Ec). destruct (Z.leb_spec (Z.of_nat P) (Z.of_nat threads * Z.rem c cpc + Z.of_nat thread)) as [L|L]; [destruct Hi|]. destruct Hi as [Hi|[]]. injection Hi as <- <-.
    assert (C1 : (0 < cpc)%Z) by nia. rewrite Z.rem_mod_nonneg in * by nia. rewrite Z.quot_div_nonneg by nia. pose proof (Z.mod_pos_bound c cpc C1) as M1. pose proof (Z.div_mod c cpc ltac:(lia)) as M2. pose proof (Z.div_pos c cpc ltac:(nia) C1) as M3.
    assert (M4 : (c / cpc < Z.of_nat N)%Z) by (apply Z.div_lt_upper_bound; lia).
    split; [lia|]. split; [lia|]. rewrite !Z2Nat.id by nia. split.
    + apply Nat2Z.inj. rewrite Nat2Z.inj_mod, Z2Nat.id by nia. rewrite Z.add_comm, Z.mul_comm, Z.mod_add by lia. apply Z.mod_small. lia.
    + rewrite (Z.add_comm (Z.of_nat threads * _)), (Z.mul_comm (Z.of_nat threads)), Z.div_add by lia. rewrite (Z.div_small (Z.of_nat thread)) by lia. replace (c / cpc * cpc + (0 + c mod cpc))%Z with c by lia. rewrite Ec. rewrite Z.mod_add by lia. apply Z.mod_small. lia.
  - intros (H1 & H2 & H3 & H4). destruct (cpc_pos ltac:(lia)) as (C1 & C2). set (q := (Z.of_nat i / Z.of_nat threads)%Z) in *. set (c := (Z.of_nat b * cpc + q)%Z) in *.
    pose proof (Z.div_mod (Z.of_nat i) (Z.of_nat threads) ltac:(lia)) as D1. fold q in D1. pose proof (Z.mod_pos_bound (Z.of_nat i) (Z.of_nat threads) ltac:(lia)) as D2.
    assert (D3 : (0 <= q < cpc)%Z) by (split; [apply Z.div_pos; lia|]; apply Z.div_lt_upper_bound; nia).
    assert (D4 : (Z.of_nat i mod Z.of_nat threads = Z.of_nat thread)%Z) by (rewrite <- Nat2Z.inj_mod, H3; reflexivity).
    assert (E1 : (c mod cpc = q)%Z) by (unfold c; rewrite Z.add_comm, Z.mod_add by lia; apply Z.mod_small; exact D3).
    assert (E2 : (c / cpc = Z.of_nat b)%Z) by (unfold c; rewrite Z.add_comm, Z.div_add by lia; rewrite Z.div_small by exact D3; lia).
    assert (C0 : (0 <= c)%Z) by (unfold c; nia). assert (CL : (c < Z.of_nat N * cpc)%Z) by (unfold c; nia).
    exists c. split.
    + apply chunk_loop_in; [lia|lia|]. split; [exact CL|]. exists (c / Z.of_nat blocks)%Z. split; [apply Z.div_pos; lia|]. pose proof (Z.div_mod c (Z.of_nat blocks) ltac:(lia)). lia.
    + rewrite Z.rem_mod_nonneg, Z.quot_div_nonneg by lia. rewrite E1, E2. replace (Z.of_nat threads * q + Z.of_nat thread)%Z with (Z.of_nat i) by lia. destruct (Z.leb_spec (Z.of_nat P) (Z.of_nat i)); [lia|]. left. rewrite !Nat2Z.id. reflexivity.
Qed.
Lemma thread_nodup block thread : (block < blocks)%nat -> (thread < threads)%nat -> NoDup (tp block thread).
Proof.
  intros HB HT. unfold thread_points. fold cpc. destruct (chunk_loop_nodup (Z.to_nat (Z.of_nat N * cpc)) (Z.of_nat block) (Z.of_nat blocks) (Z.of_nat N * cpc) ltac:(lia)) as (ND & GE). rewrite Forall_forall in GE.
  apply (nodup_label _ (fun bi => (Z.of_nat (fst bi) * cpc + Z.of_nat (snd bi) / Z.of_nat threads)%Z)); [exact ND| |].
  - intros c _. destruct (_ <=? _)%Z; repeat constructor. intros [].
  - intros c bi Hc Hi. pose proof (GE c Hc) as G. apply chunk_loop_in in Hc; [|lia|lia]. destruct Hc as (Hc & _). destruct (Z.leb_spec (Z.of_nat P) (Z.of_nat threads * Z.rem c cpc + Z.of_nat thread)) as [L|L]; [destruct Hi|]. destruct Hi as [<-|[]]. cbn [fst snd].
    assert (C1 : (0 < cpc)%Z) by nia. rewrite Z.rem_mod_nonneg in * by nia. rewrite Z.quot_div_nonneg by nia. pose proof (Z.mod_pos_bound c cpc C1) as M1. pose proof (Z.div_mod c cpc ltac:(lia)) as M2. pose proof (Z.div_pos c cpc ltac:(nia) C1) as M3.
    rewrite !Z2Nat.id by nia. rewrite (Z.add_comm (Z.of_nat threads * _)), (Z.mul_comm (Z.of_nat threads)), Z.div_add by lia. rewrite (Z.div_small (Z.of_nat thread)) by lia. lia.
Qed.
Definition visited := flat_map (fun block => flat_map (fun thread => tp block thread) (seq 0 threads)) (seq 0 blocks).
Lemma visited_all : Permutation visited (list_prod (seq 0 N) (seq 0 P)).
Proof.
  apply NoDup_Permutation.
  - unfold visited. apply (nodup_label _ (fun bi => Z.to_nat ((Z.of_nat (fst bi) * cpc + Z.of_nat (snd bi) / Z.of_nat threads) mod Z.of_nat blocks))); [apply seq_NoDup| |].
    + intros block HB. apply in_seq in HB. apply (nodup_label _ (fun bi => (snd bi mod threads)%nat)); [apply seq_NoDup| |].
      * intros thread HT. apply in_seq in HT. apply thread_nodup; lia.
      * intros thread (b, i) HT Hi. apply in_seq in HT. apply point_of_thread in Hi; [|lia|lia]. apply Hi.
    + intros block (b, i) HB Hi. apply in_seq in HB. apply in_flat_map in Hi. destruct Hi as (thread & HT & Hi). apply in_seq in HT. apply point_of_thread in Hi; [|lia|lia]. destruct Hi as (_ & _ & _ & Hi). cbn [fst snd]. rewrite Hi. lia.
  - assert (E : list_prod (seq 0 N) (seq 0 P) = flat_map (fun b => map (fun i => (b, i)) (seq 0 P)) (seq 0 N)) by (induction (seq 0 N) as [|b l IH]; [reflexivity|]; cbn; rewrite IH; reflexivity). rewrite E.
    apply (nodup_label _ fst); [apply seq_NoDup| |].
    + intros b _. apply FinFun.Injective_map_NoDup; [|apply seq_NoDup]. intros x y Hxy. congruence.
    + intros b bi _ Hi. apply in_map_iff in Hi. destruct Hi as (i & <- & _). reflexivity.
  - intros (b, i). rewrite in_prod_iff, !in_seq. unfold visited. rewrite in_flat_map. split.
    + intros (block & HB & Hi). apply in_seq in HB. apply in_flat_map in Hi. destruct Hi as (thread & HT & Hi). apply in_seq in HT. apply point_of_thread in Hi; [|lia|lia]. lia.
    + intros (H1 & H2). set (c := ((Z.of_nat b * cpc + Z.of_nat i / Z.of_nat threads) mod Z.of_nat blocks)%Z). pose proof (Z.mod_pos_bound (Z.of_nat b * cpc + Z.of_nat i / Z.of_nat threads) (Z.of_nat blocks) ltac:(lia)) as M. fold c in M.
      pose proof (Nat.mod_upper_bound i threads ltac:(lia)) as M2. exists (Z.to_nat c). split; [apply in_seq; lia|]. apply in_flat_map. exists (i mod threads)%nat. split; [apply in_seq; lia|].
      apply point_of_thread; [lia|lia|]. rewrite Z2Nat.id by lia. repeat split; try lia; reflexivity.
Qed.
End Schedule.

Lemma cuda_perm N P C pts pf grid mask pw align splat blocks threads t : (0 < blocks)%nat -> (0 < threads)%nat ->
  interleaving (thread_writes N P C pts pf grid mask pw align splat blocks threads) t ->
  Permutation t (all_writes N P C pts pf grid mask pw align splat).
Proof.
  intros HB HT HI. apply interleaving_perm in HI. eapply perm_trans; [exact HI|]. unfold thread_writes, all_writes.
  set (f := fun bi : nat * nat => point_writes C pts pf grid mask pw align splat (fst bi) (snd bi)).
  assert (E1 : concat (flat_map (fun block => map (fun thread => flat_map f (thread_points N P (Z.of_nat blocks) (Z.of_nat threads) block thread)) (seq 0 threads)) (seq 0 blocks)) = flat_map f (visited N P blocks threads)).
  { unfold visited. induction (seq 0 blocks) as [|x l IH]; [reflexivity|]. cbn [flat_map]. rewrite concat_app, IH, flat_map_app. f_equal. clear IH. induction (seq 0 threads) as [|y m IH]; [reflexivity|]. cbn [map concat flat_map]. rewrite flat_map_app, IH. reflexivity. }
  assert (E2 : flat_map (fun b => flat_map (fun i => f (b, i)) (seq 0 P)) (seq 0 N) = flat_map f (list_prod (seq 0 N) (seq 0 P))).
  { induction (seq 0 N) as [|x l IH]; [reflexivity|]. cbn [flat_map list_prod]. rewrite flat_map_app, IH. f_equal. clear. induction (seq 0 P) as [|y m IH]; [reflexivity|]. cbn. rewrite IH. reflexivity. }
  fold f. rewrite E1. change (Permutation (flat_map f (visited N P blocks threads)) (flat_map (fun b => flat_map (fun i => f (b, i)) (seq 0 P)) (seq 0 N))). rewrite E2.
  apply Permutation_flat_map, visited_all; assumption.
Qed.
