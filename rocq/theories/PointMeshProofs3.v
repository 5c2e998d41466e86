From Coq Require Import Permutation.
From Verif Require Import PackingSpec PointcloudsSpec.
From Verif Require Import Base RBase Geom GeomSpec FaceAreas FaceAreasSpec MeshesSpec LaplaceSpec Sampling SamplingProofs Reduce ReduceProofs PointMesh PointMeshSpec PointMeshProofs PointMeshProofs2.
Local Open Scope R_scope.

Lemma split_at {T} (l : list T) g x : nth_error l g = Some x -> exists l1 l2, l = l1 ++ x :: l2 /\ length l1 = g.
Proof. intros H. apply nth_error_split in H as (l1 & l2 & E & L). eauto. Qed.
Lemma firsts_at {T} (ls : list (list T)) g x : nth_error ls g = Some x -> rget (firsts ls) g = Ok (begins ls g).
Proof. intros H. destruct (split_at ls g x H) as (l1 & l2 & -> & <-). rewrite firsts_get by discriminate. f_equal. symmetry. apply begins_app. Qed.
Lemma begins_cons {T} (l : list T) ls g : begins (l :: ls) (S g) = (length l + begins ls g)%nat.
Proof. reflexivity. Qed.
Lemma begins_next {T} (ls : list (list T)) g x : nth_error ls g = Some x -> begins ls (S g) = (begins ls g + length x)%nat.
Proof.
  revert g. induction ls as [|l ls IH]; intros [|g] H; try discriminate.
  - cbn in H. injection H as ->. unfold begins. cbn. lia.
  - cbn in H. rewrite !begins_cons. rewrite (IH g H). lia.
Qed.
Lemma begins_all {T} (ls : list (list T)) : begins ls (length ls) = length (concat ls).
Proof. pose proof (begins_app ls []) as H. rewrite app_nil_r in H. exact H. Qed.
Lemma batch_end_at {T} (ls : list (list T)) g x : nth_error ls g = Some x -> batch_end (firsts ls) (length (concat ls)) g = Ok (begins ls g + length x)%nat.
Proof.
  intros H. rewrite <- (begins_next ls g x H). unfold batch_end. rewrite firsts_length. destruct (g + 1 <? length ls)%nat eqn:E.
  - apply Nat.ltb_lt in E. rewrite Nat.add_1_r in *. destruct (nth_error ls (S g)) as [y|] eqn:Ey; [|apply nth_error_None in Ey; lia]. exact (firsts_at ls (S g) y Ey).
  - apply Nat.ltb_ge in E. assert (g < length ls)%nat by (apply nth_error_Some; congruence). replace (S g) with (length ls) by lia. rewrite begins_all. reflexivity.
Qed.
Lemma begins_le {T} (ls : list (list T)) g g' x : nth_error ls g = Some x -> (g < g')%nat -> (g' <= length ls)%nat -> (begins ls g + length x <= begins ls g')%nat.
Proof.
  intros H Hlt Hle. rewrite <- (begins_next ls g x H). induction g' as [|k IH]; [lia|]. destruct (Nat.eq_dec g k) as [->|N]; [lia|]. destruct (nth_error ls k) as [y|] eqn:E; [|apply nth_error_None in E; lia]. rewrite (begins_next ls k y E). specialize (IH ltac:(lia) ltac:(lia)). lia.
Qed.
Lemma begins_inj {T} (ls : list (list T)) g g' x x' i i' : nth_error ls g = Some x -> nth_error ls g' = Some x' -> (i < length x)%nat -> (i' < length x')%nat ->
  (begins ls g + i = begins ls g' + i')%nat -> g = g' /\ i = i'.
Proof.
  intros H H' Hi Hi' E. assert (g < length ls)%nat by (apply nth_error_Some; congruence). assert (g' < length ls)%nat by (apply nth_error_Some; congruence).
  destruct (lt_eq_lt_dec g g') as [[L| ->]|L].
  - pose proof (begins_le ls g g' x H L ltac:(lia)). lia.
  - split; [reflexivity|lia].
  - pose proof (begins_le ls g' g x' H' L ltac:(lia)). lia.
Qed.
Lemma find_place {T} (ls : list (list T)) o : (o < length (concat ls))%nat -> exists g x i, nth_error ls g = Some x /\ (i < length x)%nat /\ o = (begins ls g + i)%nat.
Proof.
  revert o. induction ls as [|l ls IH]; intros o H; [cbn in H; lia|]. cbn [concat] in H. rewrite app_length in H. destruct (Nat.lt_ge_cases o (length l)) as [L|L].
  - exists 0%nat, l, o. auto.
  - destruct (IH (o - length l)%nat ltac:(lia)) as (g & x & i & H1 & H2 & H3). exists (S g), x, i. split; [exact H1|]. split; [exact H2|]. rewrite begins_cons. lia.
Qed.

Section D.
Context {A B : Type} (d : A -> B -> R).
Section Gpu.
Context (As : list (list A)) (Bs : list (list B)) (Hlen : length As = length Bs).

Lemma work_at g xs ys i : nth_error As g = Some xs -> nth_error Bs g = Some ys ->
  block_work (concat As) (firsts As) (concat Bs) (firsts Bs) (i, g) = Ok (option_map (fun a => ((begins As g + i)%nat, a, begins Bs g, length ys)) (nth_error xs i)).
Proof.
  intros Ha Hb. unfold block_work, batch_start. rewrite (firsts_at As g xs Ha), (batch_end_at As g xs Ha), (firsts_at Bs g ys Hb), (batch_end_at Bs g ys Hb). cbn [rbind].
  replace (begins As g + length xs - begins As g)%nat with (length xs) by lia. replace (begins Bs g + length ys - begins Bs g)%nat with (length ys) by lia. destruct (i <? length xs)%nat eqn:E.
  - apply Nat.ltb_lt in E. destruct (nth_error xs i) as [a|] eqn:Ei; [|apply nth_error_None in Ei; lia]. rewrite (proj2 (rget_some _ _ a) (nth_concat As g xs i a Ha Ei)). reflexivity.
  - apply Nat.ltb_ge in E. rewrite (proj2 (nth_error_None xs i) E). reflexivity.
Qed.
Lemma same_group g xs : nth_error As g = Some xs -> exists ys, nth_error Bs g = Some ys.
Proof. intros H. destruct (nth_error Bs g) eqn:E; [eauto|]. apply nth_error_None in E. assert (g < length As)%nat by (apply nth_error_Some; congruence). lia. Qed.

(* the outputs after some blocks *)
Lemma blocks_run res order : (forall i g, In (i, g) order -> (g < length As)%nat) ->
  exists acc, rfold (fun acc blk => w <- block_work (concat As) (firsts As) (concat Bs) (firsts Bs) blk ;; match w with None => Ok acc | Some (o, _, _, _) => upd acc o (res blk) end) order (repeat (0, 0%Z) (length (concat As))) = Ok acc /\
    length acc = length (concat As) /\ forall g xs i, nth_error As g = Some xs -> (i < length xs)%nat -> In (i, g) order -> nth_error acc (begins As g + i) = Some (res (i, g)).
Proof.
  induction order as [|[i g] order IH] using rev_ind; intros Hg.
  - eexists. split; [reflexivity|]. split; [apply repeat_length|]. intros ? ? ? ? ? [].
  - destruct IH as (acc & E & L & N); [intros i' g' H; apply (Hg i'), in_or_app; auto|]. rewrite rfold_snoc, E. cbn [rbind]. assert (Hlt : (g < length As)%nat) by (apply (Hg i), in_or_app; right; left; reflexivity).
    destruct (nth_error As g) as [xs|] eqn:Ea; [|apply nth_error_None in Ea; lia]. destruct (same_group g xs Ea) as (ys & Eb). rewrite (work_at g xs ys i Ea Eb). cbn [rbind]. destruct (nth_error xs i) as [a|] eqn:Ei; cbn [option_map].
    + assert (Hi : (i < length xs)%nat) by (apply nth_error_Some; congruence). assert (Ho : (begins As g + i < length acc)%nat) by (rewrite L; apply nth_error_Some; rewrite (nth_concat As g xs i a Ea Ei); discriminate).
      destruct (upd_ok acc (begins As g + i) (res (i, g)) Ho) as (acc' & E'). pose proof (upd_length _ _ _ _ E') as L'. pose proof (upd_same _ _ _ _ E') as N1. assert (N2 : forall j, j <> (begins As g + i)%nat -> nth_error acc' j = nth_error acc j) by (intros j Hj; apply (upd_other _ _ _ _ _ E'); congruence). exists acc'. split; [exact E'|]. split; [lia|]. intros g' xs' i' Ha' Hi' Hin. destruct (Nat.eq_dec (begins As g' + i') (begins As g + i)) as [Eo|No].
      * destruct (begins_inj As g' g xs' xs i' i Ha' Ea Hi' Hi Eo) as (-> & ->). exact N1.
      * rewrite N2 by exact No. apply (N g' xs' i' Ha' Hi'). apply in_app_or in Hin as [Hin|[Hin|[]]]; [exact Hin|]. injection Hin as -> ->. lia.
    + exists acc. split; [reflexivity|]. split; [exact L|]. intros g' xs' i' Ha' Hi' Hin. apply (N g' xs' i' Ha' Hi'). apply in_app_or in Hin as [Hin|[Hin|[]]]; [exact Hin|]. injection Hin as -> ->. exfalso. apply nth_error_None in Ei. rewrite Ea in Ha'. injection Ha' as <-. lia.
Qed.
Theorem gpu_correct k out : below_max d As Bs -> Forall (fun xs => (length xs <= k)%nat) As ->
  gpu_forward d (concat As) (firsts As) (concat Bs) (firsts Bs) k out -> exists l, out = Ok l /\ nearest_all d As Bs l.
Proof.
  intros HD Hk H. unfold gpu_forward in H. rewrite !firsts_length, Hlen, Nat.eqb_refl in H. cbn [negb] in H. destruct H as (order & res & HP & HR & ->).
  assert (Hin : forall i g, In (i, g) order <-> (i < k)%nat /\ (g < length As)%nat).
  { intros i g. split; intros H.
    - apply (Permutation_in _ HP) in H. apply in_prod_iff in H as (H1 & H2). apply in_seq in H1, H2. lia.
    - apply (Permutation_in _ (Permutation_sym HP)). apply in_prod_iff. rewrite !in_seq. lia. }
  destruct (blocks_run res order) as (acc & E & L & N); [intros i g H; apply (proj1 (Hin i g) H)|]. rewrite E. exists acc. split; [reflexivity|]. split; [exact L|].
  intros g xs ys i a Ha Hb Hi. assert (Hil : (i < length xs)%nat) by (apply nth_error_Some; congruence). assert (Hio : In (i, g) order).
  { apply Hin. split; [|apply nth_error_Some; congruence]. rewrite Forall_forall in Hk. specialize (Hk xs (nth_error_In _ _ Ha)). lia. }
  exists (res (i, g)). split; [apply (N g xs i Ha Hil Hio)|]. pose proof (work_at g xs ys i Ha Hb) as W. rewrite Hi in W. cbn [option_map] in W. specialize (HR _ _ _ _ _ Hio W).
  destruct (split_at Bs g ys Hb) as (B1 & B2 & EB & LB). assert (Ec : concat Bs = concat B1 ++ ys ++ concat B2) by (rewrite EB, concat_app; reflexivity). assert (Eb : begins Bs g = length (concat B1)) by (rewrite EB, <- LB; apply begins_app). rewrite Ec, Eb in HR. rewrite Eb.
  apply (block_nearest d a (concat B1) ys (concat B2)); [|exact HR]. intros b Hbin. apply (HD g xs ys a b Ha Hb); [exact (nth_error_In _ _ Hi)|exact Hbin].
Qed.
End Gpu.

(* one run of the kernel: the threads take turns, the blocks run in order *)
Definition gpu_in_turn (As : list A) (afirst : list nat) (Bs : list B) (bfirst : list nat) (k : nat) : result (list (R * Z)) :=
  if negb (length bfirst =? length afirst)%nat then Fail ERuntime
  else
    let res := fun blk => match block_work As afirst Bs bfirst blk with
                          | Ok (Some (_, a, startt, count)) =>
                              match rmap (thread_scan d Bs a startt count) (seq 0 threads) with
                              | Ok l => let m := block_in_turn false 1 (shared l) in (mval m 0%nat, midx m 0%nat)
                              | Fail _ => (0, 0%Z)
                              end
                          | _ => (0, 0%Z)
                          end in
    rfold (fun acc blk => w <- block_work As afirst Bs bfirst blk ;; match w with None => Ok acc | Some (o, _, _, _) => upd acc o (res blk) end)
          (list_prod (seq 0 k) (seq 0 (length afirst))) (repeat (0, 0%Z) (length As)).
Lemma gpu_in_turn_ok As afirst Bs bfirst k : gpu_forward d As afirst Bs bfirst k (gpu_in_turn As afirst Bs bfirst k).
Proof.
  unfold gpu_forward, gpu_in_turn. destruct (negb (length bfirst =? length afirst)%nat); [reflexivity|]. eexists _, _. split; [apply Permutation_refl|]. split; [|reflexivity].
  intros blk o a startt count _ W. cbv beta. rewrite W. unfold block_result. destruct (rmap (thread_scan d Bs a startt count) (seq 0 threads)) as [l|]; [|exact I]. exists (block_in_turn false 1 (shared l)). split; [apply block_in_turn_ok|reflexivity].
Qed.
End D.
