From Coq Require Import Sorted.
From Verif Require Import Base RBase TopK Geom GeomProofs GeomRefute Knn KnnProofs Raster RasterSpec.
Local Open Scope R_scope.

(* ------------ lexicographic orders ------------ *)
Lemma lexb_strict {A B} (la : A -> A -> bool) (lb : B -> B -> bool) :
  strict_total la -> strict_total lb -> strict_total (lexb la lb).
Proof.
  intros SA SB. unfold lexb. constructor.
  - intros [a b]; cbn [fst snd]. rewrite (st_irrefl _ SA), (st_irrefl _ SB). reflexivity.
  - intros [a1 b1] [a2 b2] [a3 b3]; cbn [fst snd]. intros H1 H2.
    destruct (la a1 a2) eqn:E12.
    + destruct (la a2 a3) eqn:E23.
      * rewrite (st_trans _ SA _ _ _ E12 E23). reflexivity.
      * cbn in H2. destruct (la a3 a2) eqn:E32; [discriminate|].
        assert (a2 = a3) by (apply (st_total _ SA); assumption). subst. rewrite E12. reflexivity.
    + cbn in H1. destruct (la a2 a1) eqn:E21; [discriminate|].
      assert (a1 = a2) by (apply (st_total _ SA); assumption). subst a2.
      destruct (la a1 a3) eqn:E13; [reflexivity|]. cbn in *.
      destruct (la a3 a1); [discriminate|]. cbn in *. eapply (st_trans _ SB); eassumption.
  - intros [a1 b1] [a2 b2]; cbn [fst snd]. intros H1 H2.
    apply Bool.orb_false_iff in H1 as [H1 H1']. apply Bool.orb_false_iff in H2 as [H2 H2'].
    assert (a1 = a2) by (apply (st_total _ SA); assumption). subst a2.
    rewrite H1 in H1', H2'. cbn in *. f_equal. apply (st_total _ SB); assumption.
Qed.
Lemma Rltb_strict : strict_total Rltb.
Proof.
  constructor.
  - intros a. apply Rltb_false. lra.
  - intros a b c H1 H2. apply Rltb_true in H1, H2. apply Rltb_true. lra.
  - intros a b H1 H2. apply Rltb_false in H1, H2. lra.
Qed.
Lemma Natltb_strict : strict_total Nat.ltb.
Proof.
  constructor.
  - intros a. apply Nat.ltb_irrefl.
  - intros a b c H1 H2. apply Nat.ltb_lt in H1, H2. apply Nat.ltb_lt. lia.
  - intros a b H1 H2. apply Nat.ltb_ge in H1, H2. lia.
Qed.
Lemma pentry_strict : strict_total pentry_ltb.
Proof. repeat apply lexb_strict; (apply Rltb_strict || apply Natltb_strict). Qed.
Lemma fentry_strict : strict_total fentry_ltb.
Proof. repeat apply lexb_strict; (apply Rltb_strict || apply Natltb_strict). Qed.

(* ------------ from a selection of entries to the pixel specification ------------ *)
Definition key {Y} (e : R * (nat * Y)) : R * nat := (fst e, fst (snd e)).
Definition cands {Y} (hit : nat -> option (R * Y)) (prims : list nat) : list (R * (nat * Y)) :=
  flat_map (fun i => match hit i with Some (z, y) => [(z, (i, y))] | None => [] end) prims.

Lemma cands_in {Y} (hit : nat -> option (R * Y)) prims e :
  In e (cands hit prims) <-> In (fst (snd e)) prims /\ hit (fst (snd e)) = Some (fst e, snd (snd e)).
Proof.
  unfold cands. rewrite in_flat_map. split.
  - intros [i [Hi He]]. destruct (hit i) as [[z y]|] eqn:Eh; [|destruct He].
    destruct He as [<-|[]]. cbn. auto.
  - intros [Hi He]. exists (fst (snd e)). split; [assumption|]. rewrite He. left.
    destruct e as [z [i y]]; reflexivity.
Qed.
Lemma cands_length {Y} (hit : nat -> option (R * Y)) prims : length (cands hit prims) = length (hits hit prims).
Proof.
  unfold cands, hits. induction prims as [|i prims IH]; cbn; [reflexivity|].
  destruct (hit i) as [[z y]|]; cbn; rewrite ?IH; reflexivity.
Qed.
Lemma cands_idx {Y} (hit : nat -> option (R * Y)) prims :
  map (fun e => fst (snd e)) (cands hit prims) = hits hit prims.
Proof.
  unfold cands, hits. induction prims as [|i prims IH]; cbn; [reflexivity|].
  destruct (hit i) as [[z y]|]; cbn; rewrite ?IH; reflexivity.
Qed.
Lemma hits_NoDup {Y} (hit : nat -> option (R * Y)) prims : NoDup prims -> NoDup (hits hit prims).
Proof. apply NoDup_filter. Qed.

Record selection {Y} (hit : nat -> option (R * Y)) (prims : list nat) (K : nat) (q : list (R * (nat * Y))) : Prop := {
  sel_len : length q = Nat.min K (length (cands hit prims));
  sel_sorted : forall i j a b, (i < j)%nat -> nth_error q i = Some a -> nth_error q j = Some b -> before (key a) (key b);
  sel_split : exists rest, Permutation (cands hit prims) (q ++ rest) /\
     forall a b, In a q -> In b rest -> before (key a) (key b) }.

Lemma selection_topk {X Y} (pad : X) (conv : Y -> X) hit prims K q : selection hit prims K q ->
  pixel_topk pad (fun i => option_map (fun h => (fst h, conv (snd h))) (hit i)) prims K
    (fill_row K (-1)%Z (map (fun e => Z.of_nat (fst (snd e))) q)) (fill_row K (-1) (map fst q))
    (fun k => nth k (fill_row K pad (map (fun e => conv (snd (snd e))) q)) pad).
Proof.
  intros [HL HS [rest [HP HR]]].
  assert (Hq : (length q <= K)%nat) by lia.
  set (hit' := fun i => option_map (fun h => (fst h, conv (snd h))) (hit i)).
  assert (HH : length (hits hit' prims) = length (hits hit prims)).
  { f_equal. unfold hits. apply filter_ext. intros i. unfold hit'. destruct (hit i); reflexivity. }
  assert (Hm : Nat.min K (length (hits hit' prims)) = length q).
  { rewrite HH, <- cands_length. auto. }
  assert (Hi : forall k e, nth_error q k = Some e ->
     nth k (fill_row K (-1)%Z (map (fun e => Z.of_nat (fst (snd e))) q)) (-1)%Z = Z.of_nat (fst (snd e)) /\
     nth k (fill_row K (-1) (map fst q)) (-1) = fst e /\
     nth k (fill_row K pad (map (fun e => conv (snd (snd e))) q)) pad = conv (snd (snd e))).
  { intros k e He. assert (Hk : (k < length q)%nat) by (apply nth_error_Some; congruence).
    rewrite !nth_fill_l by (rewrite map_length; assumption).
    repeat split; apply nth_error_nth; rewrite nth_error_map, He; reflexivity. }
  assert (Hget : forall k, (k < length q)%nat -> exists e, nth_error q k = Some e /\ In e (cands hit prims)).
  { intros k Hk. destruct (nth_error q k) as [e|] eqn:E; [|apply nth_error_None in E; lia].
    exists e. split; [reflexivity|]. eapply Permutation_in; [symmetry; exact HP|].
    apply in_or_app. left. eapply nth_error_In; eassumption. }
  constructor; rewrite ?Hm.
  - apply fill_length. rewrite map_length. assumption.
  - apply fill_length. rewrite map_length. assumption.
  - intros k Hk. destruct (Hget k Hk) as [e [He Hin]]. destruct (Hi _ _ He) as [-> [-> ->]].
    apply cands_in in Hin as [Hin Hh]. exists (fst (snd e)). repeat split; [assumption|].
    unfold hit'. rewrite Hh. reflexivity.
  - intros k l Hkl Hl. destruct (Hget k ltac:(lia)) as [e [He _]]. destruct (Hget l Hl) as [e' [He' _]].
    destruct (Hi _ _ He) as [-> [-> _]]. destruct (Hi _ _ He') as [-> [-> _]]. rewrite !Nat2Z.id.
    exact (HS _ _ _ _ Hkl He He').
  - intros i z x Hin Hh. unfold hit' in Hh. destruct (hit i) as [[z' y]|] eqn:Eh; [|discriminate].
    cbn in Hh. injection Hh as -> <-.
    assert (Hc : In (z, (i, y)) (cands hit prims)) by (apply cands_in; auto).
    eapply Permutation_in in Hc; [|exact HP]. apply in_app_or in Hc as [Hc|Hc].
    + left. apply In_nth_error in Hc as [k Hk]. exists k. split; [apply nth_error_Some; congruence|].
      apply Hi in Hk as [-> _]. reflexivity.
    + right. intros k Hk. destruct (Hget k Hk) as [e [He _]]. destruct (Hi _ _ He) as [-> [-> _]].
      rewrite Nat2Z.id. apply (HR e (z, (i, y))); [eapply nth_error_In; eassumption|assumption].
  - intros k Hk. rewrite !nth_fill_r by (rewrite map_length; lia). auto.
Qed.

Lemma pixel_topk_ext {X} (pad : X) hit hit' prims K idx zs pay pay' :
  (forall i, In i prims -> hit i = hit' i) -> (forall k, (k < K)%nat -> pay k = pay' k) ->
  pixel_topk pad hit prims K idx zs pay -> pixel_topk pad hit' prims K idx zs pay'.
Proof.
  intros Hh Hp [A B C D E F].
  assert (HE : hits hit prims = hits hit' prims).
  { unfold hits. apply filter_ext_in. intros i Hi. rewrite Hh by assumption. reflexivity. }
  rewrite HE in *. constructor; try assumption.
  - intros k Hk. destruct (C k Hk) as [i [H1 [H2 H3]]]. exists i. rewrite <- Hh, <- Hp by (assumption || lia). auto.
  - intros i z x Hi Hz. rewrite <- Hh in Hz by assumption. eauto.
  - intros k Hk. rewrite <- Hp by lia. apply F; assumption.
Qed.

(* the specification determines the slots *)
Lemma before_irrefl a : ~ before a a.
Proof. intros [H|[_ H]]; [lra|lia]. Qed.
Lemma before_trans a b c : before a b -> before b c -> before a c.
Proof. unfold before. intros [H|[H H']] [G|[G G']]; [left; lra|left; lra|left; lra|right; split; [lra|lia]]. Qed.
Lemma before_total a b : a = b \/ before a b \/ before b a.
Proof.
  destruct a as [x i], b as [y j]. unfold before; cbn.
  destruct (Rtotal_order x y) as [H|[->|H]]; [auto| |auto].
  destruct (lt_eq_lt_dec i j) as [[H| ->]|H]; auto.
Qed.

Lemma best_selection {Y} (ltY : Y -> Y -> bool) (hit : nat -> option (R * Y)) prims K q : NoDup prims ->
  is_best (lexb Rltb (lexb Nat.ltb ltY)) K (cands hit prims) q -> selection hit prims K q.
Proof.
  intros ND [HL HS [rest [HP HR]]].
  assert (NDi : NoDup (map (fun e : R * (nat * Y) => fst (snd e)) (q ++ rest))).
  { eapply Permutation_NoDup; [apply Permutation_map; exact HP|]. rewrite cands_idx. apply hits_NoDup, ND. }
  assert (Hle : forall a b : R * (nat * Y), fst (snd a) <> fst (snd b) ->
     lexb Rltb (lexb Nat.ltb ltY) b a = false -> before (key a) (key b)).
  { intros [z [i y]] [z' [i' y']]. unfold lexb, key, before; cbn [fst snd]. intros Hne Hf.
    apply Bool.orb_false_iff in Hf as [Hz Hf]. apply Rltb_false in Hz.
    destruct (Rltb z z') eqn:E; [apply Rltb_true in E; left; lra|]. apply Rltb_false in E.
    cbn in Hf. apply Bool.orb_false_iff in Hf as [Hi _]. apply Nat.ltb_ge in Hi. right. split; [lra|lia]. }
  rewrite map_app in NDi.
  constructor; [exact HL| |].
  - intros i j a b Hij Ha Hb. apply Hle; [|exact (HS _ _ _ _ Hij Ha Hb)].
    apply NoDup_app_l in NDi. intros Heq.
    assert (i = j); [|lia].
    apply (proj1 (NoDup_nth_error _) NDi).
    + rewrite map_length. apply nth_error_Some. congruence.
    + rewrite !nth_error_map, Ha, Hb. cbn. f_equal. assumption.
  - exists rest. split; [assumption|]. intros a b Ha Hb. apply Hle; [|apply HR; assumption].
    intros Heq. clear - NDi Ha Hb Heq.
    induction q as [|c q IH]; [destruct Ha|]. cbn in NDi. inversion NDi; subst.
    destruct Ha as [->|Ha]; [|auto]. apply H1. apply in_or_app. right. rewrite Heq. apply in_map_iff. eauto.
Qed.

(* ------------ points, CPU ------------ *)
Lemma points_queue_ok K pts start count p : (start + count <= length pts)%nat ->
  points_queue K pts start count p =
  Ok (fold_left (push_bounded pentry_ltb K)
        (cands (fun i => match nth_error pts i with Some x => point_hit p x | None => None end) (seq start count)) []).
Proof.
  intros HB. unfold points_queue. generalize (@nil pentry). revert start HB.
  induction count as [|n IH]; intros start HB q; cbn [seq rfold cands flat_map fold_left]; [reflexivity|].
  destruct (nth_error pts start) as [x|] eqn:Ex; [|apply nth_error_None in Ex; lia].
  rewrite (proj2 (rget_some _ _ _) Ex). cbn [rbind].
  rewrite IH by lia. f_equal. rewrite fold_left_app. f_equal.
  destruct (point_hit p x) as [[z d]|]; reflexivity.
Qed.

Definition points_hit_at (pts : list point) (p : vec2) (i : nat) : option (R * R) :=
  match nth_error pts i with Some x => point_hit p x | None => None end.

Lemma points_pixel K pts start count p : (start + count <= length pts)%nat ->
  exists q, points_queue K pts start count p = Ok q /\
   let '(idx, zs, ds) := points_row K q in
   length ds = K /\
   pixel_topk (-1) (points_hit_at pts p) (seq start count) K idx zs (fun k => nth k ds (-1)).
Proof.
  intros HB. rewrite points_queue_ok by assumption. eexists. split; [reflexivity|].
  rewrite fold_push_isort.
  fold (points_hit_at pts p).
  assert (S := firstn_isort_best _ pentry_strict K (cands (points_hit_at pts p) (seq start count))).
  apply best_selection in S; [|apply seq_NoDup].
  set (q := firstn K (isort pentry_ltb (cands (points_hit_at pts p) (seq start count)))) in *.
  unfold points_row. split.
  - apply fill_length. rewrite map_length, (sel_len _ _ _ _ S). lia.
  - apply (selection_topk (-1) (fun d => d)) in S. eapply pixel_topk_ext; [| |exact S].
    + intros i _. change (fst (option_map (fun h : R * R => (fst h, snd h)) (points_hit_at pts p i), tt) = points_hit_at pts p i).
      cbn [fst]. destruct (points_hit_at pts p i) as [[z d]|]; reflexivity.
    + reflexivity.
Qed.

Lemma rmap_Forall2 {A B} (f : A -> result B) l : forall r, rmap f l = Ok r <-> Forall2 (fun a b => f a = Ok b) l r.
Proof.
  induction l as [|a l IH]; intros r; cbn.
  - split; [intros [= <-]; constructor|inversion 1; reflexivity].
  - split.
    + destruct (f a) as [b|] eqn:Ef; cbn; [|discriminate]. destruct (rmap f l) as [bs|] eqn:El; cbn; [|discriminate].
      intros [= <-]. constructor; [assumption|]. apply IH. reflexivity.
    + inversion 1; subst. rewrite H2. cbn. apply IH in H4. rewrite H4. reflexivity.
Qed.
Lemma rmap_exists {A B} (f : A -> result B) (P : A -> B -> Prop) l :
  (forall a, In a l -> exists b, f a = Ok b /\ P a b) -> exists r, rmap f l = Ok r /\ Forall2 P l r.
Proof.
  induction l as [|a l IH]; intros H; cbn; [exists []; auto|].
  destruct (H a (or_introl eq_refl)) as [b [Hb Pb]]. rewrite Hb. cbn.
  destruct IH as [r [Hr Pr]]; [intros; apply H; right; assumption|]. rewrite Hr. cbn. eauto.
Qed.
Lemma Forall2_seq {B} (P : nat -> B -> Prop) n r d : Forall2 P (seq 0 n) r ->
  length r = n /\ forall i, (i < n)%nat -> P i (nth i r d).
Proof.
  intros F. assert (HL := Forall2_length _ _ _ F). rewrite seq_length in HL. split; [auto|].
  intros i Hi. assert (G : forall s r, Forall2 P (seq s n) r -> forall i, (i < n)%nat -> P (s + i)%nat (nth i r d)).
  { clear. induction n as [|n IH]; intros s r F i Hi; [lia|]. cbn in F. inversion F; subst.
    destruct i as [|i]; [cbn; rewrite Nat.add_0_r; assumption|].
    cbn. replace (s + S i)%nat with (S s + i)%nat by lia. apply IH; [assumption|lia]. }
  exact (G 0%nat r F i Hi).
Qed.

Lemma Forall2_get {A B} (P : A -> B -> Prop) l r : Forall2 P l r ->
  forall n a b, nth_error l n = Some a -> nth_error r n = Some b -> P a b.
Proof.
  induction 1; intros [|n] a b Ha Hb; cbn in *; try discriminate; [congruence|eauto].
Qed.

(* ------------ meshes, CPU ------------ *)
Lemma insert_snoc_eq {E} (ltb : E -> E -> bool) (S : strict_total ltb) q e : StronglySorted (le ltb) q ->
  isort ltb (q ++ [e]) = insert ltb e q.
Proof.
  intros Hq. unfold isort. rewrite fold_left_app. cbn. f_equal.
  apply (sorted_perm_unique _ S); [apply (isort_acc_sorted _ S); constructor|assumption|].
  rewrite isort_acc, app_nil_r. reflexivity.
Qed.
Lemma mesh_step_push K q e : StronglySorted (le fentry_ltb) q ->
  mesh_step K (-1) q e = push_bounded fentry_ltb K q e.
Proof.
  intros Hq. unfold mesh_step. cbn [Z.eqb Pos.eqb]. rewrite (insert_snoc_eq _ fentry_strict) by assumption. reflexivity.
Qed.

Definition fpay : Type := R * (R * (R * R)).
Definition enc (h : R * vec3) : fpay := (fst h, (x3 (snd h), (y3 (snd h), z3 (snd h)))).
Definition dec (y : fpay) : R * vec3 := (fst y, let '(b0, (b1, b2)) := snd y in V3 b0 b1 b2).
Lemma dec_enc h : dec (enc h) = h.
Proof. destruct h as [d [b0 b1 b2]]. reflexivity. Qed.
Definition ehit (hit : nat -> option (R * (R * vec3))) (i : nat) : option (R * fpay) :=
  option_map (fun h => (fst h, enc (snd h))) (hit i).
Lemma mk_fentry_eq i z p : mk_fentry i (z, p) = (z, (i, enc p)).
Proof. destruct p; reflexivity. Qed.

Lemma push_bounded_sorted {E} (ltb : E -> E -> bool) (S : strict_total ltb) K q e : StronglySorted (le ltb) q ->
  StronglySorted (le ltb) (push_bounded ltb K q e).
Proof.
  intros Hq. assert (Hi := insert_sorted _ S e q Hq). unfold push_bounded, pq_pop.
  destruct (K <? length (insert ltb e q))%nat; [|assumption].
  revert Hi. generalize (insert ltb e q). clear. intros l. induction l as [|a l IH]; intros H; [constructor|].
  destruct l as [|b l]; [constructor|]. cbn [removelast]. change (StronglySorted (le ltb) (a :: removelast (b :: l))).
  inversion H; subst. constructor; [apply IH; assumption|].
  rewrite Forall_forall in *. intros x Hx. apply H3.
  clear - Hx. revert b Hx. induction l as [|c l IH]; intros b Hx; [destruct Hx|].
  cbn [removelast] in Hx. destruct Hx as [->|Hx]; [left; reflexivity|]. right. apply IH. exact Hx.
Qed.

Lemma mesh_queue_ok K hit hit' nbr faces :
  (forall i, In i faces -> hit i = Ok (hit' i) /\ nbr i = Ok (-1)%Z) ->
  mesh_queue K hit nbr faces = Ok (fold_left (push_bounded fentry_ltb K) (cands (ehit hit') faces) []).
Proof.
  unfold mesh_queue. intros HB.
  assert (HS : StronglySorted (le fentry_ltb) []) by constructor. revert HS.
  generalize (@nil fentry). induction faces as [|i faces IH]; intros q HS; cbn [rfold cands flat_map fold_left]; [reflexivity|].
  destruct (HB i (or_introl eq_refl)) as [Hh Hn]. rewrite Hh. cbn [rbind].
  assert (HB' : forall j, In j faces -> hit j = Ok (hit' j) /\ nbr j = Ok (-1)%Z) by (intros; apply HB; right; assumption).
  destruct (hit' i) as [[z pay]|] eqn:Eh.
  - rewrite Hn. cbn [rbind]. rewrite mesh_step_push, mk_fentry_eq by assumption.
    unfold ehit at 1. rewrite Eh. cbn [option_map fst snd app].
    rewrite IH; [reflexivity|assumption|]. apply (push_bounded_sorted _ fentry_strict). assumption.
  - unfold ehit at 1. rewrite Eh. cbn [option_map app]. apply IH; assumption.
Qed.

Definition pad_pay : R * vec3 := (-1, V3 (-1) (-1) (-1)).

Lemma mesh_row_topk K hit prims (q : list fentry) : selection (ehit hit) prims K q ->
  let '(idx, zs, ds, bs) := mesh_row K q in
  length ds = K /\ length bs = K /\
  pixel_topk pad_pay hit prims K idx zs (fun k => (nth k ds (-1), nth k bs (V3 (-1) (-1) (-1)))).
Proof.
  intros S. unfold mesh_row.
  assert (HL : (@length fentry q <= K)%nat) by (change (@length (R * (nat * fpay)) q <= K)%nat; rewrite (sel_len _ _ _ _ S); lia).
  split; [apply fill_length; rewrite map_length; exact HL|]. split; [apply fill_length; rewrite map_length; exact HL|].
  apply (selection_topk pad_pay dec) in S. eapply pixel_topk_ext; [| |exact S].
  - intros i _. unfold ehit. destruct (hit i) as [[z h]|]; [|reflexivity]. cbn. f_equal. f_equal. apply dec_enc.
  - intros k Hk. cbn beta. destruct (lt_dec k (@length fentry q)) as [H|H].
    + rewrite !nth_fill_l by (rewrite map_length; exact H).
      destruct (@nth_error fentry q k) as [e|] eqn:E; [|apply nth_error_None in E; lia].
      rewrite (nth_error_nth (map (fun e => dec (snd (snd e))) q) k (x := dec (snd (snd e)))) by exact (map_nth_error _ _ _ E).
      rewrite (nth_error_nth (map fe_dist q) k (x := fe_dist e)) by exact (map_nth_error _ _ _ E).
      rewrite (nth_error_nth (map fe_bary q) k (x := fe_bary e)) by exact (map_nth_error _ _ _ E).
      unfold dec, fe_dist, fe_bary. reflexivity.
    + apply not_lt in H. rewrite !nth_fill_r by (rewrite map_length; exact H). reflexivity.
Qed.

Lemma mesh_pixel K hit hit' nbr faces : NoDup faces ->
  (forall i, In i faces -> hit i = Ok (hit' i) /\ nbr i = Ok (-1)%Z) ->
  exists q, mesh_queue K hit nbr faces = Ok q /\
   let '(idx, zs, ds, bs) := mesh_row K q in
   length ds = K /\ length bs = K /\
   pixel_topk pad_pay hit' faces K idx zs (fun k => (nth k ds (-1), nth k bs (V3 (-1) (-1) (-1)))).
Proof.
  intros ND HB. rewrite (mesh_queue_ok K hit hit' nbr) by assumption. eexists. split; [reflexivity|].
  rewrite fold_push_isort. apply mesh_row_topk.
  eapply best_selection; [assumption|]. apply (firstn_isort_best _ fentry_strict).
Qed.

Lemma cands_perm {Y} (hit : nat -> option (R * Y)) l l' : Permutation l l' -> Permutation (cands hit l) (cands hit l').
Proof.
  unfold cands. induction 1; cbn.
  - constructor.
  - apply Permutation_app_head. assumption.
  - rewrite !app_assoc. apply Permutation_app_tail, Permutation_app_comm.
  - etransitivity; eassumption.
Qed.
Lemma mesh_order K hit hit' nbr faces faces' : Permutation faces faces' ->
  (forall i, In i faces -> hit i = Ok (hit' i) /\ nbr i = Ok (-1)%Z) ->
  mesh_queue K hit nbr faces' = mesh_queue K hit nbr faces.
Proof.
  intros P HB. rewrite !(mesh_queue_ok K hit hit' nbr).
  - f_equal. rewrite !fold_push_isort. f_equal. apply (isort_perm_eq _ fentry_strict).
    apply cands_perm. symmetry. assumption.
  - assumption.
  - intros i Hi. apply HB. eapply Permutation_in; [symmetry; exact P|assumption].
Qed.

Definition mesh_hit_at (o : ropts) (faces : list face) (p : vec2) (i : nat) : option (R * (R * vec3)) :=
  match nth_error faces i with Some f => face_hit o f p | None => None end.

Lemma rasterize_meshes_ok H W K o faces nbrs meshes :
  (forall n s c, nth_error meshes n = Some (s, c) -> (s + c <= length faces)%nat) ->
  length nbrs = length faces -> (forall b, In b nbrs -> b = (-1)%Z) ->
  exists out, rasterize_meshes H W K o faces nbrs meshes = Ok out /\ length out = length meshes /\
  forall n s c, nth_error meshes n = Some (s, c) -> exists img, nth_error out n = Some img /\ length img = H /\
  forall yi, (yi < H)%nat -> exists row, nth_error img yi = Some row /\ length row = W /\
  forall xi, (xi < W)%nat -> exists idx zs ds bs, nth_error row xi = Some (idx, zs, ds, bs) /\
    length ds = K /\ length bs = K /\
    pixel_topk pad_pay (mesh_hit_at o faces (pix_center H W yi xi)) (seq s c) K idx zs
      (fun k => (nth k ds (-1), nth k bs (V3 (-1) (-1) (-1)))).
Proof.
  intros HB HN Hm. unfold rasterize_meshes.
  edestruct (rmap_exists (fun c : nat * nat => rmap (fun yi => rmap (fun xi =>
     q <- mesh_queue K (face_hit_at o faces (pix_center H W yi xi)) (rget nbrs) (seq (fst c) (snd c)) ;;
     Ok (mesh_row K q)) (seq 0 W)) (seq 0 H))
   (fun c img => length img = H /\ forall yi, (yi < H)%nat -> exists row, nth_error img yi = Some row /\ length row = W /\
      forall xi, (xi < W)%nat -> exists idx zs ds bs, nth_error row xi = Some (idx, zs, ds, bs) /\
    length ds = K /\ length bs = K /\
    pixel_topk pad_pay (mesh_hit_at o faces (pix_center H W yi xi)) (seq (fst c) (snd c)) K idx zs
      (fun k => (nth k ds (-1), nth k bs (V3 (-1) (-1) (-1)))))) as [out [Ho Fo]].
  - intros [s c] Hc. cbn [fst snd]. apply In_nth_error in Hc as [n Hn]. apply HB in Hn.
    edestruct (rmap_exists (fun yi => rmap (fun xi =>
       q <- mesh_queue K (face_hit_at o faces (pix_center H W yi xi)) (rget nbrs) (seq s c) ;; Ok (mesh_row K q)) (seq 0 W))
     (fun yi row => length row = W /\ forall xi, (xi < W)%nat -> exists idx zs ds bs, nth_error row xi = Some (idx, zs, ds, bs) /\
    length ds = K /\ length bs = K /\
    pixel_topk pad_pay (mesh_hit_at o faces (pix_center H W yi xi)) (seq s c) K idx zs
      (fun k => (nth k ds (-1), nth k bs (V3 (-1) (-1) (-1)))))) as [img [Hi Fi]].
    + intros yi _.
      edestruct (rmap_exists (fun xi =>
         q <- mesh_queue K (face_hit_at o faces (pix_center H W yi xi)) (rget nbrs) (seq s c) ;; Ok (mesh_row K q))
       (fun xi r => exists idx zs ds bs, r = (idx, zs, ds, bs) /\ length ds = K /\ length bs = K /\
    pixel_topk pad_pay (mesh_hit_at o faces (pix_center H W yi xi)) (seq s c) K idx zs
      (fun k => (nth k ds (-1), nth k bs (V3 (-1) (-1) (-1)))))) as [row [Hr Fr]].
      * intros xi _.
        destruct (mesh_pixel K (face_hit_at o faces (pix_center H W yi xi)) (mesh_hit_at o faces (pix_center H W yi xi))
                    (rget nbrs) (seq s c) (seq_NoDup _ _)) as [q [Hq Hs]].
        { intros i Hi. apply in_seq in Hi. unfold face_hit_at, mesh_hit_at.
          destruct (nth_error faces i) as [f|] eqn:Ef; [|apply nth_error_None in Ef; lia].
          rewrite (proj2 (rget_some _ _ _) Ef). split; [reflexivity|].
          destruct (nth_error nbrs i) as [b|] eqn:Eb; [|apply nth_error_None in Eb; lia].
          rewrite (proj2 (rget_some _ _ _) Eb). f_equal. apply Hm. eapply nth_error_In; eassumption. }
        rewrite Hq. cbn [rbind]. eexists. split; [reflexivity|].
        destruct (mesh_row K q) as [[[idx zs] ds] bs]. exists idx, zs, ds, bs. split; [reflexivity|exact Hs].
      * exists row. split; [exact Hr|].
        destruct (Forall2_seq _ W row ([], [], [], []) Fr) as [HL Hnth]. split; [exact HL|].
        intros xi Hx. destruct (Hnth xi Hx) as (idx & zs & ds & bs & He & Hs). exists idx, zs, ds, bs.
        split; [|exact Hs]. rewrite <- He. apply nth_error_nth'. lia.
    + exists img. split; [exact Hi|]. destruct (Forall2_seq _ H img [] Fi) as [HL Hnth]. split; [exact HL|].
      intros yi Hy. exists (nth yi img []). split; [apply nth_error_nth'; lia|]. apply Hnth. assumption.
  - exists out. split; [exact Ho|]. assert (HL := Forall2_length _ _ _ Fo). split; [auto|].
    intros n s c Hn. destruct (nth_error out n) as [img|] eqn:Ei.
    + exists img. split; [reflexivity|]. exact (Forall2_get _ _ _ Fo n (s, c) img Hn Ei).
    + apply nth_error_None in Ei. assert (n < length meshes)%nat by (apply nth_error_Some; congruence). lia.
Qed.
