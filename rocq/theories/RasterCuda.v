From Coq Require Import Sorted.
From Verif Require Import Base RBase TopK MinKSpec MinKProofs Geom GeomProofs GeomRefute Knn KnnProofs Raster RasterSpec RasterProofs.
Local Open Scope R_scope.

Definition tup {X} (e : cpix X) : R * (nat * X) := (c_z e, (c_idx e, c_pay e)).

(* ------------ bubble sort ------------ *)
Section Bubble.
Context {A : Type} (ltb : A -> A -> bool).
Hypothesis le_tr : forall a b c, ltb b a = false -> ltb c b = false -> ltb c a = false.
Hypothesis asym : forall a b, ltb a b = true -> ltb b a = false.

Lemma pass_app m : forall l1 l2, length l1 = S m -> bubble_pass ltb m (l1 ++ l2) = bubble_pass ltb m l1 ++ l2.
Proof.
  induction m as [|m IH]; intros l1 l2 HL.
  - destruct l1 as [|a l1]; [discriminate|]. reflexivity.
  - destruct l1 as [|a [|b l1]]; [discriminate|discriminate|]. cbn [app bubble_pass].
    destruct (ltb b a); cbn [app]; f_equal.
    + apply (IH (a :: l1) l2). cbn in *. lia.
    + apply (IH (b :: l1) l2). cbn in *. lia.
Qed.
Lemma pass_max m : forall l, length l = S m ->
  exists init mx, bubble_pass ltb m l = init ++ [mx] /\ Permutation l (init ++ [mx]) /\ forall x, In x init -> ltb mx x = false.
Proof.
  induction m as [|m IH]; intros l HL.
  - destruct l as [|a [|b l]]; [discriminate| |discriminate]. exists [], a. split; [reflexivity|]. split; [reflexivity|intros x []].
  - destruct l as [|a [|b l]]; [discriminate|discriminate|]. cbn [bubble_pass]. cbn in HL.
    destruct (ltb b a) eqn:Eb.
    + destruct (IH (a :: l)) as (init & mx & E & P & M); [cbn; lia|]. rewrite E.
      exists (b :: init), mx. repeat split.
      * cbn. rewrite <- P. apply perm_swap.
      * intros x [<-|Hx]; [|apply M; assumption].
        assert (Hin : In a (init ++ [mx])) by (eapply Permutation_in; [exact P|left; reflexivity]).
        assert (ltb mx a = false).
        { apply in_app_or in Hin as [Hin|[->|[]]]; [apply M; assumption|].
          destruct (ltb a a) eqn:Ea; [|reflexivity]. rewrite (asym _ _ Ea) in Ea. discriminate. }
        eapply le_tr; [|eassumption]. apply asym. assumption.
    + destruct (IH (b :: l)) as (init & mx & E & P & M); [cbn; lia|]. rewrite E.
      exists (a :: init), mx. repeat split.
      * cbn. constructor. assumption.
      * intros x [<-|Hx]; [|apply M; assumption].
        assert (Hin : In b (init ++ [mx])) by (eapply Permutation_in; [exact P|left; reflexivity]).
        assert (ltb mx b = false).
        { apply in_app_or in Hin as [Hin|[->|[]]]; [apply M; assumption|].
          destruct (ltb b b) eqn:Ea; [|reflexivity]. rewrite (asym _ _ Ea) in Ea. discriminate. }
        eapply le_tr; eassumption.
Qed.
Lemma sorted_app_cons (l : list A) x r : StronglySorted (fun a b => ltb b a = false) r ->
  (forall a b, In a (l ++ [x]) -> In b r -> ltb b a = false) ->
  StronglySorted (fun a b => ltb b a = false) (x :: r).
Proof.
  intros S H. constructor; [assumption|]. rewrite Forall_forall. intros b Hb. apply H; [|assumption].
  apply in_or_app. right; left; reflexivity.
Qed.
Lemma bubble_sort_ok l : Permutation l (bubble_sort ltb l) /\
  StronglySorted (fun a b => ltb b a = false) (bubble_sort ltb l).
Proof.
  unfold bubble_sort. set (n := length l).
  assert (G : forall k, (k <= n - 1)%nat -> exists l1 l2,
     fold_left (fun l i => bubble_pass ltb (n - i - 1) l) (seq 0 k) l = l1 ++ l2 /\ Permutation l (l1 ++ l2) /\
     length l2 = k /\ StronglySorted (fun a b => ltb b a = false) l2 /\
     forall a b, In a l1 -> In b l2 -> ltb b a = false).
  { induction k as [|k IH]; intros Hk.
    - exists l, []. rewrite app_nil_r. split; [reflexivity|]. split; [reflexivity|]. split; [reflexivity|]. split; [constructor|intros a b _ []].
    - destruct IH as (l1 & l2 & E & P & HL & S & M); [lia|].
      rewrite seq_S, fold_left_app, E. cbn [fold_left Nat.add].
      assert (HL1 : length l1 = Datatypes.S (n - k - 1)).
      { apply Permutation_length in P. rewrite app_length in P. unfold n in *. lia. }
      rewrite pass_app by assumption.
      destruct (pass_max _ l1 HL1) as (init & mx & E1 & P1 & M1). rewrite E1, <- app_assoc. cbn [app].
      exists init, (mx :: l2). repeat split.
      + etransitivity; [exact P|]. rewrite P1, <- app_assoc. reflexivity.
      + cbn. lia.
      + apply (sorted_app_cons init); [assumption|]. intros a b Ha Hb. apply M; [|assumption].
        eapply Permutation_in; [symmetry; exact P1|assumption].
      + intros a b Ha [<-|Hb]; [apply M1; assumption|]. apply M; [|assumption].
        eapply Permutation_in; [symmetry; exact P1|]. apply in_or_app. left. assumption. }
  destruct (G (n - 1)%nat (le_n _)) as (l1 & l2 & E & P & HL & S & M). rewrite E. split; [exact P|].
  assert (HL1 : (length l1 <= 1)%nat).
  { apply Permutation_length in P. rewrite app_length in P. unfold n in *. lia. }
  destruct l1 as [|a [|b l1]]; [exact S| |cbn in HL1; lia].
  apply (sorted_app_cons []); [assumption|]. intros x y Hx Hy. apply M; assumption.
Qed.
End Bubble.

Section Cuda.
Context {X : Type}.

Lemma cmesh_tr (a b c : cpix X) : cmesh_ltb b a = false -> cmesh_ltb c b = false -> cmesh_ltb c a = false.
Proof.
  unfold cmesh_ltb. rewrite !Bool.orb_false_iff. intros [H1 H2] [H3 H4].
  apply Rltb_false in H1, H3. split; [apply Rltb_false; lra|].
  destruct (Reqb_spec (c_z c) (c_z a)) as [E|E]; [|reflexivity]. cbn.
  destruct (Reqb_spec (c_z b) (c_z a)) as [E1|E1]; [|exfalso; lra].
  destruct (Reqb_spec (c_z c) (c_z b)) as [E2|E2]; [|exfalso; lra].
  cbn in *. apply Nat.ltb_ge in H2, H4. apply Nat.ltb_ge. lia.
Qed.
Lemma cmesh_asym (a b : cpix X) : cmesh_ltb a b = true -> cmesh_ltb b a = false.
Proof.
  unfold cmesh_ltb. intros H. apply Bool.orb_true_iff in H as [H|H].
  - apply Rltb_true in H. apply Bool.orb_false_iff. split; [apply Rltb_false; lra|].
    destruct (Reqb_spec (c_z b) (c_z a)); [exfalso; lra|reflexivity].
  - apply Bool.andb_true_iff in H as [H1 H2]. destruct (Reqb_spec (c_z a) (c_z b)) as [E|E]; [|discriminate].
    apply Nat.ltb_lt in H2. apply Bool.orb_false_iff. split; [apply Rltb_false; lra|].
    replace (c_idx b <? c_idx a)%nat with false by (symmetry; apply Nat.ltb_ge; lia). apply Bool.andb_false_r.
Qed.
Lemma cpoint_tr (a b c : cpix X) : cpoint_ltb b a = false -> cpoint_ltb c b = false -> cpoint_ltb c a = false.
Proof. unfold cpoint_ltb. intros H1 H2. apply Rltb_false in H1, H2. apply Rltb_false. lra. Qed.
Lemma cpoint_asym (a b : cpix X) : cpoint_ltb a b = true -> cpoint_ltb b a = false.
Proof. unfold cpoint_ltb. intros H1. apply Rltb_true in H1. apply Rltb_false. lra. Qed.

Record cqinv (K : nat) (seen : list (R * (nat * X))) (s : cq X) : Prop := {
  ci_sel : selects_smallest K seen (map tup (q_arr s));
  ci_empty : q_arr s = [] -> q_max_z s = -1000;
  ci_max : q_arr s <> [] -> exists mi a, q_max_idx s = Some mi /\ nth_error (q_arr s) mi = Some a /\
             c_z a = q_max_z s /\ forall x, In x (q_arr s) -> c_z x <= q_max_z s }.

Lemma rescan K (arr : list (cpix X)) mi (e : cpix X) : length arr = K -> nth_error arr mi = Some e ->
  exists mz i, rfold (fun '(mz, mi) i => x <- rget arr i ;;
                       Ok (if Rltb mz (c_z x) then (c_z x, Some i) else (mz, mi)))
                    (seq 0 K) (c_z e, Some mi) = Ok (mz, Some i) /\
    exists a, nth_error arr i = Some a /\ c_z a = mz /\ forall x, In x arr -> c_z x <= mz.
Proof.
  intros HL He.
  destruct (rfold_seq_inv (fun '(mz, mi) i => x <- rget arr i ;;
                       Ok (if Rltb mz (c_z x) then (c_z x, Some i) else (mz, mi)))
     (fun k s => exists i a, snd s = Some i /\ nth_error arr i = Some a /\ c_z a = fst s /\
        forall j x, (j < k)%nat -> nth_error arr j = Some x -> c_z x <= fst s) K 0 (c_z e, Some mi))
     as [[mz o] [E [i [a [E1 [E2 [E3 E4]]]]]]].
  - exists mi, e. cbn. repeat split; auto. intros; lia.
  - intros k [mz o] Hk [i [a [E1 [E2 [E3 E4]]]]]. cbn in E1, E3, E4. subst o.
    destruct (nth_error arr k) as [x|] eqn:Ex; [|apply nth_error_None in Ex; lia].
    rewrite (proj2 (rget_some _ _ _) Ex). cbn [rbind].
    destruct (Rltb mz (c_z x)) eqn:El.
    + apply Rltb_true in El. eexists. split; [reflexivity|]. exists k, x. cbn. repeat split; auto.
      intros j y Hj Hy. destruct (Nat.eq_dec j k) as [->|]; [replace y with x by congruence; lra|].
      specialize (E4 j y ltac:(lia) Hy). lra.
    + apply Rltb_false in El. eexists. split; [reflexivity|]. exists i, a. cbn. repeat split; auto.
      intros j y Hj Hy. destruct (Nat.eq_dec j k) as [->|]; [replace y with x by congruence; lra|]. apply (E4 j y); [lia|assumption].
  - cbn in *. subst o. exists mz, i. split; [exact E|]. exists a. repeat split; auto.
    intros x Hx. apply In_nth_error in Hx as [j Hj]. apply (E4 j x); [|assumption].
    assert (j < length arr)%nat by (apply nth_error_Some; congruence). lia.
Qed.

Lemma cq_push_ok K seen (s : cq X) (e : cpix X) : (1 <= K)%nat -> 0 <= c_z e -> cqinv K seen s ->
  exists s', cq_push K s e = Ok s' /\ cqinv K (seen ++ [tup e]) s'.
Proof.
  intros HK Hz [HS HE HM]. unfold cq_push.
  assert (HL := proj1 HS). rewrite map_length in HL.
  destruct (length (q_arr s) <? K)%nat eqn:El.
  - apply Nat.ltb_lt in El. eexists. split; [reflexivity|]. constructor; cbn [q_arr q_max_z q_max_idx].
    + rewrite map_app. cbn [map]. apply sel_snoc_grow; [rewrite map_length; assumption|assumption].
    + intros H. destruct (q_arr s); discriminate.
    + intros _. destruct (Rltb (q_max_z s) (c_z e)) eqn:Em.
      * apply Rltb_true in Em. exists (length (q_arr s)), e. repeat split.
        -- rewrite nth_error_app2 by lia. rewrite Nat.sub_diag. reflexivity.
        -- intros x Hx. apply in_app_or in Hx as [Hx|[<-|[]]]; [|lra].
           destruct HM as (mi & a & _ & _ & _ & HM); [intros H0; rewrite H0 in Hx; destruct Hx|]. specialize (HM x Hx). lra.
      * apply Rltb_false in Em.
        destruct HM as (mi & a & E1 & E2 & E3 & HM).
        { intros H0. rewrite HE in Em by assumption. lra. }
        exists mi, a. repeat split; auto.
        -- rewrite nth_error_app1 by (apply nth_error_Some; congruence). assumption.
        -- intros x Hx. apply in_app_or in Hx as [Hx|[<-|[]]]; [auto|lra].
  - apply Nat.ltb_ge in El.
    assert (Hne : q_arr s <> []) by (intros H0; rewrite H0 in El; cbn in El; lia).
    destruct (HM Hne) as (mi & a & E1 & E2 & E3 & HM').
    destruct (Rltb (c_z e) (q_max_z s)) eqn:Em.
    + apply Rltb_true in Em. rewrite E1.
      assert (Hmi : (mi < length (q_arr s))%nat) by (apply nth_error_Some; congruence).
      destruct (upd_ok (q_arr s) mi e Hmi) as [arr Ea]. rewrite Ea. cbn [rbind].
      destruct (rescan K arr mi e) as (mz & i & Er & b & Eb & Ez & Hb).
      { rewrite (upd_length _ _ _ _ Ea). lia. }
      { apply (upd_same _ _ _ _ Ea). }
      rewrite Er. cbn [rbind fst snd]. eexists. split; [reflexivity|].
      destruct (upd_split _ _ _ _ e Ea) as (l1 & l2 & Q1 & Q2 & Q3).
      assert (Ha : nth mi (q_arr s) e = a) by (apply nth_error_nth; assumption). rewrite Ha in Q1.
      constructor; cbn [q_arr q_max_z q_max_idx].
      * rewrite Q2. rewrite Q1 in HS. rewrite map_app in *. cbn [map] in *.
        apply (sel_replace K seen (map tup l1) (map tup l2) (tup a) (tup e)); [| |cbn; lra|exact HS].
        -- rewrite app_length. cbn [length]. rewrite !map_length. rewrite Q1, app_length in El, HL. cbn [length] in *. lia.
        -- intros x Hx. change (In x (map tup l1 ++ map tup (a :: l2))) in Hx. rewrite <- map_app in Hx. apply in_map_iff in Hx as [y [<- Hy]]. cbn. rewrite E3. apply HM'. rewrite Q1. exact Hy.
      * intros H0. rewrite Q2 in H0. destruct l1; discriminate.
      * intros _. exists i, b. auto.
    + apply Rltb_false in Em. exists s. split; [reflexivity|]. constructor; [|assumption|assumption].
      apply sel_reject; [rewrite map_length; lia| |assumption].
      intros x Hx. apply in_map_iff in Hx as [y [<- Hy]]. specialize (HM' y Hy). cbn. lra.
Qed.

Lemma cqinv_init K : cqinv K [] (@cq_init X).
Proof.
  constructor; cbn.
  - split; [cbn; lia|]. exists []. split; [reflexivity|intros ? ? []].
  - reflexivity.
  - congruence.
Qed.

Lemma cuda_fold K (hit : nat -> option (R * X)) (step : nat -> cq X -> cpix X -> result (cq X)) : (1 <= K)%nat ->
  forall cand, (forall i z x, In i cand -> hit i = Some (z, x) -> 0 <= z) ->
  (forall i s e, In i cand -> step i s e = cq_push K s e) ->
  exists s, rfold (fun s i => match hit i with Some (z, x) => step i s (CPix z i x) | None => Ok s end) cand cq_init = Ok s /\
    cqinv K (cands hit cand) s.
Proof.
  intros HK.
  assert (G : forall cand seen s, cqinv K seen s -> (forall i z x, In i cand -> hit i = Some (z, x) -> 0 <= z) ->
    (forall i s e, In i cand -> step i s e = cq_push K s e) ->
    exists s', rfold (fun s i => match hit i with Some (z, x) => step i s (CPix z i x) | None => Ok s end) cand s = Ok s' /\
    cqinv K (seen ++ cands hit cand) s').
  { induction cand as [|i cand IH]; intros seen s I Hz Hs; cbn [rfold cands flat_map].
    - exists s. rewrite app_nil_r. auto.
    - destruct (hit i) as [[z x]|] eqn:Eh.
      + rewrite Hs by (left; reflexivity).
        destruct (cq_push_ok K seen s (CPix z i x) HK (Hz i z x (or_introl eq_refl) Eh) I) as [s' [E' I']].
        rewrite E'. cbn [rbind]. rewrite app_assoc. apply IH; [exact I'| |]; intros; [eapply Hz|eapply Hs]; eauto; right; assumption.
      + cbn [app]. apply IH; [exact I| |]; intros; [eapply Hz|eapply Hs]; eauto; right; assumption. }
  intros cand Hz Hs. exact (G cand [] cq_init (cqinv_init K) Hz Hs).
Qed.

Lemma sorted_ascending (l : list (cpix X)) ltb : (forall a b, ltb b a = false -> c_z a <= c_z b) ->
  StronglySorted (fun a b => ltb b a = false) l -> ascending (map tup l).
Proof.
  intros Hl HS i j a b Hij Ha Hb. rewrite nth_error_map in Ha, Hb.
  destruct (nth_error l i) as [a'|] eqn:Ea; [|discriminate]. destruct (nth_error l j) as [b'|] eqn:Eb; [|discriminate].
  cbn in Ha, Hb. injection Ha as <-. injection Hb as <-. cbn. apply Hl.
  exact (sorted_nth ltb l HS i j a' b' Hij Ea Eb).
Qed.

Lemma cuda_tail K seen (s : cq X) ltb :
  (forall a b c : cpix X, ltb b a = false -> ltb c b = false -> ltb c a = false) ->
  (forall a b : cpix X, ltb a b = true -> ltb b a = false) ->
  (forall a b : cpix X, ltb b a = false -> c_z a <= c_z b) ->
  cqinv K seen s -> selects_smallest K seen (map tup (bubble_sort ltb (q_arr s))) /\
    ascending (map tup (bubble_sort ltb (q_arr s))).
Proof.
  intros T A L [HS _ _]. destruct (bubble_sort_ok ltb T A (q_arr s)) as [P S]. split.
  - eapply sel_perm; [|exact HS]. apply Permutation_map. assumption.
  - eapply sorted_ascending; eassumption.
Qed.

(* with pairwise distinct depths the selection is the (depth, index) one *)
Lemma selects_selection K (hit : nat -> option (R * X)) prims q : NoDup prims -> distinct_depths hit prims ->
  selects_smallest K (cands hit prims) q -> ascending q -> selection hit prims K q.
Proof.
  intros ND DD [HL [rest [HP HR]]] HA.
  assert (NDi : NoDup (map (fun e : R * (nat * X) => fst (snd e)) (q ++ rest))).
  { eapply Permutation_NoDup; [apply Permutation_map; exact HP|]. rewrite cands_idx. apply hits_NoDup, ND. }
  assert (Hd : forall a b, In a (q ++ rest) -> In b (q ++ rest) -> fst (snd a) <> fst (snd b) -> fst a <= fst b -> before (key a) (key b)).
  { intros a b Ha Hb Hne Hle. left. cbn. destruct Hle as [|Heq]; [assumption|]. exfalso. apply Hne.
    eapply Permutation_in in Ha; [|symmetry; exact HP]. eapply Permutation_in in Hb; [|symmetry; exact HP].
    apply cands_in in Ha as [Ha Ha']. apply cands_in in Hb as [Hb Hb']. rewrite Heq in Ha'. eapply DD; eassumption. }
  constructor; [exact HL| |].
  - intros i j a b Hij Ha Hb. apply Hd.
    + apply in_or_app. left. eapply nth_error_In; eassumption.
    + apply in_or_app. left. eapply nth_error_In; eassumption.
    + intros Heq. assert (i = j); [|lia]. rewrite map_app in NDi. apply NoDup_app_l in NDi.
      apply (proj1 (NoDup_nth_error _) NDi).
      * rewrite map_length. apply nth_error_Some. congruence.
      * rewrite !nth_error_map, Ha, Hb. cbn. f_equal. assumption.
    + eapply HA; eassumption.
  - exists rest. split; [assumption|]. intros a b Ha Hb. apply Hd; try (apply in_or_app; auto); [|apply HR; assumption].
    intros Heq. rewrite map_app in NDi. clear - NDi Ha Hb Heq.
    induction q as [|c q IH]; [destruct Ha|]. cbn in NDi. inversion NDi; subst.
    destruct Ha as [->|Ha]; [|auto]. apply H1. apply in_or_app. right. rewrite Heq. apply in_map_iff. eauto.
Qed.
Lemma cuda_rows (pad : X) K hit prims l : selection hit prims K (map tup l) ->
  pixel_topk pad hit prims K (cuda_idx K l) (cuda_z K l) (fun k => nth k (cuda_pay K pad l) pad).
Proof.
  intros S. apply (selection_topk pad (fun x => x)) in S. unfold cuda_idx, cuda_z, cuda_pay.
  rewrite !map_map in S. cbn [tup fst snd] in S. eapply pixel_topk_ext; [| |exact S]; [|reflexivity].
  intros i _. change (fst (option_map (fun h : R * X => (fst h, snd h)) (hit i), tt) = hit i). cbn [fst].
  destruct (hit i) as [[z d]|]; reflexivity.
Qed.
End Cuda.

Lemma cuda_mesh_ok K hit nbr cand : (1 <= K)%nat -> (forall i z x, In i cand -> hit i = Some (z, x) -> 0 <= z) ->
  (forall i, In i cand -> nbr i = (-1)%Z) ->
  exists l, cuda_mesh_pixel K hit nbr cand = Ok l /\ selects_smallest K (cands hit cand) (map tup l) /\ ascending (map tup l).
Proof.
  intros HK Hz Hn. unfold cuda_mesh_pixel.
  destruct (cuda_fold K hit (fun i => cq_mesh_step K (nbr i)) HK cand Hz) as [s [E I]].
  { intros i s e Hi. unfold cq_mesh_step. rewrite Hn by assumption. reflexivity. }
  rewrite E. cbn [rbind]. eexists. split; [reflexivity|]. apply cuda_tail.
  - apply cmesh_tr.
  - apply cmesh_asym.
  - intros a b H. unfold cmesh_ltb in H. apply Bool.orb_false_iff in H as [H _]. apply Rltb_false in H. lra.
  - exact I.
Qed.
Lemma cuda_point_ok K hit cand : (1 <= K)%nat -> (forall i z x, In i cand -> hit i = Some (z, x) -> 0 <= z) ->
  exists l, cuda_point_pixel K hit cand = Ok l /\ selects_smallest K (cands hit cand) (map tup l) /\ ascending (map tup l).
Proof.
  intros HK Hz. unfold cuda_point_pixel.
  destruct (cuda_fold K hit (fun i => cq_push K) HK cand Hz) as [s [E I]]; [reflexivity|].
  rewrite E. cbn [rbind]. eexists. split; [reflexivity|]. apply cuda_tail.
  - apply cpoint_tr.
  - apply cpoint_asym.
  - intros a b H. apply Rltb_false in H. lra.
  - exact I.
Qed.

Lemma face_hit_cuda_eq o f p : face_hit_cuda o f p = face_hit o f p.
Proof.
  unfold face_hit_cuda, face_hit.
  destruct (o_cull o && Rltb (face_area f) 0); [rewrite Bool.orb_true_r; reflexivity|].
  rewrite Bool.orb_false_r.
  destruct (Rleb (face_area f) kEps && Rleb (-1 * kEps) (face_area f)); [rewrite Bool.orb_true_r; reflexivity|].
  rewrite Bool.orb_false_r. destruct (outside_bbox f (sqrt (o_blur o)) p) eqn:Eb; [rewrite Bool.orb_true_r; reflexivity|].
  rewrite Bool.orb_false_r. destruct (Rltb (fmax z3 f) 0) eqn:Ez; [|reflexivity]. exfalso.
  unfold outside_bbox in Eb. apply Bool.orb_false_iff in Eb as [_ Eb]. apply Rltb_false in Eb. apply Rltb_true in Ez.
  assert (H := kEps_pos). unfold fmax, fmin, max3, min3 in *.
  assert (H1 := Rmin_l (z3 (fv0 f)) (Rmin (z3 (fv1 f)) (z3 (fv2 f)))).
  assert (H2 := Rmax_l (z3 (fv0 f)) (Rmax (z3 (fv1 f)) (z3 (fv2 f)))). lra.
Qed.
Lemma face_hit_depth o f p z x : face_hit o f p = Some (z, x) -> 0 <= z.
Proof.
  unfold face_hit. destruct (o_cull o && _); [discriminate|].
  destruct (Rleb (face_area f) kEps && _); [discriminate|].
  destruct (outside_bbox _ _ _); [discriminate|]. destruct (Rltb (face_depth o f p) 0) eqn:E; [discriminate|].
  destruct (negb (face_inside o f p) && _); [discriminate|]. intros [= <- _]. apply Rltb_false in E. lra.
Qed.
Lemma point_hit_depth p q z d : point_hit p q = Some (z, d) -> 0 <= z.
Proof.
  unfold point_hit. destruct (Rltb (z3 (pt_pos q)) 0) eqn:E; [discriminate|].
  destruct (Rltb (_ + _) _); [|discriminate]. intros [= <- _]. apply Rltb_false in E. lra.
Qed.
