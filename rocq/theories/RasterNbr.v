From Coq Require Import Sorted.
From Verif Require Import Base RBase TopK MinKSpec MinKProofs Geom GeomSpec GeomProofs GeomRefute Knn KnnProofs Raster RasterSpec RasterProofs RasterCuda RasterCoarse.
Local Open Scope R_scope.

(* ------------ clipped-face neighbours ------------ *)
Lemma find_idx_some {A} (P : A -> bool) l : forall i, find_idx P l = Some i ->
  exists l1 x l2, l = l1 ++ x :: l2 /\ length l1 = i /\ P x = true.
Proof.
  induction l as [|a l IH]; intros i H; cbn in H; [discriminate|].
  destruct (P a) eqn:E.
  - injection H as <-. exists [], a, l. auto.
  - destruct (find_idx P l) as [j|] eqn:Ej; [|discriminate]. cbn in H. injection H as <-.
    destruct (IH j eq_refl) as (l1 & x & l2 & -> & <- & Hx). exists (a :: l1), x, l2. auto.
Qed.
Lemma find_idx_none {A} (P : A -> bool) l : find_idx P l = None -> forall x, In x l -> P x = false.
Proof.
  induction l as [|a l IH]; intros H x Hx; [destruct Hx|]. cbn in H.
  destruct (P a) eqn:E; [discriminate|]. destruct (find_idx P l); [discriminate|].
  destruct Hx as [<-|Hx]; auto.
Qed.
Lemma replace_nth_app {A} (l1 : list A) x l2 v : replace_nth (length l1) v (l1 ++ x :: l2) = l1 ++ v :: l2.
Proof. induction l1 as [|a l1 IH]; cbn; [reflexivity|]. rewrite IH. reflexivity. Qed.

Record ninv (K : nat) (hit : nat -> option (R * (R * vec3))) (nbr : nat -> Z) (seen : list nat) (q : list fentry) : Prop := {
  ni_len : (length q <= K)%nat;
  ni_sorted : StronglySorted (le fentry_ltb) q;
  ni_hit : forall e, In e q -> In (fe_idx e) seen /\ exists h, hit (fe_idx e) = Some h /\ e = mk_fentry (fe_idx e) h;
  ni_nodup : NoDup (map fe_idx q);
  ni_pair : forall a b, In a q -> In b q -> nbr (fe_idx a) <> Z.of_nat (fe_idx b) }.

Lemma incl_removelast {A} (l : list A) x : In x (removelast l) -> In x l.
Proof.
  induction l as [|a l IH]; intros H; [destruct H|]. destruct l as [|b l]; [destruct H|].
  cbn [removelast] in H. destruct H as [->|H]; [left; reflexivity|right; auto].
Qed.
Lemma nodup_removelast {A B} (f : A -> B) l : NoDup (map f l) -> NoDup (map f (removelast l)).
Proof.
  induction l as [|a l IH]; intros H; [constructor|]. destruct l as [|b l]; [constructor|].
  change (NoDup (map f (a :: removelast (b :: l)))). cbn [map] in *. inversion H as [|? ? H1 H2]; subst. constructor; [|auto].
  intros C. apply H1. apply in_map_iff in C as [x [E Hx]]. apply incl_removelast in Hx. rewrite <- E. exact (in_map f _ _ Hx).
Qed.
Lemma sorted_removelast {A} (P : A -> A -> Prop) l : StronglySorted P l -> StronglySorted P (removelast l).
Proof.
  induction 1 as [|a l S IH F]; [constructor|]. destruct l as [|b l]; [constructor|].
  change (StronglySorted P (a :: removelast (b :: l))). constructor; [assumption|].
  rewrite Forall_forall in *. intros x Hx. apply F. apply incl_removelast. assumption.
Qed.

(* the tail of a step: sort, then drop the last if there are too many *)
Lemma ninv_finish K hit nbr seen (q1 : list fentry) : (length q1 <= S K)%nat ->
  (forall e, In e q1 -> In (fe_idx e) seen /\ exists h, hit (fe_idx e) = Some h /\ e = mk_fentry (fe_idx e) h) ->
  NoDup (map fe_idx q1) -> (forall a b, In a q1 -> In b q1 -> nbr (fe_idx a) <> Z.of_nat (fe_idx b)) ->
  ninv K hit nbr seen (let q2 := isort fentry_ltb q1 in if (K <? length q2)%nat then removelast q2 else q2).
Proof.
  intros HL HH HN HP. assert (P := isort_perm fentry_ltb q1). set (q2 := isort fentry_ltb q1) in *. cbv zeta.
  assert (L2 : length q2 = length q1) by (apply Permutation_length; assumption).
  assert (S2 : StronglySorted (le fentry_ltb) q2) by (apply (isort_sorted _ fentry_strict)).
  assert (N2 : NoDup (map fe_idx q2)) by (eapply Permutation_NoDup; [apply Permutation_map; symmetry; exact P|assumption]).
  assert (I2 : forall x, In x q2 -> In x q1) by (intros; eapply Permutation_in; eassumption).
  destruct (K <? length q2)%nat eqn:E.
  - constructor.
    + rewrite removelast_firstn, firstn_length. lia.
    + apply sorted_removelast. assumption.
    + intros e He. apply HH, I2, incl_removelast, He.
    + apply nodup_removelast. assumption.
    + intros a b Ha Hb. apply HP; apply I2, incl_removelast; assumption.
  - apply Nat.ltb_ge in E. constructor; auto.
Qed.

Lemma fe_idx_mk i h : fe_idx (mk_fentry i h) = i.
Proof. destruct h as [z [d b]]. reflexivity. Qed.

Lemma mesh_step_inv K hit nbr seen q i h : ninv K hit nbr seen q -> ~ In i seen -> hit i = Some h ->
  (forall j, In j seen -> nbr j = Z.of_nat i -> nbr i = Z.of_nat j) -> nbr i <> Z.of_nat i ->
  ninv K hit nbr (i :: seen) (mesh_step K (nbr i) q (mk_fentry i h)).
Proof.
  intros [HL HS HH HN HP] Hi Hh Hsym Hself. unfold mesh_step.
  set (e := mk_fentry i h). assert (Ei : fe_idx e = i) by apply fe_idx_mk.
  assert (HH' : forall x, In x q -> In (fe_idx x) (i :: seen) /\ exists h, hit (fe_idx x) = Some h /\ x = mk_fentry (fe_idx x) h).
  { intros x Hx. destruct (HH x Hx) as [H1 H2]. split; [right; assumption|assumption]. }
  assert (He : In (fe_idx e) (i :: seen) /\ exists h, hit (fe_idx e) = Some h /\ e = mk_fentry (fe_idx e) h).
  { rewrite Ei. split; [left; reflexivity|]. exists h. auto. }
  assert (Hni : ~ In i (map fe_idx q)).
  { intros C. apply in_map_iff in C as [x [Ex Hx]]. destruct (HH x Hx) as [C _]. rewrite Ex in C. contradiction. }
  assert (Hback : forall x, In x q -> nbr (fe_idx x) = Z.of_nat i -> nbr i = Z.of_nat (fe_idx x)).
  { intros x Hx Hnx. apply Hsym; [|assumption]. apply HH. assumption. }
  assert (Hpush : (forall x, In x q -> nbr i <> Z.of_nat (fe_idx x)) ->
     ninv K hit nbr (i :: seen) (let q2 := isort fentry_ltb (q ++ [e]) in if (K <? length q2)%nat then removelast q2 else q2)).
  { intros Hno. apply ninv_finish.
    - rewrite app_length. cbn. lia.
    - intros x Hx. apply in_app_or in Hx as [Hx|[<-|[]]]; auto.
    - rewrite map_app. cbn [map]. rewrite Ei. eapply Permutation_NoDup; [apply Permutation_cons_append|]. constructor; assumption.
    - intros a b Ha Hb. apply in_app_or in Ha as [Ha|[<-|[]]]; apply in_app_or in Hb as [Hb|[<-|[]]]; rewrite ?Ei; auto.
      intros C. apply (Hno a Ha). apply Hback; assumption. }
  destruct (nbr i =? -1)%Z eqn:En.
  - apply Z.eqb_eq in En. apply Hpush. intros x Hx. rewrite En. lia.
  - destruct (find_idx (fun x => (Z.of_nat (fe_idx x) =? nbr i)%Z) q) as [k|] eqn:Ef.
    + destruct (find_idx_some _ _ _ Ef) as (l1 & nb & l2 & Eq & El & Enb). apply Z.eqb_eq in Enb.
      assert (Enth : nth_error q k = Some nb) by (rewrite Eq, nth_error_app2, El, Nat.sub_diag by lia; reflexivity).
      assert (Erep : replace_nth k e q = l1 ++ e :: l2) by (rewrite Eq, <- El; apply replace_nth_app).
      rewrite Enth, Erep. clear Enth Erep.
      destruct (Rltb (Rabs (fe_dist e)) (Rabs (fe_dist nb))).
      * assert (Hin : forall x, In x (l1 ++ e :: l2) -> x = e \/ (In x q /\ fe_idx x <> fe_idx nb)).
        { assert (ND := HN). rewrite Eq, map_app in ND. cbn [map] in ND.
          assert (ND' := NoDup_remove_2 _ _ _ ND).
          intros x Hx. apply in_app_or in Hx as [Hx|[<-|Hx]]; [right|left; reflexivity|right].
          - split; [rewrite Eq; apply in_or_app; left; assumption|]. intros C. apply ND'. rewrite <- C. apply in_or_app. left. apply in_map. assumption.
          - split; [rewrite Eq; apply in_or_app; right; right; assumption|]. intros C. apply ND'. rewrite <- C. apply in_or_app. right. apply in_map. assumption. }
        apply ninv_finish.
        -- rewrite Eq, app_length in HL. rewrite app_length. cbn in *. lia.
        -- intros x Hx. destruct (Hin x Hx) as [->|[Hx' _]]; auto.
        -- rewrite map_app. cbn [map]. rewrite Ei. rewrite Eq, map_app in HN. cbn [map] in HN.
           apply NoDup_remove in HN as [HN1 HN2]. eapply Permutation_NoDup; [apply Permutation_middle|]. constructor; [|assumption].
           intros C. apply Hni. rewrite Eq, map_app. cbn [map]. apply in_app_or in C as [C|C]; apply in_or_app; [left|right; right]; assumption.
        -- intros a b Ha Hb. destruct (Hin a Ha) as [->|[Ha' Ha2]]; destruct (Hin b Hb) as [->|[Hb' Hb2]]; rewrite ?Ei; auto.
           ++ intros C. apply Hb2. rewrite C in Enb. apply Nat2Z.inj in Enb. auto.
           ++ intros C. apply Hback in C; [|assumption]. apply Ha2. rewrite C in Enb. apply Nat2Z.inj in Enb. auto.
      * apply ninv_finish; auto.
    + apply Hpush. intros x Hx C. assert (X := find_idx_none _ _ Ef x Hx). cbn beta in X. apply Z.eqb_neq in X. auto.
Qed.

Lemma mesh_queue_inv K hit nbr faces : NoDup faces ->
  (forall i j, In i faces -> In j faces -> nbr j = Z.of_nat i -> nbr i = Z.of_nat j) ->
  (forall i, In i faces -> nbr i <> Z.of_nat i) ->
  exists q, mesh_queue K (fun i => Ok (hit i)) (fun i => Ok (nbr i)) faces = Ok q /\ ninv K hit nbr (rev faces) q.
Proof.
  intros ND Hs Hself. unfold mesh_queue.
  assert (G : forall todo seen q, NoDup (rev todo ++ seen) -> (forall i, In i todo -> In i faces) -> (forall i, In i seen -> In i faces) ->
     ninv K hit nbr seen q -> exists q', rfold (fun q i => h <- Ok (hit i) ;; match h with Some x => nb <- Ok (nbr i) ;; Ok (mesh_step K nb q (mk_fentry i x)) | None => Ok q end) todo q = Ok q' /\
       ninv K hit nbr (rev todo ++ seen) q').
  { induction todo as [|i todo IH]; intros seen q N Ht Hsn I; cbn [rfold rev app].
    - exists q. auto.
    - cbn [rbind]. cbn [rev] in N. rewrite <- app_assoc in N. cbn [app] in N.
      assert (Hi : ~ In i seen).
      { apply NoDup_remove_2 in N. intros C. apply N. apply in_or_app. right. assumption. }
      rewrite <- app_assoc. cbn [app].
      destruct (hit i) as [h|] eqn:Eh; cbn [rbind].
      + apply IH; auto.
        * intros; apply Ht; right; assumption.
        * intros j [<-|Hj]; [apply Ht; left; reflexivity|auto].
        * apply mesh_step_inv; auto.
          -- intros j Hj Hn. apply Hs; auto. apply Ht. left. reflexivity.
          -- apply Hself, Ht. left. reflexivity.
      + apply IH; auto.
        * intros; apply Ht; right; assumption.
        * intros j [<-|Hj]; [apply Ht; left; reflexivity|auto].
        * destruct I as [I1 I2 I3 I4 I5]. constructor; auto. intros e He. destruct (I3 e He). split; [right|]; assumption. }
  destruct (G faces [] []) as [q [E I]].
  - rewrite app_nil_r. apply NoDup_rev. assumption.
  - auto.
  - intros i [].
  - split; [cbn; lia|constructor|intros ? []|constructor|intros ? ? []].
  - exists q. split; [exact E|]. rewrite app_nil_r in I. exact I.
Qed.

(* ------------ counterexamples ------------ *)
Ltac rb := repeat match goal with
  | |- context[Rltb ?a ?b] =>
      lazymatch a with context[if _ then _ else _] => fail | _ => idtac end;
      lazymatch b with context[if _ then _ else _] => fail | _ => idtac end;
      destruct (Rltb_spec a b); try lra; cbn -[Rltb Reqb Rabs]
  | |- context[Reqb ?a ?b] => destruct (Reqb_spec a b); try lra; cbn -[Rltb Reqb Rabs]
  end.

Definition nb_hit (i : nat) : option (R * (R * vec3)) :=
  match i with
  | O => Some (5, (1, V3 0 0 0)) | 1%nat => Some (1, (2, V3 0 0 0)) | 2%nat => Some (3, (0, V3 0 0 0))
  | _ => None
  end.
Definition nb_nbr (i : nat) : Z := match i with O => 1%Z | 1%nat => 0%Z | _ => (-1)%Z end.
Lemma nb_abs : Rabs 1 = 1 /\ Rabs 2 = 2 /\ Rabs 0 = 0.
Proof. repeat split; apply Rabs_right; lra. Qed.
Lemma mesh_order_nbr_refuted : ~ (forall K hit nbr faces faces',
  Permutation faces faces' -> NoDup faces ->
  (forall i j, In i faces -> In j faces -> nbr j = Z.of_nat i -> nbr i = Z.of_nat j) ->
  mesh_queue K (fun i => Ok (hit i)) (fun i => Ok (nbr i)) faces =
  mesh_queue K (fun i => Ok (hit i)) (fun i => Ok (nbr i)) faces').
Proof.
  intros C. specialize (C 1%nat nb_hit nb_nbr [0; 2; 1]%nat [0; 1; 2]%nat).
  assert (A : mesh_queue 1 (fun i => Ok (nb_hit i)) (fun i => Ok (nb_nbr i)) [0; 2; 1]%nat = Ok [mk_fentry 1 (1, (2, V3 0 0 0))]).
  { unfold mesh_queue. cbn -[Rltb mesh_step]. unfold mesh_step. cbn -[Rltb isort]. unfold isort. cbn -[Rltb].
    unfold fentry_ltb, lexb. cbn -[Rltb]. rb. reflexivity. }
  assert (B : mesh_queue 1 (fun i => Ok (nb_hit i)) (fun i => Ok (nb_nbr i)) [0; 1; 2]%nat = Ok [mk_fentry 2 (3, (0, V3 0 0 0))]).
  { unfold mesh_queue. cbn -[Rltb mesh_step]. unfold mesh_step. cbn -[Rltb isort Rabs]. unfold isort. cbn -[Rltb Rabs].
    unfold fentry_ltb, lexb, fe_dist. cbn -[Rltb Rabs]. destruct nb_abs as [A1 [A2 A3]]. rewrite A1, A2. rb. reflexivity. }
  rewrite A, B in C. assert (X : 1%nat = 2%nat); [|discriminate X].
  assert (H := C ltac:(apply perm_skip, perm_swap) ltac:(repeat constructor; cbn; intuition discriminate)).
  assert (H' := H ltac:(intros i j Hi Hj; cbn in Hi, Hj; destruct Hi as [<-|[<-|[<-|[]]]]; destruct Hj as [<-|[<-|[<-|[]]]]; cbn; congruence)).
  apply (f_equal (fun r => match r with Ok q => map fe_idx q | Fail _ => [] end)) in H'. cbn in H'. congruence.
Qed.

(* CUDA: overwriting the neighbour in the slot of the current maximum leaves q_max_z stale *)
Definition st_hit (i : nat) : option (R * (R * vec3)) :=
  match i with
  | O => Some (5, (2, V3 0 0 0)) | 1%nat => Some (1, (1, V3 0 0 0)) | 2%nat => Some (3, (0, V3 0 0 0))
  | _ => None
  end.
Lemma cuda_cpu_nbr_refuted : ~ (forall K hit nbr faces, (1 <= K)%nat -> NoDup faces ->
  (forall i j, In i faces -> In j faces -> nbr j = Z.of_nat i -> nbr i = Z.of_nat j) ->
  (forall i z x, hit i = Some (z, x) -> 0 <= z) ->
  exists q l, mesh_queue K (fun i => Ok (hit i)) (fun i => Ok (nbr i)) faces = Ok q /\
    cuda_mesh_pixel K hit nbr faces = Ok l /\ map fe_idx q = map c_idx l).
Proof.
  intros C. destruct (C 1%nat st_hit nb_nbr [0; 1; 2]%nat) as (q & l & Eq & El & E).
  - lia.
  - repeat constructor; cbn; intuition discriminate.
  - intros i j Hi Hj; cbn in Hi, Hj; destruct Hi as [<-|[<-|[<-|[]]]]; destruct Hj as [<-|[<-|[<-|[]]]]; cbn; congruence.
  - intros [|[|[|i]]] z x H; cbn in H; try discriminate; injection H as <- <-; lra.
  - destruct nb_abs as [A1 [A2 A3]].
    assert (B : mesh_queue 1 (fun i => Ok (st_hit i)) (fun i => Ok (nb_nbr i)) [0; 1; 2]%nat = Ok [mk_fentry 1 (1, (1, V3 0 0 0))]).
    { unfold mesh_queue. cbn -[Rltb mesh_step]. unfold mesh_step. cbn -[Rltb isort Rabs]. unfold isort. cbn -[Rltb Rabs].
      unfold fentry_ltb, lexb, fe_dist. cbn -[Rltb Rabs]. rewrite A1, A2. rb. reflexivity. }
    rewrite B in Eq. injection Eq as <-.
    assert (D : cuda_mesh_pixel 1 st_hit nb_nbr [0; 1; 2]%nat = Ok [CPix 3 2 (0, V3 0 0 0)]).
    { unfold cuda_mesh_pixel. cbn -[Rltb cq_mesh_step bubble_sort]. unfold cq_mesh_step, cq_push. cbn -[Rltb Rabs]. rewrite A1, A2. rb. reflexivity. }
    rewrite D in El. injection El as <-. cbn in E. discriminate.
Qed.

(* CUDA: among equal depths the kept face need not be the one of smallest index *)
Definition tie_hit (i : nat) : option (R * (R * vec3)) :=
  match i with
  | O => Some (5, (0, V3 0 0 0)) | 1%nat => Some (5, (0, V3 0 0 0)) | 2%nat => Some (1, (0, V3 0 0 0))
  | _ => None
  end.
Lemma cuda_ties_refuted : ~ (forall K hit cand pad, (1 <= K)%nat -> NoDup cand ->
  (forall i z x, hit i = Some (z, x) -> 0 <= z) ->
  exists l, cuda_mesh_pixel K hit (fun _ => (-1)%Z) cand = Ok l /\
    pixel_topk pad hit cand K (cuda_idx K l) (cuda_z K l) (fun k => nth k (cuda_pay K pad l) pad)).
Proof.
  intros C. destruct (C 2%nat tie_hit [0; 1; 2]%nat pad_pay) as (l & El & T).
  - lia.
  - repeat constructor; cbn; intuition discriminate.
  - intros [|[|[|i]]] z x H; cbn in H; try discriminate; injection H as <- <-; lra.
  - assert (D : cuda_mesh_pixel 2 tie_hit (fun _ => (-1)%Z) [0; 1; 2]%nat = Ok [CPix 1 2 (0, V3 0 0 0); CPix 5 1 (0, V3 0 0 0)]).
    { unfold cuda_mesh_pixel. cbn -[Rltb cq_mesh_step bubble_sort]. unfold cq_mesh_step, cq_push. cbn -[Rltb bubble_sort]. rb.
      unfold bubble_sort, cmesh_ltb. cbn -[Rltb Reqb]. rb. reflexivity. }
    rewrite D in El. injection El as <-. destruct T as [_ _ _ _ T _].
    destruct (T 0%nat 5 (0, V3 0 0 0)) as [[k [Hk Ek]]|H].
    + left; reflexivity.
    + reflexivity.
    + cbn in Hk. destruct k as [|[|k]]; [| |lia]; cbn in Ek; discriminate.
    + specialize (H 1%nat ltac:(cbn; lia)). cbn in H. unfold before in H. cbn in H. destruct H as [H|[_ H]]; [lra|lia].
Qed.

(* ------------ thread decoding of the fine kernels ------------ *)
Lemma decode_encode BH BW bs n by_ bx r c : (0 < bs)%nat -> (by_ < BH)%nat -> (bx < BW)%nat -> (r < bs)%nat -> (c < bs)%nat ->
  fine_decode BH BW bs (n * (BH * BW * bs * bs) + (by_ * (BW * bs * bs) + (bx * (bs * bs) + (r * bs + c)))) =
  (n, (by_, bx), (r + by_ * bs, c + bx * bs)%nat).
Proof.
  intros Hb Hy Hx Hr Hc. unfold fine_decode.
  assert (P1 : (r * bs + c < bs * bs)%nat) by nia.
  assert (P2 : (bx * (bs * bs) + (r * bs + c) < BW * bs * bs)%nat).
  { assert (bx * (bs * bs) + bs * bs <= BW * (bs * bs))%nat by (rewrite <- (Nat.mul_1_l (bs * bs)) at 2; rewrite <- Nat.mul_add_distr_r; apply Nat.mul_le_mono_r; lia). rewrite <- Nat.mul_assoc. lia. }
  assert (P3 : (by_ * (BW * bs * bs) + (bx * (bs * bs) + (r * bs + c)) < BH * BW * bs * bs)%nat).
  { assert (by_ * (BW * bs * bs) + BW * bs * bs <= BH * (BW * bs * bs))%nat by (rewrite <- (Nat.mul_1_l (BW * bs * bs)) at 2; rewrite <- Nat.mul_add_distr_r; apply Nat.mul_le_mono_r; lia).
    replace (BH * BW * bs * bs)%nat with (BH * (BW * bs * bs))%nat by ring. lia. }
  assert (D : forall a m b, (b < m)%nat -> ((a * m + b) / m = a /\ (a * m + b) mod m = b)%nat).
  { intros a m b Hm. split.
    - rewrite Nat.div_add_l by lia. rewrite Nat.div_small by assumption. lia.
    - rewrite Nat.add_comm, Nat.mod_add by lia. apply Nat.mod_small. assumption. }
  destruct (D n _ _ P3) as [-> ->]. destruct (D by_ _ _ P2) as [-> ->]. destruct (D bx _ _ P1) as [-> ->].
  destruct (D r _ _ Hc) as [-> ->]. reflexivity.
Qed.
Lemma fine_decode_inv BH BW bs pid n by_ bx yi xi : (0 < bs)%nat -> (0 < BH)%nat -> (0 < BW)%nat ->
  fine_decode BH BW bs pid = (n, (by_, bx), (yi, xi)) ->
  pid = (n * (BH * BW * bs * bs) + ((yi / bs) * (BW * bs * bs) + ((xi / bs) * (bs * bs) + ((yi mod bs) * bs + xi mod bs))))%nat
  /\ by_ = (yi / bs)%nat /\ bx = (xi / bs)%nat.
Proof.
  intros Hb HH HW E. unfold fine_decode in E. injection E as <- <- <- <- <-.
  assert (N1 : (bs * bs <> 0)%nat) by nia.
  assert (N2 : (BW * bs * bs <> 0)%nat) by (rewrite <- Nat.mul_assoc; nia).
  assert (N3 : (BH * BW * bs * bs <> 0)%nat) by (replace (BH * BW * bs * bs)%nat with (BH * (BW * bs * bs))%nat by ring; nia).
  set (i1 := (pid mod (BH * BW * bs * bs))%nat). set (i2 := (i1 mod (BW * bs * bs))%nat). set (i3 := (i2 mod (bs * bs))%nat).
  assert (H3 : (i3 < bs * bs)%nat) by (apply Nat.mod_upper_bound; assumption).
  assert (Q : (i3 / bs < bs)%nat) by (apply Nat.div_lt_upper_bound; lia).
  assert (R1 : (i3 mod bs < bs)%nat) by (apply Nat.mod_upper_bound; lia).
  assert (D : forall a b, (b < bs)%nat -> ((b + a * bs) / bs = a /\ (b + a * bs) mod bs = b)%nat).
  { intros a b Hm. split.
    - rewrite Nat.div_add by lia. rewrite Nat.div_small by assumption. lia.
    - rewrite Nat.mod_add by lia. apply Nat.mod_small. assumption. }
  destruct (D (i1 / (BW * bs * bs))%nat _ Q) as [-> ->]. destruct (D (i2 / (bs * bs))%nat _ R1) as [-> ->].
  split; [|auto].
  assert (E3 := Nat.div_mod i3 bs ltac:(lia)). assert (E2 := Nat.div_mod i2 (bs * bs) N1). fold i3 in E2.
  assert (E1 := Nat.div_mod i1 (BW * bs * bs) N2). fold i2 in E1. assert (E0 := Nat.div_mod pid _ N3). fold i1 in E0.
  lia.
Qed.
Lemma num_bins_cover S bs i : (0 < bs)%nat -> (i < S)%nat -> (i / bs < num_bins S bs)%nat.
Proof.
  intros Hb Hi. unfold num_bins. assert (i / bs <= (S - 1) / bs)%nat by (apply Nat.div_le_mono; lia). lia.
Qed.
Lemma fine_threads N H W bs : (0 < bs)%nat ->
  forall n yi xi, (n < N)%nat -> (yi < H)%nat -> (xi < W)%nat ->
  exists! pid, (pid < N * num_bins H bs * num_bins W bs * bs * bs)%nat /\
    fine_decode (num_bins H bs) (num_bins W bs) bs pid = (n, ((yi / bs)%nat, (xi / bs)%nat), (yi, xi)).
Proof.
  intros Hb n yi xi Hn Hy Hx. set (BH := num_bins H bs). set (BW := num_bins W bs).
  assert (By : (yi / bs < BH)%nat) by (apply num_bins_cover; assumption).
  assert (Bx : (xi / bs < BW)%nat) by (apply num_bins_cover; assumption).
  assert (My : (yi mod bs < bs)%nat) by (apply Nat.mod_upper_bound; lia).
  assert (Mx : (xi mod bs < bs)%nat) by (apply Nat.mod_upper_bound; lia).
  exists (n * (BH * BW * bs * bs) + ((yi / bs) * (BW * bs * bs) + ((xi / bs) * (bs * bs) + ((yi mod bs) * bs + xi mod bs))))%nat.
  split; [split|].
  - assert (P1 : (yi mod bs * bs + xi mod bs < bs * bs)%nat) by nia.
    assert (P2 : (xi / bs * (bs * bs) + (yi mod bs * bs + xi mod bs) < BW * (bs * bs))%nat).
    { assert (xi / bs * (bs * bs) + bs * bs <= BW * (bs * bs))%nat by (rewrite <- (Nat.mul_1_l (bs * bs)) at 2; rewrite <- Nat.mul_add_distr_r; apply Nat.mul_le_mono_r; lia). lia. }
    assert (P3 : (yi / bs * (BW * (bs * bs)) + (xi / bs * (bs * bs) + (yi mod bs * bs + xi mod bs)) < BH * (BW * (bs * bs)))%nat).
    { assert (yi / bs * (BW * (bs * bs)) + BW * (bs * bs) <= BH * (BW * (bs * bs)))%nat by (rewrite <- (Nat.mul_1_l (BW * (bs * bs))) at 2; rewrite <- Nat.mul_add_distr_r; apply Nat.mul_le_mono_r; lia). lia. }
    assert (P4 : (n * (BH * (BW * (bs * bs))) + BH * (BW * (bs * bs)) <= N * (BH * (BW * (bs * bs))))%nat).
    { rewrite <- (Nat.mul_1_l (BH * (BW * (bs * bs)))) at 2; rewrite <- Nat.mul_add_distr_r; apply Nat.mul_le_mono_r; lia. }
    replace (BH * BW * bs * bs)%nat with (BH * (BW * (bs * bs)))%nat by ring.
    replace (BW * bs * bs)%nat with (BW * (bs * bs))%nat by ring.
    replace (N * BH * BW * bs * bs)%nat with (N * (BH * (BW * (bs * bs))))%nat by ring. lia.
  - rewrite decode_encode by assumption. repeat f_equal; rewrite Nat.add_comm, Nat.mul_comm; symmetry; apply Nat.div_mod; lia.
  - intros pid [_ E]. symmetry. apply (fine_decode_inv BH BW bs pid) in E; [tauto|exact Hb|apply Nat.lt_0_succ|apply Nat.lt_0_succ].
Qed.

(* ------------ CPU coarse stage ------------ *)
Lemma cpu_bin_min_eq w b : cpu_bin_min w b = -1 + INR b * w.
Proof. induction b as [|b IH]; [cbn; ring|]. cbn [cpu_bin_min]. rewrite IH, S_INR. ring. Qed.
Lemma cpu_overlap_square bs S bb by_ bx : (0 < S)%Z ->
  cpu_overlap bs S S bb by_ bx = cuda_overlap bs S S bb (Z.of_nat by_) (Z.of_nat bx).
Proof.
  intros HS. unfold cpu_overlap, cuda_overlap. rewrite !cpu_bin_min_eq, !cuda_bin_min_eq, !cuda_bin_max_eq by assumption.
  rewrite !Z.min_id, <- !INR_IZR_INZ, !S_INR.
  assert (HS' : IZR S <> 0) by (apply IZR_lt in HS; lra).
  assert (Ew : cpu_bin_width bs S S = 2 / IZR S * IZR bs).
  { unfold cpu_bin_width, ndc_range. rewrite Z.ltb_irrefl. reflexivity. }
  rewrite Ew. rewrite Bool.andb_comm. f_equal; f_equal; f_equal; field; assumption.
Qed.
Lemma cpu_bin_ok bs H W M bboxes start count by_ bx :
  let L := filter (fun f => negb (b_skip (bboxes f)) && cpu_overlap bs H W (bboxes f) by_ bx) (seq start count) in
  cpu_bin bs H W M bboxes start count by_ bx = if (length L <=? M)%nat then Ok L else Fail ERuntime.
Proof.
  unfold cpu_bin. cbv zeta.
  assert (G : forall l hits, (length hits <= M)%nat ->
     rfold (fun hits f => if b_skip (bboxes f) then Ok hits
        else if cpu_overlap bs H W (bboxes f) by_ bx then if (M <=? length hits)%nat then Fail ERuntime else Ok (hits ++ [f]) else Ok hits) l hits =
     if (length (hits ++ filter (fun f => negb (b_skip (bboxes f)) && cpu_overlap bs H W (bboxes f) by_ bx) l) <=? M)%nat
     then Ok (hits ++ filter (fun f => negb (b_skip (bboxes f)) && cpu_overlap bs H W (bboxes f) by_ bx) l) else Fail ERuntime).
  { induction l as [|f l IH]; intros hits HL; cbn [rfold filter].
    - rewrite app_nil_r. apply Nat.leb_le in HL. rewrite HL. reflexivity.
    - destruct (b_skip (bboxes f)); cbn [negb andb rbind]; [apply IH; assumption|].
      destruct (cpu_overlap bs H W (bboxes f) by_ bx); cbn [rbind]; [|apply IH; assumption].
      destruct (M <=? length hits)%nat eqn:E; cbn [rbind].
      + apply Nat.leb_le in E. rewrite app_length. cbn [length].
        replace (length hits + S _ <=? M)%nat with false; [reflexivity|]. symmetry. apply Nat.leb_gt. lia.
      + apply Nat.leb_gt in E. rewrite IH by (rewrite app_length; cbn; lia). rewrite <- app_assoc. reflexivity. }
  rewrite G by (cbn; lia). reflexivity.
Qed.
(* on a non-square image the CPU bins are not where the pixels are *)
Lemma cpu_coarse_refuted : ~ (forall bs H W p yo xo h, (0 < bs)%nat -> (yo < H)%nat -> (xo < W)%nat -> 0 <= pt_radius p ->
  point_hit (pix_center H W yo xo) p = Some h ->
  cpu_overlap (Z.of_nat bs) (Z.of_nat H) (Z.of_nat W) (point_bbox p) ((H - 1 - yo) / bs) ((W - 1 - xo) / bs) = true).
Proof.
  intros C. specialize (C 1%nat 1%nat 3%nat (Pt (V3 2 0 1) (1 / 2)) 0%nat 0%nat (1, 0)).
  assert (E1 : pix_center 1 3 0 0 = V2 2 0).
  { unfold pix_center. rewrite !pix_form by (cbn; lia). cbn. f_equal; field. }
  rewrite E1 in C.
  assert (E2 : point_hit (V2 2 0) (Pt (V3 2 0 1) (1 / 2)) = Some (1, 0)).
  { unfold point_hit. cbn -[Rltb]. destruct (Rltb_spec 1 0); [lra|]. 
    destruct (Rltb_spec ((2 - 2) * (2 - 2) + (0 - 0) * (0 - 0)) (1 / 2 * (1 / 2))); [|exfalso; lra]. repeat f_equal. ring. }
  specialize (C ltac:(lia) ltac:(lia) ltac:(lia) ltac:(cbn; lra) E2).
  unfold cpu_overlap in C. apply Bool.andb_true_iff in C as [C _]. apply Bool.andb_true_iff in C as [_ C].
  apply Rltb_true in C. cbn in C. unfold cpu_bin_width, ndc_range in C. cbn in C. lra.
Qed.
