From Coq Require Import Sorted.
From Verif Require Import Base Packing PackingProofs PackOpsProofs RBase Geom FaceAreas FaceAreasSpec Meshes MeshesSpec MeshesHistSpec
  MeshesProofs MeshesProofs2 MeshesProofs3 MeshesProofs4 MeshesProofs5 MeshesProofs6.
Local Open Scope nat_scope.

(* ---- selecting ---- *)
Lemma py_nth_index {T} (l : list T) i x : py_nth l i = Ok x <-> at_index l i x.
Proof.
  unfold py_nth, at_index. destruct (Z.ltb_spec i 0) as [Hi|Hi].
  - destruct (Z.ltb_spec (i + Z.of_nat (length l)) 0) as [Hj|Hj].
    + split; [discriminate|]. intros [(H & _)|((_ & H) & _)]; lia.
    + destruct (nth_error l (Z.to_nat (i + Z.of_nat (length l)))) eqn:E; split; intros H; try discriminate.
      * injection H as ->. right. split; [lia|reflexivity].
      * destruct H as [(H & _)|(_ & H)]; [lia|congruence].
      * destruct H as [(H & _)|(_ & H)]; [lia|congruence].
  - destruct (Z.ltb_spec i 0) as [Hj|Hj]; [lia|].
    destruct (nth_error l (Z.to_nat i)) eqn:E; split; intros H; try discriminate.
    * injection H as ->. left. split; [lia|reflexivity].
    * destruct H as [(_ & H)|(H & _)]; [congruence|lia].
    * destruct H as [(_ & H)|(H & _)]; [congruence|lia].
Qed.
Lemma py_nth_fail {T} (l : list T) i e : py_nth l i = Fail e -> e = EIndex.
Proof. unfold py_nth. cbv zeta. set (j := if (i <? 0)%Z then _ else _). destruct (j <? 0)%Z; [congruence|]. destruct (nth_error l (Z.to_nat j)); congruence. Qed.
Lemma py_nth_map {T U} (g : T -> U) l i : py_nth (map g l) i = (a <- py_nth l i ;; Ok (g a)).
Proof.
  unfold py_nth. cbv zeta. rewrite map_length. set (j := if (i <? 0)%Z then _ else _).
  destruct (j <? 0)%Z; [reflexivity|]. rewrite nth_error_map_iff. destruct (nth_error l (Z.to_nat j)); reflexivity.
Qed.
Lemma rmap_forall2 {T U} (f : T -> result U) (P : T -> U -> Prop) : (forall x y, f x = Ok y <-> P x y) ->
  forall l l', rmap f l = Ok l' <-> Forall2 P l l'.
Proof.
  intros H. induction l as [|x l IH]; intros l'; cbn.
  - split; intros E; [injection E as <-; constructor|inversion E; reflexivity].
  - split; intros E.
    + destruct (f x) as [y|] eqn:Ex; [|discriminate]. cbn in E. destruct (rmap f l) as [ys|] eqn:El; [|discriminate].
      cbn in E. injection E as <-. constructor; [apply H; exact Ex|]. apply IH; reflexivity.
    + inversion E as [|? y ? ys Hy Hys]; subst. apply H in Hy. rewrite Hy. cbn. apply IH in Hys. rewrite Hys. reflexivity.
Qed.
Lemma rmap_fail {T U} (f : T -> result U) e0 : (forall x e, f x = Fail e -> e = e0) -> forall l e, rmap f l = Fail e -> e = e0.
Proof.
  intros H. induction l as [|x l IH]; intros e; cbn; [discriminate|]. destruct (f x) eqn:E; cbn; [|intros K; injection K as <-; eapply H; exact E].
  destruct (rmap f l) eqn:El; cbn; [discriminate|]. intros K; injection K as <-. eapply IH. reflexivity.
Qed.
Lemma rmap_map_result {T U V} (f : T -> result U) (g : U -> V) l : rmap (fun x => a <- f x ;; Ok (g a)) l = (a <- rmap f l ;; Ok (map g a)).
Proof.
  induction l as [|x l IH]; cbn; [reflexivity|]. destruct (f x); cbn; [|reflexivity]. rewrite IH. destruct (rmap f l); reflexivity.
Qed.
Lemma rmap_ext {T U} (f g : T -> result U) l : (forall x, f x = g x) -> rmap f l = rmap g l.
Proof. intros H. induction l as [|x l IH]; cbn; [reflexivity|]. rewrite H, IH. reflexivity. Qed.

Lemma pick_map {T U} (g : T -> U) l ix : pick (map g l) ix = (a <- pick l ix ;; Ok (map g a)).
Proof.
  destruct ix; cbn [pick].
  - rewrite py_nth_map. destruct (py_nth l i); reflexivity.
  - unfold py_slice. rewrite skipn_map, firstn_map. reflexivity.
  - rewrite <- rmap_map_result. apply rmap_ext. intros i. apply py_nth_map.
  - rewrite <- rmap_map_result. apply rmap_ext. intros i. apply py_nth_map.
Qed.

Lemma mask_ok {T} : forall (bs : list bool) (pre l : list T), (forall k, length l <= k -> nth k bs false = false) ->
  rmap (py_nth (pre ++ l)) (map (fun p => Z.of_nat (fst p)) (filter (fun p => snd p) (combine (seq (length pre) (length bs)) bs)))
  = Ok (map fst (filter snd (combine l bs))).
Proof.
  induction bs as [|b bs IH]; intros pre l H.
  - cbn [length seq combine filter map rmap]. destruct l; reflexivity.
  - destruct l as [|x l].
    + assert (E : forall s n, filter (fun p : nat * bool => snd p) (combine (seq s n) (b :: bs)) = []).
      { intros s n. assert (G : forall bs' s n, (forall k, nth k bs' false = false) -> filter (fun p : nat * bool => snd p) (combine (seq s n) bs') = []).
        { clear. induction bs' as [|c bs' IH]; intros s [|n] H; cbn; try reflexivity. pose proof (H 0) as H0. cbn in H0. subst c. apply IH. intros k. apply (H (S k)). }
        apply G. intros k. apply H. cbn. lia. }
      rewrite E. reflexivity.
    + cbn [length seq combine filter map].
      specialize (IH (pre ++ [x]) l). rewrite <- app_assoc in IH. cbn [app] in IH. rewrite app_length in IH. cbn [length] in IH. rewrite Nat.add_1_r in IH.
      assert (Hk : forall k, length l <= k -> nth k bs false = false) by (intros k Hk; apply (H (S k)); cbn; lia).
      specialize (IH Hk). destruct b; cbn [snd map rmap fst].
      * replace (py_nth (pre ++ x :: l) (Z.of_nat (length pre))) with (Ok x).
        2:{ symmetry. apply py_nth_index. left. split; [lia|]. rewrite Nat2Z.id. rewrite nth_error_app2 by lia. rewrite Nat.sub_diag. reflexivity. }
        cbn [rbind]. rewrite IH. reflexivity.
      * exact IH.
Qed.
Lemma mask_conv {T} : forall (bs : list bool) (l : list T) s l', length l <= s + length bs ->
  rmap (py_nth l) (map (fun p => Z.of_nat (fst p)) (filter (fun p => snd p) (combine (seq s (length bs)) bs))) = Ok l' ->
  forall k, length l <= s + k -> nth k bs false = false.
Proof.
  induction bs as [|b bs IH]; intros l s l' Hl H k Hk; [destruct k; reflexivity|].
  cbn [length seq combine filter] in *. destruct k as [|k]; cbn [nth].
  - destruct b; [|reflexivity]. cbn [map rmap snd fst] in H. destruct (py_nth l (Z.of_nat s)) eqn:E; [|discriminate].
    apply py_nth_index in E. destruct E as [(_ & E)|(E & _)]; [|lia]. rewrite Nat2Z.id in E.
    assert (s < length l) by (apply nth_error_Some; congruence). lia.
  - assert (exists l'', rmap (py_nth l) (map (fun p => Z.of_nat (fst p)) (filter (fun p => snd p) (combine (seq (S s) (length bs)) bs))) = Ok l'') as (l'' & E).
    { destruct b; cbn [map rmap snd fst] in H; [|eauto]. destruct (py_nth l (Z.of_nat s)); [|discriminate]. cbn in H.
      destruct (rmap (py_nth l) _); [eauto|discriminate]. }
    apply (IH l (S s) l'' ltac:(lia) E). lia.
Qed.

Lemma pick_selected {T} (l l' : list T) ix : pick l ix = Ok l' <-> selected ix l l'.
Proof.
  destruct ix as [i|s e|is|bs]; cbn [pick selected].
  - split.
    + intros H. destruct (py_nth l i) as [x|] eqn:E; [|discriminate]. cbn in H. injection H as <-. exists x. split; [apply py_nth_index; exact E|reflexivity].
    + intros (x & Hx & ->). apply py_nth_index in Hx. rewrite Hx. reflexivity.
  - unfold py_slice. split; congruence.
  - apply rmap_forall2. intros i x. apply py_nth_index.
  - split.
    + intros H. assert (Hk : forall k, length l <= k -> nth k bs false = false).
      { destruct (Nat.le_gt_cases (length l) (length bs)) as [Hl|Hl].
        - apply (mask_conv bs l 0 l' Hl H).
        - intros k Hk. apply nth_overflow. lia. }
      split; [exact Hk|]. pose proof (mask_ok bs [] l Hk) as E. cbn [app length] in E. congruence.
    + intros (Hk & ->). apply (mask_ok bs [] l Hk).
Qed.
Lemma pick_fail {T} (l : list T) ix e : pick l ix = Fail e -> e = EIndex.
Proof.
  destruct ix as [i|s e0|is|bs]; cbn [pick].
  - destruct (py_nth l i) eqn:E; cbn; [discriminate|]. intros H; injection H as <-. eapply py_nth_fail; exact E.
  - discriminate.
  - apply rmap_fail. intros i. apply py_nth_fail.
  - apply rmap_fail. intros i. apply py_nth_fail.
Qed.

Lemma at_index_in {T} (l : list T) i x : at_index l i x -> In x l.
Proof. intros [(_ & H)|(_ & H)]; apply nth_error_In in H; exact H. Qed.
Lemma selected_in {T} ix (l l' : list T) x : selected ix l l' -> In x l' -> In x l.
Proof.
  destruct ix as [i|s e|is|bs]; cbn [selected].
  - intros (y & Hy & ->) [<-|[]]. eapply at_index_in; exact Hy.
  - intros -> H. rewrite <- (firstn_skipn s l). apply in_or_app. right. rewrite <- (firstn_skipn (e - s) (skipn s l)). apply in_or_app. left. exact H.
  - intros H. induction H as [|i y is' ys Hy _ IH]; intros Hi; [destruct Hi|]. destruct Hi as [<-|Hi]; [eapply at_index_in; exact Hy|auto].
  - intros (_ & ->) H. apply in_map_iff in H. destruct H as ((y, b) & <- & H). apply filter_In in H. destruct H as (H & _). apply in_combine_l in H. exact H.
Qed.
Lemma Forall_incl {T} (P : T -> Prop) l l' : (forall x, In x l' -> In x l) -> Forall P l -> Forall P l'.
Proof. rewrite !Forall_forall. auto. Qed.

(* ---- constructors without faces ---- *)
Lemma shows_new_list b : Forall good_mesh b -> exists m, new_list (map fst b) (map snd b) = Ok m /\ shows m b /\ mN m = length b.
Proof.
  intros Hg. assert (Hf : map (filter real_face) (map snd b) = map snd b).
  { rewrite map_map. apply map_ext_in. intros p Hp. apply filter_good. rewrite Forall_forall in Hg. auto. }
  destruct b as [|p b].
  - eexists. split; [reflexivity|]. split; [|reflexivity]. eexists _, _. split; reflexivity.
  - rewrite new_list_value by discriminate. cbv zeta. eexists. split; [reflexivity|]. split; [|rewrite map_length; reflexivity].
    eexists _, _. split; [reflexivity|]. cbn [faces_list faces_l]. unfold faces_list. cbn [faces_l]. rewrite Hf. reflexivity.
Qed.
Lemma shows_twice m b : shows m b -> exists m1 m2 : meshes, verts_list m = Ok (map fst b, m1) /\ faces_list m1 = Ok (map snd b, m2) /\ shows m2 b /\ mN m2 = mN m.
Proof.
  intros (m1 & m2 & H1 & H2). exists m1, m2. split; [exact H1|]. split; [exact H2|].
  assert (F1 : verts_l m1 = Some (map fst b) /\ mN m1 = mN m).
  { unfold verts_list in H1. destruct (verts_l m) eqn:E.
    - injection H1 as <- <-. rewrite E. auto.
    - destruct (verts_p m) as [p|]; [|discriminate]. destruct (unpad p (nverts m)) as [l|]; [|discriminate]. cbn in H1. injection H1 as <- <-. auto. }
  destruct F1 as (F1 & N1).
  assert (F2 : faces_l m2 = Some (map snd b) /\ verts_l m2 = verts_l m1 /\ mN m2 = mN m1).
  { unfold faces_list in H2. destruct (faces_l m1) eqn:E.
    - injection H2 as <- <-. rewrite E. auto.
    - destruct (faces_p m1) as [p|]; [|discriminate]. destruct (unpad p (nfaces m1)) as [l|]; [|discriminate]. cbn in H2. injection H2 as <- <-. auto. }
  destruct F2 as (F2 & F2' & N2). split; [|congruence].
  exists m2, m2. unfold verts_list, faces_list. rewrite F2', F1, F2. auto.
Qed.
