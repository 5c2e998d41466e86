(* The value of the loss. *)
From Coq Require Import Permutation Sorted.
From Verif Require Import Base Packing RBase Geom FaceAreas FaceAreasSpec Meshes MeshesSpec MeshesHistSpec Laplace LaplaceSpec MeshesProofs3 LaplaceProofs3 Consistency ConsistencySpec ConsistencyProofs.
Local Open Scope R_scope.

Definition psumS (phi : touch * touch -> R) (l : list touch) : R := psum (fun h => if same_edge h then phi h else 0) l.
Definition tmove (o : nat) (t : touch) : touch := (move_edge o (fst t), (snd t + Z.of_nat o)%Z).
Definition on2 {A B} (f : A -> B) (h : A * A) : B * B := (f (fst h), f (snd h)).
Lemma touches_move o f : touches (move_face o f) = map (tmove o) (touches f).
Proof. destruct f as [[a b] c]. unfold touches, move_face, tmove, move_edge, low_high. cbn [map fst snd]. now rewrite !Z.add_min_distr_r, !Z.add_max_distr_r. Qed.
Lemma same_move o h : same_edge (on2 (tmove o) h) = same_edge h.
Proof.
  destruct h as [[[i j] a] [[i' j'] a']]. unfold on2, tmove, same_edge, move_edge. cbn [fst snd].
  destruct (Z.eqb_spec i i'), (Z.eqb_spec j j'), (Z.eqb_spec (i + Z.of_nat o) (i' + Z.of_nat o)), (Z.eqb_spec (j + Z.of_nat o) (j' + Z.of_nat o)); try reflexivity; lia.
Qed.
Lemma same_edge_spec h : same_edge h = true <-> fst (fst h) = fst (snd h).
Proof.
  destruct h as [[[i j] a] [[i' j'] a']]. unfold same_edge. cbn [fst snd]. rewrite andb_true_iff, !Z.eqb_eq. split; [intros [-> ->]; reflexivity|]. intros E. injection E. auto.
Qed.
Lemma psumS_move o phi l : psumS phi (map (tmove o) l) = psumS (fun h => phi (on2 (tmove o) h)) l.
Proof. unfold psumS. rewrite psum_map. apply psum_ext. intros x y _ _. cbn [fst snd]. change (tmove o x, tmove o y) with (on2 (tmove o) (x, y)). rewrite same_move. reflexivity. Qed.
Definition mesh_touches (fs : list face) : list touch := flat_map touches fs.
Lemma mesh_touches_move o fs : mesh_touches (map (move_face o) fs) = map (tmove o) (mesh_touches fs).
Proof. unfold mesh_touches. induction fs as [|f fs IH]; [reflexivity|]. cbn [map flat_map]. rewrite map_app, touches_move, IH. reflexivity. Qed.
Lemma touch_range n fs t : Forall (in_range n) fs -> In t (mesh_touches fs) -> (0 <= fst (fst t) < Z.of_nat n /\ 0 <= snd (fst t) < Z.of_nat n /\ 0 <= snd t < Z.of_nat n)%Z.
Proof.
  intros H Ht. unfold mesh_touches in Ht. apply in_flat_map in Ht as (f & Hf & Ht). rewrite Forall_forall in H. specialize (H f Hf). destruct f as [[a b] c]. unfold in_range in H. unfold touches, low_high in Ht. cbn [fst snd] in Ht.
  destruct Ht as [<-|[<-|[<-|[]]]]; cbn [fst snd]; lia.
Qed.
Fixpoint total (phi : touch * touch -> R) (o : nat) (b : list mesh) : R :=
  match b with [] => 0 | p :: b' => psumS (fun h => phi (on2 (tmove o) h)) (mesh_touches (snd p)) + total phi (o + length (fst p)) b' end.
Lemma faces_from_ge b : Forall good_mesh b -> forall o t, In t (mesh_touches (faces_from o b)) -> (Z.of_nat o <= fst (fst t))%Z.
Proof.
  induction 1 as [|p b Hp Hb IH]; intros o t Ht; [easy|]. cbn [faces_from] in Ht. unfold mesh_touches in Ht. rewrite flat_map_app in Ht. apply in_app_iff in Ht as [Ht|Ht].
  - fold (mesh_touches (map (move_face o) (snd p))) in Ht. rewrite mesh_touches_move in Ht. apply in_map_iff in Ht as (t' & <- & Ht'). apply (touch_range _ _ _ Hp) in Ht'. unfold tmove, move_edge. cbn [fst snd]. lia.
  - apply IH in Ht. lia.
Qed.
Lemma total_ok phi b : Forall good_mesh b -> forall o, psumS phi (mesh_touches (faces_from o b)) = total phi o b.
Proof.
  induction 1 as [|p b Hp Hb IH]; intros o; [reflexivity|]. cbn [faces_from total]. unfold mesh_touches at 1. rewrite flat_map_app. fold (mesh_touches (map (move_face o) (snd p))) (mesh_touches (faces_from (o + length (fst p)) b)).
  unfold psumS at 1. rewrite psum_apart.
  - fold (psumS phi (mesh_touches (map (move_face o) (snd p)))) (psumS phi (mesh_touches (faces_from (o + length (fst p)) b))). rewrite IH, mesh_touches_move, psumS_move. reflexivity.
  - intros x y Hx Hy. rewrite mesh_touches_move in Hx. apply in_map_iff in Hx as (x' & <- & Hx). apply (touch_range _ _ _ Hp) in Hx. apply (faces_from_ge b Hb) in Hy.
    destruct (same_edge (tmove o x', y)) eqn:E; [|reflexivity]. exfalso. apply same_edge_spec in E. cbn [fst snd] in E. rewrite <- E in Hy. unfold tmove, move_edge in Hy. cbn [fst snd] in Hy. lia.
Qed.
(* ---- which mesh ---- *)
Definition home (b : list mesh) (t : touch) : Z := nth (Z.to_nat (snd t)) (owners 0 (vcount b)) 0%Z.
Lemma owners_nth counts : forall i k r n, nth_error counts k = Some n -> (r < n)%nat -> nth (sum_nat (firstn k counts) + r) (owners i counts) 0%Z = Z.of_nat (i + k).
Proof.
  induction counts as [|c counts IH]; intros i k r n Hk Hr; [now destruct k|]. destruct k as [|k]; cbn [nth_error] in Hk.
  - injection Hk as ->. cbn [firstn sum_nat fold_right owners]. cbn [Nat.add]. rewrite app_nth1 by (rewrite repeat_length; lia). rewrite (nth_indep _ 0%Z (Z.of_nat i)) by (rewrite repeat_length; lia). rewrite nth_repeat. f_equal. lia.
  - cbn [firstn owners]. unfold sum_nat in *. cbn [fold_right]. rewrite app_nth2 by (rewrite repeat_length; lia). rewrite repeat_length. replace (c + fold_right Nat.add 0 (firstn k counts) + r - c)%nat with (fold_right Nat.add 0 (firstn k counts) + r)%nat by lia. rewrite (IH (S i) k r n Hk Hr). f_equal. lia.
Qed.
Lemma vcount_nth b k p : nth_error b k = Some p -> nth_error (vcount b) k = Some (length (fst p)).
Proof. intros H. unfold vcount. rewrite (map_nth_error _ _ _ H). reflexivity. Qed.
Lemma home_at b k p t : nth_error b k = Some p -> good_mesh p -> In t (mesh_touches (snd p)) -> home b (tmove (vstart b k) t) = Z.of_nat k.
Proof.
  intros Hk Hp Ht. apply (touch_range _ _ _ Hp) in Ht. unfold home, tmove. cbn [snd]. replace (Z.to_nat (snd t + Z.of_nat (vstart b k))) with (vstart b k + Z.to_nat (snd t))%nat by lia.
  unfold vstart. rewrite (owners_nth _ 0 k _ (length (fst p))); [f_equal|now apply vcount_nth|lia].
Qed.
Lemma vstart_split b k p : nth_error b k = Some p -> exists pre suf, all_verts b = pre ++ fst p ++ suf /\ length pre = vstart b k.
Proof.
  intros H. apply nth_error_split in H as (b1 & b2 & -> & <-). exists (all_verts b1), (all_verts b2). unfold all_verts, vstart, vcount. rewrite map_app, concat_app. cbn [map concat]. split; [reflexivity|].
  rewrite map_app, firstn_app, map_length, Nat.sub_diag, firstn_O, app_nil_r. rewrite firstn_all2 by (rewrite map_length; lia). rewrite length_concat_sum, map_map. reflexivity.
Qed.
Lemma wing_move b k p t : nth_error b k = Some p -> good_mesh p -> In t (mesh_touches (snd p)) -> wing (all_verts b) (tmove (vstart b k) t) = wing (fst p) t.
Proof.
  intros Hk Hp Ht. apply (touch_range _ _ _ Hp) in Ht. destruct (vstart_split b k p Hk) as (pre & suf & -> & <-). unfold wing, tmove, move_edge. cbn [fst snd]. now rewrite !at_mid by lia.
Qed.
Lemma total_split phi b : forall pre, total phi (vstart (pre ++ b) (length pre)) b = rsum (map (fun q => psumS (fun h => phi (on2 (tmove (vstart (pre ++ b) (fst q))) h)) (mesh_touches (snd (snd q)))) (combine (seq (length pre) (length b)) b)).
Proof.
  induction b as [|p b IH]; intros pre; [reflexivity|]. cbn [total length seq combine map]. rewrite rsum_cons. cbn [fst snd]. f_equal. specialize (IH (pre ++ [p])). rewrite <- app_assoc, app_length in IH. cbn [app length] in IH. rewrite Nat.add_1_r in IH. rewrite <- IH. f_equal.
  unfold vstart, vcount. rewrite !map_app. cbn [map]. rewrite !firstn_app, !map_length. rewrite Nat.sub_diag. replace (S (length pre) - length pre)%nat with 1%nat by lia. rewrite (firstn_all2 (n := S (length pre))), (firstn_all2 (n := length pre)) by (rewrite map_length; lia). cbn [firstn]. rewrite app_nil_r, sum_nat_app. unfold sum_nat. cbn [fold_right]. lia.
Qed.
Lemma combine_at {A} (l : list A) : forall a k x, In (k, x) (combine (seq a (length l)) l) -> nth_error l (k - a) = Some x /\ (a <= k)%nat.
Proof.
  induction l as [|y l IH]; intros a k x H; [easy|]. cbn [length seq combine] in H. destruct H as [H|H].
  - injection H as <- <-. rewrite Nat.sub_diag. split; [reflexivity|lia].
  - apply IH in H as [H1 H2]. split; [|lia]. replace (k - a)%nat with (S (k - S a)) by lia. exact H1.
Qed.
Lemma total_by_mesh phi b : total phi 0 b = rsum (map (fun q => psumS (fun h => phi (on2 (tmove (vstart b (fst q))) h)) (mesh_touches (snd (snd q)))) (combine (seq 0 (length b)) b)).
Proof. exact (total_split phi b []). Qed.
Lemma psumS_ext phi phi' l : (forall x y, In x l -> In y l -> same_edge (x, y) = true -> phi (x, y) = phi' (x, y)) -> psumS phi l = psumS phi' l.
Proof. intros H. apply psum_ext. intros x y Hx Hy. destruct (same_edge (x, y)) eqn:E; auto. Qed.
Lemma hinges_psum phi fs : rsum (map phi (hinges fs)) = psumS phi (mesh_touches fs).
Proof. apply psum_filter. Qed.
Lemma hinge_count fs : psumS (fun _ => 1) (mesh_touches fs) = INR (length (hinges fs)).
Proof. rewrite <- hinges_psum. induction (hinges fs) as [|h l IH]; [reflexivity|]. cbn [map]. rewrite rsum_cons, IH. cbn [length]. rewrite S_INR. ring. Qed.
Lemma count_at b k p : Forall good_mesh b -> nth_error b k = Some p -> total (fun h => if (home b (fst h) =? Z.of_nat k)%Z then 1 else 0) 0 b = INR (length (hinges (snd p))).
Proof.
  intros Hb Hk. rewrite total_by_mesh. rewrite Forall_forall in Hb.
  rewrite (rsum_map_ext _ (fun q => if (fst q =? k)%nat then INR (length (hinges (snd (snd q)))) else 0)).
  - clear Hb. assert (G : forall l a, nth_error l (k - a) = Some p -> (a <= k)%nat -> rsum (map (fun q : nat * mesh => if (fst q =? k)%nat then INR (length (hinges (snd (snd q)))) else 0) (combine (seq a (length l)) l)) = INR (length (hinges (snd p)))).
    { induction l as [|y l IH]; intros a H Ha; [now destruct (k - a)%nat|]. cbn [length seq combine map]. rewrite rsum_cons. cbn [fst snd]. destruct (Nat.eqb_spec a k) as [->|C].
      - rewrite Nat.sub_diag in H. injection H as ->. rewrite rsum_map_zero; [ring|]. intros (k', x) Hin. apply combine_at in Hin as [_ Hin]. cbn [fst]. destruct (Nat.eqb_spec k' k); [lia|reflexivity].
      - rewrite IH; [ring| |lia]. replace (k - a)%nat with (S (k - S a)) in H by lia. exact H. }
    apply (G b 0%nat); [now rewrite Nat.sub_0_r|lia].
  - intros (k', x) Hin. apply combine_at in Hin as [Hx _]. rewrite Nat.sub_0_r in Hx. cbn [fst snd]. assert (Gx : good_mesh x) by (apply Hb; eapply nth_error_In; eauto). destruct (Nat.eqb_spec k' k) as [->|C].
    + rewrite <- hinge_count. apply psumS_ext. intros u v Hu Hv _. unfold on2. cbn [fst snd]. rewrite (home_at b k x) by auto. now rewrite Z.eqb_refl.
    + rewrite (psumS_ext _ (fun _ => 0)); [unfold psumS, psum; apply rsum_map_zero; intros h _; now destruct (same_edge h)|]. intros u v Hu Hv _. unfold on2. cbn [fst snd]. rewrite (home_at b k' x) by auto. destruct (Z.eqb_spec (Z.of_nat k') (Z.of_nat k)); [lia|reflexivity].
Qed.
Lemma loss_total b cnt : Forall good_mesh b -> (forall k p, nth_error b k = Some p -> cnt (Z.of_nat k) = INR (length (hinges (snd p)))) ->
  total (fun h => bend (all_verts b) h * (1 / cnt (home b (fst h)))) 0 b = rsum (map (fun p => mean (map (bend (fst p)) (hinges (snd p)))) b).
Proof.
  intros Hb Hc. rewrite total_by_mesh. rewrite Forall_forall in Hb.
  rewrite (rsum_map_ext _ (fun q => mean (map (bend (fst (snd q))) (hinges (snd (snd q)))))).
  - f_equal. generalize 0%nat. clear. induction b as [|p b IH]; intros a; [reflexivity|]. cbn [length seq combine map]. now rewrite IH.
  - intros (k, x) Hin. apply combine_at in Hin as [Hx _]. rewrite Nat.sub_0_r in Hx. cbn [fst snd]. assert (Gx : good_mesh x) by (apply Hb; eapply nth_error_In; eauto).
    rewrite (psumS_ext _ (fun h => (1 / INR (length (hinges (snd x)))) * bend (fst x) h)).
    + rewrite <- hinges_psum, rsum_map_scal. unfold mean. destruct (hinges (snd x)) as [|h l]; [cbn [map]; rewrite rsum_nil; ring|]. cbn [map]. cbn [length]. rewrite map_length. unfold Rdiv. ring.
    + intros u v Hu Hv _. unfold on2. cbn [fst snd]. rewrite (home_at b k x) by auto. rewrite (Hc k x Hx). unfold bend. cbn [fst snd]. rewrite !(wing_move b k x) by auto. ring.
Qed.
