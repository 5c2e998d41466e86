(* diffuse and specular, point by point. *)
From Verif Require Import Base RBase Geom LinAlg Tens Lighting LightingSpec LightingProofs.
Local Open Scope R_scope.

Lemma prop3_direction t n ds f : prop3 t n f -> direction_of t n ds (fun i _ => f i).
Proof. intros H. right. exists f. split; [exact H|reflexivity]. Qed.
Lemma direction_size t n ds f : (0 < n)%nat -> direction_of t n ds f -> batch_size t = n \/ batch_size t = 1%nat.
Proof.
  intros Hn [(S & _)|(g & G & _)]; [left; unfold batch_size; rewrite S; reflexivity|]. eapply prop3_size; eassumption.
Qed.
Lemma direction_wide pts t n ds f : (0 < n)%nat -> shp pts = n :: ds ++ [3%nat] -> direction_of t n ds f ->
  exists t', expand_batch n t = Ok t' /\
  exists t'' d, reshape_like pts [3%nat] t' = Ok t'' /\ wide d t'' n ds f /\ zipdims d ds = Ok ds.
Proof.
  intros Hn SP [V|(g & G & E)].
  - destruct (expand_vecs _ _ _ _ V) as (t' & -> & V'). exists t'. split; [reflexivity|].
    rewrite (reshape_full _ _ _ _ _ SP V'). exists t', ds. split; [reflexivity|]. split; [apply vecs_wide; exact V'|apply zip_same].
  - destruct (expand_prop _ _ _ Hn G) as (t' & -> & V'). exists t'. split; [reflexivity|].
    destruct (reshape_prop _ _ _ _ _ SP V') as (t'' & d & R & (S & L & W) & Z). exists t'', d.
    split; [exact R|]. split; [|exact Z]. split; [exact S|]. split; [exact L|]. intros i js Hi J. rewrite E. apply W; assumption.
Qed.
Lemma wide_ext d t n ds f g : (forall i js, (i < n)%nat -> inside js ds -> f i js = g i js) -> wide d t n ds f -> wide d t n ds g.
Proof. intros E (S & L & H). split; [exact S|]. split; [exact L|]. intros i js Hi J. rewrite <- E by assumption. apply H; assumption. Qed.

Definition lit (n l : vec3) : R := Rmax (dot3 (unit6 n) (unit6 l)) 0.
Lemma diffuse_eval normals color dir n ds N col L : (0 < n)%nat ->
  vecs normals n ds N -> prop3 color n col -> direction_of dir n ds L ->
  exists t, diffuse normals color dir = Ok t /\ vecs t n ds (fun i js => scal3 (lit (N i js) (L i js)) (col i)).
Proof.
  intros Hn VN PC DL. unfold diffuse, broadcast.
  assert (M : max_nat (map batch_size [normals; color; dir]) = n).
  { cbn [map max_nat fold_right]. replace (batch_size normals) with n by (unfold batch_size; rewrite (proj1 VN); reflexivity).
    pose proof (prop3_size _ _ _ Hn PC). pose proof (direction_size _ _ _ _ Hn DL). lia. }
  rewrite M. cbn [rmap].
  destruct (expand_vecs _ _ _ _ VN) as (nt & -> & VN'). cbn [rbind].
  destruct (direction_wide nt color n ds (fun i _ => col i) Hn (proj1 VN') (prop3_direction _ _ _ _ PC)) as (ct & -> & ct' & dc & RC & WC & ZC).
  destruct (direction_wide nt dir n ds L Hn (proj1 VN') DL) as (dt & -> & dt' & dd & RD & WD & ZD).
  cbn [rbind]. rewrite RD. cbn [rbind]. rewrite RC. cbn [rbind].
  apply vecs_wide in VN'.
  destruct (bop_vv Rmult _ _ _ _ _ _ _ _ (wide_unit _ _ _ _ _ VN') (wide_unit _ _ _ _ _ WD)) as (p & -> & WP).
  { rewrite zip_comm. exact ZD. }
  cbn [rbind]. pose proof (wide_unsq _ _ _ _ _ (wide1_map relu _ _ _ _ _ _ (wide_sum _ _ _ _ WP))) as WA.
  destruct (bop_vs Rmult _ _ _ _ _ _ _ _ WC WA ZC) as (r & -> & WR). exists r. split; [reflexivity|].
  apply vecs_wide. eapply wide_ext; [|exact WR]. intros i js Hi J. cbn beta.
  unfold map3, all3, scal3, lit, relu, dot3. cbn [x3 y3 z3]. f_equal; ring.
Qed.

Definition shine (n l v : vec3) (s : R) : R :=
  let c := dot3 (unit6 n) (unit6 l) in
  let r := add3 (scal3 (-1) (unit6 l)) (scal3 (2 * c) (unit6 n)) in
  tpow (Rmax (dot3 (unit6 v) r) 0 * (if Rltb 0 c then 1 else 0)) s.
Lemma specular_eval points normals dir color cam shin n ds P N L col C s : (0 < n)%nat ->
  vecs points n ds P -> vecs normals n ds N -> direction_of dir n ds L -> prop3 color n col ->
  prop3 cam n C -> prop1 shin n s ->
  exists t, specular points normals dir color cam shin = Ok t /\
    vecs t n ds (fun i js => scal3 (shine (N i js) (L i js) (sub3 (C i) (P i js)) (s i)) (col i)).
Proof.
  intros Hn VP VN DL PC PX PS. unfold specular, broadcast.
  assert (SE : shape_eqb (shp points) (shp normals) = true).
  { unfold shape_eqb. rewrite (proj1 VP), (proj1 VN). destruct (list_eq_dec _ _ _); [reflexivity|contradiction]. }
  rewrite SE. cbn [negb].
  assert (M : max_nat (map batch_size [points; color; dir; cam; shin]) = n).
  { cbn [map max_nat fold_right]. replace (batch_size points) with n by (unfold batch_size; rewrite (proj1 VP); reflexivity).
    pose proof (prop3_size _ _ _ Hn PC). pose proof (direction_size _ _ _ _ Hn DL).
    pose proof (prop3_size _ _ _ Hn PX). pose proof (prop1_size _ _ _ Hn PS). lia. }
  rewrite M. cbn [rmap].
  destruct (expand_vecs _ _ _ _ VP) as (pt & -> & _). cbn [rbind].
  destruct (direction_wide points color n ds (fun i _ => col i) Hn (proj1 VP) (prop3_direction _ _ _ _ PC)) as (ct & -> & ct' & dc & RC & WC & ZC).
  destruct (direction_wide points dir n ds L Hn (proj1 VP) DL) as (dt & -> & dt' & dd & RD & WD & ZD).
  destruct (direction_wide points cam n ds (fun i _ => C i) Hn (proj1 VP) (prop3_direction _ _ _ _ PX)) as (xt & -> & xt' & dx & RX & WX & ZX).
  destruct (expand_prop1 _ _ _ Hn PS) as (st & -> & WS0).
  destruct (reshape_prop1 points st n ds s (proj1 VP) WS0) as (st' & dsh & RS & WS & ZS).
  cbn [rbind]. rewrite RD. cbn [rbind]. rewrite RC. cbn [rbind]. rewrite RX. cbn [rbind]. rewrite RS. cbn [rbind].
  apply vecs_wide in VN. apply vecs_wide in VP.
  destruct (bop_vv Rmult _ _ _ _ _ _ _ _ (wide_unit _ _ _ _ _ VN) (wide_unit _ _ _ _ _ WD)) as (p & -> & WP).
  { rewrite zip_comm. exact ZD. }
  cbn [rbind]. pose proof (wide_sum _ _ _ _ WP) as WA.
  destruct (bop_vv Rminus _ _ _ _ _ _ _ _ WX VP ZX) as (v & -> & WV).
  cbn [rbind]. destruct (bop_sv Rmult _ _ _ _ _ _ _ _ (wide_unsq _ _ _ _ _ WA) (wide_unit _ _ _ _ _ VN) (zip_same _)) as (q & -> & WQ).
  cbn [rbind]. destruct (bop_vv Rplus _ _ _ _ _ _ _ _ (wide_map Ropp _ _ _ _ _ (wide_unit _ _ _ _ _ WD)) (wide_map (Rmult 2) _ _ _ _ _ WQ) ZD) as (r & -> & WR).
  cbn [rbind]. destruct (bop_vv Rmult _ _ _ _ _ _ _ _ (wide_unit _ _ _ _ _ WV) WR (zip_same _)) as (m & -> & WM).
  cbn [rbind]. destruct (bop_ss Rmult _ _ _ _ _ _ _ _ (wide1_map relu _ _ _ _ _ _ (wide_sum _ _ _ _ WM)) (wide1_map (fun x => if Rltb 0 x then 1 else 0) _ _ _ _ _ _ WA) (zip_same _)) as (al & -> & WL).
  cbn [rbind]. destruct (bop_ss tpow _ _ _ _ _ _ _ _ WL WS) as (e & -> & WE).
  { rewrite zip_comm. exact ZS. }
  cbn [rbind]. destruct (bop_vs Rmult _ _ _ _ _ _ _ _ WC (wide_unsq _ _ _ _ _ WE) ZC) as (o & -> & WO).
  exists o. split; [reflexivity|]. apply vecs_wide. eapply wide_ext; [|exact WO]. intros i js Hi J. cbn beta.
  unfold map3, all3. cbn [x3 y3 z3]. unfold shine.
  set (e1 := tpow _ _). set (e2 := tpow _ _). assert (e1 = e2) as ->; [|unfold scal3; f_equal; ring].
  unfold e1, e2, relu. f_equal. 
  assert (A : forall a b, x3 a * x3 b + y3 a * y3 b + z3 a * z3 b = dot3 a b) by reflexivity.
  rewrite A. f_equal. f_equal. unfold dot3, add3, scal3. cbn [x3 y3 z3]. unfold sub3. cbn [x3 y3 z3]. ring.
Qed.
