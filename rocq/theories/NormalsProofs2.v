(* Frames of one neighbourhood. *)
From Verif Require Import Base RBase Geom LinAlg KnnSpec.
From Verif Require Import Alignment AlignmentSpec AlignmentProofs Symeig Spectral SymeigSpec SymeigProofs SymeigProofs2.
From Verif Require Import Normals NormalsSpec NormalsProofs.
From Coq Require Import Psatz.
Local Open Scope R_scope.

Lemma filter_map_length {A B} (f : A -> B) p l : length (filter p (map f l)) = length (filter (fun a => p (f a)) l).
Proof. induction l as [|a l IH]; [reflexivity|]. cbn. destruct (p (f a)); cbn; rewrite IH; reflexivity. Qed.
Lemma disambiguate_eq K p l v : disambiguate K p l v = if (2 * in_front p l v <? K)%nat then opposite v else v.
Proof.
  unfold disambiguate, in_front, count_if. rewrite !filter_map_length.
  destruct (_ <? _)%nat; unfold opposite; [f_equal; lra|]. replace (1 - 2 * 0) with 1 by ring. unfold scal3. destruct v. cbn. f_equal; ring.
Qed.
Lemma opposite_opposite v : opposite (opposite v) = v.
Proof. unfold opposite, scal3. destruct v. cbn. f_equal; ring. Qed.
Lemma front_both p l v : (in_front p l v + in_front p l (opposite v) <= length l)%nat.
Proof.
  unfold in_front. induction l as [|q l IH]; [cbn; lia|]. cbn [filter].
  assert (E : dot3 (opposite v) (sub3 q p) = - dot3 v (sub3 q p)) by (unfold opposite; m3r; ring). rewrite E.
  destruct (Rltb_spec 0 (dot3 v (sub3 q p))); destruct (Rltb_spec 0 (- dot3 v (sub3 q p))); cbn [length]; try lra; lia.
Qed.
Lemma disambiguate_majority K p l v : length l = K -> has_majority K p l v ->
  (K < 2 * in_front p l (disambiguate K p l v))%nat /\ disambiguate K p l (opposite v) = disambiguate K p l v.
Proof.
  intros L H. pose proof (front_both p l v) as F. rewrite !disambiguate_eq, opposite_opposite. unfold has_majority in H.
  destruct (Nat.ltb_spec (2 * in_front p l v) K); destruct (Nat.ltb_spec (2 * in_front p l (opposite v)) K); destruct H; try lia; split; try lia; reflexivity.
Qed.
Lemma majority_sign K p l v : has_majority K p l (opposite v) <-> has_majority K p l v.
Proof. unfold has_majority. rewrite opposite_opposite. tauto. Qed.
Lemma disambiguate_cases K p l v : disambiguate K p l v = v \/ disambiguate K p l v = opposite v.
Proof. rewrite disambiguate_eq. destruct (_ <? _)%nat; auto. Qed.

Lemma frame_signs v1 v2 v3 n z : orthonormal v1 v2 v3 -> (n = v1 \/ n = opposite v1) -> (z = v3 \/ z = opposite v3) ->
  orthonormal n (cross3 n z) z /\ det3 (columns n (cross3 n z) z) = -1 /\ (cross3 n z = v2 \/ cross3 n z = opposite v2).
Proof.
  intros O Hn Hz.
  assert (NN : dot3 n n = 1) by (destruct Hn as [-> | ->]; [apply O|]; rewrite <- (proj1 O); unfold opposite; m3r; ring).
  assert (ZZ : dot3 z z = 1) by (destruct Hz as [-> | ->]; [apply O|]; destruct O as (_ & _ & O & _); rewrite <- O; unfold opposite; m3r; ring).
  assert (NZ : dot3 n z = 0).
  { destruct O as (_ & _ & _ & _ & O & _). destruct Hn as [-> | ->]; destruct Hz as [-> | ->]; try exact O;
    (apply Rplus_eq_reg_r with (dot3 v1 v3); rewrite ?O; revert O; unfold opposite; m3r; lra). }
  assert (N2 : dot3 n v2 = 0).
  { destruct O as (_ & _ & _ & O & _). destruct Hn as [-> | ->]; [exact O|]. revert O. unfold opposite; m3r; lra. }
  assert (Z2 : dot3 z v2 = 0).
  { destruct O as (_ & _ & _ & _ & _ & O). destruct Hz as [-> | ->]; rewrite dot_comm; [exact O|]. revert O. unfold opposite; m3r; lra. }
  pose proof (complete2 n z NN ZZ NZ) as C.
  split; [destruct C as (C1 & C2 & C3 & C4 & C5 & C6); repeat split; auto; rewrite dot_comm; auto|]. split.
  - transitivity (dot3 n z * dot3 n z - dot3 n n * dot3 z z); [unfold columns; clear; m3r; ring|]. rewrite NN, ZZ, NZ. ring.
  - set (t := dot3 v2 (cross3 n z)). assert (E : v2 = scal3 t (cross3 n z)).
    { rewrite (expand n z (cross3 n z) v2 C) at 1. rewrite (dot_comm v2 n), (dot_comm v2 z), N2, Z2. fold t.
      clearbody t. generalize (cross3 n z). clear. intros. m3r. apply V3_eq; ring. }
    assert (T : t * t = 1).
    { destruct O as (_ & O2 & _). destruct C as (_ & _ & C3 & _). transitivity (t * t * dot3 (cross3 n z) (cross3 n z)); [rewrite C3; ring|].
      rewrite <- O2. rewrite E. clearbody t. generalize (cross3 n z). clear. intros. m3r. ring. }
    assert (Ht : (t - 1) * (t + 1) = 0) by lra. apply Rmult_integral in Ht. destruct Ht as [Ht|Ht].
    + left. rewrite E. replace t with 1 by lra. generalize (cross3 n z). clear. intros. m3r. apply V3_eq; ring.
    + right. rewrite E. replace t with (-1) by lra. generalize (cross3 n z). clear. intros. unfold opposite. m3r. apply V3_eq; ring.
Qed.

(* the quadratic form of a matrix with an eigenbasis *)
Lemma eigens_form a e1 e2 e3 v1 v2 v3 u : eigens a e1 e2 e3 v1 v2 v3 ->
  dot3 u (mulv3 a u) = e1 * dot3 u v1 ^ 2 + e2 * dot3 u v2 ^ 2 + e3 * dot3 u v3 ^ 2 /\
  dot3 u u = dot3 u v1 ^ 2 + dot3 u v2 ^ 2 + dot3 u v3 ^ 2.
Proof.
  intros (O & A & B & C). pose proof (expand v1 v2 v3 u O) as E.
  set (c1 := dot3 u v1) in *. set (c2 := dot3 u v2) in *. set (c3 := dot3 u v3) in *.
  assert (M : mulv3 a u = add3 (add3 (scal3 (e1 * c1) v1) (scal3 (e2 * c2) v2)) (scal3 (e3 * c3) v3)).
  { rewrite E at 1. transitivity (add3 (add3 (scal3 c1 (mulv3 a v1)) (scal3 c2 (mulv3 a v2))) (scal3 c3 (mulv3 a v3))).
    - clear. clearbody c1 c2 c3. m3r. apply V3_eq; ring.
    - rewrite A, B, C. clear. clearbody c1 c2 c3. m3r. apply V3_eq; ring. }
  rewrite M. split.
  - transitivity (e1 * c1 * dot3 u v1 + e2 * c2 * dot3 u v2 + e3 * c3 * dot3 u v3); [clear; clearbody c1 c2 c3; m3r; ring|].
    fold c1 c2 c3. ring.
  - rewrite E at 2. transitivity (c1 * dot3 u v1 + c2 * dot3 u v2 + c3 * dot3 u v3); [clear; clearbody c1 c2 c3; m3r; ring|].
    fold c1 c2 c3. ring.
Qed.
Lemma thickness_opposite l v : thickness l (opposite v) = thickness l v.
Proof. unfold thickness. f_equal. f_equal. apply map_ext. intros q. unfold opposite. generalize (sub3 q (centroid l)). intros d. m3r. ring. Qed.

Lemma eigh_principal K l e v1 v2 v3 : length l = K -> eigh_of (covariance K l) (e, (v1, v2, v3)) -> principal l e v1 v2 v3.
Proof.
  intros L [G A].
  assert (U : forall u, thickness l u = x3 e * dot3 u v1 ^ 2 + y3 e * dot3 u v2 ^ 2 + z3 e * dot3 u v3 ^ 2).
  { intros u. rewrite <- (covariance_form K l u L). apply (eigens_form _ _ _ _ _ _ _ u G). }
  assert (S : forall u, dot3 u u = dot3 u v1 ^ 2 + dot3 u v2 ^ 2 + dot3 u v3 ^ 2) by (intros u; apply (eigens_form _ _ _ _ _ _ _ u G)).
  destruct G as ((O1 & O2 & O3 & O4 & O5 & O6) & _).
  assert (T1 : thickness l v1 = x3 e) by (rewrite U, O1, O4, O5; ring).
  assert (T2 : thickness l v2 = y3 e) by (rewrite U, (dot_comm v2 v1), O2, O4, O6; ring).
  assert (T3 : thickness l v3 = z3 e) by (rewrite U, (dot_comm v3 v1), (dot_comm v3 v2), O3, O5, O6; ring).
  constructor; try (symmetry; assumption); [exact A|].
  intros u Hu. rewrite T1, T3, (U u). rewrite (S u) in Hu. generalize dependent (dot3 u v1). generalize dependent (dot3 u v2). generalize dependent (dot3 u v3).
  intros c3 c2 c1 Hu. pose proof (pow2_ge_0 c1). pose proof (pow2_ge_0 c2). pose proof (pow2_ge_0 c3).
  generalize dependent (c1 ^ 2). generalize dependent (c2 ^ 2). generalize dependent (c3 ^ 2). intros d3 D3 d2 D2 d1 Hd D1.
  assert (0 <= (y3 e - x3 e) * d2) by (apply Rmult_le_pos; lra). assert (0 <= (z3 e - x3 e) * d3) by (apply Rmult_le_pos; lra).
  assert (0 <= (z3 e - x3 e) * d1) by (apply Rmult_le_pos; lra). assert (0 <= (z3 e - y3 e) * d2) by (apply Rmult_le_pos; lra).
  replace d1 with (1 - d2 - d3) in * by lra. split; lra.
Qed.
Lemma principal_signs l e v1 v2 v3 n y z : principal l e v1 v2 v3 ->
  (n = v1 \/ n = opposite v1) -> (y = v2 \/ y = opposite v2) -> (z = v3 \/ z = opposite v3) -> principal l e n y z.
Proof.
  intros [A B C D E] Hn Hy Hz.
  assert (N : thickness l n = thickness l v1) by (destruct Hn as [-> | ->]; [reflexivity|apply thickness_opposite]).
  assert (Y : thickness l y = thickness l v2) by (destruct Hy as [-> | ->]; [reflexivity|apply thickness_opposite]).
  assert (Z : thickness l z = thickness l v3) by (destruct Hz as [-> | ->]; [reflexivity|apply thickness_opposite]).
  constructor; try congruence. intros u Hu. rewrite N, Z. apply E, Hu.
Qed.

(* ---- the point itself is one of its neighbours ---- *)
Lemma neighbourhood_length K pts p qs : neighbourhood K pts p qs -> length qs = K.
Proof. intros (ds & js & Q & ->). rewrite map_length. apply Q. Qed.
Lemma sqdist_zero p q : sqdist p q = 0 -> p = q.
Proof.
  destruct p as [a b c], q as [a' b' c']. unfold sqdist. cbn [x3 y3 z3]. intros H.
  pose proof (pow2_ge_0 (a - a')). pose proof (pow2_ge_0 (b - b')). pose proof (pow2_ge_0 (c - c')).
  assert (Q : forall t, t ^ 2 = 0 -> t = 0) by (intros t Ht; assert (t * t = 0) by lra; apply Rmult_integral in H3; lra).
  f_equal; apply Rminus_diag_uniq, Q; lra.
Qed.
Lemma sqdist_nonneg p q : 0 <= sqdist p q.
Proof. unfold sqdist. pose proof (pow2_ge_0 (x3 p - x3 q)). pose proof (pow2_ge_0 (y3 p - y3 q)). pose proof (pow2_ge_0 (z3 p - z3 q)). lra. Qed.
Lemma neighbourhood_self K pts i qs : (1 <= K <= length pts)%nat -> (i < length pts)%nat ->
  neighbourhood K pts (nth i pts vzero) qs -> In (nth i pts vzero) qs.
Proof.
  intros HK Hi (ds & js & Q & ->). assert (LJ : length js = K) by apply Q.
  destruct (In_dec Nat.eq_dec i js) as [I|N]; [apply (in_map (fun j => nth j pts vzero)), I|].
  pose proof (knn_nearest _ _ _ _ _ Q i Hi) as G. rewrite Nat.min_l, firstn_all2 in G by lia. specialize (G N 0%nat ltac:(lia)).
  destruct (knn_valid _ _ _ _ _ Q 0%nat ltac:(lia)) as [V D]. rewrite D in G.
  assert (Z : sqdist (nth i pts vzero) (nth i pts vzero) = 0) by (unfold sqdist; ring). rewrite Z in G.
  pose proof (sqdist_nonneg (nth i pts vzero) (nth (nth 0 js 0%nat) pts vzero)).
  rewrite (sqdist_zero _ (nth (nth 0 js 0%nat) pts vzero)) by lra.
  apply (in_map (fun j => nth j pts vzero)), nth_In. lia.
Qed.
Lemma neighbourhood_in K pts p qs : (K <= length pts)%nat -> neighbourhood K pts p qs -> forall q, In q qs -> In q pts.
Proof.
  intros HK (ds & js & Q & ->) q H. apply in_map_iff in H. destruct H as (j & <- & H). apply nth_In.
  apply (In_nth _ _ 0%nat) in H. destruct H as (k & L & <-). apply (knn_valid _ _ _ _ _ Q k).
  assert (length js = K) by apply Q. lia.
Qed.
Lemma dot_centroid u l c : l <> [] -> (forall q, In q l -> dot3 u q = c) -> dot3 u (centroid l) = c.
Proof.
  intros N H. assert (P : INR (length l) <> 0) by (destruct l; [contradiction|apply not_0_INR; discriminate]).
  assert (S : x3 u * rsum (map x3 l) + y3 u * rsum (map y3 l) + z3 u * rsum (map z3 l) = INR (length l) * c).
  { clear N P. induction l as [|q l IH]; [cbn; ring|]. cbn [map length]. rewrite !rsum_cons, S_INR.
    rewrite Rmult_plus_distr_r, <- IH by (intros; apply H; right; assumption). rewrite Rmult_1_l, <- (H q (or_introl eq_refl)). unfold dot3. ring. }
  unfold centroid, dot3. cbv zeta. cbn [x3 y3 z3]. apply Rmult_eq_reg_l with (INR (length l)); [|exact P]. rewrite <- S. field. exact P.
Qed.
Lemma flat_thickness u l c : (forall q, In q l -> dot3 u q = c) -> thickness l u = 0.
Proof.
  intros H. unfold thickness. destruct l as [|a l']; [cbn; unfold Rdiv; rewrite Rmult_0_l; reflexivity|].
  set (l := a :: l') in *. rewrite (map_ext_in _ (fun _ => 0)).
  - rewrite rsum_map_zero by reflexivity. unfold Rdiv. ring.
  - intros q Hq. pose proof (dot_centroid u l c ltac:(discriminate) H) as D.
    replace (dot3 u (sub3 q (centroid l))) with (dot3 u q - dot3 u (centroid l)) by (generalize (centroid l); intros; clear; m3r; ring).
    rewrite D, (H q Hq). ring.
Qed.
Lemma rsum_sq_zero {A} (f : A -> R) l : rsum (map (fun a => f a ^ 2) l) = 0 -> forall a, In a l -> f a = 0.
Proof.
  induction l as [|b l IH]; [contradiction|]. cbn [map]. rewrite rsum_cons. intros H a I.
  pose proof (pow2_ge_0 (f b)). assert (0 <= rsum (map (fun a => f a ^ 2) l)).
  { apply rsum_nonneg. apply Forall_forall. intros y Hy. apply in_map_iff in Hy. destruct Hy as (t & <- & _). apply pow2_ge_0. }
  destruct I as [<-|I]; [|apply IH; [lra|exact I]]. assert (Z : f b * f b = 0) by lra. apply Rmult_integral in Z. lra.
Qed.
Lemma flat_front l n p : In p l -> thickness l n = 0 -> in_front p l n = 0%nat /\ in_front p l (opposite n) = 0%nat.
Proof.
  intros I T. assert (P : INR (length l) <> 0) by (destruct l; [contradiction|apply not_0_INR; discriminate]).
  unfold thickness in T. assert (T' : rsum (map (fun q => dot3 n (sub3 q (centroid l)) ^ 2) l) = 0).
  { apply Rmult_eq_reg_r with (/ INR (length l)); [|apply Rinv_neq_0_compat, P]. rewrite Rmult_0_l. exact T. }
  pose proof (rsum_sq_zero (fun q => dot3 n (sub3 q (centroid l))) l T') as Z.
  assert (D : forall q, In q l -> dot3 n (sub3 q p) = 0).
  { intros q Hq. transitivity (dot3 n (sub3 q (centroid l)) - dot3 n (sub3 p (centroid l))); [generalize (centroid l); intros; clear; m3r; ring|].
    rewrite (Z q Hq), (Z p I). ring. }
  assert (F : forall u (m : list vec3), (forall q, In q m -> dot3 u (sub3 q p) = 0) -> in_front p m u = 0%nat).
  { intros u m H. unfold in_front. induction m as [|q m IH]; [reflexivity|]. cbn [filter]. rewrite (H q (or_introl eq_refl)).
    destruct (Rltb_spec 0 0); [lra|]. apply IH. intros; apply H; right; assumption. }
  split; apply F; [exact D|]. intros q Hq. specialize (D q Hq). revert D. unfold opposite. generalize (sub3 q p). intros d. m3r. lra.
Qed.
