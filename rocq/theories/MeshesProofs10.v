From Coq Require Import Sorted.
From Verif Require Import Base Packing PackingProofs PackOpsProofs RBase Geom FaceAreas FaceAreasSpec Meshes MeshesSpec MeshesHistSpec
  MeshesProofs MeshesProofs2 MeshesProofs3 MeshesProofs4 MeshesProofs5 MeshesProofs6 MeshesProofs7 MeshesProofs8 MeshesProofs9.
Local Open Scope nat_scope.

(* ---- the Laplacian in terms of the mesh ---- *)
Lemma side_sym i j f : side_of (i, j) f -> side_of (j, i) f.
Proof. unfold side_of. cbn. tauto. Qed.
Lemma edge_strict fs E e : Forall three_corners fs -> edge_list fs E -> In e E -> (fst e < snd e)%Z.
Proof.
  intros Hd (_ & HE) He. apply HE in He. destruct He as (Hle & f & Hf & Hs). rewrite Forall_forall in Hd. specialize (Hd f Hf).
  destruct f as ((a, b), c), e as (x, y). unfold side_of in Hs. cbn in *.
  destruct Hs as [[H|[H|[H|[]]]]|[H|[H|[H|[]]]]]; injection H as ? ?; lia.
Qed.
Lemma lex_sorted_nodup E : StronglySorted lex E -> NoDup E.
Proof.
  induction 1 as [|e E _ IH HF]; constructor; [|exact IH]. intros H. rewrite Forall_forall in HF. specialize (HF e H). unfold lex in HF. lia.
Qed.
Lemma in_edges fs E i j : Forall three_corners fs -> edge_list fs E -> i <> j ->
  (In (Z.of_nat i, Z.of_nat j) E \/ In (Z.of_nat j, Z.of_nat i) E) <-> adjacent fs i j.
Proof.
  intros Hd (_ & HE) Hne. rewrite !HE. cbn [fst snd]. unfold adjacent. split.
  - intros [(_ & f & Hf & Hs)|(_ & f & Hf & Hs)]; exists f; [auto|]. split; [exact Hf|]. apply side_sym, Hs.
  - intros (f & Hf & Hs). destruct (Nat.le_gt_cases i j); [left|right]; (split; [lia|]); exists f; split; auto. apply side_sym, Hs.
Qed.

Lemma hit_spec (e : Z * Z) a b : ((fst e =? a) && (snd e =? b))%Z = true <-> e = (a, b).
Proof.
  destruct e as (x, y). cbn. rewrite andb_true_iff, !Z.eqb_eq. split; [intros (-> & ->); reflexivity|]. intros H; injection H as -> ->. auto.
Qed.
Lemma sum_none (E : list (Z * Z)) a b w : ~ In (a, b) E ->
  rsum (map (fun e => if ((fst e =? a) && (snd e =? b))%Z then w else 0)%R E) = 0%R.
Proof.
  intros H. apply rsum_map_zero. intros e He. destruct (_ && _) eqn:X; [|reflexivity]. apply hit_spec in X. subst e. contradiction.
Qed.
Lemma sum_one (E : list (Z * Z)) a b w : NoDup E -> In (a, b) E ->
  rsum (map (fun e => if ((fst e =? a) && (snd e =? b))%Z then w else 0)%R E) = w.
Proof.
  induction 1 as [|e E Hn _ IH]; intros H; [destruct H|]. cbn [map]. rewrite rsum_cons. destruct H as [->|H].
  - rewrite sum_none by exact Hn. cbn [fst snd]. rewrite !Z.eqb_refl. cbn [andb]. lra.
  - destruct (_ && _) eqn:X; [apply hit_spec in X; subst e; contradiction|]. rewrite IH by exact H. lra.
Qed.
Lemma lap_entry_split E i j : lap_entry E i j =
  (rsum (map (fun e => if ((fst e =? Z.of_nat i) && (snd e =? Z.of_nat j))%Z then / deg E i else 0) E) +
   rsum (map (fun e => if ((fst e =? Z.of_nat j) && (snd e =? Z.of_nat i))%Z then / deg E i else 0) E) - (if (i =? j)%nat then 1 else 0))%R.
Proof.
  unfold lap_entry. rewrite rsum_map_plus. f_equal. f_equal. apply rsum_map_ext. intros e _. rewrite andb_comm. reflexivity.
Qed.

Section Lap.
Variables (fs : list face) (E : list (Z * Z)).
Hypothesis Hd : Forall three_corners fs.
Hypothesis HE : edge_list fs E.

Lemma lap_diag i : lap_entry E i i = (-1)%R.
Proof.
  rewrite lap_entry_split, Nat.eqb_refl. assert (~ In (Z.of_nat i, Z.of_nat i) E).
  { intros H. apply (edge_strict fs E) in H; auto. cbn in H. lia. }
  rewrite sum_none by assumption. lra.
Qed.
Lemma lap_adj i j : i <> j -> adjacent fs i j -> lap_entry E i j = (/ deg E i)%R.
Proof.
  intros Hne Ha. rewrite lap_entry_split. destruct (Nat.eqb_spec i j); [contradiction|].
  apply (in_edges fs E i j Hd HE Hne) in Ha. destruct Ha as [H|H].
  - rewrite (sum_one E (Z.of_nat i)) by (auto; apply lex_sorted_nodup, HE). rewrite sum_none; [lra|].
    intros H'. apply (edge_strict fs E) in H; auto. apply (edge_strict fs E) in H'; auto. cbn in *. lia.
  - rewrite (sum_one E (Z.of_nat j)) by (auto; apply lex_sorted_nodup, HE). rewrite sum_none; [lra|].
    intros H'. apply (edge_strict fs E) in H; auto. apply (edge_strict fs E) in H'; auto. cbn in *. lia.
Qed.
Lemma lap_far i j : i <> j -> ~ adjacent fs i j -> lap_entry E i j = 0%R.
Proof.
  intros Hne Ha. rewrite lap_entry_split. destruct (Nat.eqb_spec i j); [contradiction|].
  rewrite <- (in_edges fs E i j Hd HE Hne) in Ha. rewrite !sum_none by tauto. lra.
Qed.

(* the degree is the number of neighbours *)
Hypothesis Hpos : Forall (fun f => forall v, In v (corners f) -> (0 <= v)%Z) fs.
Definition from_fst (i : nat) : list nat := map (fun e => Z.to_nat (snd e)) (filter (fun e : Z * Z => (fst e =? Z.of_nat i)%Z) E).
Definition from_snd (i : nat) : list nat := map (fun e => Z.to_nat (fst e)) (filter (fun e : Z * Z => (snd e =? Z.of_nat i)%Z) E).
Lemma edge_nonneg e : In e E -> (0 <= fst e /\ 0 <= snd e)%Z.
Proof.
  intros He. apply (proj2 HE) in He. destruct He as (_ & f & Hf & Hs). rewrite Forall_forall in Hpos. specialize (Hpos f Hf).
  destruct f as ((a, b), c), e as (x, y). unfold side_of in Hs. cbn in *.
  destruct Hs as [[H|[H|[H|[]]]]|[H|[H|[H|[]]]]]; injection H as <- <-; split; apply Hpos; auto.
Qed.
Lemma count_fst i l : rsum (map (fun e : Z * Z => if (fst e =? Z.of_nat i)%Z then 1 else 0)%R l) = INR (length (filter (fun e : Z * Z => (fst e =? Z.of_nat i)%Z) l)).
Proof. induction l as [|e l IH]; [reflexivity|]. cbn [map filter]. rewrite rsum_cons, IH. destruct (_ =? _)%Z; [cbn [length]; rewrite S_INR; lra|lra]. Qed.
Lemma count_snd i l : rsum (map (fun e : Z * Z => if (snd e =? Z.of_nat i)%Z then 1 else 0)%R l) = INR (length (filter (fun e : Z * Z => (snd e =? Z.of_nat i)%Z) l)).
Proof. induction l as [|e l IH]; [reflexivity|]. cbn [map filter]. rewrite rsum_cons, IH. destruct (_ =? _)%Z; [cbn [length]; rewrite S_INR; lra|lra]. Qed.
Lemma nodup_map_in {X Y} (g : X -> Y) l : NoDup l -> (forall x y, In x l -> In y l -> g x = g y -> x = y) -> NoDup (map g l).
Proof.
  induction 1 as [|x l Hx _ IH]; intros Hi; cbn; constructor.
  - intros H. apply in_map_iff in H. destruct H as (y & Ey & Hy). assert (y = x) by (apply Hi; cbn; auto). subst. contradiction.
  - apply IH. intros y z Hy Hz. apply Hi; cbn; auto.
Qed.
Lemma nodup_app {X} (a b : list X) : NoDup a -> NoDup b -> (forall x, In x a -> ~ In x b) -> NoDup (a ++ b).
Proof.
  induction 1 as [|x a Hx _ IH]; intros Hb Hd'; cbn; [exact Hb|]. constructor.
  - rewrite in_app_iff. intros [H|H]; [contradiction|]. apply (Hd' x); [left; reflexivity|exact H].
  - apply IH; [exact Hb|]. intros y Hy. apply Hd'. right. exact Hy.
Qed.
Lemma own_neighbours i : neighbours fs i (from_fst i ++ from_snd i).
Proof.
  pose proof (lex_sorted_nodup E (proj1 HE)) as Hn. split.
  - apply nodup_app.
    + apply nodup_map_in; [apply NoDup_filter, Hn|]. intros (a, b) (c, d) H1 H2 H. apply filter_In in H1, H2. destruct H1 as (H1 & H1'), H2 as (H2 & H2').
      apply edge_nonneg in H1, H2. apply Z.eqb_eq in H1', H2'. cbn in *. f_equal; lia.
    + apply nodup_map_in; [apply NoDup_filter, Hn|]. intros (a, b) (c, d) H1 H2 H. apply filter_In in H1, H2. destruct H1 as (H1 & H1'), H2 as (H2 & H2').
      apply edge_nonneg in H1, H2. apply Z.eqb_eq in H1', H2'. cbn in *. f_equal; lia.
    + intros x H1 H2. apply in_map_iff in H1, H2. destruct H1 as ((a, b) & E1 & H1), H2 as ((c, d) & E2 & H2).
      apply filter_In in H1, H2. destruct H1 as (H1 & H1'), H2 as (H2 & H2'). apply Z.eqb_eq in H1', H2'.
      pose proof (edge_nonneg _ H1). pose proof (edge_nonneg _ H2). apply (edge_strict fs E) in H1; auto. apply (edge_strict fs E) in H2; auto. cbn in *. lia.
  - intros j. unfold from_fst, from_snd. rewrite in_app_iff, !in_map_iff. split.
    + intros [((a, b) & <- & H)|((a, b) & <- & H)]; apply filter_In in H; destruct H as (H & H'); apply Z.eqb_eq in H'; pose proof (edge_nonneg _ H);
        pose proof (edge_strict fs E _ Hd HE H); cbn in *; subst.
      * apply (in_edges fs E); auto; [lia|]. left. rewrite Z2Nat.id by lia. exact H.
      * apply (in_edges fs E); auto; [lia|]. right. rewrite Z2Nat.id by lia. exact H.
    + intros Ha. assert (Hne : i <> j).
      { intros ->. destruct Ha as (f & Hf & Hs). rewrite Forall_forall in Hd. specialize (Hd f Hf). destruct f as ((a, b), c). unfold side_of in Hs. cbn in *.
        destruct Hs as [[H|[H|[H|[]]]]|[H|[H|[H|[]]]]]; injection H as ? ?; lia. }
      apply (in_edges fs E i j Hd HE Hne) in Ha. destruct Ha as [H|H]; [left|right]; eexists; (split; [|apply filter_In; split; [exact H|apply Z.eqb_refl]]); cbn; lia.
Qed.
Lemma deg_neighbours i ns : neighbours fs i ns -> deg E i = INR (length ns).
Proof.
  intros (Hn & Hi). destruct (own_neighbours i) as (Hn' & Hi').
  assert (Hl : length ns = length (from_fst i ++ from_snd i)).
  { apply Permutation.Permutation_length, NoDup_Permutation; auto. intros x. rewrite Hi, Hi'. reflexivity. }
  rewrite Hl, app_length. unfold from_fst, from_snd. rewrite !map_length, plus_INR, <- count_fst, <- count_snd. unfold deg. apply rsum_map_plus.
Qed.
End Lap.

Lemma good_corners b : Forall good_mesh b -> Forall (fun f => forall v, In v (corners f) -> (0 <= v)%Z) (all_faces b).
Proof. intros Hg. eapply Forall_impl; [|apply all_faces_range, Hg]. intros f Hf v Hv. apply (corners_range _ f v Hf) in Hv. lia. Qed.
Lemma three_move o f : three_corners f -> three_corners (move_face o f).
Proof. destruct f as ((a, b), c). cbn. lia. Qed.
Lemma three_all b : Forall (fun p => Forall three_corners (snd p)) b -> Forall three_corners (all_faces b).
Proof.
  unfold all_faces. generalize 0. induction b as [|p b IH]; intros o H; cbn [faces_from]; [constructor|]. apply Forall_cons_iff in H. destruct H as (H1 & H2).
  apply Forall_app. split; [|apply IH, H2]. apply Forall_map. eapply Forall_impl; [|exact H1]. intros f. apply three_move.
Qed.

Theorem laplacian_entries b L : Forall good_mesh b -> Forall (fun p => Forall three_corners (snd p)) b ->
  tell QLaplacian (from_lists b) (AMatrix L) -> forall i j x, nth_error L i = Some x -> forall y, nth_error x j = Some y ->
  (i = j -> y = (-1)%R) /\
  (i <> j -> adjacent (all_faces b) i j -> forall ns, neighbours (all_faces b) i ns -> y = (/ INR (length ns))%R) /\
  (i <> j -> ~ adjacent (all_faces b) i j -> y = 0%R).
Proof.
  intros Hg H3 (E & HE & ->) i j x Hx y Hy. cbn [batch from_lists] in *. set (V := length (all_verts b)) in *.
  assert (Hi : i < V). { assert (i < length (map (fun i => map (lap_entry E i) (seq 0 V)) (seq 0 V))) by (apply nth_error_Some; congruence). rewrite map_length, seq_length in *. lia. }
  rewrite nth_error_map_iff, nth_error_seq_lt in Hx by exact Hi. cbn [option_map] in Hx. injection Hx as <-.
  assert (Hj : j < V). { assert (j < length (map (lap_entry E i) (seq 0 V))) by (apply nth_error_Some; cbn [Nat.add] in Hy; congruence). rewrite map_length, seq_length in *. lia. }
  rewrite nth_error_map_iff, nth_error_seq_lt in Hy by exact Hj. cbn [option_map Nat.add] in Hy. injection Hy as <-.
  pose proof (three_all b H3) as Hd. pose proof (good_corners b Hg) as Hp. split; [|split].
  - intros ->. apply (lap_diag (all_faces b) E Hd HE).
  - intros Hne Ha ns Hns. rewrite (lap_adj (all_faces b) E Hd HE i j Hne Ha). f_equal. apply (deg_neighbours (all_faces b) E Hd HE Hp i ns Hns).
  - intros Hne Ha. apply (lap_far (all_faces b) E Hd HE i j Hne Ha).
Qed.

(* ---- stale vertex normals after scaling ---- *)
Section Stale.
Variable argsort : list Z -> list nat.
Hypothesis Hsort : sorts argsort.
Notation repr := (repr argsort).

Lemma repr_as_user a m l : repr a m -> vnormals m = Some l -> repr (A (batch a) (vtail a) (ftail a) (Some l)) m.
Proof.
  intros Rm E. destruct Rm. constructor; cbn [batch vtail ftail user]; auto.
  right. exists l. split; [exact E|reflexivity].
Qed.
Lemma stale_normals b : Forall good_mesh b -> has_a_face b -> forall s, exists m0 m1 m2 m3,
  new_list (map fst b) (map snd b) = Ok m0 /\ verts_normals_packed m0 = Ok (concat (map mesh_normals b), m1) /\
  scale_verts_ (OneScale s) m1 = Ok m2 /\ shows m2 (scale_batch (repeat s (length b)) b) /\
  verts_normals_packed m2 = Ok (concat (map mesh_normals b), m3).
Proof.
  intros Hg Hf s. destruct (new_list_repr argsort b Hg Hf) as (m0 & E0 & R0 & _). pose proof (from_lists_wf b Hg Hf) as W0.
  destruct (vn_tell argsort (from_lists b) m0 W0 R0) as (m1 & E1 & R1 & V1).
  pose proof (repr_as_user _ _ _ R1 V1) as R1'. set (l := vert_normals (from_lists b)) in *.
  assert (W1 : wf_state (A (batch (from_lists b)) (vtail (from_lists b)) (ftail (from_lists b)) (Some l))).
  { destruct W0 as (W1 & W2 & W3 & W4 & W5 & W6 & W7 & W8). repeat (split; [assumption|]). cbn [user]. intros l' H. assert (l' = l) by congruence. subst l'. apply (vert_normals_length (from_lists b)). apply from_lists_wf; assumption. }
  destruct (scale_ok argsort (OneScale s) _ m1 W1 R1') as (m2 & E2 & R2 & W2).
  { cbn. rewrite repeat_length. lia. } { left. discriminate. }
  destruct (vn_packed argsort _ m2 W2 R2) as (m3 & E3 & _).
  exists m0, m1, m2, m3. split; [exact E0|]. split. { unfold verts_normals_packed. rewrite E1. cbn [rbind]. rewrite V1. reflexivity. }
  split; [exact E2|]. split; [apply (repr_shows argsort _ m2 W2 R2)|exact E3].
Qed.
End Stale.

Definition triangle : mesh := ([V3 0 0 0; V3 1 0 0; V3 0 1 0]%R, [(0, 1, 2)%Z]).
Lemma triangle_good : good_mesh triangle.
Proof. constructor; [cbn; lia|constructor]. Qed.
Lemma triangle_normal : raw_normal (fst triangle) (snd triangle) 0 = V3 0 0 1.
Proof. unfold raw_normal, triangle, vsum. cbn [fst snd map fold_right]. unfold at_, tri_cross, scal3, add3, sub3, cross3, count_corner. cbn. change (Pos.to_nat 1) with 1%nat. change (Pos.to_nat 2) with 2%nat. cbn. f_equal; lra. Qed.
Lemma flat_normal : raw_normal (map (scal3 0) (fst triangle)) (snd triangle) 0 = V3 0 0 0.
Proof. rewrite (raw_scale triangle 0 0 triangle_good), triangle_normal. unfold scal3. cbn. f_equal; lra. Qed.
Lemma triangle_stale : concat (map mesh_normals [triangle]) <> concat (map mesh_normals (scale_batch [0%R] [triangle])).
Proof.
  intros H. apply (f_equal (fun l => nth 0 l (V3 0 0 0))) in H.
  assert (A1 : nth 0 (concat (map mesh_normals [triangle])) (V3 0 0 0) = unit_or_short (raw_normal (fst triangle) (snd triangle) 0)) by reflexivity.
  assert (A2 : nth 0 (concat (map mesh_normals (scale_batch [0%R] [triangle]))) (V3 0 0 0) = unit_or_short (raw_normal (map (scal3 0) (fst triangle)) (snd triangle) 0)) by reflexivity.
  rewrite A1, A2, triangle_normal, flat_normal in H. apply (f_equal z3) in H. unfold unit_or_short, div3 in H. cbn [z3] in H.
  assert (P : (0 < Rmax (norm3 (V3 0 0 1)) (/ 1000000))%R) by (eapply Rlt_le_trans; [|apply Rmax_r]; lra).
  assert ((1 / Rmax (norm3 (V3 0 0 1)) (/ 1000000) > 0)%R) by (apply Rdiv_lt_0_compat; lra). unfold Rdiv in *. lra.
Qed.
