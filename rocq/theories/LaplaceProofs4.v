From Coq Require Import Permutation Sorted Psatz.
From Verif Require Import Base Packing PackingProofs RBase Geom FaceAreas FaceAreasSpec Meshes MeshesSpec MeshesHistSpec MeshesProofs MeshesProofs2 MeshesProofs3 MeshesProofs4 MeshesProofs5 MeshesProofs6 MeshesProofs9 MeshesProofs10 MeshesProofs11 Laplace LaplaceSpec LaplaceProofs LaplaceProofs2 LaplaceProofs3.
Local Open Scope R_scope.

(* ---- a mesh inside a batch ---- *)
Notation before b := (length (all_verts b)) (only parsing).
Definition zall (b : list mesh) : list (Z * Z) := move_edges 0 b (map zedges b).
Lemma all_verts_mid b1 p b2 : all_verts (b1 ++ p :: b2) = all_verts b1 ++ fst p ++ all_verts b2.
Proof. unfold all_verts. rewrite map_app, concat_app. reflexivity. Qed.
Lemma faces_from_app b1 b2 : forall o, faces_from o (b1 ++ b2) = faces_from o b1 ++ faces_from (o + length (all_verts b1)) b2.
Proof.
  induction b1 as [|p b1 IH]; intros o; [unfold all_verts; cbn [map concat length app faces_from]; rewrite Nat.add_0_r; reflexivity|]. cbn [app faces_from]. rewrite IH, <- app_assoc. unfold all_verts. cbn [map concat]. rewrite app_length, Nat.add_assoc. reflexivity.
Qed.
Lemma move_edges_app b1 b2 : forall o, move_edges o (b1 ++ b2) (map zedges (b1 ++ b2)) = move_edges o b1 (map zedges b1) ++ move_edges (o + length (all_verts b1)) b2 (map zedges b2).
Proof.
  induction b1 as [|p b1 IH]; intros o; [unfold all_verts; cbn [map concat length app move_edges]; rewrite Nat.add_0_r; reflexivity|]. cbn [app map move_edges]. rewrite IH, <- app_assoc. unfold all_verts. cbn [map concat]. rewrite app_length, Nat.add_assoc. reflexivity.
Qed.
Lemma move_edges_range b : Forall good_mesh b -> forall o, Forall (fun e => (Z.of_nat o <= fst e < Z.of_nat (o + length (all_verts b)) /\ Z.of_nat o <= snd e < Z.of_nat (o + length (all_verts b)))%Z) (move_edges o b (map zedges b)).
Proof.
  induction 1 as [|p b Hp Hb IH]; intros o; [constructor|]. cbn [map move_edges]. unfold all_verts. cbn [map concat]. rewrite app_length. fold (all_verts b). apply Forall_app. split.
  - apply Forall_map. eapply Forall_impl; [|apply (zedges_range p Hp)]. intros e (A & B). unfold move_edge. cbn [fst snd]. lia.
  - eapply Forall_impl; [|apply IH]. cbv beta. intros e H. lia.
Qed.
Lemma zall_range b : Forall good_mesh b -> Forall (in_graph (length (all_verts b))) (zall b).
Proof. intros H. eapply Forall_impl; [|apply (move_edges_range b H 0)]. cbv beta. unfold in_graph. intros e He. lia. Qed.
Lemma rows_split {T} (h : nat -> T) (h' : mesh -> nat -> T) b : (forall b1 p b2 k, b = b1 ++ p :: b2 -> (k < length (fst p))%nat -> h (length (all_verts b1) + k)%nat = h' p k) ->
  map h (seq 0 (length (all_verts b))) = concat (map (fun p => map (h' p) (seq 0 (length (fst p)))) b).
Proof.
  intros H. assert (G : forall b2 b1, b = b1 ++ b2 -> map h (seq (length (all_verts b1)) (length (all_verts b2))) = concat (map (fun p => map (h' p) (seq 0 (length (fst p)))) b2)); [|apply (G b [] eq_refl)].
  induction b2 as [|p b2 IH]; intros b1 E; [reflexivity|]. unfold all_verts at 2. cbn [map concat]. rewrite app_length, seq_app, map_app. f_equal.
  - assert (K : forall n s, (s + n <= length (fst p))%nat -> map h (seq (length (all_verts b1) + s) n) = map (h' p) (seq s n)).
    { induction n as [|n IHn]; intros s Hs; [reflexivity|]. cbn [seq map]. f_equal; [apply (H b1 p b2); [exact E|lia]|]. replace (S (length (all_verts b1) + s)) with (length (all_verts b1) + S s)%nat by lia. apply IHn. lia. }
    specialize (K (length (fst p)) 0%nat (Nat.le_refl _)). rewrite Nat.add_0_r in K. exact K.
  - specialize (IH (b1 ++ [p])). rewrite <- app_assoc in IH. specialize (IH E). unfold all_verts in IH at 1. rewrite map_app, concat_app, app_length in IH. cbn [map concat] in IH. rewrite app_nil_r in IH. exact IH.
Qed.

(* ---- uniform ---- *)
Lemma ends_none F es i : Forall (fun e => fst e <> Z.of_nat i /\ snd e <> Z.of_nat i) es -> ends_sum F es i = 0.
Proof.
  intros H. unfold ends_sum. apply rsum_map_zero. intros e He. rewrite Forall_forall in H. destruct (H e He) as (A & B). apply Z.eqb_neq in A, B. rewrite A, B. lra.
Qed.
Lemma ends_app F a b i : ends_sum F (a ++ b) i = ends_sum F a i + ends_sum F b i.
Proof. unfold ends_sum. rewrite map_app, rsum_app. reflexivity. Qed.
Lemma ends_local F b1 p b2 k : Forall good_mesh (b1 ++ p :: b2) -> (k < length (fst p))%nat ->
  ends_sum F (zall (b1 ++ p :: b2)) (length (all_verts b1) + k) = ends_sum (fun z => F (z + Z.of_nat (length (all_verts b1)))%Z) (zedges p) k.
Proof.
  intros Hg Hk. apply Forall_app in Hg. destruct Hg as (H1 & Hg). apply Forall_cons_iff in Hg. destruct Hg as (Hp & H2). unfold zall. rewrite move_edges_app. cbn [map move_edges Nat.add]. rewrite !ends_app.
  rewrite (ends_none F (move_edges 0 b1 _)), (ends_none F (move_edges _ b2 _)).
  - rewrite Rplus_0_l, Rplus_0_r. unfold ends_sum. rewrite map_map. apply rsum_map_ext. intros e _. unfold move_edge. cbn [fst snd].
    assert (E : forall x, ((x + Z.of_nat (length (all_verts b1)) =? Z.of_nat (length (all_verts b1) + k)) = (x =? Z.of_nat k))%Z) by (intros x; destruct (Z.eqb_spec (x + Z.of_nat (length (all_verts b1))) (Z.of_nat (length (all_verts b1) + k))), (Z.eqb_spec x (Z.of_nat k)); lia). rewrite !E. reflexivity.
  - eapply Forall_impl; [|apply (move_edges_range b2 H2)]. cbv beta. intros e He. lia.
  - eapply Forall_impl; [|apply (move_edges_range b1 H1)]. cbv beta. intros e He. lia.
Qed.
Lemma ends_nbrs F p k : good_mesh p -> Forall three_corners (snd p) -> ends_sum F (zedges p) k = rsum (map (fun j => F (Z.of_nat j)) (nbrs p k)).
Proof.
  intros Hg H3. pose proof (zedges_ok p Hg) as HE. assert (HP : Forall (fun f => forall v, In v (corners f) -> (0 <= v)%Z) (snd p)) by (eapply Forall_impl; [|exact Hg]; intros f Hf v Hv; apply (corners_range _ f v Hf) in Hv; lia).
  pose proof (own_neighbours (snd p) (zedges p) H3 HE HP k) as ON. pose proof (nbrs_neighbours p k Hg) as NN.
  assert (P : Permutation (nbrs p k) (from_fst (zedges p) k ++ from_snd (zedges p) k)) by (apply NoDup_Permutation; [apply NN|apply ON|]; intros x; rewrite (proj2 NN x), (proj2 ON x); reflexivity).
  rewrite (rsum_perm _ _ (Permutation_map _ P)), map_app, rsum_app. unfold ends_sum. rewrite rsum_map_plus. unfold from_fst, from_snd. rewrite !map_map.
  assert (S1 : forall (sel get : Z * Z -> Z), (forall e, In e (zedges p) -> (0 <= get e)%Z) -> rsum (map (fun e => if (sel e =? Z.of_nat k)%Z then F (get e) else 0) (zedges p)) = rsum (map (fun e => F (Z.of_nat (Z.to_nat (get e)))) (filter (fun e => (sel e =? Z.of_nat k)%Z) (zedges p)))).
  { intros sel get. clear. induction (zedges p) as [|e l IH]; intros Hn; [reflexivity|]. cbn [map filter]. rewrite rsum_cons, IH by (intros; apply Hn; cbn; auto). destruct (sel e =? Z.of_nat k)%Z; [cbn [map]; rewrite rsum_cons, Z2Nat.id by (apply Hn; cbn; auto); reflexivity|lra]. }
  pose proof (zedges_range p Hg) as ZR. rewrite Forall_forall in ZR. unfold in_graph in ZR.
  rewrite (S1 fst snd), (S1 snd fst) by (intros e He; specialize (ZR e He); lia). reflexivity.
Qed.
Lemma deg_local b1 p b2 k : Forall good_mesh (b1 ++ p :: b2) -> Forall three_corners (snd p) -> (k < length (fst p))%nat -> deg (zall (b1 ++ p :: b2)) (length (all_verts b1) + k) = INR (length (nbrs p k)).
Proof.
  intros Hg H3 Hk. rewrite <- ends_deg, ends_local by assumption. assert (Hp : good_mesh p) by (rewrite Forall_forall in Hg; apply Hg, in_elt). rewrite (ends_nbrs (fun _ => 1)) by assumption. induction (nbrs p k) as [|j l IH]; [reflexivity|]. cbn [map length]. rewrite rsum_cons, S_INR, IH. lra.
Qed.
Lemma vertex_local b1 p b2 k : (k < length (fst p))%nat -> at_ (all_verts (b1 ++ p :: b2)) (Z.of_nat (length (all_verts b1) + k)) = vertex p k.
Proof. intros Hk. rewrite all_verts_mid. replace (Z.of_nat (length (all_verts b1) + k)) with (Z.of_nat k + Z.of_nat (length (all_verts b1)))%Z by lia. apply at_mid. lia. Qed.
Lemma recip_0 : recip_pos 0 = 0.
Proof. unfold recip_pos. destruct (Rltb_spec 0 0); lra. Qed.
Lemma recip_inv x : 0 < x -> recip_pos x = / x.
Proof. intros H. unfold recip_pos. destruct (Rltb_spec 0 x); lra. Qed.
Lemma uniform_local b1 p b2 k : Forall good_mesh (b1 ++ p :: b2) -> Forall three_corners (snd p) -> (k < length (fst p))%nat ->
  row_vec (lap_entries (length (all_verts (b1 ++ p :: b2))) (zall (b1 ++ p :: b2))) (all_verts (b1 ++ p :: b2)) (length (all_verts b1) + k) = to_centroid p k.
Proof.
  intros Hg H3 Hk. assert (Hp : good_mesh p) by (rewrite Forall_forall in Hg; apply Hg, in_elt).
  assert (Hl : (length (all_verts b1) + k < length (all_verts (b1 ++ p :: b2)))%nat) by (rewrite all_verts_mid, !app_length; lia).
  apply coord_ext. intros a. unfold row_vec. rewrite coord_vsum, map_map.
  rewrite (rsum_map_ext _ (fun e => if (e_row e =? Z.of_nat (length (all_verts b1) + k))%Z then snd e * coord a (at_ (all_verts (b1 ++ p :: b2)) (e_col e)) else 0)) by (intros e _; destruct (e_row e =? _)%Z; [apply coord_scal|apply coord_0]).
  rewrite (lap_row_sum (fun z => coord a (at_ (all_verts (b1 ++ p :: b2)) z))) by exact Hl. rewrite deg_local, ends_local, ends_nbrs by assumption. rewrite vertex_local by exact Hk.
  rewrite (rsum_map_ext _ (fun j => coord a (vertex p j))) by (intros j Hj; apply nbrs_in in Hj; rewrite <- (vertex_local b1 p b2 j) by tauto; do 2 f_equal; lia).
  unfold to_centroid. destruct (nbrs p k) as [|j l]; [cbn [length INR map]; rewrite recip_0, coord_sub, coord_0, rsum_nil; lra|]. rewrite recip_inv by (apply lt_0_INR; cbn; lia). rewrite coord_sub, coord_scal, coord_vsum, map_map. reflexivity.
Qed.

(* ---- cotangents ---- *)
Lemma corners_app f1 f2 i : corners_at (f1 ++ f2) i = corners_at f1 i ++ corners_at f2 i.
Proof. unfold corners_at, all_corners. rewrite flat_map_app, filter_app. reflexivity. Qed.
Lemma corners_none fs i : Forall (fun f => let '(a, b, c) := f in a <> Z.of_nat i /\ b <> Z.of_nat i /\ c <> Z.of_nat i) fs -> corners_at fs i = [].
Proof.
  induction 1 as [|((a, b), c) fs (A & B & C) H IH]; [reflexivity|]. change (corners_at ([(a, b, c)] ++ fs) i = []). rewrite corners_app, IH, app_nil_r. unfold corners_at, all_corners. cbn. apply Z.eqb_neq in A, B, C. rewrite A, B, C. reflexivity.
Qed.
Lemma corners_move o fs k : corners_at (map (move_face o) fs) (o + k) = map (move_face o) (corners_at fs k).
Proof.
  assert (E : forall x, ((x + Z.of_nat o =? Z.of_nat (o + k)) = (x =? Z.of_nat k))%Z) by (intros x; destruct (Z.eqb_spec (x + Z.of_nat o) (Z.of_nat (o + k))), (Z.eqb_spec x (Z.of_nat k)); lia).
  induction fs as [|((a, b), c) fs IH]; [reflexivity|]. change (corners_at ([move_face o (a, b, c)] ++ map (move_face o) fs) (o + k) = map (move_face o) (corners_at ([(a, b, c)] ++ fs) k)). rewrite !corners_app, IH, map_app. f_equal. unfold corners_at, all_corners. cbn. rewrite !E. destruct (a =? Z.of_nat k)%Z, (b =? Z.of_nat k)%Z, (c =? Z.of_nat k)%Z; reflexivity.
Qed.
Lemma faces_from_high b : Forall good_mesh b -> forall o, Forall (fun f => let '(x, y, z) := f in (x < Z.of_nat (o + length (all_verts b)) /\ y < Z.of_nat (o + length (all_verts b)) /\ z < Z.of_nat (o + length (all_verts b)))%Z) (faces_from o b).
Proof.
  induction 1 as [|p b Hp Hb IH]; intros o; [constructor|]. cbn [faces_from]. unfold all_verts. cbn [map concat]. rewrite app_length. fold (all_verts b). apply Forall_app. split.
  - apply Forall_map. eapply Forall_impl; [|exact Hp]. intros ((x, y), z) (A & B & C). unfold move_face. lia.
  - eapply Forall_impl; [|apply IH]. intros ((x, y), z) H. lia.
Qed.
Lemma corners_local b1 p b2 k : Forall good_mesh (b1 ++ p :: b2) -> (k < length (fst p))%nat ->
  corners_at (all_faces (b1 ++ p :: b2)) (length (all_verts b1) + k) = map (move_face (length (all_verts b1))) (corners_at (snd p) k).
Proof.
  intros Hg Hk. apply Forall_app in Hg. destruct Hg as (H1 & Hg). apply Forall_cons_iff in Hg. destruct Hg as (Hp & H2). unfold all_faces. rewrite faces_from_app. cbn [faces_from Nat.add]. rewrite !corners_app, corners_move.
  rewrite (corners_none (faces_from 0 b1)), (corners_none (faces_from _ b2)); [rewrite app_nil_r; reflexivity| |].
  - eapply Forall_impl; [|apply (faces_from_low b2 H2)]. intros ((x, y), z) H. lia.
  - eapply Forall_impl; [|apply (faces_from_high b1 H1 0)]. intros ((x, y), z) H. lia.
Qed.
Lemma corners_in_range n fs k : Forall (in_range n) fs -> Forall (in_range n) (corners_at fs k).
Proof. intros H. apply corner_cols in H. apply Forall_forall. intros c Hc. apply filter_In in Hc. rewrite Forall_forall in H. apply H, Hc. Qed.
Lemma weights_local b1 p b2 k : Forall good_mesh (b1 ++ p :: b2) -> (k < length (fst p))%nat ->
  cot_weights (all_verts (b1 ++ p :: b2)) (all_faces (b1 ++ p :: b2)) (length (all_verts b1) + k) = cot_weights (fst p) (snd p) k.
Proof.
  intros Hg Hk. assert (Hp : good_mesh p) by (rewrite Forall_forall in Hg; apply Hg, in_elt). unfold cot_weights. rewrite corners_local by assumption. pose proof (corners_in_range _ _ k Hp) as HR. rewrite all_verts_mid.
  induction HR as [|((x, y), z) l (A & B & C) HR IH]; [reflexivity|]. cbn [map flat_map move_face]. rewrite IH, !at_mid by assumption. reflexivity.
Qed.
Lemma area_local b1 p b2 k : Forall good_mesh (b1 ++ p :: b2) -> (k < length (fst p))%nat ->
  area_at (all_verts (b1 ++ p :: b2)) (all_faces (b1 ++ p :: b2)) (length (all_verts b1) + k) = area_at (fst p) (snd p) k.
Proof.
  intros Hg Hk. assert (Hp : good_mesh p) by (rewrite Forall_forall in Hg; apply Hg, in_elt). unfold area_at. rewrite corners_local by assumption. pose proof (corners_in_range _ _ k Hp) as HR. rewrite all_verts_mid.
  induction HR as [|((x, y), z) l (A & B & C) HR IH]; [reflexivity|]. cbn [map move_face]. rewrite !rsum_cons, IH, !at_mid by assumption. reflexivity.
Qed.
Lemma combination_minus ws v : combination (map (fun w => (fst w, sub3 (snd w) v)) ws) = sub3 (combination ws) (scal3 (total ws) v).
Proof.
  apply coord_ext. intros a. unfold combination, total. rewrite coord_sub, coord_scal, !coord_vsum, !map_map. cbn [fst snd].
  induction ws as [|w ws IH]; [cbn [map]; rewrite !rsum_nil; lra|]. cbn [map]. rewrite !rsum_cons, IH, !coord_scal, coord_sub. ring.
Qed.
Lemma area_at_pos vs fs i : corners_at fs i <> [] -> 0 < area_at vs fs i.
Proof.
  intros H. unfold area_at. destruct (corners_at fs i) as [|((x, y), z) l]; [contradiction|]. cbn [map]. rewrite rsum_cons. pose proof (area_pos (at_ vs x) (at_ vs y) (at_ vs z)).
  assert (0 <= rsum (map (fun c => let '(x, y, z) := c in area_of (at_ vs x) (at_ vs y) (at_ vs z)) l)) by (apply rsum_nonneg, Forall_forall; intros r Hr; apply in_map_iff in Hr; destruct Hr as (((x', y'), z') & <- & _); left; apply area_pos). lra.
Qed.

(* ---- the three losses ---- *)
Lemma zip2_seq {A B C T} (f : A -> B -> C) (g : T -> A) (h : T -> B) l : zip2 f (map g l) (map h l) = map (fun x => f (g x) (h x)) l.
Proof. unfold zip2. induction l as [|x l IH]; [reflexivity|]. cbn. rewrite IH. reflexivity. Qed.
Lemma self_seq (vs : list vec3) : vs = map (fun i => at_ vs (Z.of_nat i)) (seq 0 (length vs)).
Proof.
  apply nth_error_ext. intros i. rewrite nth_error_map_iff. destruct (Nat.lt_ge_cases i (length vs)) as [H|H].
  - rewrite nth_error_seq_lt by exact H. cbn [option_map Nat.add]. unfold at_. rewrite Nat2Z.id. apply nth_error_nth'. exact H.
  - rewrite (proj2 (nth_error_None vs i) H). rewrite (proj2 (nth_error_None (seq 0 (length vs)) i)) by (rewrite seq_length; exact H). reflexivity.
Qed.
Lemma zip2_right {A C} (f : A -> vec3 -> C) g vs : zip2 f (map g (seq 0 (length vs))) vs = map (fun i => f (g i) (at_ vs (Z.of_nat i))) (seq 0 (length vs)).
Proof. pose proof (zip2_seq f g (fun i => at_ vs (Z.of_nat i)) (seq 0 (length vs))) as H. rewrite <- self_seq in H. exact H. Qed.
Definition step_of (k : method) : mesh -> nat -> vec3 := match k with Uniform => to_centroid | Cot => to_cot_centroid | _ => curvature end.
Section Arg.
Variable argsort : list Z -> list nat.
Hypothesis Hsort : sorts argsort.
Notation repr := (MeshesProofs.repr argsort).
Lemma lap_ask a m : wf_state a -> repr a m -> exists m', laplacian_packed argsort m = Ok (laplacian (length (all_verts (batch a))) (zall (batch a)), m') /\ repr a m'.
Proof.
  intros Hw Rm. destruct (ask_tell argsort Hsort QLaplacian a m Hw Rm) as (r & m' & E & T & R'). cbn in E. destruct (laplacian_packed argsort m) as [x|]; [|discriminate]. cbn [rbind] in E. injection E as <- <-. cbn in T. destruct T as (E & HE & EL).
  destruct (ask_tell argsort Hsort QEdges a m Hw Rm) as (r & m2 & E2 & T2 & _). cbn in E2. destruct (edges_packed argsort m) as [y|]; [|discriminate]. cbn [rbind] in E2. injection E2 as <- <-. cbn in T2. destruct T2 as (HE2 & Es & Ho & Ey). rewrite (own_edges_unique _ _ _ Ho (zedges_own _ (proj1 Hw))) in Ey. fold (zall (batch a)) in Ey. rewrite Ey in HE2.
  rewrite (edge_list_unique _ _ _ HE HE2) in EL. exists (snd x). split; [|exact R']. rewrite laplacian_value, <- EL. destruct x; reflexivity.
Qed.
Lemma loss_tail step b ns rows (n : nat) : b <> [] -> n = length b -> ns = concat (map (fun n => repeat n n) (vcount b)) ->
  rows = concat (map (fun p => map (step p) (seq 0 (length (fst p)))) b) -> weighted_sum (map norm3 rows) ns / INR n = smoothing_loss step b.
Proof.
  intros Hne -> -> ->. unfold smoothing_loss. rewrite <- (mean_means (fun p => map (fun i => norm3 (step p i)) (seq 0 (length (fst p))))) by exact Hne. rewrite <- weighted_means. f_equal. f_equal.
  - rewrite concat_map, map_map. f_equal. apply map_ext. intros p. rewrite map_map. reflexivity.
  - unfold vcount. rewrite !map_map. f_equal. apply map_ext. intros p. rewrite map_length, seq_length. reflexivity.
Qed.
Theorem smoothing_value k m a : reachable argsort m a -> k <> OtherMethod -> (k = Uniform -> Forall (fun p => Forall three_corners (snd p)) (batch a)) ->
  exists m', mesh_laplacian_smoothing argsort k m = Ok (smoothing_loss (step_of k) (batch a), m') /\ behaves argsort m' a.
Proof.
  intros Hr Hk H3. destruct (reachable_repr argsort Hsort m a Hr) as (Hw & R0). pose proof (proj1 Hw) as Hg. unfold mesh_laplacian_smoothing. rewrite (not_empty argsort a m Hw R0).
  destruct (verts_ask argsort a m Hw R0) as (m1 & E1 & R1). rewrite E1. cbn [rbind]. destruct (faces_ask argsort a m1 Hw R1) as (m2 & E2 & R2). rewrite E2. cbn [rbind]. destruct (vidx_ask argsort Hsort a m2 Hw R2) as (m3 & E3 & R3). rewrite E3. cbn [rbind].
  unfold num_verts_per_mesh. rewrite (r_nv _ _ _ R2). pose proof (gathered_own (vcount (batch a)) _ [] eq_refl) as G0. cbn [length] in G0. rewrite G0. cbn [rbind].
  assert (FR : Forall (in_range (length (all_verts (batch a)))) (all_faces (batch a))) by (apply all_faces_range, Hg).
  pose proof (cot_cols (all_verts (batch a)) (all_faces (batch a)) _ FR) as CC.
  destruct k; [| | |contradiction].
  - destruct (lap_ask a m3 Hw R3) as (m4 & E4 & R4). rewrite E4. cbn [rbind]. exists m4. split; [|apply MeshesProofs8.repr_behaves; assumption]. do 2 f_equal.
    apply (loss_tail to_centroid); [apply wf_nonempty, Hw|apply (r_N _ _ _ R4)|reflexivity|]. rewrite laplacian_coo, coo_mat_vecs by (apply lap_cols, zall_range, Hg).
    apply (rows_split _ to_centroid). intros b1 p b2 j Eb Hj. assert (Hg' : Forall good_mesh (b1 ++ p :: b2)) by (rewrite <- Eb; exact Hg). rewrite Eb. apply uniform_local; [exact Hg'| |exact Hj]. specialize (H3 eq_refl). rewrite Forall_forall in H3. apply H3. rewrite Eb. apply in_elt.
  - rewrite cot_laplacian_ok by exact FR. cbn [rbind]. exists m3. split; [|apply MeshesProofs8.repr_behaves; assumption]. do 2 f_equal.
    apply (loss_tail to_cot_centroid); [apply wf_nonempty, Hw|apply (r_N _ _ _ R3)|reflexivity|]. rewrite (coo_row_sums _ _ CC), (coo_mat_vecs _ _ CC), map_map. rewrite zip2_seq, zip2_right.
    apply (rows_split _ to_cot_centroid). intros b1 p b2 j Eb Hj. rewrite cot_row_total, cot_row_vec. assert (Hg' : Forall good_mesh (b1 ++ p :: b2)) by (rewrite <- Eb; exact Hg). rewrite Eb. rewrite weights_local, vertex_local by assumption. unfold to_cot_centroid. cbv zeta. destruct (Rltb_spec 0 (total (cot_weights (fst p) (snd p) j))) as [P|P].
    + rewrite recip_inv by exact P. reflexivity.
    + pose proof (cot_total_nonneg (fst p) (snd p) j). replace (total (cot_weights (fst p) (snd p) j)) with 0 by lra. rewrite recip_0. f_equal. apply scal3_0.
  - rewrite cot_laplacian_ok by exact FR. cbn [rbind]. exists m3. split; [|apply MeshesProofs8.repr_behaves; assumption]. do 2 f_equal.
    apply (loss_tail curvature); [apply wf_nonempty, Hw|apply (r_N _ _ _ R3)|reflexivity|]. rewrite (coo_row_sums _ _ CC), (coo_mat_vecs _ _ CC), map_map. rewrite zip2_right, !zip2_seq.
    apply (rows_split _ curvature). intros b1 p b2 j Eb Hj. rewrite cot_row_total, cot_row_vec. assert (Hg' : Forall good_mesh (b1 ++ p :: b2)) by (rewrite <- Eb; exact Hg). rewrite Eb. rewrite weights_local, vertex_local, area_local by assumption. unfold curvature. destruct (corners_at (snd p) j) as [|c l] eqn:EC.
    + unfold area_at. rewrite EC. cbn [map]. rewrite rsum_nil, recip_0, Rmult_0_r. apply scal3_0.
    + assert (P : 0 < area_at (fst p) (snd p) j) by (apply area_at_pos; rewrite EC; discriminate). rewrite recip_inv, combination_minus by exact P. f_equal. field. lra.
Qed.
Theorem other_method m a : reachable argsort m a -> mesh_laplacian_smoothing argsort OtherMethod m = Fail EValue.
Proof.
  intros Hr. destruct (reachable_repr argsort Hsort m a Hr) as (Hw & R0). unfold mesh_laplacian_smoothing. rewrite (not_empty argsort a m Hw R0).
  destruct (verts_ask argsort a m Hw R0) as (m1 & E1 & R1). rewrite E1. cbn [rbind]. destruct (faces_ask argsort a m1 Hw R1) as (m2 & E2 & R2). rewrite E2. cbn [rbind]. destruct (vidx_ask argsort Hsort a m2 Hw R2) as (m3 & E3 & R3). rewrite E3. cbn [rbind].
  unfold num_verts_per_mesh. rewrite (r_nv _ _ _ R2). pose proof (gathered_own (vcount (batch a)) _ [] eq_refl) as G0. cbn [length] in G0. rewrite G0. reflexivity.
Qed.
End Arg.
