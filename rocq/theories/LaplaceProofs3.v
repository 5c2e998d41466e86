From Coq Require Import Permutation Sorted Psatz.
From Verif Require Import Base Packing PackingProofs RBase Geom FaceAreas FaceAreasSpec Meshes MeshesSpec MeshesHistSpec MeshesProofs MeshesProofs2 MeshesProofs3 MeshesProofs6 MeshesProofs9 MeshesProofs10 MeshesProofs11 Laplace LaplaceSpec LaplaceProofs LaplaceProofs2.
Local Open Scope R_scope.

(* ---- the neighbours and the edges of one mesh ---- *)
Definition zedge (e : nat * nat) : Z * Z := (Z.of_nat (fst e), Z.of_nat (snd e)).
Definition zedges (p : mesh) : list (Z * Z) := map zedge (mesh_edges p).
Lemma joins_spec f i j : joins f i j = true <-> side_of (Z.of_nat i, Z.of_nat j) f.
Proof.
  unfold joins, side_of. rewrite existsb_exists. cbn [fst snd]. split.
  - intros ((x, y) & HI & E). apply hit_spec in E. rewrite <- E. apply in_app_iff in HI. destruct HI as [HI|HI]; [auto|right]. apply in_map_iff in HI. destruct HI as ((u, v) & Eu & HI). cbn in Eu. injection Eu as <- <-. injection E as -> ->. exact HI.
  - intros H. exists (Z.of_nat i, Z.of_nat j). cbn [fst snd]. rewrite !Z.eqb_refl. split; [|reflexivity]. apply in_app_iff. destruct H as [H|H]; [auto|right]. apply in_map_iff. eexists. split; [|exact H]. reflexivity.
Qed.
Lemma nbrs_in p i j : In j (nbrs p i) <-> (j < length (fst p))%nat /\ adjacent (snd p) i j.
Proof.
  unfold nbrs, adjacent. rewrite filter_In, in_seq, existsb_exists. setoid_rewrite joins_spec. split; intros (A & B); (split; [lia|exact B]).
Qed.
Lemma side_range n f i j : in_range n f -> side_of (Z.of_nat i, Z.of_nat j) f -> (i < n)%nat /\ (j < n)%nat.
Proof.
  destruct f as ((a, b), c). intros (A & B & C) H. unfold side_of in H. cbn in H. destruct H as [[H|[H|[H|[]]]]|[H|[H|[H|[]]]]]; injection H as H1 H2; lia.
Qed.
Lemma adj_range p i j : good_mesh p -> adjacent (snd p) i j -> (i < length (fst p))%nat /\ (j < length (fst p))%nat.
Proof. intros Hg (f & Hf & Hs). unfold good_mesh in Hg. rewrite Forall_forall in Hg. apply (side_range _ f i j (Hg f Hf) Hs). Qed.
Lemma nbrs_neighbours p i : good_mesh p -> neighbours (snd p) i (nbrs p i).
Proof.
  intros Hg. split; [apply NoDup_filter, seq_NoDup|]. intros j. rewrite nbrs_in. split; [tauto|]. intros H. split; [apply (adj_range p i j Hg H)|exact H].
Qed.
Lemma seq_sorted s n : StronglySorted lt (seq s n).
Proof. revert s. induction n as [|n IH]; intros s; cbn; constructor; [apply IH|]. apply Forall_forall. intros x Hx. apply in_seq in Hx. lia. Qed.
Lemma filter_sorted {T} (r : T -> T -> Prop) f l : StronglySorted r l -> StronglySorted r (filter f l).
Proof. induction 1 as [|x l H IH HF]; [constructor|]. cbn. destruct (f x); [|exact IH]. constructor; [exact IH|]. apply Forall_forall. intros y Hy. apply filter_In in Hy. rewrite Forall_forall in HF. apply HF, Hy. Qed.
Lemma sorted_app {T} (r : T -> T -> Prop) l1 l2 : StronglySorted r l1 -> StronglySorted r l2 -> (forall x y, In x l1 -> In y l2 -> r x y) -> StronglySorted r (l1 ++ l2).
Proof.
  induction 1 as [|x l1 H IH HF]; intros H2 HC; [exact H2|]. cbn. constructor; [apply IH; [exact H2|intros; apply HC; cbn; auto]|]. apply Forall_app. split; [exact HF|]. apply Forall_forall. intros y Hy. apply HC; cbn; auto.
Qed.
Lemma grid_sorted g n : (forall i, StronglySorted lt (g i)) -> forall s, StronglySorted lex (map zedge (flat_map (fun i => map (pair i) (g i)) (seq s n))).
Proof.
  intros Hg. induction n as [|n IH]; intros s; [constructor|]. cbn [seq flat_map]. rewrite map_app. apply sorted_app; [|apply IH|].
  - specialize (Hg s). induction Hg as [|x l H IH' HF]; [constructor|]. cbn. constructor; [exact IH'|]. apply Forall_map, Forall_map. eapply Forall_impl; [|exact HF]. intros y Hy. unfold lex, zedge. cbn. lia.
  - intros x y Hx Hy. apply in_map_iff in Hx, Hy. destruct Hx as (e & <- & Hx), Hy as (e' & <- & Hy). apply in_map_iff in Hx. destruct Hx as (j & <- & _). apply in_flat_map in Hy. destruct Hy as (i & Hi & Hy). apply in_map_iff in Hy. destruct Hy as (j' & <- & _). apply in_seq in Hi. unfold lex, zedge. cbn. lia.
Qed.
Lemma mesh_edges_in p i j : In (i, j) (mesh_edges p) <-> (i <= j)%nat /\ (i < length (fst p))%nat /\ In j (nbrs p i).
Proof.
  unfold mesh_edges. rewrite in_flat_map. split.
  - intros (i' & Hi & H). apply in_map_iff in H. destruct H as (j' & E & H). injection E as -> ->. apply filter_In in H. destruct H as (H & L). apply Nat.leb_le in L. apply in_seq in Hi. lia || (split; [exact L|split; [lia|exact H]]).
  - intros (L & Hi & H). exists i. split; [apply in_seq; lia|]. apply in_map, filter_In. split; [exact H|apply Nat.leb_le, L].
Qed.
Lemma zedges_ok p : good_mesh p -> edge_list (snd p) (zedges p).
Proof.
  intros Hg. split.
  - apply grid_sorted. intros i. apply filter_sorted, filter_sorted, seq_sorted.
  - intros e. unfold zedges. rewrite in_map_iff. split.
    + intros ((i, j) & <- & H). apply mesh_edges_in in H. destruct H as (L & Hi & H). apply nbrs_in in H. unfold zedge. cbn [fst snd]. split; [lia|]. exact (proj2 H).
    + intros (L & f & Hf & Hs). unfold good_mesh in Hg. assert (R0 := Hg). rewrite Forall_forall in R0. specialize (R0 f Hf). assert (P : (0 <= fst e /\ 0 <= snd e)%Z).
      { destruct f as ((a, b), c), e as (x, y). destruct R0 as (A & B & C). unfold side_of in Hs. cbn in Hs |- *. destruct Hs as [[H|[H|[H|[]]]]|[H|[H|[H|[]]]]]; injection H as H1 H2; lia. }
      exists (Z.to_nat (fst e), Z.to_nat (snd e)). unfold zedge. cbn [fst snd]. rewrite !Z2Nat.id by lia. split; [destruct e; reflexivity|]. assert (AD : adjacent (snd p) (Z.to_nat (fst e)) (Z.to_nat (snd e))).
      { exists f. split; [exact Hf|]. rewrite !Z2Nat.id by lia. destruct e. exact Hs. }
      pose proof (adj_range p _ _ Hg AD). apply mesh_edges_in. split; [lia|]. split; [lia|]. apply nbrs_in. split; [lia|exact AD].
Qed.
Lemma zedges_own b : Forall good_mesh b -> own_edges b (map zedges b).
Proof. unfold own_edges. induction 1; constructor; [apply zedges_ok; assumption|assumption]. Qed.
Lemma zedges_range p : good_mesh p -> Forall (in_graph (length (fst p))) (zedges p).
Proof.
  intros Hg. apply Forall_map, Forall_forall. intros (i, j) H. apply mesh_edges_in in H. destruct H as (_ & Hi & H). apply nbrs_in in H. unfold in_graph, zedge. cbn [fst snd]. lia.
Qed.

(* ---- per mesh weights ---- *)
Lemma gathered_own (g : list nat) counts : forall pre, g = pre ++ counts -> gathered g (owners (length pre) counts) = Ok (concat (map (fun n => repeat n n) counts)).
Proof.
  unfold gathered. induction counts as [|n counts IH]; intros pre E; [reflexivity|]. cbn [owners map concat].
  assert (Hn : nth_error g (length pre) = Some n) by (rewrite E, nth_error_app2 by lia; rewrite Nat.sub_diag; reflexivity).
  set (F := fun i => if (i <? 0)%Z then Fail EIndex else match nth_error g (Z.to_nat i) with Some n => Ok n | None => Fail EIndex end) in *.
  specialize (IH (pre ++ [n])). rewrite app_length in IH. cbn [length] in IH. rewrite Nat.add_1_r in IH. rewrite <- app_assoc in IH. specialize (IH E). fold F in IH.
  assert (HF : F (Z.of_nat (length pre)) = Ok n) by (unfold F; destruct (Z.ltb_spec (Z.of_nat (length pre)) 0); [lia|]; rewrite Nat2Z.id, Hn; reflexivity).
  assert (G : forall k, rmap F (repeat (Z.of_nat (length pre)) k ++ owners (S (length pre)) counts) = Ok (repeat n k ++ concat (map (fun n => repeat n n) counts))) by (intros k; induction k as [|k IHk]; [exact IH|]; cbn [repeat app rmap]; rewrite HF, IHk; reflexivity). apply G.
Qed.
Lemma weighted_block n (l : list R) ms ns : n = length l -> weighted_sum (l ++ ms) (repeat n n ++ ns) = mean l + weighted_sum ms ns.
Proof.
  intros ->. unfold weighted_sum. assert (G : forall l' c, rsum (map (fun p : R * nat => fst p * (1 / INR (snd p))) (combine (l' ++ ms) (repeat c (length l') ++ ns))) = rsum l' * (1 / INR c) + rsum (map (fun p : R * nat => fst p * (1 / INR (snd p))) (combine ms ns))).
  { intros l' c. induction l' as [|x l' IH]; [cbn [app length repeat]; rewrite rsum_nil; lra|]. cbn [app length repeat combine map fst snd]. rewrite !rsum_cons, IH. cbn [fst snd]. ring. }
  rewrite G. f_equal. unfold mean. destruct l; [rewrite rsum_nil; lra|]. unfold Rdiv. lra.
Qed.
Lemma weighted_means ls : weighted_sum (concat ls) (concat (map (fun n => repeat n n) (map (@length R) ls))) = rsum (map mean ls).
Proof. induction ls as [|l ls IH]; [reflexivity|]. cbn [concat map]. rewrite (weighted_block (length l) l) by reflexivity. rewrite IH, rsum_cons. reflexivity. Qed.
Lemma mean_means (f : mesh -> list R) b : b <> [] -> rsum (map mean (map f b)) / INR (length b) = mean (map (fun p => mean (f p)) b).
Proof. intros H. rewrite map_map. unfold mean at 2. destruct b as [|p b]; [contradiction|]. cbn [map]. cbn [length]. rewrite map_length. reflexivity. Qed.

(* ---- mesh_edge_loss ---- *)
Lemma rmap_app_ok {A B} (f : A -> result B) l1 l2 r1 r2 : rmap f l1 = Ok r1 -> rmap f l2 = Ok r2 -> rmap f (l1 ++ l2) = Ok (r1 ++ r2).
Proof.
  revert r1. induction l1 as [|x l1 IH]; intros r1 H1 H2; cbn [rmap app] in *; [injection H1 as <-; exact H2|]. destruct (f x); [|discriminate]. cbn [rbind] in *. destruct (rmap f l1) as [r|]; [|discriminate]. cbn [rbind] in *. injection H1 as <-. rewrite (IH r eq_refl H2). reflexivity.
Qed.
Lemma rmap_map_ok {A B C} (f : B -> result C) (g : A -> B) h l : Forall (fun x => f (g x) = Ok (h x)) l -> rmap f (map g l) = Ok (map h l).
Proof. induction 1 as [|x l E _ IH]; [reflexivity|]. cbn [map rmap]. rewrite E, IH. reflexivity. Qed.
Lemma edge_losses {T} (F : vec3 * vec3 -> T) b : Forall good_mesh b -> forall pre,
  rmap (fun e => v <- edge_verts (pre ++ all_verts b) e ;; Ok (F v)) (move_edges (length pre) b (map zedges b)) = Ok (concat (map (fun p => map (fun e => F (vertex p (fst e), vertex p (snd e))) (mesh_edges p)) b)).
Proof.
  induction 1 as [|p b Hp Hb IH]; intros pre; [reflexivity|]. cbn [map move_edges concat]. apply rmap_app_ok.
  - unfold zedges at 1. rewrite map_map. apply rmap_map_ok. pose proof (zedges_range p Hp) as R0. unfold zedges in R0. rewrite Forall_map in R0. eapply Forall_impl; [|exact R0]. intros (i, j) (Hi & Hj). unfold move_edge, zedge in *. cbn [fst snd] in *.
    unfold all_verts. cbn [map concat]. rewrite edge_in; [cbn [rbind fst snd]; rewrite !at_mid by lia; reflexivity|]. unfold in_graph. cbn [fst snd]. rewrite !app_length. lia.
  - specialize (IH (pre ++ fst p)). rewrite app_length, <- app_assoc in IH. exact IH.
Qed.
Section Arg.
Variable argsort : list Z -> list nat.
Hypothesis Hsort : sorts argsort.
Notation repr := (MeshesProofs.repr argsort).

Lemma edges_ask a m : wf_state a -> repr a m -> exists m', edges_packed argsort m = Ok (move_edges 0 (batch a) (map zedges (batch a)), m') /\ repr a m'.
Proof.
  intros Hw Rm. destruct (edges_tell argsort Hsort a m Hw Rm) as (m' & Es & f2e & E & R' & Ho & Ee & _). rewrite (own_edges_unique _ _ _ Ho (zedges_own _ (proj1 Hw))) in Ee. exists m'. split; [|exact R']. unfold edges_packed, with_edges. rewrite E. cbn [rbind]. rewrite Ee. reflexivity.
Qed.
Lemma edges_idx_ask a m : wf_state a -> repr a m -> exists m', edges_packed_to_mesh_idx argsort m = Ok (owners 0 (map (@length _) (map zedges (batch a))), m') /\ repr a m'.
Proof.
  intros Hw Rm. destruct (edges_tell argsort Hsort a m Hw Rm) as (m' & Es & f2e & E & R' & Ho & Ee & _). rewrite (own_edges_unique _ _ _ Ho (zedges_own _ (proj1 Hw))) in Ee. exists m'. split; [|exact R']. unfold edges_packed_to_mesh_idx, with_edges. rewrite E. cbn [rbind]. rewrite Ee. reflexivity.
Qed.
Lemma num_edges_ask a m : wf_state a -> repr a m -> exists m', num_edges_per_mesh argsort m = Ok (Some (map (@length _) (map zedges (batch a))), m') /\ repr a m'.
Proof.
  intros Hw Rm. destruct (edges_tell argsort Hsort a m Hw Rm) as (m' & Es & f2e & E & R' & Ho & Ee & _). rewrite (own_edges_unique _ _ _ Ho (zedges_own _ (proj1 Hw))) in Ee. exists m'. split; [|exact R']. unfold num_edges_per_mesh, with_edges. rewrite E. cbn [rbind]. rewrite Ee. reflexivity.
Qed.
Lemma verts_ask a m : wf_state a -> repr a m -> exists m', verts_packed m = Ok (all_verts (batch a), m') /\ repr a m'.
Proof. intros Hw Rm. destruct (with_packed_ok argsort a m pk_verts Hw Rm) as (m1 & E1 & R1 & _). exists m1. split; [exact E1|exact R1]. Qed.
Lemma faces_ask a m : wf_state a -> repr a m -> exists m', faces_packed m = Ok (all_faces (batch a), m') /\ repr a m'.
Proof. intros Hw Rm. destruct (with_packed_ok argsort a m pk_faces Hw Rm) as (m1 & E1 & R1 & _). exists m1. split; [exact E1|exact R1]. Qed.
Lemma vidx_ask a m : wf_state a -> repr a m -> exists m', verts_packed_to_mesh_idx m = Ok (owners 0 (vcount (batch a)), m') /\ repr a m'.
Proof.
  intros Hw Rm. destruct (ask_tell argsort Hsort QVertsPackedToMesh a m Hw Rm) as (r & m' & E & T & R'). cbn in E. destruct (verts_packed_to_mesh_idx m) as [x|]; [|discriminate]. cbn [rbind] in E. injection E as <- <-. cbn in T. exists (snd x). split; [rewrite <- T; destruct x; reflexivity|exact R'].
Qed.
Theorem edge_loss_value target m a : reachable argsort m a -> exists m', mesh_edge_loss argsort target m = Ok (edge_loss target (batch a), m') /\ behaves argsort m' a.
Proof.
  intros Hr. destruct (reachable_repr argsort Hsort m a Hr) as (Hw & R0). unfold mesh_edge_loss. rewrite (not_empty argsort a m Hw R0).
  destruct (edges_ask a m Hw R0) as (m1 & E1 & R1). rewrite E1. cbn [rbind]. destruct (verts_ask a m1 Hw R1) as (m2 & E2 & R2). rewrite E2. cbn [rbind]. destruct (edges_idx_ask a m2 Hw R2) as (m3 & E3 & R3). rewrite E3. cbn [rbind]. destruct (num_edges_ask a m3 Hw R3) as (m4 & E4 & R4). rewrite E4. cbn [rbind].
  pose proof (gathered_own (map (@length _) (map zedges (batch a))) _ [] eq_refl) as G0. cbn [length] in G0. rewrite G0. cbn [rbind].
  pose proof (edge_losses (fun v => (norm3 (sub3 (fst v) (snd v)) - target) ^ 2) (batch a) (proj1 Hw) []) as EL. cbn [app length] in EL. rewrite EL. cbn [rbind]. exists m4. split.
  - do 2 f_equal. rewrite (r_N _ _ _ R4). unfold edge_loss. rewrite <- (mean_means (fun p => map (fun e => (dist (vertex p (fst e)) (vertex p (snd e)) - target) ^ 2) (mesh_edges p))) by (apply wf_nonempty, Hw).
    rewrite <- weighted_means. f_equal. f_equal. rewrite !map_map. f_equal. apply map_ext. intros p. unfold zedges. rewrite !map_length. reflexivity.
  - apply MeshesProofs8.repr_behaves; assumption.
Qed.
End Arg.
