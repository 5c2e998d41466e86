(* The value of mesh_normal_consistency on a reachable batch. *)
From Coq Require Import Permutation Sorted.
From Verif Require Import Base Packing RBase Geom FaceAreas FaceAreasSpec Meshes MeshesSpec MeshesHistSpec Laplace LaplaceSpec MeshesProofs MeshesProofs2 MeshesProofs3 MeshesProofs6 MeshesProofs9 MeshesProofs10 MeshesProofs11 LaplaceProofs3 Consistency ConsistencySpec ConsistencyProofs ConsistencyProofs2 ConsistencyProofs3.
Local Open Scope R_scope.

Section Arg.
Variable argsort : list Z -> list nat.
Hypothesis Hsort : sorts argsort.
Lemma f2e_ask a m : wf_state a -> repr argsort a m -> exists t m', faces_packed_to_edges_packed argsort m = Ok (Some t, m') /\ repr argsort a m' /\
  edge_list (all_faces (batch a)) (move_edges 0 (batch a) (map zedges (batch a))) /\ Forall2 (opposite_edges (move_edges 0 (batch a) (map zedges (batch a)))) (all_faces (batch a)) t.
Proof.
  intros Hw Rm. destruct (edges_tell argsort Hsort a m Hw Rm) as (m' & Es & f2e & E & R' & Ho & Ee & H1 & H2). rewrite (own_edges_unique _ _ _ Ho (zedges_own _ (proj1 Hw))) in *. exists f2e, m'. split; [|split; [exact R'|split; [exact H1|exact H2]]]. unfold faces_packed_to_edges_packed, with_edges. rewrite E. cbn [rbind]. rewrite Ee. reflexivity.
Qed.
Definition d0 : row := ((0%Z, (0%Z, 0%Z, 0%Z)), ((0%Z, 0%Z), 0%Z)).
(* the pairs, for any quantity that is the same both ways round *)
Lemma pairs_sum es fs f2e L phi : NoDup es -> Forall2 (opposite_edges es) fs f2e -> Permutation L (rows_of fs f2e) -> StronglySorted Z.le (map rkey L) ->
  (forall x y, In x (mesh_touches fs) -> In y (mesh_touches fs) -> same_edge (x, y) = true -> phi (x, y) = phi (y, x)) ->
  rsum (map (at_pair d0 (fun h => phi (on2 rtouch h)) L) (find_verts (map (fun e => length (filter (fun z => (z =? Z.of_nat e)%Z) (map rkey L))) (seq 0 (length es))))) = psumS phi (mesh_touches fs).
Proof.
  intros Hn Ho Hp Hs Hphi. destruct (rows_parts es fs f2e Ho) as (P1 & P2 & P3 & P4).
  assert (P5 : forall x, In x L -> (0 <= rkey x)%Z /\ nth_error es (Z.to_nat (rkey x)) = Some (fst (snd x))). { intros x Hx. apply (Permutation_in _ Hp) in Hx. apply P4 in Hx. tauto. }
  rewrite (find_psum rkey d0 _ L (length es) Hs).
  - rewrite (psum_ext _ (fun h => (fun k => if same_edge k then phi k else 0) (rtouch (fst h), rtouch (snd h)))).
    + rewrite <- (psum_map rtouch (fun k => if same_edge k then phi k else 0)). unfold psumS. apply psum_perm.
      * rewrite <- P3. now apply Permutation_map.
      * intros x y Hx Hy. assert (Hin : forall x, In x (map rtouch L) -> In x (mesh_touches fs)). { intros z Hz. rewrite <- P3. eapply Permutation_in; [apply Permutation_map; exact Hp|exact Hz]. }
        assert (Es : same_edge (y, x) = same_edge (x, y)). { destruct (same_edge (x, y)) eqn:E; [apply same_edge_spec in E|apply not_true_iff_false in E]; [apply same_edge_spec; cbn [fst snd] in *; congruence|]. apply not_true_iff_false. intros C. apply E. apply same_edge_spec in C. apply same_edge_spec. cbn [fst snd] in *. congruence. }
        rewrite Es. destruct (same_edge (x, y)) eqn:E; [|reflexivity]. apply Hphi; auto.
    + intros x y Hx Hy. cbn [fst snd]. change (on2 rtouch (x, y)) with (rtouch x, rtouch y). apply P5 in Hx as (Kx & Ex), Hy as (Ky & Ey). change (snd x) with (rtouch x) in Ex. change (snd y) with (rtouch y) in Ey. destruct (Z.eqb_spec (rkey x) (rkey y)) as [E|E].
      * rewrite E, Ey in Ex. injection Ex as Ex. replace (same_edge (rtouch x, rtouch y)) with true; [reflexivity|]. symmetry. apply same_edge_spec. now cbn [fst snd].
      * destruct (same_edge (rtouch x, rtouch y)) eqn:S; [|reflexivity]. exfalso. apply E. apply same_edge_spec in S. cbn [fst snd] in S. rewrite <- S in Ey. apply Z2Nat.inj; try assumption. rewrite NoDup_nth_error in Hn. apply Hn; [apply nth_error_Some; congruence|congruence].
  - intros x Hx. apply P5 in Hx as (Kx & Ex). assert (Z.to_nat (rkey x) < length es)%nat by (apply nth_error_Some; congruence). lia.
Qed.
Theorem consistency_value m a : reachable argsort m a -> exists m', mesh_normal_consistency argsort m = Ok (consistency (batch a), m') /\ behaves argsort m' a.
Proof.
  intros Hr. destruct (reachable_repr argsort Hsort m a Hr) as (Hw & R0). unfold mesh_normal_consistency. rewrite (not_empty argsort a m Hw R0).
  destruct (verts_ask argsort a m Hw R0) as (m1 & E1 & R1). rewrite E1. cbn [rbind]. destruct (faces_ask argsort a m1 Hw R1) as (m2 & E2 & R2). rewrite E2. cbn [rbind]. destruct (edges_ask argsort Hsort a m2 Hw R2) as (m3 & E3 & R3). rewrite E3. cbn [rbind]. destruct (vidx_ask argsort Hsort a m3 Hw R3) as (m4 & E4 & R4). rewrite E4. cbn [rbind]. destruct (f2e_ask a m4 Hw R4) as (f2e & m5 & E5 & R5 & Hel & Hopp). rewrite E5. cbn [rbind].
  set (b := batch a) in *. set (es := move_edges 0 b (map zedges b)) in *. set (fs := all_faces b) in *. set (vs := all_verts b).
  assert (Hb : Forall good_mesh b) by apply Hw.
  assert (Hn : NoDup es) by (apply lex_sorted_nodup; apply Hel).
  destruct (rows_parts es fs f2e Hopp) as (P1 & P2 & P3 & P4). rewrite <- P1, <- P2. set (L0 := rows_of fs f2e) in *.
  set (order := argsort (map rkey L0)). destruct (Hsort (map rkey L0)) as (So & Ss). fold order in So, Ss. rewrite map_length in So.
  assert (Ho : forall i, In i order -> (i < length L0)%nat). { intros i Hi. apply (Permutation_in _ So) in Hi. apply in_seq in Hi. lia. }
  rewrite (gather_ok (map rkey L0) (rkey d0)) by (intros; rewrite map_length; auto). rewrite (gather_ok (map rface L0) (rface d0)) by (intros; rewrite map_length; auto). cbn [rbind].
  set (L := map (fun i => nth i L0 d0) order).
  assert (EK : map (fun i => nth i (map rkey L0) (rkey d0)) order = map rkey L) by (unfold L; rewrite map_map; apply map_ext; intros i; apply map_nth).
  assert (EF : map (fun i => nth i (map rface L0) (rface d0)) order = map rface L) by (unfold L; rewrite map_map; apply map_ext; intros i; apply map_nth).
  rewrite EK, EF. assert (Hs : StronglySorted Z.le (map rkey L)) by (rewrite <- EK; exact Ss). assert (HL : Permutation L L0) by (apply gather_perm; exact So).
  assert (Q : forall r, In r L -> (0 <= rkey r)%Z /\ nth_error es (Z.to_nat (rkey r)) = Some (fst (snd r)) /\ In (rface r) fs /\ In (snd r) (touches (rface r))) by (intros r Hi; apply P4; eapply Permutation_in; eauto).
  assert (Hk : forall z, In z (map rkey L) -> (0 <= z < Z.of_nat (length es))%Z). { intros z Hz. apply in_map_iff in Hz as (r & <- & Hi). apply Q in Hi as (K1 & K2 & _). assert (Z.to_nat (rkey r) < length es)%nat by (apply nth_error_Some; congruence). lia. }
  rewrite (bincount_ok (length es)) by exact Hk. cbn [rbind].
  pose proof (fun phi H => pairs_sum es fs f2e L phi Hn Hopp HL Hs H) as PS.
  pose proof (counts_sum (length es) (map rkey L) Hk) as CS. rewrite map_length in CS.
  pose proof (find_bounds (map (fun i => length (filter (fun z => (z =? Z.of_nat i)%Z) (map rkey L))) (seq 0 (length es))) 0) as FB. rewrite CS in FB. fold (find_verts (map (fun i => length (filter (fun z => (z =? Z.of_nat i)%Z) (map rkey L))) (seq 0 (length es)))) in FB.
  set (P := find_verts (map (fun i => length (filter (fun z => (z =? Z.of_nat i)%Z) (map rkey L))) (seq 0 (length es)))) in *.
  assert (Hfr : Forall (in_range (length vs)) fs) by (apply all_faces_range; exact Hb).
  assert (HS : forall x y, In x (mesh_touches fs) -> In y (mesh_touches fs) -> same_edge (x, y) = true -> home b x = home b y).
  { intros x y Hx Hy S. apply in_flat_map in Hx as (f & Hf & Hx), Hy as (f' & Hf' & Hy). destruct (home_face b Hb f x Hf Hx) as (_ & _ & ->). destruct (home_face b Hb f' y Hf' Hy) as (_ & _ & ->). apply same_edge_spec in S. cbn [fst snd] in S. now rewrite S. }
  assert (NP : forall p, In p P -> (fst p < length L)%nat /\ (snd p < length L)%nat) by (intros p Hp; specialize (FB p Hp); lia).
  assert (V : exists w, rsum (map (fun p => at_pair d0 (fun h => bend vs (on2 rtouch h)) L p * (1 / INR (w p))) P) / INR (length b) = consistency b /\
    (P <> [] -> (idx <- rmap (fun f => zget (owners 0 (vcount b)) (fst (fst f))) (map rface L) ;; idx <- rmap (fun p => rget idx (fst p)) P ;; num <- bincount (mN m5) idx ;; gathered num idx) = Ok (map w P))).
  { set (hm := fun p : nat * nat => home b (rtouch (nth (fst p) L d0))).
    set (cnt := fun k => length (filter (fun z => (z =? k)%Z) (map hm P))).
    exists (fun p => cnt (hm p)). split.
    - assert (C : forall k p, nth_error b k = Some p -> INR (cnt (Z.of_nat k)) = INR (length (hinges (snd p)))).
      { intros k p Hkp. unfold cnt. rewrite filter_count. rewrite <- (count_at b k p Hb Hkp), <- total_ok by exact Hb. change (faces_from 0 b) with fs. rewrite <- PS; [reflexivity|]. intros x y Hx Hy S. cbn [fst]. rewrite (HS x y Hx Hy S). reflexivity. }
      pose proof (PS (fun k => bend vs k * (1 / INR (cnt (home b (fst k)))))) as PB. specialize (PB ltac:(intros x y Hx Hy S; cbn [fst snd]; rewrite (HS x y Hx Hy S), wing_sym_bend; reflexivity)).
      rewrite (rsum_map_ext _ (at_pair d0 (fun h => (fun k => bend vs k * (1 / INR (cnt (home b (fst k))))) (on2 rtouch h)) L)) by (intros p _; reflexivity). rewrite PB. clear PB. unfold fs, all_faces. rewrite total_ok by exact Hb. pose proof (loss_total b (fun k => INR (cnt k)) Hb C) as LT. fold vs in LT. rewrite LT. clear LT. unfold consistency. rewrite <- (mean_means (fun p => map (bend (fst p)) (hinges (snd p)))) by (apply wf_nonempty, Hw). rewrite map_map. reflexivity.
    - intros _. rewrite (rmap_all_ok _ (fun f => match zget (owners 0 (vcount b)) (fst (fst f)) with Ok z => z | _ => 0%Z end)).
      2:{ intros f Hf. apply in_map_iff in Hf as (r & <- & Hi). apply Q in Hi as (_ & _ & Hi & Ht). destruct (home_face b Hb _ _ Hi Ht) as (-> & _). reflexivity. }
      cbn [rbind]. rewrite map_map.
      assert (EI : map (fun r => match zget (owners 0 (vcount b)) (fst (fst (rface r))) with Ok z => z | _ => 0%Z end) L = map (fun r => home b (rtouch r)) L). { apply map_ext_in. intros r Hi. apply Q in Hi as (_ & _ & Hi & Ht). destruct (home_face b Hb _ _ Hi Ht) as (-> & _). reflexivity. }
      rewrite EI. rewrite (rmap_all_ok _ hm).
      2:{ intros p Hp. apply NP in Hp as (Hp & _). unfold rget. rewrite (nth_error_nth' _ (home b (rtouch d0))) by (now rewrite map_length). unfold hm. now rewrite (map_nth (fun r => home b (rtouch r))). }
      cbn [rbind].
      assert (HR : forall p, In p P -> (0 <= hm p < Z.of_nat (length b))%Z). { intros p Hp. apply NP in Hp as (Hp & _). assert (Hi : In (nth (fst p) L d0) L) by (now apply nth_In). apply Q in Hi as (_ & _ & Hi & Ht). exact (proj1 (proj2 (home_face b Hb _ _ Hi Ht))). }
      rewrite (r_N _ _ _ R5). fold b. rewrite bincount_ok by (intros z Hz; apply in_map_iff in Hz as (p & <- & Hp); now apply HR). cbn [rbind]. unfold gathered. rewrite (rmap_all_ok _ cnt); [rewrite map_map; reflexivity|].
      intros z Hz. apply in_map_iff in Hz as (p & <- & Hp). specialize (HR p Hp). destruct (Z.ltb_spec (hm p) 0); [lia|]. rewrite nth_error_map, (nth_error_nth' _ 0%nat) by (rewrite seq_length; lia). rewrite seq_nth by lia. cbn [option_map]. unfold cnt. rewrite Nat.add_0_l, Z2Nat.id by lia. reflexivity. }
  destruct V as (w & V1 & V2). exists m5. split; [|apply MeshesProofs8.repr_behaves; assumption].
  destruct P as [|p0 P0] eqn:EP.
  - cbn [map] in V1. rewrite rsum_nil in V1. do 2 f_equal. rewrite <- V1. unfold Rdiv. ring.
  - rewrite <- EP in *. assert (NE : P <> []) by (rewrite EP; discriminate). clear EP.
    assert (EC : combine (map rkey L) (map rface L) = map fst L). { clear. induction L as [|[[z f] t] L' IH]; [reflexivity|]. cbn [map combine]. rewrite IH. reflexivity. }
    rewrite EC. assert (EN : rmap (row_normal vs es) (map fst L) = Ok (map (fun r => wing vs (rtouch r)) L)).
    { clear - Q Hfr. induction L as [|r L' IH]; [reflexivity|]. cbn [map rmap]. rewrite IH by (intros; apply Q; now right). destruct (Q r (or_introl eq_refl)) as (Q1 & Q2 & Q3 & Q4). rewrite Forall_forall in Hfr. rewrite (row_normal_ok vs es r Q1 Q2 (Hfr _ Q3) Q4). reflexivity. }
    rewrite EN. cbn [rbind]. rewrite (rmap_all_ok _ (at_pair d0 (fun h => bend vs (on2 rtouch h)) L)).
    2:{ intros p Hp. apply NP in Hp as (H1 & H2). unfold rget. rewrite !(nth_error_nth' _ (wing vs (rtouch d0))) by (now rewrite map_length). cbn [rbind]. rewrite !(map_nth (fun r => wing vs (rtouch r))). reflexivity. }
    cbn [rbind]. specialize (V2 NE).
    destruct (rmap (fun f => zget (owners 0 (vcount b)) (fst (fst f))) (map rface L)) as [idx|]; [|discriminate]. cbn [rbind] in V2 |- *. destruct (rmap (fun p => rget idx (fst p)) P) as [idx'|]; [|discriminate]. cbn [rbind] in V2 |- *. destruct (bincount (mN m5) idx') as [num|]; [|discriminate]. cbn [rbind] in V2 |- *. rewrite V2. cbn [rbind]. rewrite weighted_map, (r_N _ _ _ R5). fold b. rewrite V1. reflexivity.
Qed.
End Arg.
