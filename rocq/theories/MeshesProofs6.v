From Verif Require Import Base Packing PackingProofs PackOpsProofs RBase Geom FaceAreas FaceAreasSpec Meshes MeshesSpec MeshesHistSpec
  MeshesProofs MeshesProofs2 MeshesProofs3 MeshesProofs4 MeshesProofs5.
Local Open Scope nat_scope.

(* ---- Laplacian entries ---- *)
Lemma degree_deg E i : degree (E ++ map (fun e => (snd e, fst e)) E) (Z.of_nat i) = deg E i.
Proof.
  unfold degree, deg. rewrite map_app, rsum_app, map_map. cbn [fst]. rewrite rsum_map_plus. reflexivity.
Qed.
Lemma deg_nonneg E i : (0 <= deg E i)%R.
Proof.
  apply rsum_nonneg, Forall_map, Forall_forall. intros e _. repeat destruct (_ =? _)%Z; lra.
Qed.
Lemma deg_pos E i e : In e E -> (fst e = Z.of_nat i \/ snd e = Z.of_nat i) -> (1 <= deg E i)%R.
Proof.
  induction E as [|x E IH]; intros Hi Hd; [destruct Hi|].
  unfold deg. cbn [map]. rewrite rsum_cons. fold (deg E i). destruct Hi as [->|Hi].
  - pose proof (deg_nonneg E i) as Hn. 
    destruct Hd as [->| ->]; rewrite Z.eqb_refl; destruct (_ =? _)%Z; lra.
  - specialize (IH Hi Hd).  repeat destruct (_ =? _)%Z; lra.
Qed.
Lemma recip_deg E i e : In e E -> (fst e = Z.of_nat i \/ snd e = Z.of_nat i) -> recip_pos (deg E i) = (/ deg E i)%R.
Proof. intros H1 H2. pose proof (deg_pos E i e H1 H2). unfold recip_pos. destruct (Rltb_spec 0 (deg E i)); [reflexivity|lra]. Qed.

Lemma diag_sum i j s n : i < s + n -> s <= i ->
  rsum (map (fun k => if ((Z.of_nat k =? Z.of_nat i) && (Z.of_nat k =? Z.of_nat j))%Z then -1 else 0)%R (seq s n)) = (if i =? j then -1 else 0)%R.
Proof.
  revert s. induction n as [|n IH]; intros s H1 H2; [lia|]. cbn [seq map]. rewrite rsum_cons.
  destruct (Nat.eq_dec s i) as [->|Hne].
  - rewrite rsum_map_zero.
    + rewrite Z.eqb_refl. cbn [andb]. destruct (Nat.eqb_spec i j); destruct (Z.eqb_spec (Z.of_nat i) (Z.of_nat j)); try lia; lra.
    + intros k Hk. apply in_seq in Hk. destruct (Z.eqb_spec (Z.of_nat k) (Z.of_nat i)); [lia|reflexivity].
  - rewrite IH by lia. destruct (Z.eqb_spec (Z.of_nat s) (Z.of_nat i)); [lia|]. cbn [andb]. lra.
Qed.

Lemma lap_hit E i j e : In e E ->
  (if ((fst e =? Z.of_nat i) && (snd e =? Z.of_nat j))%Z then recip_pos (degree (E ++ map (fun e => (snd e, fst e)) E) (fst e)) else 0)%R
  = (if ((fst e =? Z.of_nat i) && (snd e =? Z.of_nat j))%Z then / deg E i else 0)%R.
Proof.
  intros He. destruct (Z.eqb_spec (fst e) (Z.of_nat i)) as [Hf|]; cbn [andb]; [|reflexivity]. rewrite Hf, degree_deg.
  destruct (_ =? _)%Z; [|reflexivity]. apply (recip_deg E i e He). left; exact Hf.
Qed.
Lemma lap_hit' E i j e : In e E ->
  (if ((snd e =? Z.of_nat i) && (fst e =? Z.of_nat j))%Z then recip_pos (degree (E ++ map (fun e => (snd e, fst e)) E) (snd e)) else 0)%R
  = (if ((snd e =? Z.of_nat i) && (fst e =? Z.of_nat j))%Z then / deg E i else 0)%R.
Proof.
  intros He. destruct (Z.eqb_spec (snd e) (Z.of_nat i)) as [Hf|]; cbn [andb]; [|reflexivity]. rewrite Hf, degree_deg.
  destruct (_ =? _)%Z; [|reflexivity]. apply (recip_deg E i e He). right; exact Hf.
Qed.

Lemma laplacian_value V E : laplacian V E = map (fun i => map (lap_entry E i) (seq 0 V)) (seq 0 V).
Proof.
  unfold laplacian, coo. apply map_ext_in. intros i Hi. apply in_seq in Hi. apply map_ext_in. intros j Hj. apply in_seq in Hj.
  rewrite map_app, rsum_app, !map_map. rewrite diag_sum by lia. unfold lap_entry.
  rewrite map_app, rsum_app, map_map, rsum_map_plus. cbn [fst snd].
  rewrite (rsum_map_ext _ _ E (lap_hit E i j)), (rsum_map_ext _ _ E (lap_hit' E i j)).
  destruct (i =? j); lra.
Qed.

(* ---- padding back per-mesh rows ---- *)
Lemma fill_value {T} (e : bool) (z : T) (l : list (list T)) : l <> [] ->
  (e = true -> all_same (map (@length T) l) = true) ->
  Meshes.pad_rows e (max_nat (map (@length T) l)) z l = Ok (fill_up z l).
Proof.
  intros H1 H2. rewrite pad_rows_tails by assumption. unfold fill_up. do 2 f_equal.
  set (M := max_nat _). clearbody M. clear. unfold tails. rewrite map_map. induction l as [|x l IH]; cbn [map zip_app]; [reflexivity|]. rewrite IH. reflexivity.
Qed.
Lemma split_total {T} (l : list T) ss : sum_nat ss = length l -> exists r, packed_to_list l ss = Ok r /\ pieces ss l r.
Proof.
  intros H. unfold packed_to_list. replace (sum_nat ss =? length l) with true by (symmetry; apply Nat.eqb_eq; exact H).
  eexists. split; [reflexivity|]. apply packed_to_list_sound. unfold packed_to_list.
  replace (sum_nat ss =? length l) with true by (symmetry; apply Nat.eqb_eq; exact H). reflexivity.
Qed.
Lemma mesh_normals_length p : length (mesh_normals p) = length (fst p).
Proof. unfold mesh_normals. rewrite map_length, seq_length. reflexivity. Qed.
Lemma mesh_areas_length p : length (mesh_areas p) = length (snd p).
Proof. apply map_length. Qed.
Lemma vert_normals_length a : wf_state a -> length (vert_normals a) = sum_nat (vcount (batch a)).
Proof.
  intros Hw. unfold vert_normals. destruct (user a) eqn:E; [apply Hw; exact E|].
  rewrite length_concat_sum, map_map. f_equal. apply map_ext. intros p. apply mesh_normals_length.
Qed.
Lemma face_normals_sizes b : map (@length _) (face_normals b) = fcount b.
Proof. unfold face_normals. rewrite map_map. apply map_ext. intros p. rewrite map_length. apply mesh_areas_length. Qed.
Lemma areas_snd b : Forall good_mesh b -> map snd (areas_of b) = concat (face_normals b).
Proof. intros H. rewrite areas_split by exact H. unfold face_normals. rewrite concat_map, map_map. reflexivity. Qed.

Section Hist.
Variable argsort : list Z -> list nat.
Hypothesis Hsort : sorts argsort.
Notation repr := (repr argsort).

Lemma edges_tell a m : wf_state a -> repr a m -> exists m' Es f2e,
  compute_edges argsort m = Ok m' /\ repr a m' /\ own_edges (batch a) Es /\
  ed m' = Some (Edges (move_edges 0 (batch a) Es) (owners 0 (map (@length _) Es)) (Some (map (@length _) Es, firsts 0 (map (@length _) Es), f2e))) /\
  edge_list (all_faces (batch a)) (move_edges 0 (batch a) Es) /\ Forall2 (opposite_edges (move_edges 0 (batch a) Es)) (all_faces (batch a)) f2e.
Proof.
  intros Hw Rm. pose proof (wf_nonempty a Hw) as Hne. assert (Hg := proj1 Hw).
  destruct (edges_spec_value argsort Hsort (batch a) Hne Hg) as (Es & f2e & Ho & He & Hf).
  destruct (edges_ok argsort a m Hw Rm) as (m' & e & E1 & R' & E2 & E3 & _); [eauto|].
  destruct (edges_spec_inv argsort Hsort (batch a) e Hne Hg E3) as (Es' & f2e' & Ho' & -> & H1 & H2).
  exists m', Es', f2e'. auto 10.
Qed.

Lemma areas_tell a m : wf_state a -> repr a m -> exists m',
  compute_areas false m = Ok m' /\ repr a m' /\ areas_normals m' = Some (areas_of (batch a)).
Proof.
  intros Hw Rm. assert (Hg := proj1 Hw). pose proof (areas_value _ Hg) as Hv.
  destruct (areas_ok argsort a m Hw Rm) as (m' & l & E1 & R' & E2 & E3); [eauto|].
  exists m'. split; [exact E1|]. split; [exact R'|]. congruence.
Qed.

Lemma vn_tell a m : wf_state a -> repr a m -> exists m',
  compute_vnormals false m = Ok m' /\ repr a m' /\ vnormals m' = Some (vert_normals a).
Proof.
  intros Hw Rm. assert (Hg := proj1 Hw). pose proof (normals_value _ Hg) as Hv.
  assert (Hs : forall l, vn_spec a l -> l = vert_normals a).
  { intros l. unfold vn_spec, vert_normals, fresh_normals. destruct (user a); [auto|]. rewrite Hv, normals_split by exact Hg. congruence. }
  destruct (vnormals_ok argsort a m Hw Rm) as (m' & l & E1 & R' & E2 & E3).
  { unfold vn_spec, fresh_normals. destruct (user a); eauto. }
  exists m'. split; [exact E1|]. split; [exact R'|]. rewrite E2. f_equal. apply Hs, E3.
Qed.

Lemma vn_packed a m : wf_state a -> repr a m -> exists m', verts_normals_packed m = Ok (vert_normals a, m') /\ repr a m'.
Proof.
  intros Hw Rm. destruct (vn_tell a m Hw Rm) as (m' & E & R' & E'). exists m'. split; [|exact R'].
  unfold verts_normals_packed. rewrite E. cbn [rbind]. rewrite E'. reflexivity.
Qed.
Lemma vn_list a m : wf_state a -> repr a m -> exists m' ls, verts_normals_list m = Ok (ls, m') /\ pieces (vcount (batch a)) (vert_normals a) ls /\ repr a m'.
Proof.
  intros Hw Rm. destruct (vn_packed a m Hw Rm) as (m' & E & R').
  destruct (split_total (vert_normals a) (vcount (batch a))) as (ls & E' & Hp); [symmetry; apply vert_normals_length, Hw|].
  exists m', ls. split; [|split; assumption]. unfold verts_normals_list. rewrite (not_empty argsort a m Hw Rm), E. cbn [rbind].
  rewrite (r_nv _ _ _ R'), E'. reflexivity.
Qed.
Lemma fn_packed a m : wf_state a -> repr a m -> exists m', faces_normals_packed m = Ok (concat (face_normals (batch a)), m') /\ repr a m'.
Proof.
  intros Hw Rm. destruct (areas_tell a m Hw Rm) as (m' & E & R' & E'). exists m'. split; [|exact R'].
  unfold faces_normals_packed. rewrite E. cbn [rbind]. rewrite E', areas_snd by apply Hw. reflexivity.
Qed.
Lemma fn_list a m : wf_state a -> repr a m -> exists m', faces_normals_list m = Ok (face_normals (batch a), m') /\ repr a m'.
Proof.
  intros Hw Rm. destruct (fn_packed a m Hw Rm) as (m' & E & R').
  exists m'. split; [|assumption]. unfold faces_normals_list. rewrite (not_empty argsort a m Hw Rm), E. cbn [rbind].
  rewrite (r_nf _ _ _ R'), <- face_normals_sizes, packed_to_list_inverse. reflexivity.
Qed.

Lemma vcount_firsts b : firsts 0 (vcount b) = map (vstart b) (seq 0 (length b)).
Proof. rewrite firsts_starts, vcount_length. reflexivity. Qed.
Lemma fcount_firsts b : firsts 0 (fcount b) = map (fstart b) (seq 0 (length b)).
Proof. rewrite firsts_starts, fcount_length. reflexivity. Qed.
Lemma combine_seq_nth {T} (c : list T) : forall s i, nth_error (combine (seq s (length c)) c) i = option_map (fun x => (s + i, x)) (nth_error c i).
Proof.
  induction c as [|x c IH]; intros s [|i]; cbn; try reflexivity; [rewrite Nat.add_0_r; reflexivity|].
  rewrite IH. destruct (nth_error c i); cbn; [|reflexivity]. do 2 f_equal. lia.
Qed.
Lemma seq_plus o n : forall s, map (fun j => j + o) (seq s n) = seq (s + o) n.
Proof. induction n as [|n IH]; intros s; cbn [seq map]; [reflexivity|]. rewrite IH. reflexivity. Qed.
Lemma p2p_value b : p2p_of b = concat (map (fun i => seq (i * max_nat (vcount b)) (nth i (vcount b) 0)) (seq 0 (length b))).
Proof.
  unfold p2p_of. f_equal. rewrite <- (vcount_length b). set (M := max_nat (vcount b)). generalize (vcount b) as c. clearbody M. clear. intros c.
  apply nth_error_ext_len; [rewrite !map_length, combine_length, seq_length; lia|].
  intros i Hi. rewrite map_length, combine_length, seq_length in Hi. rewrite !nth_error_map_iff, nth_error_seq_lt by lia. cbn [option_map Nat.add].
  rewrite combine_seq_nth. destruct (nth_error c i) as [n|] eqn:E; [|apply nth_error_None in E; lia]. cbn [option_map fst snd Nat.add].
  f_equal. rewrite (nth_error_nth _ _ 0 E). apply (seq_plus (i * M) n 0).
Qed.
Lemma vtail_rows a : wf_state a -> Forall (fun r => length r = max_nat (vcount (batch a))) (zip_app (map fst (batch a)) (vtail a)).
Proof. intros Hw. apply Hw. Qed.

Lemma own_edges_length b Es : own_edges b Es -> length Es = length b.
Proof. intros H. symmetry. eapply Forall2_length. exact H. Qed.

Theorem ask_tell q a m : wf_state a -> repr a m ->
  exists r m', ask argsort q m = Ok (r, m') /\ tell q a r /\ repr a m'.
Proof.
  intros Hw Rm. pose proof (wf_nonempty a Hw) as Hne. assert (Hg := proj1 Hw).
  destruct q; unfold ask, tell; cbv zeta.
  - exists (ANats [mN m]), m. split; [reflexivity|]. split; [rewrite (r_N _ _ _ Rm); reflexivity|exact Rm].
  - exists (ABools (valid m)), m. split; [reflexivity|]. split; [apply (r_valid _ _ _ Rm)|exact Rm].
  - exists (ABools [isempty m]), m. split; [reflexivity|]. split; [rewrite (not_empty argsort a m Hw Rm); reflexivity|exact Rm].
  - destruct (verts_list_ok argsort a m Hw Rm) as (m' & -> & R' & _). cbn. eauto.
  - destruct (faces_list_ok argsort a m Hw Rm) as (m' & -> & R' & _). cbn. eauto.
  - exists (ANats (num_verts_per_mesh m)), m. split; [reflexivity|]. split; [apply (r_nv _ _ _ Rm)|exact Rm].
  - exists (ANats (num_faces_per_mesh m)), m. split; [reflexivity|]. split; [apply (r_nf _ _ _ Rm)|exact Rm].
  - destruct (with_packed_ok argsort a m pk_verts Hw Rm) as (m' & E & R' & _). unfold verts_packed. rewrite E. cbn. eauto.
  - destruct (with_packed_ok argsort a m pk_vidx Hw Rm) as (m' & E & R' & _). unfold verts_packed_to_mesh_idx. rewrite E. cbn. eauto.
  - destruct (with_packed_ok argsort a m pk_vfirst Hw Rm) as (m' & E & R' & _). unfold mesh_to_verts_packed_first_idx. rewrite E.
    cbn [rbind fst snd packed_of pk_vfirst]. rewrite vcount_firsts. eauto.
  - destruct (with_packed_ok argsort a m pk_faces Hw Rm) as (m' & E & R' & _). unfold faces_packed. rewrite E. cbn. eauto.
  - destruct (with_packed_ok argsort a m pk_fidx Hw Rm) as (m' & E & R' & _). unfold faces_packed_to_mesh_idx. rewrite E. cbn. eauto.
  - destruct (with_packed_ok argsort a m pk_ffirst Hw Rm) as (m' & E & R' & _). unfold mesh_to_faces_packed_first_idx. rewrite E.
    cbn [rbind fst snd packed_of pk_ffirst]. rewrite fcount_firsts. eauto.
  - destruct (verts_padded_ok argsort a m Hw Rm) as (m' & E & R'). rewrite E. cbn [rbind fst snd]. eexists _, m'. split; [reflexivity|]. split; [|exact R'].
    cbn [rows dim1]. split; [reflexivity|]. split; [reflexivity|]. apply vtail_rows, Hw.
  - destruct (faces_padded_ok argsort a m Hw Rm) as (m' & D & E & R' & _ & _ & HD). rewrite E. cbn [rbind fst snd]. eexists _, m'. split; [reflexivity|]. split; [|exact R'].
    cbn [rows dim1]. split; [reflexivity|exact HD].
  - destruct (p2p_ok argsort a m Hw Rm) as (m' & E & R' & _). rewrite E. cbn [rbind fst snd]. rewrite p2p_value. eauto.
  - destruct (edges_tell a m Hw Rm) as (m' & Es & f2e & E & R' & Ho & Ee & H1 & H2). unfold edges_packed, with_edges. rewrite E. cbn [rbind]. rewrite Ee. cbn [rbind fst snd ed_edges].
    eexists _, m'. split; [reflexivity|]. split; [|exact R']. eauto.
  - destruct (edges_tell a m Hw Rm) as (m' & Es & f2e & E & R' & Ho & Ee & H1 & H2). unfold edges_packed_to_mesh_idx, with_edges. rewrite E. cbn [rbind]. rewrite Ee. cbn [rbind fst snd ed_mesh].
    eexists _, m'. split; [reflexivity|]. split; [|exact R']. eauto.
  - destruct (edges_tell a m Hw Rm) as (m' & Es & f2e & E & R' & Ho & Ee & H1 & H2). unfold num_edges_per_mesh, with_edges. rewrite E. cbn [rbind]. rewrite Ee. cbn [rbind fst snd ed_rest option_map].
    eexists _, m'. split; [reflexivity|]. split; [|exact R']. eauto.
  - destruct (edges_tell a m Hw Rm) as (m' & Es & f2e & E & R' & Ho & Ee & H1 & H2). unfold mesh_to_edges_packed_first_idx, with_edges. rewrite E. cbn [rbind]. rewrite Ee. cbn [rbind fst snd ed_rest option_map].
    eexists _, m'. split; [reflexivity|]. split; [|exact R']. exists Es. split; [exact Ho|]. f_equal. rewrite firsts_starts, map_length, (own_edges_length _ _ Ho). reflexivity.
  - destruct (edges_tell a m Hw Rm) as (m' & Es & f2e & E & R' & Ho & Ee & H1 & H2). unfold faces_packed_to_edges_packed, with_edges. rewrite E. cbn [rbind]. rewrite Ee. cbn [rbind fst snd ed_rest option_map].
    eexists _, m'. split; [reflexivity|]. split; [|exact R']. eauto.
  - destruct (areas_tell a m Hw Rm) as (m' & E & R' & Ee). unfold faces_areas_packed. rewrite E. cbn [rbind]. rewrite Ee. cbn [rbind fst snd].
    eexists _, m'. split; [reflexivity|]. split; [|exact R']. rewrite areas_split by exact Hg. rewrite concat_map, map_map. reflexivity.
  - destruct (fn_packed a m Hw Rm) as (m' & E & R'). rewrite E. cbn [rbind fst snd]. eauto.
  - destruct (fn_list a m Hw Rm) as (m' & E & R'). rewrite E. cbn [rbind fst snd]. eauto.
  - destruct (fn_list a m Hw Rm) as (m' & E & R'). unfold faces_normals_padded. rewrite (not_empty argsort a m Hw Rm), E. cbn [rbind fst snd].
    rewrite (r_F _ _ _ R'), <- face_normals_sizes, fill_value.
    + cbn [rbind fst snd]. eauto.
    + unfold face_normals. destruct (batch a); [contradiction|discriminate].
    + rewrite (r_eq _ _ _ R'), face_normals_sizes. intros H. apply andb_true_iff in H. apply H.
  - destruct (vn_packed a m Hw Rm) as (m' & E & R'). rewrite E. cbn [rbind fst snd]. eauto.
  - destruct (vn_list a m Hw Rm) as (m' & ls & E & Hp & R'). rewrite E. cbn [rbind fst snd]. eauto.
  - destruct (vn_list a m Hw Rm) as (m' & ls & E & Hp & R'). unfold verts_normals_padded. rewrite (not_empty argsort a m Hw Rm), E. cbn [rbind fst snd].
    rewrite (r_V _ _ _ R'). replace (max_nat (vcount (batch a))) with (max_nat (map (@length _) ls)) by (rewrite (proj2 Hp); reflexivity).
    rewrite fill_value.
    + cbn [rbind fst snd]. eexists _, m'. split; [reflexivity|]. split; [|exact R']. exists ls. split; [exact Hp|reflexivity].
    + intros ->. destruct Hp as [_ Hp]. destruct (batch a); [contradiction|discriminate].
    + rewrite (r_eq _ _ _ R'), (proj2 Hp). intros H. apply andb_true_iff in H. apply H.
  - pose proof (edges_spec_value argsort Hsort (batch a) Hne Hg) as (Es & f2e & Ho & He & Hf).
    destruct (laplacian_ok argsort a m Hw Rm) as (m' & e & E & R' & He'); [eauto|].
    destruct (edges_spec_inv argsort Hsort (batch a) e Hne Hg He') as (Es' & f2e' & Ho' & -> & H1 & H2).
    rewrite E. cbn [rbind fst snd ed_edges]. eexists _, m'. split; [reflexivity|]. split; [|exact R']. rewrite laplacian_value. eauto.
Qed.
End Hist.
