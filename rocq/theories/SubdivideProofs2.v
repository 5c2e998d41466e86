(* The packed tensors of subdivide_heterogenerous, mesh by mesh. *)
From Coq Require Import Permutation.
From Verif Require Import Base Packing PackingProofs RBase Geom FaceAreas FaceAreasSpec Meshes MeshesSpec MeshesHistSpec MeshesProofs MeshesProofs5 MeshesProofs6 MeshesProofs7 MeshesProofs10 Subdivide SubdivideSpec SubdivideProofs.
Local Open Scope nat_scope.

Definition no_mesh : mesh := ([], []).

Lemma edge_range n fs E e : edge_list fs E -> Forall (in_range n) fs -> In e E -> (0 <= fst e < Z.of_nat n /\ 0 <= snd e < Z.of_nat n)%Z.
Proof.
  intros (_ & H) G Hi. apply H in Hi. destruct Hi as (_ & ((a, b), c) & Hf & Hs). rewrite Forall_forall in G. specialize (G _ Hf). cbn in G.
  destruct e as (x, y). unfold side_of, sides in Hs. cbn in *. destruct Hs as [[Hs|[Hs|[Hs|[]]]]|[Hs|[Hs|[Hs|[]]]]]; injection Hs as <- <-; lia.
Qed.
Lemma py_nth_ok {A} (l : list A) i k x : i = Z.of_nat k -> nth_error l k = Some x -> py_nth l i = Ok x.
Proof. intros -> H. apply py_nth_index. left. split; [lia|]. rewrite Nat2Z.id. exact H. Qed.

(* ---- new vertices and features ---- *)
Section Means.
Context {F : Type}.
Variables (d : F) (mean : F -> F -> F).
Definition mids (rows : list F) (E : list (Z * Z)) : list F := map (fun e => mean (nth (Z.to_nat (fst e)) rows d) (nth (Z.to_nat (snd e)) rows d)) E.

Lemma means_one pre rows post E : (forall e, In e E -> (0 <= fst e < Z.of_nat (length rows) /\ 0 <= snd e < Z.of_nat (length rows))%Z) ->
  edge_means mean (pre ++ rows ++ post) (map (move_edge (length pre)) E) = Ok (mids rows E).
Proof.
  intros H. unfold edge_means, mids. induction E as [|e E IH]; [reflexivity|]. cbn [map rmap].
  assert (G : forall i, (0 <= i < Z.of_nat (length rows))%Z -> py_nth (pre ++ rows ++ post) (i + Z.of_nat (length pre)) = Ok (nth (Z.to_nat i) rows d)).
  { intros i Hi. apply (py_nth_ok _ _ (length pre + Z.to_nat i)); [lia|]. rewrite nth_error_app2 by lia. replace (length pre + Z.to_nat i - length pre) with (Z.to_nat i) by lia. rewrite nth_error_app1 by lia. apply nth_error_nth'. lia. }
  destruct (H e (or_introl eq_refl)) as (H1 & H2). unfold move_edge at 1 2. cbn [fst snd]. rewrite (G _ H1). cbn [rbind]. rewrite (G _ H2). cbn [rbind]. rewrite IH; [reflexivity|]. intros e' He'. apply H. right. exact He'.
Qed.
Lemma means_all b Es : Forall good_mesh b -> own_edges b Es -> forall Fs pre, map (@length F) Fs = vcount b ->
  edge_means mean (pre ++ concat Fs) (move_edges (length pre) b Es) = Ok (concat (map (fun q => mids (fst q) (snd q)) (combine Fs Es))).
Proof.
  intros G H. induction H as [|p E b Es HE _ IH]; intros Fs pre L; [destruct Fs; [reflexivity|discriminate]|]. destruct Fs as [|fr Fs]; [discriminate|]. cbn in L. injection L as L1 L2.
  apply Forall_cons_iff in G. destruct G as (G1 & G2). cbn [move_edges combine map concat fst snd]. unfold edge_means. rewrite rmap_app.
  change (rmap (fun e => a <- py_nth (pre ++ fr ++ concat Fs) (fst e) ;; b0 <- py_nth (pre ++ fr ++ concat Fs) (snd e) ;; Ok (mean a b0)) (map (move_edge (length pre)) E)) with (edge_means mean (pre ++ fr ++ concat Fs) (map (move_edge (length pre)) E)).
  rewrite means_one by (intros e He; rewrite L1; eapply edge_range; eassumption). cbn [rbind].
  specialize (IH G2 Fs (pre ++ fr) L2). rewrite app_length, L1, <- app_assoc in IH. unfold edge_means in IH. rewrite IH. reflexivity.
Qed.
Lemma split_edges_mids rows E : split_edges d mean rows E = rows ++ mids rows E.
Proof. reflexivity. Qed.
End Means.

Lemma nth_combine_dflt {A B} (l : list A) (l' : list B) n a b : length l = length l' -> nth n (combine l l') (a, b) = (nth n l a, nth n l' b).
Proof. apply combine_nth. Qed.
Lemma map_seq_nth {A B} (f : A -> B) (d : A) (l : list A) : map (fun n => f (nth n l d)) (seq 0 (length l)) = map f l.
Proof.
  induction l as [|x l IH]; [reflexivity|]. cbn [length seq map nth]. f_equal. rewrite <- seq_shift, map_map. exact IH.
Qed.

(* rows grouped by mesh: the old ones, then the new ones *)
Lemma take_grouped {F} (Fs Ms : list (list F)) : length Fs = length Ms ->
  take (concat Fs ++ concat Ms) (create_verts_index (map (@length F) Fs) (map (@length F) Ms)) = Ok (concat (map (fun q => fst q ++ snd q) (combine Fs Ms))).
Proof.
  intros L. rewrite verts_index_value by (rewrite !map_length; exact L). rewrite map_length.
  rewrite (take_flat _ _ (fun n => nth n Fs [] ++ nth n Ms [])).
  - f_equal. rewrite <- flat_map_concat_map. rewrite <- (flat_map_nth (fun q => fst q ++ snd q) ([], []) (combine Fs Ms)). rewrite combine_length, <- L, Nat.min_id.
    rewrite !flat_map_concat_map. f_equal. apply map_ext. intros n. rewrite nth_combine_dflt by exact L. reflexivity.
  - intros n Hn. apply in_seq in Hn. apply take_app.
    + pose proof (take_piece [] Fs (concat Ms) n ltac:(lia)) as T. exact T.
    + pose proof (take_piece (concat Fs) Ms [] n ltac:(lia)) as T. rewrite app_nil_r, length_concat_sum in T. exact T.
Qed.

(* ---- the new numbers of the vertices ---- *)
Lemma ordered_ok nv ne : length nv = length ne -> let nn := map (fun n => nth n nv 0 + nth n ne 0) (seq 0 (length nv)) in
  exists ord, scatter_positions (sum_nat nn) (create_verts_index nv ne) = Ok ord /\
    forall n, n < length nv ->
      (forall j, j < nth n nv 0 -> nth_error ord (start nv n + j) = Some (start nn n + j)) /\
      (forall j, j < nth n ne 0 -> nth_error ord (sum_nat nv + start ne n + j) = Some (start nn n + nth n nv 0 + j)).
Proof.
  intros L nn. set (idx := create_verts_index nv ne).
  assert (P : Permutation idx (seq 0 (sum_nat nv + sum_nat ne))).
  { unfold idx, create_verts_index. eapply Permutation_trans; [apply stable_perm|]. rewrite app_length, !ri_length. apply Permutation_refl. }
  assert (Sn : sum_nat nn = sum_nat nv + sum_nat ne).
  { unfold nn. clear - L. revert ne L. induction nv as [|a nv IH]; intros [|c ne] L; try discriminate; [reflexivity|]. cbn [length seq map nth sum_nat fold_right]. rewrite <- seq_shift, map_map. cbn in L. specialize (IH ne ltac:(lia)). cbn in IH. cbn. unfold sum_nat in IH. rewrite IH. unfold sum_nat. lia. }
  rewrite <- Sn in P. destruct (scatter_inverse _ _ P) as (ord & E & Lo & K). exists ord. split; [exact E|].
  intros n Hn. set (g := fun n => seq (start nv n) (nth n nv 0) ++ seq (sum_nat nv + start ne n) (nth n ne 0)).
  assert (Ei : idx = flat_map g (seq 0 (length nv))) by (apply verts_index_value; exact L).
  assert (St : start nn n = sum_nat (map (fun i => length (g i)) (seq 0 n))).
  { rewrite start_map by (unfold nn; rewrite map_length, seq_length; lia). f_equal. apply map_ext_in. intros i Hi. apply in_seq in Hi. unfold g. rewrite app_length, !seq_length. unfold nn.
    apply nth_error_nth. rewrite nth_error_map_iff, nth_error_seq_lt by lia. reflexivity. }
  split; intros j Hj.
  - apply K. rewrite Ei, St. apply flat_start; [exact Hn|]. unfold g. rewrite nth_error_app1 by (rewrite seq_length; exact Hj). apply nth_error_seq_lt. exact Hj.
  - apply K. rewrite Ei. rewrite St. rewrite <- Nat.add_assoc. apply flat_start; [exact Hn|]. unfold g. rewrite nth_error_app2 by (rewrite seq_length; lia). rewrite seq_length. replace (nth n nv 0 + j - nth n nv 0) with j by lia. apply nth_error_seq_lt. exact Hj.
Qed.

(* ---- faces, mesh by mesh ---- *)
Lemma vstart_start b n : vstart b n = start (vcount b) n.
Proof. reflexivity. Qed.
Lemma faces_flat b : forall o, faces_from o b = flat_map (fun n => map (move_face (o + vstart b n)) (snd (nth n b no_mesh))) (seq 0 (length b)).
Proof.
  induction b as [|p b IH]; intros o; [reflexivity|]. cbn [faces_from length seq flat_map nth]. unfold vstart at 1. cbn [firstn sum_nat fold_right]. rewrite Nat.add_0_r. f_equal.
  rewrite IH, <- seq_shift. rewrite !flat_map_concat_map, map_map. f_equal. apply map_ext. intros n. cbn [nth]. apply map_ext. intros f. f_equal. unfold vstart, vcount. cbn [map firstn sum_nat fold_right]. unfold sum_nat. lia.
Qed.

Definition local_edges (b : list mesh) (Es : list (list (Z * Z))) (Ts : list (list (Z * Z * Z))) : Prop :=
  length Ts = length b /\ forall n, n < length b -> Forall2 (opposite_edges (nth n Es [])) (snd (nth n b no_mesh)) (nth n Ts []).

Lemma shift_face_id (t : Z * Z * Z) : shift_face 0 t = t.
Proof. destruct t as ((a, b), c). cbn. rewrite !Z.add_0_r. reflexivity. Qed.
Lemma low_high_move o x y : low_high (x + Z.of_nat o, y + Z.of_nat o)%Z = move_edge o (low_high (x, y)).
Proof. unfold low_high, move_edge. cbn [fst snd]. f_equal; lia. Qed.
Lemma local_one o E pre post fs t : edge_list fs E -> NoDup (pre ++ map (move_edge o) E ++ post) ->
  Forall2 (opposite_edges (pre ++ map (move_edge o) E ++ post)) (map (move_face o) fs) t ->
  exists t', t = map (shift_face (Z.of_nat (length pre))) t' /\ Forall2 (opposite_edges E) fs t'.
Proof.
  intros HE ND. set (G := pre ++ map (move_edge o) E ++ post) in *.
  assert (Loc : forall x y i, (exists f, In f fs /\ side_of (low_high (x, y)) f) -> (0 <= i)%Z -> nth_error G (Z.to_nat i) = Some (low_high (x + Z.of_nat o, y + Z.of_nat o)%Z) ->
    exists i', (0 <= i')%Z /\ i = (i' + Z.of_nat (length pre))%Z /\ nth_error E (Z.to_nat i') = Some (low_high (x, y))).
  { intros x y i Hs Hi Hn. rewrite low_high_move in Hn.
    assert (I : In (low_high (x, y)) E) by (apply (proj2 HE); split; [unfold low_high; cbn; lia|exact Hs]).
    apply In_nth_error in I. destruct I as (k & Hk).
    assert (Hg : nth_error G (length pre + k) = Some (move_edge o (low_high (x, y)))).
    { unfold G. rewrite nth_error_app2 by lia. replace (length pre + k - length pre) with k by lia. rewrite nth_error_app1 by (rewrite map_length; apply nth_error_Some; congruence). rewrite nth_error_map, Hk. reflexivity. }
    assert (Eq : Z.to_nat i = length pre + k) by (rewrite NoDup_nth_error in ND; apply ND; [apply nth_error_Some; congruence|congruence]).
    exists (Z.of_nat k). split; [lia|]. split; [lia|]. rewrite Nat2Z.id. exact Hk. }
  assert (Gen : forall l t, incl l fs -> Forall2 (opposite_edges G) (map (move_face o) l) t -> exists t', t = map (shift_face (Z.of_nat (length pre))) t' /\ Forall2 (opposite_edges E) l t').
  { induction l as [|((a, b), c) l IH]; intros t0 Hl H; inversion H as [|? ((i, j), k) ? t1 Ho Ht]; subst; [exists []; split; [reflexivity|constructor]|].
    destruct (IH t1) as (t' & -> & HF); [intros f Hf; apply Hl; right; exact Hf|exact Ht|].
    cbn in Ho. destruct Ho as ((I1 & I2 & I3) & H1 & H2 & H3).
    assert (Sd : forall x y, In (x, y) (sides (a, b, c)) -> exists f, In f fs /\ side_of (low_high (x, y)) f).
    { intros x y S. exists (a, b, c). split; [apply Hl; left; reflexivity|]. unfold side_of, low_high. cbn [fst snd]. destruct (Z.le_ge_cases x y); [left; rewrite Z.min_l, Z.max_r by assumption; exact S|right; rewrite Z.min_r, Z.max_l by assumption; exact S]. }
    destruct (Loc b c i (Sd b c (or_introl eq_refl)) I1 H1) as (i' & A1 & -> & A3).
    destruct (Loc c a j (Sd c a (or_intror (or_introl eq_refl))) I2 H2) as (j' & B1 & -> & B3).
    destruct (Loc a b k (Sd a b (or_intror (or_intror (or_introl eq_refl)))) I3 H3) as (k' & C1 & -> & C3).
    exists ((i', j', k') :: t'). split; [reflexivity|]. constructor; [|exact HF]. cbn. auto. }
  intros H. apply (Gen fs t); [apply incl_refl|exact H].
Qed.
Lemma local_all b Es : own_edges b Es -> forall o pre t, NoDup (pre ++ move_edges o b Es) -> Forall2 (opposite_edges (pre ++ move_edges o b Es)) (faces_from o b) t ->
  exists Ts, local_edges b Es Ts /\ t = flat_map (fun n => map (shift_face (Z.of_nat (length pre + start (map (@length _) Es) n))) (nth n Ts [])) (seq 0 (length b)).
Proof.
  intros H. induction H as [|p E b Es HE _ IH]; intros o pre t ND HF.
  - inversion HF; subst. exists []. split; [split; [reflexivity|intros n Hn; cbn in Hn; lia]|reflexivity].
  - cbn [move_edges faces_from] in *. apply Forall2_app_inv_l in HF. destruct HF as (t1 & t2 & F1 & F2 & ->).
    destruct (local_one o E pre _ (snd p) t1 HE ND F1) as (t' & -> & Ho).
    destruct (IH (o + length (fst p)) (pre ++ map (move_edge o) E) t2) as (Ts & (L & HT) & E2).
    + rewrite <- app_assoc. exact ND.
    + rewrite <- app_assoc. exact F2.
    + exists (t' :: Ts). split.
      * split; [cbn; congruence|]. intros [|n] Hn; cbn [nth]; [exact Ho|]. apply HT. cbn in Hn. lia.
      * cbn [length seq flat_map nth]. f_equal; [unfold start; cbn [firstn sum_nat fold_right]; rewrite Nat.add_0_r; reflexivity|].
        rewrite E2, <- seq_shift, !flat_map_concat_map, map_map. f_equal. apply map_ext. intros n. cbn [nth]. apply map_ext. intros f. f_equal. f_equal. cbn [map]. rewrite start_cons, app_length, map_length. lia.
Qed.
