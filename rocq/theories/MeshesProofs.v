From Verif Require Import Base Packing PackingProofs PackOpsProofs RBase Geom FaceAreas FaceAreasSpec Meshes MeshesSpec.
From Verif Require FaceAreasProofs.
Local Open Scope nat_scope.

Definition packed_of (b : list mesh) : packed_t :=
  Packed (all_verts b) (owners 0 (vcount b)) (firsts 0 (vcount b))
         (all_faces b) (owners 0 (fcount b)) (firsts 0 (fcount b)).
Definition p2p_of (b : list mesh) : list nat :=
  concat (map (fun iv => map (fun j => j + fst iv * max_nat (vcount b)) (seq 0 (snd iv)))
              (combine (seq 0 (length (vcount b))) (vcount b))).
Definition has_faces (p : mesh) : bool := negb (length (snd p) =? 0).

Section Repr.
Variable argsort : list Z -> list nat.

Definition edges_spec (b : list mesh) (e : edges_t) : Prop :=
  edges_of argsort (length b) (length (all_verts b)) (all_faces b) (owners 0 (fcount b)) = Ok e.
Definition fresh_normals (b : list mesh) (l : list vec3) : Prop := vertex_normals (all_verts b) (all_faces b) = Ok l.
Definition vn_spec (a : astate) (l : list vec3) : Prop :=
  match user a with Some u => l = u | None => fresh_normals (batch a) l end.

Record repr (a : astate) (m : meshes) : Prop := {
  r_N : mN m = length (batch a);
  r_V : mV m = max_nat (vcount (batch a));
  r_F : mF m = max_nat (fcount (batch a));
  r_eq : equisized m = all_same (vcount (batch a)) && all_same (fcount (batch a));
  r_valid : valid m = map has_faces (batch a);
  r_nv : nverts m = vcount (batch a);
  r_nf : nfaces m = fcount (batch a);
  r_vl : verts_l m = None \/ verts_l m = Some (map fst (batch a));
  r_fl : faces_l m = None \/ faces_l m = Some (map snd (batch a));
  r_pad : (verts_p m = None /\ faces_p m = None /\ verts_l m = Some (map fst (batch a)) /\
           faces_l m = Some (map snd (batch a)) /\
           vtail a = tails (max_nat (vcount (batch a))) (V3 0 0 0)%R (vcount (batch a)) /\
           ftail a = tails (max_nat (fcount (batch a))) (-1, -1, -1)%Z (fcount (batch a)))
       \/ (verts_p m = Some (Pad (max_nat (vcount (batch a))) (zip_app (map fst (batch a)) (vtail a))) /\
           exists D, faces_p m = Some (Pad D (zip_app (map snd (batch a)) (ftail a))) /\
             Forall (fun r => length r = D) (zip_app (map snd (batch a)) (ftail a)));
  r_pk : pk m = None \/ pk m = Some (packed_of (batch a));
  r_p2p : p2p m = None \/ p2p m = Some (p2p_of (batch a));
  r_ed : ed m = None \/ (exists e, ed m = Some e /\ edges_spec (batch a) e /\ pk m <> None);
  r_an : areas_normals m = None \/ (exists l, areas_normals m = Some l /\ face_areas_normals (all_verts (batch a)) (all_faces (batch a)) = Ok l /\ pk m <> None);
  r_vn : (vnormals m = None /\ user a = None) \/ (exists l, vnormals m = Some l /\ vn_spec a l);
  r_lap : lap m = None \/ (exists e, edges_spec (batch a) e /\ lap m = Some (laplacian (length (all_verts (batch a))) (ed_edges e)))
}.

(* ---- counting ---- *)
Lemma vcount_length b : length (vcount b) = length b. Proof. apply map_length. Qed.
Lemma fcount_length b : length (fcount b) = length b. Proof. apply map_length. Qed.
Lemma vcount_map b : map (@length vec3) (map fst b) = vcount b. Proof. apply map_map. Qed.
Lemma fcount_map b : map (@length face) (map snd b) = fcount b. Proof. apply map_map. Qed.
Lemma all_verts_length b : length (all_verts b) = sum_nat (vcount b).
Proof. unfold all_verts. rewrite length_concat_sum, vcount_map. reflexivity. Qed.
Lemma wf_nonempty a : wf_state a -> batch a <> [].
Proof. intros (_ & (p & H & _) & _) E. rewrite E in H. destruct H. Qed.

Lemma not_empty a m : wf_state a -> repr a m -> isempty m = false.
Proof.
  intros Hw R. pose proof (wf_nonempty a Hw) as Hne. destruct Hw as (_ & (p & Hp & Hs) & _).
  unfold isempty, no_valid. rewrite (r_N _ _ R), (r_valid _ _ R).
  destruct (batch a) as [|q l] eqn:E; [contradiction|]. rewrite <- E in *. 
  replace (length (batch a) =? 0) with false by (rewrite E; reflexivity). cbn [orb].
  destruct (forallb negb (map has_faces (batch a))) eqn:F; [|reflexivity].
  rewrite forallb_forall in F. specialize (F true).
  assert (I : In true (map has_faces (batch a))).
  { apply in_map_iff. exists p. split; [|exact Hp]. unfold has_faces. destruct (snd p); [contradiction|reflexivity]. }
  discriminate (F I).
Qed.

Lemma zip_app_length {T} (a b : list (list T)) : length a = length b -> length (zip_app a b) = length a.
Proof. revert b. induction a as [|x a IH]; intros [|y b] H; cbn in *; try lia. rewrite IH; lia. Qed.

Lemma unpad_zip {T} (a b : list (list T)) D : length b = length a ->
  unpad (Pad D (zip_app a b)) (map (@length T) a) = Ok a.
Proof.
  intros H. unfold unpad. cbn [rows]. rewrite zip_app_length, map_length, Nat.eqb_refl by lia. cbn [negb]. f_equal.
  revert b H. induction a as [|x a IH]; intros [|y b] H; cbn in *; try lia; [reflexivity|].
  rewrite IH by lia. f_equal. rewrite firstn_app, firstn_all, Nat.sub_diag. cbn. apply app_nil_r.
Qed.

Lemma unpad_v b t D : length t = length b -> unpad (Pad D (zip_app (map fst b) t)) (vcount b) = Ok (map fst b).
Proof. intros H. rewrite <- (vcount_map b) at 1. apply unpad_zip. rewrite map_length. exact H. Qed.
Lemma unpad_f (b : list mesh) t D : length t = length b -> unpad (Pad D (zip_app (map snd b) t)) (fcount b) = Ok (map snd b).
Proof. intros H. rewrite <- (fcount_map b) at 1. apply unpad_zip. rewrite map_length. exact H. Qed.

(* ---- lists ---- *)
Lemma verts_list_ok a m : wf_state a -> repr a m ->
  exists m', verts_list m = Ok (map fst (batch a), m') /\ repr a m' /\ verts_l m' = Some (map fst (batch a)) /\
    faces_l m' = faces_l m /\ pk m' = pk m /\ verts_p m' = verts_p m /\ faces_p m' = faces_p m.
Proof.
  intros Hw R. destruct (r_vl _ _ R) as [E|E].
  - destruct (r_pad _ _ R) as [(_ & _ & E' & _)|(Ep & Ef)]; [congruence|].
    unfold verts_list. rewrite E. destruct (verts_p m) as [pv|] eqn:EP; [|discriminate]. injection Ep as ->.
    rewrite (r_nv _ _ R), unpad_v by apply Hw. cbn [rbind].
    eexists. split; [reflexivity|]. split; [|cbn; auto].
    destruct R. constructor; cbn; auto.
  - exists m. unfold verts_list. rewrite E. auto 10.
Qed.

Lemma faces_list_ok a m : wf_state a -> repr a m ->
  exists m', faces_list m = Ok (map snd (batch a), m') /\ repr a m' /\ faces_l m' = Some (map snd (batch a)) /\
    verts_l m' = verts_l m /\ pk m' = pk m /\ verts_p m' = verts_p m /\ faces_p m' = faces_p m.
Proof.
  intros Hw R. destruct (r_fl _ _ R) as [E|E].
  - destruct (r_pad _ _ R) as [(_ & _ & _ & E' & _)|(Ep & D & Ef & HD)]; [congruence|].
    unfold faces_list. rewrite E. destruct (faces_p m) as [pv|] eqn:EP; [|discriminate]. injection Ef as ->.
    rewrite (r_nf _ _ R), unpad_f by apply Hw. cbn [rbind].
    eexists. split; [reflexivity|]. split; [|cbn; auto].
    destruct R. constructor; cbn; auto. right. rewrite EP. eauto.
  - exists m. unfold faces_list. rewrite E. auto 10.
Qed.

(* ---- packed ---- *)
Lemma owners_length i c : length (owners i c) = sum_nat c.
Proof. revert i. induction c as [|n c IH]; intros i; cbn; [reflexivity|]. rewrite app_length, repeat_length, IH. reflexivity. Qed.

Lemma owners_nth c : forall i j k n, nth_error c j = Some n -> k < n ->
  nth_error (owners i c) (sum_nat (firstn j c) + k) = Some (Z.of_nat (i + j)).
Proof.
  induction c as [|n c IH]; intros i j k q Hj Hk; [destruct j; discriminate|].
  destruct j as [|j]; cbn in Hj.
  - injection Hj as ->. cbn. rewrite nth_error_app_l by (rewrite repeat_length; lia).
    rewrite nth_error_repeat_lt by lia. do 2 f_equal. lia.
  - cbn [firstn owners]. unfold sum_nat; cbn [fold_right]. fold (sum_nat (firstn j c)).
    replace (n + sum_nat (firstn j c) + k) with (length (repeat (Z.of_nat i) n) + (sum_nat (firstn j c) + k)) by (rewrite repeat_length; lia).
    rewrite nth_error_app_r. rewrite (IH (S i) j k q Hj Hk). do 2 f_equal. lia.
Qed.

Lemma list_to_packed_value {T} (x : list (list T)) : x <> [] ->
  list_to_packed x = Ok (concat x, map (@length T) x, firsts 0 (map (@length T) x), owners 0 (map (@length T) x)).
Proof.
  intros Hx. unfold list_to_packed. destruct x as [|e x]; [contradiction|].
  set (xs := e :: x) in *. f_equal. f_equal; [f_equal|].
  - change (map (@length T) xs) with (length e :: map (@length T) x). unfold cumsum. apply cumsum_removelast.
  - replace (0 :: cumsum (removelast (map (length (A:=T)) xs))) with (firsts 0 (map (@length T) xs))
      by (symmetry; unfold xs, cumsum; cbn [map]; apply cumsum_removelast).
    apply nth_error_ext_len.
    + rewrite map_length, seq_length, owners_length. reflexivity.
    + intros i Hi. rewrite map_length, seq_length in Hi. rewrite nth_error_map_iff, nth_error_seq_lt by exact Hi.
      cbn [option_map]. rewrite Nat.add_0_l.
      destruct (bucket_locates 0 (map (@length T) xs) i) as (j & C & L & B1 & B2); [lia|lia|].
      unfold bucketize_right. rewrite C.
      destruct (nth_error (map (@length T) xs) j) as [n|] eqn:En; [|apply nth_error_None in En; lia].
      rewrite (nth_error_nth _ _ _ En) in B2.
      replace i with (sum_nat (firstn j (map (@length T) xs)) + (i - sum_nat (firstn j (map (@length T) xs)))) by lia.
      rewrite (owners_nth _ 0 j _ n En) by lia. f_equal. lia.
Qed.

Lemma shift_move o f : shift_face (Z.of_nat o) f = move_face o f.
Proof. destruct f as [[i j] k]. reflexivity. Qed.

Lemma combine_app_len {X Y} (a1 a2 : list X) (b1 b2 : list Y) : length a1 = length b1 ->
  combine (a1 ++ a2) (b1 ++ b2) = combine a1 b1 ++ combine a2 b2.
Proof. revert b1. induction a1 as [|x a1 IH]; intros [|y b1] H; cbn in *; try lia; [reflexivity|]. rewrite IH by lia. reflexivity. Qed.

Lemma rmap_app {X Y} (f : X -> result Y) l1 l2 :
  rmap f (l1 ++ l2) = (a <- rmap f l1 ;; b <- rmap f l2 ;; Ok (a ++ b)).
Proof.
  induction l1 as [|x l1 IH]; cbn; [destruct (rmap f l2); reflexivity|].
  destruct (f x); cbn; [|reflexivity]. rewrite IH. destruct (rmap f l1); cbn; [|reflexivity].
  destruct (rmap f l2); reflexivity.
Qed.

Lemma offset_faces tab (b : list mesh) : forall i acc,
  (forall j, j < length b -> nth_error tab (i + j) = Some (acc + sum_nat (firstn j (vcount b)))) ->
  rmap (fun fj : face * Z => o <- match nth_error tab (Z.to_nat (snd fj)) with Some o => Ok o | None => Fail EIndex end ;;
                Ok (shift_face (Z.of_nat o) (fst fj)))
       (combine (concat (map snd b)) (owners i (fcount b))) = Ok (faces_from acc b).
Proof.
  induction b as [|p b IH]; intros i acc H; [reflexivity|].
  cbn [map concat fcount owners faces_from].
  rewrite combine_app_len by (rewrite repeat_length; reflexivity).
  rewrite rmap_app. fold (fcount b). change (map (fun p0 : list vec3 * list face => length (snd p0)) b) with (fcount b).
  rewrite (IH (S i) (acc + length (fst p))).
  2:{ intros j Hj. specialize (H (S j)). cbn [length] in H. rewrite Nat.add_succ_comm. rewrite H by lia. cbn. unfold sum_nat, vcount, mesh. f_equal. lia. }
  assert (E : nth_error tab i = Some acc).
  { specialize (H 0). cbn in H. rewrite !Nat.add_0_r in H. apply H. lia. }
  assert (G : forall l, rmap (fun fj : face * Z => o <- match nth_error tab (Z.to_nat (snd fj)) with Some o => Ok o | None => Fail EIndex end ;;
                Ok (shift_face (Z.of_nat o) (fst fj))) (combine l (repeat (Z.of_nat i) (length l))) = Ok (map (move_face acc) l)).
  { induction l as [|f l IHl]; [reflexivity|]. cbn [length repeat combine rmap map fst snd]. rewrite Nat2Z.id, E. cbn [rbind].
    rewrite IHl. cbn [rbind]. rewrite shift_move. reflexivity. }
  rewrite G. reflexivity.
Qed.

Lemma eqb_refl_list l : nat_list_eqb l l = true.
Proof. unfold nat_list_eqb. destruct (list_eq_dec Nat.eq_dec l l); congruence. Qed.

Lemma compute_packed_ok a m : wf_state a -> repr a m ->
  exists m', compute_packed false m = Ok m' /\ repr a m' /\ pk m' = Some (packed_of (batch a)) /\
    (pk m <> None -> m' = m).
Proof.
  intros Hw R. unfold compute_packed. destruct (r_pk _ _ R) as [E|E]; rewrite E.
  2:{ exists m. auto. }
  destruct (verts_list_ok a m Hw R) as (m1 & E1 & R1 & _). rewrite E1. cbn [rbind].
  destruct (faces_list_ok a m1 Hw R1) as (m2 & E2 & R2 & _). rewrite E2. cbn [rbind].
  rewrite (not_empty a m2 Hw R2).
  pose proof (wf_nonempty a Hw) as Hne.
  rewrite list_to_packed_value by (destruct (batch a); [contradiction|discriminate]). cbn [rbind].
  rewrite vcount_map, (r_nv _ _ R2), eqb_refl_list. cbn [negb].
  rewrite list_to_packed_value by (destruct (batch a); [contradiction|discriminate]). cbn [rbind].
  rewrite fcount_map, (r_nf _ _ R2), eqb_refl_list. cbn [negb].
  rewrite (offset_faces _ (batch a) 0 0).
  2:{ intros j Hj. rewrite firsts_nth by (rewrite vcount_length; exact Hj). reflexivity. }
  cbn [rbind]. eexists. split; [reflexivity|]. split; [|split; [reflexivity|congruence]].
  destruct R2. constructor; cbn; auto.
  - destruct r_ed0 as [X|(e & X & Y & Z)]; [left; exact X|right]. exists e. repeat split; auto. discriminate.
  - destruct r_an0 as [X|(e & X & Y & Z)]; [left; exact X|right]. exists e. repeat split; auto. discriminate.
Qed.

Lemma with_packed_ok {T} a m (k : packed_t -> T) : wf_state a -> repr a m ->
  exists m', with_packed m k = Ok (k (packed_of (batch a)), m') /\ repr a m' /\ pk m' = Some (packed_of (batch a)) /\ (pk m <> None -> m' = m).
Proof.
  intros Hw R. destruct (compute_packed_ok a m Hw R) as (m' & E & R' & P & Q).
  exists m'. unfold with_packed. rewrite E. cbn [rbind]. rewrite P. auto.
Qed.

(* ---- padded ---- *)
Lemma all_same_spec l : all_same l = true -> l <> [] -> forall x y, In x l -> In y l -> x = y.
Proof.
  destruct l as [|a l]; [contradiction|]. cbn. rewrite forallb_forall. intros H _ x y Hx Hy.
  assert (G : forall z, a = z \/ In z l -> a = z).
  { intros z [<-|Hz]; [reflexivity|]. specialize (H z Hz). apply Nat.eqb_eq in H. exact H. }
  rewrite <- (G x Hx), <- (G y Hy). reflexivity.
Qed.

Lemma all_same_max l x : all_same l = true -> In x l -> max_nat l = x.
Proof.
  intros H Hx. assert (Hne : l <> []) by (intros ->; destruct Hx).
  apply (all_same_spec l H Hne); [apply max_nat_in; exact Hne|exact Hx].
Qed.

Lemma pad_rows_tails {T} (e : bool) (z : T) (l : list (list T)) : l <> [] ->
  (e = true -> all_same (map (@length T) l) = true) ->
  Meshes.pad_rows e (max_nat (map (@length T) l)) z l =
  Ok (Pad (max_nat (map (@length T) l)) (zip_app l (tails (max_nat (map (@length T) l)) z (map (@length T) l)))).
Proof.
  intros Hne He. unfold Meshes.pad_rows. destruct l as [|y l]; [contradiction|]. set (L := y :: l) in *.
  set (M := max_nat (map (@length T) L)).
  assert (HM : forall x, In x L -> length x <= M) by (intros x Hx; apply max_nat_ge, in_map, Hx).
  assert (Z : forall l', (forall x, In x l' -> length x <= M) ->
     rmap (fun z0 => if (length z0 =? 0) then Ok (repeat z M) else if length z0 <=? M then Ok (z0 ++ repeat z (M - length z0))
        else if (length z0 =? 1) && (M =? 0) then Ok [] else Fail ERuntime) l' = Ok (zip_app l' (tails M z (map (@length T) l')))).
  { induction l' as [|x l' IH]; intros H; [reflexivity|]. cbn [rmap map tails zip_app]. fold (tails M z (map (@length T) l')).
    rewrite IH by (intros; apply H; right; assumption).
    destruct (Nat.eqb_spec (length x) 0) as [E0|E0].
    - destruct x; [|discriminate]. cbn. rewrite Nat.sub_0_r. reflexivity.
    - destruct (Nat.leb_spec (length x) M) as [L1|L1]; [reflexivity|]. specialize (H x (or_introl eq_refl)). lia. }
  destruct e.
  - specialize (He eq_refl). assert (S : forall x, In x L -> length x = M).
    { intros x Hx. symmetry. apply all_same_max; [exact He|]. apply in_map. exact Hx. }
    replace (forallb _ L) with true.
    2:{ symmetry. apply forallb_forall. intros x Hx. apply Nat.eqb_eq. rewrite (S x Hx), (S y (or_introl eq_refl)). reflexivity. }
    rewrite (S y (or_introl eq_refl)). do 2 f_equal.
    assert (G : forall l', (forall x, In x l' -> length x = M) -> zip_app l' (tails M z (map (@length T) l')) = l').
    { induction l' as [|x l' IH]; intros H; [reflexivity|]. cbn [map tails zip_app]. fold (tails M z (map (@length T) l')).
      rewrite IH by (intros; apply H; right; assumption). rewrite (H x (or_introl eq_refl)), Nat.sub_diag. cbn. rewrite app_nil_r. reflexivity. }
    symmetry. apply G. exact S.
  - unfold rbind. rewrite Z by exact HM. reflexivity.
Qed.

Lemma compute_padded_ok a m : wf_state a -> repr a m ->
  exists m' D, compute_padded false m = Ok m' /\ repr a m' /\
    verts_p m' = Some (Pad (max_nat (vcount (batch a))) (zip_app (map fst (batch a)) (vtail a))) /\
    faces_p m' = Some (Pad D (zip_app (map snd (batch a)) (ftail a))) /\
    Forall (fun r => length r = D) (zip_app (map snd (batch a)) (ftail a)) /\
    pk m' = pk m /\ (faces_l m <> None -> faces_l m' <> None).
Proof.
  intros Hw R. unfold compute_padded. pose proof (wf_nonempty a Hw) as Hne.
  destruct (r_pad _ _ R) as [(Ev & Ef & Lv & Lf & Tv & Tf)|(Ev & D & Ef & HD)].
  2:{ exists m, D. rewrite Ev, Ef. auto 10. }
  rewrite Ev.
  destruct (verts_list_ok a m Hw R) as (m1 & E1 & R1 & V1 & F1 & P1 & _). rewrite E1. cbn [rbind].
  destruct (faces_list_ok a m1 Hw R1) as (m2 & E2 & R2 & F2 & V2 & P2 & _). rewrite E2. cbn [rbind].
  rewrite (not_empty a m2 Hw R2), (r_eq _ _ R2), (r_F _ _ R2), (r_V _ _ R2).
  assert (Nf : map snd (batch a) <> []) by (destruct (batch a); [contradiction|discriminate]).
  assert (Nv : map fst (batch a) <> []) by (destruct (batch a); [contradiction|discriminate]).
  rewrite <- fcount_map. rewrite pad_rows_tails; [|exact Nf|].
  2:{ intros H. apply andb_true_iff in H. apply H. }
  cbn [rbind]. rewrite <- vcount_map. rewrite pad_rows_tails; [|exact Nv|].
  2:{ intros H. apply andb_true_iff in H. apply H. }
  cbn [rbind]. rewrite fcount_map, vcount_map. unfold zero_row, pad_face. rewrite <- Tv. unfold face in Tf |- *. rewrite <- Tf.
  eexists; eexists. split; [reflexivity|]. cbn.
  assert (HD : Forall (fun r => length r = max_nat (fcount (batch a))) (zip_app (map snd (batch a)) (ftail a))).
  { destruct Hw as (_ & _ & _ & Wl & _). clear - Tf. fold (fcount (batch a)). rewrite Tf. 
    assert (Z : forall (z : face) M (l : list (list face)), (forall x, In x l -> length x <= M) -> Forall (fun r => length r = M) (zip_app l (tails M z (map (@length face) l)))).
    { intros z M. induction l as [|x l IH]; intros H; cbn; [constructor|]. constructor.
      - rewrite app_length, repeat_length. specialize (H x (or_introl eq_refl)). lia.
      - apply IH. intros y Hy. apply H. right. exact Hy. }
    specialize (Z (-1, -1, -1)%Z (max_nat (fcount (batch a))) (map snd (batch a))). rewrite fcount_map in Z. apply Z.
    intros x Hx. rewrite <- fcount_map. apply max_nat_ge, in_map, Hx. }
  split; [|split; [reflexivity|split; [reflexivity|split; [exact HD|split; [congruence|congruence]]]]].
  destruct R2. constructor; cbn; auto. right. split; [reflexivity|eexists; split; [reflexivity|exact HD]].
Qed.

Lemma verts_padded_ok a m : wf_state a -> repr a m ->
  exists m', verts_padded m = Ok (Pad (max_nat (vcount (batch a))) (zip_app (map fst (batch a)) (vtail a)), m') /\ repr a m'.
Proof.
  intros Hw R. destruct (compute_padded_ok a m Hw R) as (m' & D & E & R' & Ev & _).
  exists m'. unfold verts_padded. rewrite E. cbn [rbind]. rewrite Ev. auto.
Qed.
Lemma faces_padded_ok a m : wf_state a -> repr a m ->
  exists m' D, faces_padded m = Ok (Pad D (zip_app (map snd (batch a)) (ftail a)), m') /\ repr a m' /\ pk m' = pk m /\
   (faces_l m <> None -> faces_l m' <> None) /\ Forall (fun r => length r = D) (zip_app (map snd (batch a)) (ftail a)).
Proof.
  intros Hw R. destruct (compute_padded_ok a m Hw R) as (m' & D & E & R' & Ev & Ef & HD & P & Q).
  exists m', D. unfold faces_padded. rewrite E. cbn [rbind]. rewrite Ef. auto 10.
Qed.

Lemma p2p_ok a m : wf_state a -> repr a m ->
  exists m', verts_padded_to_packed_idx m = Ok (p2p_of (batch a), m') /\ repr a m' /\ pk m' = pk m.
Proof.
  intros Hw R. unfold verts_padded_to_packed_idx. destruct (r_p2p _ _ R) as [E|E]; rewrite E.
  2:{ exists m. auto. }
  rewrite (r_nv _ _ R), (r_V _ _ R). pose proof (wf_nonempty a Hw) as Hne.
  destruct (vcount (batch a)) as [|n l] eqn:Ec.
  { apply (f_equal (@length nat)) in Ec. rewrite vcount_length in Ec. destruct (batch a); [contradiction|discriminate]. }
  rewrite <- Ec. eexists. split; [reflexivity|]. split; [|reflexivity].
  destruct R. constructor; cbn; auto.
Qed.

(* ---- edges ---- *)
Lemma edges_ok a m : wf_state a -> repr a m -> (exists e, edges_spec (batch a) e) ->
  exists m' e, compute_edges argsort m = Ok m' /\ repr a m' /\ ed m' = Some e /\ edges_spec (batch a) e /\ (pk m <> None -> pk m' = pk m).
Proof.
  intros Hw R (e & He).
  assert (Rest : exists r, ed_rest e = Some r).
  { revert He. unfold edges_spec, edges_of. destruct (rmap _ (argsort _)); cbn [rbind]; [|discriminate].
    destruct (rmap _ (run_heads _ _ _)); cbn [rbind]; [|discriminate]. intros [= <-]. eexists. reflexivity. }
  destruct Rest as [r Rest].
  unfold compute_edges. destruct (edges_complete m) eqn:C.
  - unfold edges_complete in C. destruct (r_ed _ _ R) as [E|(e' & E & S & P)].
    { rewrite E in C. discriminate. }
    exists m, e'. auto 10.
  - rewrite (not_empty a m Hw R).
    destruct (with_packed_ok a m pk_faces Hw R) as (m1 & E1 & R1 & P1 & Q1).
    unfold faces_packed. rewrite E1. cbn [rbind]. rewrite P1.
    rewrite (r_N _ _ R1). cbn [packed_of pk_verts pk_faces pk_fidx]. unfold edges_spec in He. rewrite He. cbn [rbind].
    eexists; exists e. split; [reflexivity|]. split; [|split; [reflexivity|split; [exact He|]]].
    + destruct R1. constructor; cbn; auto. right. exists e. split; [reflexivity|]. split; [exact He|]. rewrite P1. discriminate.
    + intros Hp. cbn. rewrite (Q1 Hp). reflexivity.
Qed.

(* ---- areas, normals ---- *)
Lemma areas_ok a m : wf_state a -> repr a m ->
  (exists l, face_areas_normals (all_verts (batch a)) (all_faces (batch a)) = Ok l) ->
  exists m' l, compute_areas false m = Ok m' /\ repr a m' /\ areas_normals m' = Some l /\
    face_areas_normals (all_verts (batch a)) (all_faces (batch a)) = Ok l.
Proof.
  intros Hw R (l & Hl). unfold compute_areas. destruct (r_an _ _ R) as [E|(l' & E & S & _)]; rewrite E.
  2:{ exists m, l'. auto. }
  destruct (with_packed_ok a m pk_faces Hw R) as (m1 & E1 & R1 & P1 & Q1). unfold faces_packed. rewrite E1. cbn [rbind].
  destruct (with_packed_ok a m1 pk_verts Hw R1) as (m2 & E2 & R2 & P2 & Q2). unfold verts_packed. rewrite E2. cbn [rbind].
  cbn [packed_of pk_verts pk_faces]. rewrite Hl. cbn [rbind]. eexists; exists l. split; [reflexivity|].
  split; [|auto]. destruct R2. constructor; cbn; auto. right. exists l. rewrite P2. repeat split; auto. discriminate.
Qed.

Lemma vnormals_ok a m : wf_state a -> repr a m -> (exists l, vn_spec a l) ->
  exists m' l, compute_vnormals false m = Ok m' /\ repr a m' /\ vnormals m' = Some l /\ vn_spec a l.
Proof.
  intros Hw R (l & Hl). unfold compute_vnormals. destruct (r_vn _ _ R) as [(E & U)|(l' & E & S)]; rewrite E.
  2:{ exists m, l'. auto. }
  rewrite (not_empty a m Hw R).
  destruct (with_packed_ok a m pk_faces Hw R) as (m1 & E1 & R1 & P1 & Q1). unfold faces_packed. rewrite E1. cbn [rbind].
  destruct (with_packed_ok a m1 pk_verts Hw R1) as (m2 & E2 & R2 & P2 & Q2). unfold verts_packed. rewrite E2. cbn [rbind].
  cbn [packed_of pk_verts pk_faces]. unfold vn_spec in Hl. rewrite U in Hl. unfold fresh_normals in Hl.
  rewrite Hl. cbn [rbind]. eexists; exists l. split; [reflexivity|].
  assert (VS : vn_spec a l) by (unfold vn_spec; rewrite U; exact Hl).
  split; [|auto]. destruct R2. constructor; cbn; auto. right. eauto.
Qed.

Lemma laplacian_ok a m : wf_state a -> repr a m -> (exists e, edges_spec (batch a) e) ->
  exists m' e, laplacian_packed argsort m = Ok (laplacian (length (all_verts (batch a))) (ed_edges e), m') /\ repr a m' /\ edges_spec (batch a) e.
Proof.
  intros Hw R He. unfold laplacian_packed. destruct (r_lap _ _ R) as [E|(e & S & E)]; rewrite E.
  2:{ exists m, e. auto. }
  rewrite (not_empty a m Hw R).
  destruct (with_packed_ok a m pk_verts Hw R) as (m1 & E1 & R1 & P1 & Q1). unfold verts_packed. rewrite E1. cbn [rbind].
  destruct (edges_ok a m1 Hw R1 He) as (m2 & e & E2 & R2 & D2 & S2 & _).
  unfold edges_packed, with_edges. rewrite E2. cbn [rbind]. rewrite D2. cbn [packed_of pk_verts].
  eexists; exists e. split; [reflexivity|]. split; [|exact S2]. destruct R2. constructor; cbn; auto. right. exists e. auto.
Qed.
End Repr.
