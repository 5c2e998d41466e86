From Verif Require Import Base Packing PackingProofs PackOpsProofs RBase Geom FaceAreas FaceAreasSpec Meshes MeshesSpec MeshesProofs.
From Verif Require FaceAreasProofs.
Local Open Scope R_scope.

(* ---- faces of a good batch point into the vertices ---- *)
Lemma in_range_mono n m f : (n <= m)%nat -> in_range n f -> in_range m f.
Proof. destruct f as [[i j] k]. unfold in_range. lia. Qed.
Lemma in_range_move o n f : in_range n f -> in_range (o + n) (move_face o f).
Proof. destruct f as [[i j] k]. unfold in_range, move_face. lia. Qed.
Lemma faces_from_range b : Forall good_mesh b -> forall o, Forall (in_range (o + length (all_verts b))) (faces_from o b).
Proof.
  induction 1 as [|p b H _ IH]; intros o; [constructor|].
  cbn [faces_from]. apply Forall_app. unfold all_verts. cbn [map concat]. rewrite app_length. split.
  - apply Forall_map. eapply Forall_impl; [|exact H]. intros f Hf.
    eapply in_range_mono; [|apply (in_range_move o _ _ Hf)]. lia.
  - specialize (IH (o + length (fst p))%nat). eapply Forall_impl; [|exact IH]. intros f Hf.
    eapply in_range_mono; [|exact Hf]. unfold all_verts. lia.
Qed.
Lemma all_faces_range b : Forall good_mesh b -> Forall (in_range (length (all_verts b))) (all_faces b).
Proof. intros H. apply (faces_from_range b H 0). Qed.

Lemma areas_value b : Forall good_mesh b -> face_areas_normals (all_verts b) (all_faces b) = Ok (areas_of b).
Proof. intros H. rewrite FaceAreasProofs.forward_spec by (apply all_faces_range; exact H). reflexivity. Qed.

(* ---- vertex normals ---- *)
Lemma row_at_ok vs i : (0 <= i < Z.of_nat (length vs))%Z -> row_at vs i = Ok (at_ vs i).
Proof.
  intros H. unfold row_at, at_. destruct (Z.ltb_spec i 0); [lia|].
  rewrite (nth_error_nth' vs (V3 0 0 0)) by lia. reflexivity.
Qed.

Lemma cross_corner a b c : cross3 (sub3 c b) (sub3 a b) = tri_cross a b c.
Proof. unfold tri_cross, cross3, sub3. cbn [x3 y3 z3]. f_equal; ring. Qed.

Definition fcross (vs : list vec3) (f : face) : vec3 := let '(a, b, c) := f in tri_cross (at_ vs a) (at_ vs b) (at_ vs c).
Lemma face_cross_ok vs f : in_range (length vs) f -> face_cross vs f = Ok (fcross vs f).
Proof.
  destruct f as [[i j] k]. intros (H1 & H2 & H3). unfold face_cross. rewrite !row_at_ok by assumption. cbn [rbind].
  rewrite cross_corner. reflexivity.
Qed.
Lemma rmap_total {X Y} (f : X -> result Y) g l : Forall (fun x => f x = Ok (g x)) l -> rmap f l = Ok (map g l).
Proof. induction 1 as [|x l H _ IH]; [reflexivity|]. cbn [rmap map]. rewrite H. cbn [rbind]. rewrite IH. reflexivity. Qed.

Definition hits (v : nat) (ps : list (Z * vec3)) : vec3 :=
  vsum (map (fun p => if (fst p =? Z.of_nat v)%Z then snd p else V3 0 0 0) ps).
Lemma add3_assoc a b c : add3 a (add3 b c) = add3 (add3 a b) c.
Proof. unfold add3. cbn [x3 y3 z3]. f_equal; ring. Qed.
Lemma add3_comm a b : add3 a b = add3 b a.
Proof. unfold add3. f_equal; ring. Qed.
Lemma add3_0 a : add3 a (V3 0 0 0) = a.
Proof. destruct a. unfold add3. cbn. f_equal; ring. Qed.

Lemma index_add_ok : forall ps acc, Forall (fun p : Z * vec3 => (0 <= fst p < Z.of_nat (length acc))%Z) ps ->
  exists l, rfold (fun acc p => v <- row_at acc (fst p) ;; upd acc (Z.to_nat (fst p)) (add3 v (snd p))) ps acc = Ok l /\
    length l = length acc /\
    forall v, (v < length acc)%nat -> nth v l (V3 0 0 0) = add3 (nth v acc (V3 0 0 0)) (hits v ps).
Proof.
  induction ps as [|p ps IH]; intros acc H.
  - exists acc. split; [reflexivity|]. split; [reflexivity|]. intros v _. unfold hits. cbn. rewrite add3_0. reflexivity.
  - apply Forall_cons_iff in H. destruct H as (H & H'). cbn [rfold].
    rewrite row_at_ok by exact H. cbn [rbind].
    destruct (upd_ok acc (Z.to_nat (fst p)) (add3 (at_ acc (fst p)) (snd p))) as (l1 & E1); [lia|].
    rewrite E1. cbn [rbind]. pose proof (upd_length _ _ _ _ E1) as L1.
    destruct (IH l1) as (l & E & L & N). { eapply Forall_impl; [|exact H']. intros q Hq. rewrite L1. exact Hq. }
    exists l. split; [exact E|]. split; [congruence|]. intros v Hv. rewrite N by lia.
    unfold hits. cbn [map vsum fold_right]. fold (vsum (map (fun p0 : Z * vec3 => if (fst p0 =? Z.of_nat v)%Z then snd p0 else V3 0 0 0) ps)).
    rewrite add3_assoc. f_equal.
    destruct (Z.eqb_spec (fst p) (Z.of_nat v)) as [Ev|Ev].
    + rewrite Ev, Nat2Z.id in E1. pose proof (upd_same _ _ _ _ E1) as S1. apply nth_error_nth with (d := V3 0 0 0) in S1. rewrite S1.
      unfold at_. rewrite Nat2Z.id. reflexivity.
    + rewrite add3_0. assert (O : nth_error l1 v = nth_error acc v) by (eapply upd_other; [exact E1|lia]).
      rewrite <- !nth_default_eq. unfold nth_default. rewrite O. reflexivity.
Qed.

Lemma combine_map {X Y Z} (f : X -> Y) (g : X -> Z) l : combine (map f l) (map g l) = map (fun x => (f x, g x)) l.
Proof. induction l; cbn; congruence. Qed.
Lemma nth_repeat_0 n v : nth v (repeat (V3 0 0 0) n) (V3 0 0 0) = V3 0 0 0.
Proof. revert v. induction n; intros [|v]; cbn; auto. Qed.

Lemma hits_sum vs fs v :
  add3 (add3 (hits v (map (fun f : face => (fst (fst f), fcross vs f)) fs)) (hits v (map (fun f : face => (snd (fst f), fcross vs f)) fs)))
       (hits v (map (fun f : face => (snd f, fcross vs f)) fs)) = raw_normal vs fs v.
Proof.
  unfold hits, raw_normal. rewrite !map_map. cbn [fst snd].
  induction fs as [|f fs IH]; [cbn; rewrite !add3_0; reflexivity|].
  cbn [map vsum fold_right]. cbn [vsum] in IH. unfold vsum in IH. rewrite <- IH. clear IH.
  set (A := fold_right _ _ _). set (B := fold_right _ _ (map _ fs)). set (C := fold_right _ _ (map _ fs)).
  destruct f as [[a b] c]. cbn [fst snd fcross count_corner].
  set (T := tri_cross _ _ _).
  destruct (a =? Z.of_nat v)%Z, (b =? Z.of_nat v)%Z, (c =? Z.of_nat v)%Z; cbn [Nat.add INR];
    unfold add3, scal3; cbn [x3 y3 z3]; f_equal; ring.
Qed.

Lemma vertex_normals_value vs fs : Forall (in_range (length vs)) fs ->
  vertex_normals vs fs = Ok (map (fun v => unit_or_short (raw_normal vs fs v)) (seq 0 (length vs))).
Proof.
  intros H. unfold vertex_normals.
  rewrite (rmap_total (face_cross vs) (fcross vs)) by (eapply Forall_impl; [|exact H]; intros; apply face_cross_ok; assumption).
  cbn [rbind]. unfold index_add. rewrite !combine_map.
  assert (P : forall (g : face -> Z) n, (forall f, in_range (length vs) f -> (0 <= g f < Z.of_nat (length vs))%Z) -> n = length vs ->
     Forall (fun p : Z * vec3 => (0 <= fst p < Z.of_nat n)%Z) (map (fun f => (g f, fcross vs f)) fs)).
  { intros g n Hg ->. apply Forall_map. eapply Forall_impl; [|exact H]. intros f Hf. cbn. apply Hg. exact Hf. }
  destruct (index_add_ok (map (fun x : face => (fst (fst x), fcross vs x)) fs) (repeat zero_row (length vs))) as (l1 & E1 & L1 & N1).
  { apply (P (fun f => fst (fst f))); [|apply repeat_length]. intros [[i j] k]; cbn; tauto. }
  unfold face in *. rewrite E1. cbn [rbind]. rewrite repeat_length in L1, N1.
  destruct (index_add_ok (map (fun x : face => (snd (fst x), fcross vs x)) fs) l1) as (l2 & E2 & L2 & N2).
  { apply (P (fun f => snd (fst f))); [|exact L1]. intros [[i j] k]; cbn; tauto. }
  unfold face in *. rewrite E2. cbn [rbind].
  destruct (index_add_ok (map (fun x : face => (snd x, fcross vs x)) fs) l2) as (l3 & E3 & L3 & N3).
  { apply (P (fun f => snd f)); [|congruence]. intros [[i j] k]; cbn; tauto. }
  unfold face in *. rewrite E3. cbn [rbind]. f_equal.
  apply nth_error_ext_len. { rewrite !map_length, seq_length. congruence. }
  intros v Hv. rewrite map_length in Hv. rewrite !nth_error_map_iff.
  rewrite (nth_error_nth' l3 (V3 0 0 0) Hv), nth_error_seq_lt by congruence. cbn [option_map Nat.add]. f_equal.
  unfold normalize6, unit_or_short. rewrite N3, N2, N1 by congruence. unfold zero_row. rewrite nth_repeat_0.
  rewrite (add3_comm (V3 0 0 0)), add3_0. rewrite <- hits_sum. reflexivity.
Qed.
Lemma normals_value b : Forall good_mesh b -> vertex_normals (all_verts b) (all_faces b) = Ok (normals_of b).
Proof. intros H. apply vertex_normals_value, all_faces_range, H. Qed.

Ltac prj := cbn [mN mV mF equisized valid verts_l faces_l verts_p faces_p nverts nfaces pk p2p ed areas_normals vnormals lap
  batch vtail ftail user set_verts_l set_faces_l set_padded set_sizes set_pk set_p2p set_ed set_an set_vn set_lap].

Section Ctor.
Variable argsort : list Z -> list nat.
Notation repr := (repr argsort).
Local Open Scope nat_scope.

(* ---- constructors ---- *)
Lemma real_good n f : in_range n f -> real_face f = true.
Proof. destruct f as [[i j] k]. unfold in_range, real_face. intros. rewrite !andb_true_iff, !Z.ltb_lt. lia. Qed.
Lemma filter_good p : good_mesh p -> filter real_face (snd p) = snd p.
Proof.
  unfold good_mesh. induction (snd p) as [|f l IH]; intros H; [reflexivity|].
  apply Forall_cons_iff in H. destruct H as (H & H'). cbn. rewrite (real_good _ _ H), IH by exact H'. reflexivity.
Qed.
Lemma is_pad_real f : is_pad f <-> real_face f = false.
Proof.
  destruct f as [[i j] k]. unfold is_pad, real_face. rewrite !andb_false_iff, !Z.ltb_ge. lia.
Qed.

Lemma valid_has_faces b : Forall good_mesh b ->
  map (fun vf : list vec3 * list face => negb (length (fst vf) =? 0) && negb (length (snd vf) =? 0)) b = map has_faces b.
Proof.
  induction 1 as [|p b H _ IH]; [reflexivity|]. cbn [map]. rewrite IH. f_equal. unfold has_faces.
  destruct (length (fst p) =? 0) eqn:E; [|reflexivity]. cbn. apply Nat.eqb_eq in E.
  destruct (snd p) as [|[[i j] k] l] eqn:Ef; [reflexivity|]. unfold good_mesh in H. rewrite Ef, E in H.
  apply Forall_cons_iff in H. destruct H as (H & _). cbn in H. lia.
Qed.

Lemma combine_split_map {X Y} (b : list (X * Y)) : combine (map fst b) (map snd b) = b.
Proof. induction b as [|[x y] b IH]; cbn; congruence. Qed.

Lemma some_valid b p : In p b -> snd p <> [] -> no_valid (length b) (map has_faces b) = false.
Proof.
  intros Hp Hs. unfold no_valid. destruct b as [|q b]; [destruct Hp|]. set (l := q :: b) in *. 
  replace (length l =? 0) with false by reflexivity. cbn [orb].
  destruct (forallb negb (map has_faces l)) eqn:F; [|reflexivity].
  rewrite forallb_forall in F. specialize (F true).
  assert (I : In true (map has_faces l)).
  { apply in_map_iff. exists p. split; [|exact Hp]. unfold has_faces. destruct (snd p); [contradiction|reflexivity]. }
  discriminate (F I).
Qed.

Lemma tails_zip_length {T} (z : T) M : forall (a : list (list T)), (forall x, In x a -> length x <= M) ->
  Forall (fun r => length r = M) (zip_app a (tails M z (map (@length T) a))).
Proof.
  induction a as [|x a IH]; intros H; cbn; [constructor|]. constructor.
  - rewrite app_length, repeat_length. specialize (H x (or_introl eq_refl)). lia.
  - apply IH. intros y Hy. apply H. right. exact Hy.
Qed.

Lemma from_lists_wf b : Forall good_mesh b -> (exists p, In p b /\ snd p <> []) -> wf_state (from_lists b).
Proof.
  intros H E. unfold wf_state, from_lists. cbn [batch vtail ftail user]. split; [exact H|]. split; [exact E|].
  unfold tails at 1 2. rewrite !map_length, vcount_length, fcount_length. split; [reflexivity|]. split; [reflexivity|].
  split. { pose proof (tails_zip_length (V3 0 0 0)%R (max_nat (vcount b)) (map fst b)) as T. rewrite vcount_map in T. apply T. intros x Hx. rewrite <- vcount_map. apply max_nat_ge, in_map, Hx. }
  split. { exists (max_nat (fcount b)). pose proof (tails_zip_length ((-1, -1, -1)%Z : face) (max_nat (fcount b)) (map snd b)) as T. rewrite fcount_map in T. apply T. intros x Hx. rewrite <- fcount_map. apply max_nat_ge, in_map, Hx. }
  split. { unfold tails. apply Forall_map. apply Forall_forall. intros n _. apply Forall_forall. intros f Hf. apply repeat_spec in Hf. subst. cbn. lia. }
  discriminate.
Qed.

Lemma new_list_value verts faces : verts <> [] -> faces <> [] ->
  new_list verts faces =
  let fl := map (filter real_face) faces in
  let nv := map (@length vec3) verts in let nf := map (@length face) fl in
  let va := map (fun vf => negb (length (fst vf) =? 0) && negb (length (snd vf) =? 0)) (combine verts fl) in
  let em := no_valid (length verts) va in
  Ok (Meshes (length verts) (max_nat nv) (max_nat nf) (all_same nv && all_same nf) va (Some verts) (Some fl) None None
            (if em then [] else nv) (if em then [] else nf) None None None None None None).
Proof. intros H1 H2. unfold new_list. destruct verts; [contradiction|]. destruct faces; [contradiction|]. reflexivity. Qed.

Lemma new_list_repr b : Forall good_mesh b -> (exists p, In p b /\ snd p <> []) ->
  exists m, new_list (map fst b) (map snd b) = Ok m /\ repr (from_lists b) m /\
    verts_l m = Some (map fst b) /\ faces_l m = Some (map snd b) /\ verts_p m = None /\ vnormals m = None.
Proof.
  intros H (p & Hp & Hs).
  assert (Hne : b <> []) by (intros ->; destruct Hp).
  assert (F : map (filter real_face) (map snd b) = map snd b).
  { rewrite map_map. apply map_ext_in. intros q Hq. rewrite Forall_forall in H. apply filter_good, H, Hq. }
  rewrite new_list_value by (destruct b; [contradiction|discriminate]). cbv zeta. rewrite F.
  rewrite combine_split_map, map_length.
  assert (V1 : map (@length vec3) (map fst b) = vcount b) by apply vcount_map.
  assert (V2 : map (@length face) (map snd b) = fcount b) by apply fcount_map.
  pose proof (valid_has_faces b H) as V3'. pose proof (some_valid b p Hp Hs) as V4.
  unfold mesh in *. rewrite V1, V2, V3', V4.
  eexists. split; [reflexivity|]. split; [|cbn; auto]. unfold from_lists. constructor; cbn; auto 10.
Qed.

Lemma new_padded_value verts faces : rows verts <> [] -> rows faces <> [] ->
  new_padded verts faces =
      let N := length (rows verts) in
      let np := map (map real_face) (rows faces) in
      let nf := map (count_if (fun b => b)) np in
      if existsb gap np then Fail EValue
      else
        let va := map (fun n => negb (n =? 0))%nat nf in
        let em := no_valid N va in
        Ok (Meshes N (dim1 verts) (max_nat nf) (all_same nf) va None None (Some verts) (Some faces)
              (if em then [] else repeat (dim1 verts) N) (if em then [] else nf) None None None None None None).
Proof. intros H1 H2. unfold new_padded. destruct (rows verts); [contradiction|]. destruct (rows faces); [contradiction|]. reflexivity. Qed.

Lemma gap_ok {T} (f : T -> bool) l t : Forall (fun x => f x = true) l -> Forall (fun x => f x = false) t -> gap (map f (l ++ t)) = false.
Proof.
  intros Hl Ht. induction Hl as [|x l H Hl IH].
  - cbn. induction Ht as [|y t Hy Ht IHt]; [reflexivity|]. cbn. rewrite Hy. destruct Ht as [|z t Hz Ht]; [reflexivity|].
    cbn in *. rewrite Hz in *. cbn. exact IHt.
  - cbn. rewrite H. destruct (l ++ t) eqn:E; [reflexivity|]. cbn in *. rewrite IH. reflexivity.
Qed.
Lemma count_ok {T} (f : T -> bool) l t : Forall (fun x => f x = true) l -> Forall (fun x => f x = false) t ->
  count_if (fun b => b) (map f (l ++ t)) = length l.
Proof.
  intros Hl Ht. induction Hl as [|x l H Hl IH].
  - induction Ht as [|y t Hy Ht IHt]; [reflexivity|]. cbn. rewrite Hy. exact IHt.
  - unfold count_if in *. cbn. rewrite H. cbn. f_equal. exact IH.
Qed.

(* the padded face tensor of a well formed batch passes the constructor's checks *)
Lemma faces_checks b ft : Forall good_mesh b -> length ft = length b -> Forall (Forall is_pad) ft ->
  existsb gap (map (map real_face) (zip_app (map snd b) ft)) = false /\
  map (count_if (fun b => b)) (map (map real_face) (zip_app (map snd b) ft)) = fcount b.
Proof.
  intros H. revert ft. induction H as [|p b H _ IH]; intros [|t ft] L P; cbn in L; try lia; [split; reflexivity|].
  apply Forall_cons_iff in P. destruct P as (P & P'). destruct (IH ft ltac:(lia) P') as (G1 & G2).
  assert (A : Forall (fun x => real_face x = true) (snd p)) by (eapply Forall_impl; [|exact H]; intros; eapply real_good; eassumption).
  assert (B : Forall (fun x => real_face x = false) t) by (eapply Forall_impl; [|exact P]; intros; apply is_pad_real; assumption).
  cbn [map zip_app existsb]. fold (fcount b). rewrite gap_ok, count_ok by assumption. rewrite G1. split; [reflexivity|].
  cbn. rewrite G2. reflexivity.
Qed.

Lemma all_same_repeat k n : n <> 0 -> all_same (repeat k n) = true.
Proof.
  destruct n; [contradiction|]. intros _. cbn. apply forallb_forall. intros x Hx. apply repeat_spec in Hx. subst. apply Nat.eqb_refl.
Qed.
Lemma max_nat_repeat k n : n <> 0 -> max_nat (repeat k n) = k.
Proof. intros H. apply all_same_max; [apply all_same_repeat; exact H|]. destruct n; [contradiction|]. left. reflexivity. Qed.

Lemma zip_nil (b : list mesh) : zip_app (map fst b) (map (fun _ => []) b) = map fst b.
Proof. induction b as [|p b IH]; cbn; [reflexivity|]. rewrite app_nil_r, IH. reflexivity. Qed.

Lemma vcount_equal b M : (forall p, In p b -> length (fst p) = M) -> vcount b = repeat M (length b).
Proof.
  induction b as [|p b IH]; intros H; [reflexivity|]. cbn. rewrite (H p (or_introl eq_refl)). f_equal. apply IH.
  intros q Hq. apply H. right. exact Hq.
Qed.

(* a batch given as padded tensors: every mesh has all M vertices, the faces are followed by padding *)
Lemma new_padded_repr b M D ft :
  Forall good_mesh b -> (exists p, In p b /\ snd p <> []) -> (forall p, In p b -> length (fst p) = M) ->
  length ft = length b -> Forall (Forall is_pad) ft -> Forall (fun r => length r = D) (zip_app (map snd b) ft) ->
  exists m, new_padded (Pad M (map fst b)) (Pad D (zip_app (map snd b) ft)) = Ok m /\
    wf_state (A b (map (fun _ => []) b) ft None) /\ repr (A b (map (fun _ => []) b) ft None) m /\ vnormals m = None.
Proof.
  intros H (p & Hp & Hs) HM Lf Pf HD.
  destruct (faces_checks b ft H Lf Pf) as (G1 & G2).
  assert (Hne : b <> []) by (intros ->; destruct Hp).
  assert (Nz : length b <> 0) by (destruct b; [contradiction|discriminate]).
  rewrite new_padded_value.
  2:{ cbn. destruct b; [contradiction|discriminate]. }
  2:{ cbn. intros Ez. apply (f_equal (@length _)) in Ez. rewrite zip_app_length in Ez by (rewrite map_length; symmetry; exact Lf). rewrite map_length in Ez. cbn in Ez. exact (Nz Ez). }
  cbv zeta. cbn [rows dim1]. rewrite G1, G2, map_length.
  assert (Va : map (fun n0 => negb (n0 =? 0)) (fcount b) = map has_faces b) by (unfold fcount; apply map_map).
  rewrite Va, (some_valid b p Hp Hs). pose proof (vcount_equal b M HM) as Vc.
  eexists. split; [reflexivity|]. split.
  - unfold wf_state. cbn [batch vtail ftail user]. split; [exact H|]. split; [eauto|]. split; [apply map_length|]. split; [exact Lf|].
    split. { rewrite zip_nil. rewrite Vc, max_nat_repeat by exact Nz.
             apply Forall_map, Forall_forall. exact HM. }
    split; [exists D; exact HD|]. split; [exact Pf|discriminate].
  - split; [|reflexivity]. constructor; prj; rewrite ?Vc, ?max_nat_repeat, ?all_same_repeat by exact Nz; auto.
    right. split; [|eauto]. rewrite zip_nil. reflexivity.
Qed.
End Ctor.
