(* The faces of subdivide_heterogenerous, renumbered and regrouped. *)
From Coq Require Import Permutation.
From Verif Require Import Base Packing PackingProofs RBase Geom FaceAreas FaceAreasSpec Meshes MeshesSpec MeshesHistSpec MeshesProofs MeshesProofs5 MeshesProofs6 MeshesProofs7 MeshesProofs10 Subdivide SubdivideSpec SubdivideProofs SubdivideProofs2.
Local Open Scope nat_scope.

Lemma rmap_flat {A B} (f : A -> result B) (g : nat -> list A) (h : nat -> list B) ns : (forall n, In n ns -> rmap f (g n) = Ok (h n)) -> rmap f (flat_map g ns) = Ok (flat_map h ns).
Proof.
  induction ns as [|n ns IH]; intros H; [reflexivity|]. cbn [flat_map]. rewrite rmap_app, H by (left; reflexivity). cbn [rbind]. rewrite IH; [reflexivity|]. intros k Hk. apply H. right. exact Hk.
Qed.
Lemma combine_flat {A B} (g : nat -> list A) (h : nat -> list B) ns : (forall n, In n ns -> length (g n) = length (h n)) -> combine (flat_map g ns) (flat_map h ns) = flat_map (fun n => combine (g n) (h n)) ns.
Proof.
  induction ns as [|n ns IH]; intros H; [reflexivity|]. cbn [flat_map]. rewrite combine_app_len by (apply H; left; reflexivity). rewrite IH; [reflexivity|]. intros k Hk. apply H. right. exact Hk.
Qed.
Lemma map_flat {A B} (f : A -> B) (g : nat -> list A) ns : map f (flat_map g ns) = flat_map (fun n => map f (g n)) ns.
Proof. induction ns as [|n ns IH]; [reflexivity|]. cbn. rewrite map_app, IH. reflexivity. Qed.
Lemma combine_map2 {A B C D} (f : A -> C) (g : B -> D) l : forall l', combine (map f l) (map g l') = map (fun p => (f (fst p), g (snd p))) (combine l l').
Proof. induction l as [|a l IH]; intros [|b l']; cbn; try reflexivity. rewrite IH. reflexivity. Qed.

(* the four parts as functions of a face and the vertices on its edges *)
Definition part (q : nat) (p : face * (Z * Z * Z)) : face :=
  let '((a, b, c), (i, j, k)) := p in match q with 0 => (a, k, j) | 1 => (b, i, k) | 2 => (c, j, i) | _ => (i, j, k) end.
Lemma quarter_parts V fs t : length fs = length t -> quarter V fs t =
  let fe := combine fs (map (shift_face (Z.of_nat V)) t) in map (part 0) fe ++ map (part 1) fe ++ map (part 2) fe ++ map (part 3) fe.
Proof.
  intros L. unfold quarter. cbn zeta. do 3 (apply (f_equal2 (@app face)); [reflexivity|]).
  revert t L. induction fs as [|((a, b), c) fs IH]; intros [|((i, j), k) t] L; try discriminate; [reflexivity|]. cbn [map combine]. f_equal. apply IH. cbn in L. lia.
Qed.
(* the same parts inside one mesh with V vertices *)
Definition own (V : nat) (fs : list face) (t : list (Z * Z * Z)) (q : nat) : list face := map (fun p => part q (fst p, shift_face (Z.of_nat V) (snd p))) (combine fs t).
Lemma own_spec V fs t : map (at_a (Z.of_nat V)) (combine fs t) ++ map (at_b (Z.of_nat V)) (combine fs t) ++ map (at_c (Z.of_nat V)) (combine fs t) ++ map (inner (Z.of_nat V)) (combine fs t) =
  own V fs t 0 ++ own V fs t 1 ++ own V fs t 2 ++ own V fs t 3.
Proof.
  unfold own. do 3 (apply (f_equal2 (@app face)); [apply map_ext; intros (((a, b), c), ((i, j), k)); cbn; f_equal; [f_equal|]; lia|]). apply map_ext; intros (((a, b), c), ((i, j), k)); cbn; f_equal; [f_equal|]; lia.
Qed.
Lemma own_length V fs t q : length fs = length t -> length (own V fs t q) = length fs.
Proof. intros L. unfold own. rewrite map_length, combine_length. lia. Qed.
Lemma f2_length {A B} (P : A -> B -> Prop) l l' : Forall2 P l l' -> length l = length l'.
Proof. induction 1; cbn; congruence. Qed.

Section Batch.
Variables (b : list mesh) (Es : list (list (Z * Z))) (Ts : list (list (Z * Z * Z))) (ord : list nat).
Let nv := vcount b.
Let ne := map (@length (Z * Z)) Es.
Let nn := map (fun n => nth n nv 0 + nth n ne 0) (seq 0 (length nv)).
Hypothesis Hg : Forall good_mesh b.
Hypothesis HE : own_edges b Es.
Hypothesis HT : local_edges b Es Ts.
Hypothesis Hord : forall n, n < length nv ->
  (forall j, j < nth n nv 0 -> nth_error ord (start nv n + j) = Some (start nn n + j)) /\
  (forall j, j < nth n ne 0 -> nth_error ord (sum_nat nv + start ne n + j) = Some (start nn n + nth n nv 0 + j)).

Definition fs_of (n : nat) : list face := snd (nth n b no_mesh).
Definition ts_of (n : nat) : list (Z * Z * Z) := nth n Ts [].
Definition blk (q n : nat) : list face := own (nth n nv 0) (fs_of n) (ts_of n) q.
Lemma nv_length : length nv = length b.
Proof. unfold nv, vcount. apply map_length. Qed.
Lemma fs_ts n : n < length b -> length (fs_of n) = length (ts_of n).
Proof. intros H. destruct HT as (_ & T). eapply f2_length. exact (T n H). Qed.
Lemma nv_nth n : n < length b -> nth n nv 0 = length (fst (nth n b no_mesh)).
Proof. intros H. unfold nv, vcount. rewrite (nth_indep _ 0 (length (fst no_mesh))) by (rewrite map_length; exact H). rewrite (map_nth (fun p : mesh => length (fst p))). reflexivity. Qed.
Lemma ne_nth n : nth n ne 0 = length (nth n Es []).
Proof. unfold ne. change 0 with (length (@nil (Z * Z))). apply map_nth. Qed.

Lemma new_vert n a : n < length b -> (0 <= a < Z.of_nat (nth n nv O))%Z -> py_nth ord (a + Z.of_nat (start nv n)) = Ok (start nn n + Z.to_nat a).
Proof.
  intros Hn Ha. apply (py_nth_ok _ _ (start nv n + Z.to_nat a)); [lia|]. apply (Hord n); [rewrite nv_length; exact Hn|lia].
Qed.
Lemma new_edge n i : n < length b -> (0 <= i < Z.of_nat (nth n ne O))%Z ->
  py_nth ord (i + Z.of_nat (start ne n) + Z.of_nat (sum_nat nv)) = Ok (start nn n + nth n nv 0 + Z.to_nat i).
Proof.
  intros Hn Hi. apply (py_nth_ok _ _ (sum_nat nv + start ne n + Z.to_nat i)); [lia|]. apply (Hord n); [rewrite nv_length; exact Hn|lia].
Qed.
Lemma renumber_block n q : n < length b -> q < 4 ->
  rmap (renumber ord) (map (part q) (combine (map (move_face (vstart b n)) (fs_of n)) (map (shift_face (Z.of_nat (sum_nat nv))) (map (shift_face (Z.of_nat (start ne n))) (ts_of n))))) =
  Ok (map (move_face (start nn n)) (blk q n)).
Proof.
  intros Hn Hq. unfold blk, own. destruct HT as (_ & T). specialize (T n Hn). fold (fs_of n) (ts_of n) in T.
  assert (G : Forall (in_range (nth n nv 0)) (fs_of n)).
  { rewrite nv_nth by exact Hn. rewrite Forall_forall in Hg. apply (Hg (nth n b no_mesh)). apply nth_In. exact Hn. }
  induction T as [|((a, c), e) ((i, j), k) fs ts Ho _ IH]; [reflexivity|]. apply Forall_cons_iff in G. destruct G as (G1 & G2). specialize (IH G2).
  cbn [map combine rmap]. rewrite IH. clear IH.
  assert (R : renumber ord (part q (move_face (vstart b n) (a, c, e), shift_face (Z.of_nat (sum_nat nv)) (shift_face (Z.of_nat (start ne n)) (i, j, k)))) = Ok (move_face (start nn n) (part q (a, c, e, shift_face (Z.of_nat (nth n nv 0)) (i, j, k))))).
  { cbn in G1. cbn in Ho. destruct Ho as ((I1 & I2 & I3) & H1 & H2 & H3).
    assert (Bd : forall i e, (0 <= i)%Z -> nth_error (nth n Es []) (Z.to_nat i) = Some e -> (0 <= i < Z.of_nat (nth n ne O))%Z).
    { intros i0 e0 Hi He. rewrite ne_nth. assert (Z.to_nat i0 < length (nth n Es [])) by (apply nth_error_Some; congruence). lia. }
    apply Bd in H1; [|exact I1]. apply Bd in H2; [|exact I2]. apply Bd in H3; [|exact I3]. rewrite vstart_start. fold nv.
    destruct q as [|[|[|[|q]]]]; [| | | |lia]; cbn [part move_face shift_face renumber]; rewrite ?new_vert, ?new_edge by (assumption || apply G1); cbn [rbind]; f_equal; f_equal; [f_equal; lia|lia|f_equal; lia|lia|f_equal; lia|lia|f_equal; lia|lia]. }
  cbn [fst snd]. rewrite R. reflexivity.
Qed.

(* renumbered faces before grouping *)
Lemma renumber_all t : t = flat_map (fun n => map (shift_face (Z.of_nat (start ne n))) (nth n Ts [])) (seq 0 (length b)) ->
  rmap (renumber ord) (quarter (length (all_verts b)) (all_faces b) t) =
  Ok (concat (map (fun n => map (move_face (start nn n)) (blk 0 n)) (seq 0 (length b))) ++ concat (map (fun n => map (move_face (start nn n)) (blk 1 n)) (seq 0 (length b))) ++
      concat (map (fun n => map (move_face (start nn n)) (blk 2 n)) (seq 0 (length b))) ++ concat (map (fun n => map (move_face (start nn n)) (blk 3 n)) (seq 0 (length b)))).
Proof.
  intros Et. unfold all_faces. assert (Lv : length (all_verts b) = sum_nat nv) by (unfold all_verts, nv, vcount; rewrite length_concat_sum, map_map; reflexivity). rewrite Lv.
  assert (L : length (faces_from 0 b) = length t).
  { rewrite faces_flat, Et, !flat_map_concat_map, !length_concat_sum, !map_map. f_equal. apply map_ext_in. intros n Hn. apply in_seq in Hn. rewrite !map_length. apply fs_ts. lia. }
  rewrite quarter_parts by exact L. cbn zeta. rewrite faces_flat, Et, map_flat, combine_flat.
  - rewrite !map_flat, !rmap_app.
    rewrite (rmap_flat _ _ (fun n => map (move_face (start nn n)) (blk 0 n))) by (intros n Hn; apply in_seq in Hn; apply (renumber_block n 0); lia).
    rewrite (rmap_flat _ _ (fun n => map (move_face (start nn n)) (blk 1 n))) by (intros n Hn; apply in_seq in Hn; apply (renumber_block n 1); lia).
    rewrite (rmap_flat _ _ (fun n => map (move_face (start nn n)) (blk 2 n))) by (intros n Hn; apply in_seq in Hn; apply (renumber_block n 2); lia).
    rewrite (rmap_flat _ _ (fun n => map (move_face (start nn n)) (blk 3 n))) by (intros n Hn; apply in_seq in Hn; apply (renumber_block n 3); lia).
    cbn [rbind]. rewrite !flat_map_concat_map. reflexivity.
  - intros n Hn. apply in_seq in Hn. rewrite !map_length. apply fs_ts. lia.
Qed.
End Batch.

(* four lists of pieces of the same sizes, grouped *)
Lemma take_four {A} (X : nat -> nat -> list A) N nf : length nf = N -> (forall q n, q < 4 -> n < N -> length (X q n) = nth n nf 0) ->
  take (concat (map (X 0) (seq 0 N)) ++ concat (map (X 1) (seq 0 N)) ++ concat (map (X 2) (seq 0 N)) ++ concat (map (X 3) (seq 0 N))) (create_faces_index nf) =
  Ok (concat (map (fun n => X 0 n ++ X 1 n ++ X 2 n ++ X 3 n) (seq 0 N))).
Proof.
  intros HN H. rewrite faces_index_value, HN. rewrite <- (flat_map_concat_map (fun n => X 0 n ++ X 1 n ++ X 2 n ++ X 3 n)).
  assert (Lq : forall q, q < 4 -> map (@length A) (map (X q) (seq 0 N)) = nf).
  { intros q Hq. apply nth_error_ext_len; [rewrite !map_length, seq_length; congruence|]. intros i Hi. rewrite !map_length, seq_length in Hi. rewrite !nth_error_map_iff, nth_error_seq_lt by lia. cbn. rewrite H by lia. symmetry. apply nth_error_nth'. lia. }
  assert (Ls : forall q, q < 4 -> length (concat (map (X q) (seq 0 N))) = sum_nat nf) by (intros q Hq; rewrite length_concat_sum, Lq by exact Hq; reflexivity).
  assert (Nq : forall q n, n < N -> nth n (map (X q) (seq 0 N)) [] = X q n).
  { intros q n Hn. apply nth_error_nth. rewrite nth_error_map_iff, nth_error_seq_lt by lia. reflexivity. }
  apply take_flat. intros n Hn. apply in_seq in Hn. cbn zeta.
  assert (Ln : forall q, n < length (map (X q) (seq 0 N))) by (intros q; rewrite map_length, seq_length; lia).
  repeat apply take_app.
  - pose proof (take_piece [] (map (X 0) (seq 0 N)) (concat (map (X 1) (seq 0 N)) ++ concat (map (X 2) (seq 0 N)) ++ concat (map (X 3) (seq 0 N))) n (Ln 0)) as T. rewrite Lq, Nq in T by lia. exact T.
  - pose proof (take_piece (concat (map (X 0) (seq 0 N))) (map (X 1) (seq 0 N)) (concat (map (X 2) (seq 0 N)) ++ concat (map (X 3) (seq 0 N))) n (Ln 1)) as T. rewrite Lq, Nq, Ls in T by lia. exact T.
  - pose proof (take_piece (concat (map (X 0) (seq 0 N)) ++ concat (map (X 1) (seq 0 N))) (map (X 2) (seq 0 N)) (concat (map (X 3) (seq 0 N))) n (Ln 2)) as T. rewrite app_length, Lq, Nq, !Ls, <- app_assoc in T by lia. exact T.
  - pose proof (take_piece (concat (map (X 0) (seq 0 N)) ++ concat (map (X 1) (seq 0 N)) ++ concat (map (X 2) (seq 0 N))) (map (X 3) (seq 0 N)) [] n (Ln 3)) as T. rewrite !app_length, Lq, Nq, !Ls, <- !app_assoc, app_nil_r, !Nat.add_assoc in T by lia. exact T.
Qed.

(* ---- counting ---- *)
Lemma owners_flat c : forall i, owners i c = concat (map (fun n => repeat (Z.of_nat (i + n)) (nth n c 0)) (seq 0 (length c))).
Proof.
  induction c as [|x c IH]; intros i; [reflexivity|]. cbn [owners length seq map concat nth]. rewrite Nat.add_0_r. f_equal. rewrite IH, <- seq_shift, map_map. f_equal. apply map_ext. intros n. cbn [nth]. f_equal. f_equal. lia.
Qed.
Lemma count_repeat v x n : count_if (Z.eqb v) (repeat x n) = if (v =? x)%Z then n else 0.
Proof. unfold count_if. induction n as [|n IH]; [destruct (v =? x)%Z; reflexivity|]. cbn. destruct (v =? x)%Z; cbn; rewrite ?IH; reflexivity. Qed.
Lemma count_app {A} (p : A -> bool) l l' : count_if p (l ++ l') = count_if p l + count_if p l'.
Proof. unfold count_if. rewrite filter_app, app_length. reflexivity. Qed.
Lemma span_bound l N : (forall x, In x l -> (0 <= x < Z.of_nat N)%Z) -> span l <= N.
Proof. induction l as [|x l IH]; intros H; [cbn; lia|]. change (span (x :: l)) with (Nat.max (S (Z.to_nat x)) (span l)). specialize (IH (fun y Hy => H y (or_intror Hy))). specialize (H x (or_introl eq_refl)). lia. Qed.
Lemma bincount_groups (g : nat -> list Z) (c : nat -> nat) N : (forall n, n < N -> g n = repeat (Z.of_nat n) (c n)) ->
  bincount N (concat (map g (seq 0 N))) = Ok (map c (seq 0 N)).
Proof.
  intros H. assert (Hin : forall x, In x (concat (map g (seq 0 N))) -> exists n, n < N /\ x = Z.of_nat n).
  { intros x Hx. apply in_concat in Hx. destruct Hx as (l & Hl & Hx). apply in_map_iff in Hl. destruct Hl as (n & <- & Hn). apply in_seq in Hn. rewrite H in Hx by lia. apply repeat_spec in Hx. exists n. split; [lia|exact Hx]. }
  unfold bincount. replace (existsb (fun x => x <? 0)%Z (concat (map g (seq 0 N)))) with false.
  - replace (Nat.max N (span (concat (map g (seq 0 N))))) with N by (rewrite Nat.max_l; [reflexivity|apply span_bound; intros x Hx; destruct (Hin x Hx) as (n & Hn & ->); lia]).
    f_equal. unfold count_mesh. apply map_ext_in. intros v Hv. apply in_seq in Hv.
    assert (G : forall k s, (forall n, s <= n < s + k -> n < N) -> count_if (Z.eqb (Z.of_nat v)) (concat (map g (seq s k))) = if (s <=? v) && (v <? s + k) then c v else 0).
    { induction k as [|k IH]; intros s Hk; [cbn [seq map concat]; change (count_if (Z.eqb (Z.of_nat v)) []) with 0; destruct (Nat.leb_spec s v), (Nat.ltb_spec v (s + 0)); cbn [andb]; try reflexivity; lia|]. cbn [seq map concat]. rewrite count_app, IH by (intros n Hn; apply Hk; lia).
      rewrite H by (apply Hk; lia). rewrite count_repeat. destruct (Z.eqb_spec (Z.of_nat v) (Z.of_nat s)) as [E|E].
      - assert (v = s) by lia. subst v. destruct (Nat.leb_spec (S s) s); [lia|]. cbn [andb]. destruct (Nat.leb_spec s s); [|lia]. destruct (Nat.ltb_spec s (s + S k)); [|lia]. cbn. lia.
      - destruct (Nat.leb_spec (S s) v), (Nat.ltb_spec v (S s + k)), (Nat.leb_spec s v), (Nat.ltb_spec v (s + S k)); cbn; lia. }
    rewrite G by (intros n Hn; lia). destruct (Nat.leb_spec 0 v); [|lia]. destruct (Nat.ltb_spec v (0 + N)); [reflexivity|lia].
  - symmetry. destruct (existsb _ _) eqn:Ex; [|reflexivity]. apply existsb_exists in Ex. destruct Ex as (x & Hx & Hneg). destruct (Hin x Hx) as (n & _ & ->). lia.
Qed.
