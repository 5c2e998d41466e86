(* Index bookkeeping: stable sorting of mesh numbers, its inverse, and taking rows. *)
From Coq Require Import Permutation.
From Verif Require Import Base Packing PackingProofs RBase Geom FaceAreas Meshes MeshesProofs MeshesProofs7 Subdivide.
Local Open Scope nat_scope.

Definition start (c : list nat) (n : nat) : nat := sum_nat (firstn n c).
Lemma start_cons a c n : start (a :: c) (S n) = a + start c n.
Proof. reflexivity. Qed.
Lemma start_all c : start c (length c) = sum_nat c.
Proof. unfold start. rewrite firstn_all. reflexivity. Qed.

(* ---- positions of a value ---- *)
Definition positions (v : nat) (l : list nat) : list nat := filter (fun i => nth i l 0 =? v) (seq 0 (length l)).
Lemma map_seq a s n : map (Nat.add a) (seq s n) = seq (a + s) n.
Proof. revert s. induction n as [|n IH]; intros s; [reflexivity|]. cbn. f_equal. rewrite IH. f_equal. lia. Qed.
Lemma filter_seq_shift (p : nat -> bool) a n : filter p (seq a n) = map (Nat.add a) (filter (fun i => p (a + i)) (seq 0 n)).
Proof.
  replace (seq a n) with (map (Nat.add a) (seq 0 n)).
  - induction (seq 0 n) as [|x l IH]; [reflexivity|]. cbn. destruct (p (a + x)); cbn; rewrite IH; reflexivity.
  - rewrite map_seq. f_equal. lia.
Qed.
Lemma positions_app v a b : positions v (a ++ b) = positions v a ++ map (Nat.add (length a)) (positions v b).
Proof.
  unfold positions. rewrite app_length, seq_app, filter_app. f_equal.
  - apply filter_ext_in. intros i Hi. apply in_seq in Hi. rewrite app_nth1 by lia. reflexivity.
  - rewrite filter_seq_shift. f_equal. apply filter_ext. intros i. rewrite app_nth2 by lia. f_equal. f_equal. lia.
Qed.
Lemma positions_repeat v k n : positions v (repeat k n) = if k =? v then seq 0 n else [].
Proof.
  unfold positions. rewrite repeat_length. assert (G : forall a m, a + m <= n -> filter (fun i => nth i (repeat k n) 0 =? v) (seq a m) = if k =? v then seq a m else []).
  - intros a m. revert a. induction m as [|m IH]; intros a H; [destruct (k =? v); reflexivity|]. cbn [seq filter]. rewrite IH by lia.
    replace (nth a (repeat k n) 0) with k; [destruct (k =? v); reflexivity|]. symmetry. apply nth_error_nth. apply nth_error_repeat_lt. lia.
  - apply G. lia.
Qed.
Lemma map_map_add a b l : map (Nat.add a) (map (Nat.add b) l) = map (Nat.add (a + b)) l.
Proof. rewrite map_map. apply map_ext. intros x. lia. Qed.
Lemma ri_length k c : length (repeat_interleave k c) = sum_nat c.
Proof. revert k. induction c as [|n c IH]; intros k; [reflexivity|]. cbn [repeat_interleave]. rewrite app_length, repeat_length, IH. reflexivity. Qed.
Lemma positions_ri_low c : forall k v, v < k -> positions v (repeat_interleave k c) = [].
Proof.
  induction c as [|n c IH]; intros k v H; [reflexivity|]. cbn [repeat_interleave]. rewrite positions_app, positions_repeat, IH by lia. destruct (Nat.eqb_spec k v); [lia|reflexivity].
Qed.
Lemma positions_ri c : forall k j, positions (k + j) (repeat_interleave k c) = seq (start c j) (nth j c 0).
Proof.
  induction c as [|n c IH]; intros k j; [destruct j; reflexivity|]. cbn [repeat_interleave]. rewrite positions_app, positions_repeat, repeat_length.
  destruct j as [|j].
  - rewrite Nat.add_0_r, Nat.eqb_refl, positions_ri_low by lia. cbn. rewrite app_nil_r. reflexivity.
  - destruct (Nat.eqb_spec k (k + S j)); [lia|]. replace (k + S j) with (S k + j) by lia. rewrite IH, map_seq. reflexivity.
Qed.
Lemma ri_bound c : forall k x, In x (repeat_interleave k c) -> x < k + length c.
Proof.
  induction c as [|n c IH]; intros k x H; [contradiction|]. cbn [repeat_interleave] in H. apply in_app_or in H. destruct H as [H|H].
  - apply repeat_spec in H. cbn. lia.
  - apply IH in H. cbn. lia.
Qed.

(* ---- the stable sort, one class after the other ---- *)
Lemma positions_none v l : (forall x, In x l -> x < v) -> positions v l = [].
Proof.
  intros H. unfold positions. destruct (filter _ _) as [|i r] eqn:E; [reflexivity|]. exfalso.
  assert (Hi : In i (i :: r)) by (left; reflexivity). rewrite <- E in Hi. apply filter_In in Hi. destruct Hi as (Hi & Hn). apply in_seq in Hi. apply Nat.eqb_eq in Hn.
  assert (In (nth i l 0) l) by (apply nth_In; lia). specialize (H _ H0). lia.
Qed.
Lemma classes_extend l A k : (forall x, In x l -> x < A) -> flat_map (fun v => positions v l) (seq 0 (A + k)) = flat_map (fun v => positions v l) (seq 0 A).
Proof.
  intros H. rewrite seq_app, flat_map_app. replace (flat_map _ (seq (0 + A) k)) with (@nil nat); [apply app_nil_r|].
  symmetry. assert (G : forall a, A <= a -> flat_map (fun v => positions v l) (seq a k) = []); [|apply G; lia].
  induction k as [|k IH]; intros a Ha; [reflexivity|]. cbn. rewrite IH by lia. rewrite positions_none; [reflexivity|]. intros x Hx. specialize (H x Hx). lia.
Qed.
Lemma stable_classes l N : (forall x, In x l -> x < N) -> stable_argsort l = flat_map (fun v => positions v l) (seq 0 N).
Proof.
  intros H. unfold stable_argsort. change (flat_map (fun v => positions v l) (seq 0 (S (max_nat l))) = flat_map (fun v => positions v l) (seq 0 N)).
  assert (H1 : forall x, In x l -> x < S (max_nat l)) by (intros x Hx; pose proof (max_nat_ge l x Hx); lia).
  rewrite <- (classes_extend l (S (max_nat l)) N H1), <- (classes_extend l N (S (max_nat l)) H). f_equal. f_equal. lia.
Qed.
Lemma nodup_classes l : forall N, NoDup (flat_map (fun v => positions v l) (seq 0 N)).
Proof.
  induction N as [|N IH]; [constructor|]. replace (S N) with (N + 1) by lia. rewrite seq_app, flat_map_app. cbn [seq flat_map Nat.add]. rewrite app_nil_r.
  assert (G : forall a b : list nat, NoDup a -> NoDup b -> (forall x, In x a -> In x b -> False) -> NoDup (a ++ b)).
  { clear. induction a as [|x a IH]; intros b Ha Hb H; [exact Hb|]. inversion Ha; subst. cbn. constructor.
    - intros C. apply in_app_or in C. destruct C as [C|C]; [contradiction|]. exact (H x (or_introl eq_refl) C).
    - apply IH; auto. intros y Hy Hy'. exact (H y (or_intror Hy) Hy'). }
  apply G; [exact IH|unfold positions; apply NoDup_filter, seq_NoDup|].
  intros x Hx Hx'. apply in_flat_map in Hx. destruct Hx as (v & Hv & Hx). apply in_seq in Hv. unfold positions in Hx, Hx'. apply filter_In in Hx, Hx'. destruct Hx as (_ & E), Hx' as (_ & E'). apply Nat.eqb_eq in E, E'. lia.
Qed.
Lemma stable_perm l : Permutation (stable_argsort l) (seq 0 (length l)).
Proof.
  assert (H : forall x, In x l -> x < S (max_nat l)) by (intros x Hx; pose proof (max_nat_ge l x Hx); lia).
  rewrite (stable_classes l _ H). apply NoDup_Permutation; [apply nodup_classes|apply seq_NoDup|]. intros i. split; intros Hi.
  - apply in_flat_map in Hi. destruct Hi as (v & _ & Hi). unfold positions in Hi. apply filter_In in Hi. apply Hi.
  - apply in_seq in Hi. apply in_flat_map. exists (nth i l 0). split.
    + apply in_seq. split; [lia|]. assert (In (nth i l 0) l) by (apply nth_In; lia). specialize (H _ H0). lia.
    + unfold positions. apply filter_In. split; [apply in_seq; lia|apply Nat.eqb_refl].
Qed.

Lemma verts_index_value nv ne : length nv = length ne ->
  create_verts_index nv ne = flat_map (fun n => seq (start nv n) (nth n nv 0) ++ seq (sum_nat nv + start ne n) (nth n ne 0)) (seq 0 (length nv)).
Proof.
  intros L. unfold create_verts_index. rewrite (stable_classes _ (length nv)).
  - rewrite !flat_map_concat_map. f_equal. apply map_ext. intros n. rewrite positions_app, ri_length. pose proof (positions_ri nv 0 n) as P1. pose proof (positions_ri ne 0 n) as P2. cbn [Nat.add] in P1, P2. rewrite P1, P2, map_seq. reflexivity.
  - intros x Hx. apply in_app_or in Hx. destruct Hx as [Hx|Hx]; apply ri_bound in Hx; lia.
Qed.
Lemma faces_index_value nf : create_faces_index nf =
  flat_map (fun n => let F := sum_nat nf in
    seq (start nf n) (nth n nf 0) ++ seq (F + start nf n) (nth n nf 0) ++ seq (F + F + start nf n) (nth n nf 0) ++ seq (F + F + F + start nf n) (nth n nf 0)) (seq 0 (length nf)).
Proof.
  unfold create_faces_index. rewrite (stable_classes _ (length nf)).
  - rewrite !flat_map_concat_map. f_equal. apply map_ext. intros n. cbn zeta. rewrite !positions_app, !ri_length. pose proof (positions_ri nf 0 n) as P1. cbn [Nat.add] in P1. rewrite !P1, !map_app, !map_map_add, !map_seq, ?Nat.add_assoc. reflexivity.
  - intros x Hx. rewrite !in_app_iff in Hx. destruct Hx as [Hx|[Hx|[Hx|Hx]]]; apply ri_bound in Hx; lia.
Qed.

(* ---- the inverse permutation ---- *)
Lemma scatter_inverse n idx : Permutation idx (seq 0 n) -> exists ord, scatter_positions n idx = Ok ord /\ length ord = n /\
  forall k i, nth_error idx k = Some i -> nth_error ord i = Some k.
Proof.
  intros P. assert (ND : NoDup idx) by (eapply Permutation_NoDup; [apply Permutation_sym, P|apply seq_NoDup]).
  assert (Hl : length idx = n) by (rewrite (Permutation_length P); apply seq_length).
  assert (Hb : forall i, In i idx -> i < n) by (intros i Hi; apply (Permutation_in _ P) in Hi; apply in_seq in Hi; lia).
  unfold scatter_positions.
  assert (G : forall rest s acc, NoDup rest -> (forall i, In i rest -> i < length acc) -> (forall i, In i rest -> nth_error acc i = Some 0) -> exists ord,
    rfold (fun acc p => x <- rget acc (fst p) ;; upd acc (fst p) (x + snd p)) (combine rest (seq s (length rest))) acc = Ok ord /\ length ord = length acc /\
    (forall k i, nth_error rest k = Some i -> nth_error ord i = Some (s + k)) /\ (forall i, ~ In i rest -> nth_error ord i = nth_error acc i)).
  { clear. induction rest as [|i rest IH]; intros s acc ND Hb Hz; [exists acc; split; [reflexivity|]; split; [reflexivity|]; split; [intros [|k] i H; discriminate|reflexivity]|].
    inversion ND as [|? ? N1 N2]; subst. cbn [length seq combine rfold fst snd]. unfold rget at 1. rewrite (Hz i (or_introl eq_refl)). cbn [rbind Nat.add].
    destruct (upd_ok acc i s (Hb i (or_introl eq_refl))) as (acc' & E). rewrite E. cbn [rbind]. pose proof (upd_length _ _ _ _ E) as Le.
    destruct (IH (S s) acc' N2) as (ord & E' & L' & K1 & K2).
    - intros j Hj. rewrite Le. apply Hb. right. exact Hj.
    - intros j Hj. rewrite (upd_other _ _ j _ _ E); [apply Hz; right; exact Hj|]. intros ->. contradiction.
    - exists ord. split; [exact E'|]. split; [congruence|]. split.
      + intros [|k] j Hj; cbn in Hj; [injection Hj as <-; rewrite K2 by exact N1; rewrite (upd_same _ _ _ _ E); f_equal; lia|]. rewrite (K1 k j Hj). f_equal. lia.
      + intros j Hj. cbn in Hj. rewrite K2 by tauto. apply (upd_other _ _ j _ _ E). intros ->. tauto. }
  destruct (G idx 0 (repeat 0 n) ND) as (ord & E & L & K & _).
  - intros i Hi. rewrite repeat_length. apply Hb, Hi.
  - intros i Hi. apply nth_error_repeat_lt, Hb, Hi.
  - rewrite Hl in E. exists ord. split; [exact E|]. split; [rewrite L; apply repeat_length|]. exact K.
Qed.

(* ---- taking rows ---- *)
Lemma take_ok {A} (l : list A) idx r : length idx = length r -> (forall k i, nth_error idx k = Some i -> nth_error l i = nth_error r k) -> take l idx = Ok r.
Proof.
  revert r. induction idx as [|i idx IH]; intros [|x r] L H; try discriminate; [reflexivity|]. unfold take in *. cbn [rmap]. unfold rget at 1.
  pose proof (H 0 i eq_refl) as H0. cbn in H0. rewrite H0. cbn [rbind]. rewrite (IH r); [reflexivity|cbn in L; lia|]. intros k j Hk. exact (H (S k) j Hk).
Qed.
Lemma take_app {A} (l : list A) i1 i2 r1 r2 : take l i1 = Ok r1 -> take l i2 = Ok r2 -> take l (i1 ++ i2) = Ok (r1 ++ r2).
Proof. unfold take. intros H1 H2. rewrite rmap_app, H1. cbn [rbind]. rewrite H2. reflexivity. Qed.
Lemma take_flat {A} (l : list A) (g : nat -> list nat) (h : nat -> list A) ns : (forall n, In n ns -> take l (g n) = Ok (h n)) -> take l (flat_map g ns) = Ok (flat_map h ns).
Proof.
  induction ns as [|n ns IH]; intros H; [reflexivity|]. cbn [flat_map]. apply take_app; [apply H; left; reflexivity|]. apply IH. intros k Hk. apply H. right. exact Hk.
Qed.
Lemma seq_nth_error s n k : nth_error (seq s n) k = if k <? n then Some (s + k) else None.
Proof. destruct (Nat.ltb_spec k n); [apply nth_error_seq_lt; assumption|]. apply nth_error_None. rewrite seq_length. assumption. Qed.
Lemma take_piece {A} (pre : list A) (Xs : list (list A)) post n : n < length Xs ->
  take (pre ++ concat Xs ++ post) (seq (length pre + start (map (@length A) Xs) n) (nth n (map (@length A) Xs) 0)) = Ok (nth n Xs []).
Proof.
  intros Hn. destruct (nth_error Xs n) as [x|] eqn:E; [|apply nth_error_None in E; lia].
  assert (E1 : nth n (map (@length A) Xs) 0 = length x) by (apply nth_error_nth; rewrite nth_error_map_iff, E; reflexivity).
  assert (E2 : nth n Xs [] = x) by (apply nth_error_nth; exact E). rewrite E1, E2. apply take_ok; [apply seq_length|].
  intros k i Hk. rewrite seq_nth_error in Hk. destruct (Nat.ltb_spec k (length x)) as [L|]; [|discriminate]. injection Hk as <-.
  rewrite nth_error_app2 by lia. replace (length pre + start (map (@length A) Xs) n + k - length pre) with (start (map (@length A) Xs) n + k) by lia.
  pose proof (concat_nth Xs n k x E L) as C. unfold start. rewrite firstn_map. rewrite nth_error_app1; [exact C|].
  apply nth_error_Some. rewrite C. apply nth_error_Some. exact L.
Qed.
Lemma flat_map_nth {A B} (f : A -> list B) (d : A) l : flat_map (fun n => f (nth n l d)) (seq 0 (length l)) = flat_map f l.
Proof.
  rewrite !flat_map_concat_map. f_equal. transitivity (map f (map (fun n => nth n l d) (seq 0 (length l)))); [rewrite map_map; reflexivity|]. f_equal.
  induction l as [|x l IH]; [reflexivity|]. cbn [length seq map nth]. f_equal. rewrite <- seq_shift, map_map. exact IH.
Qed.
Lemma flat_start {A} (g : nat -> list A) : forall N n k x, n < N -> nth_error (g n) k = Some x -> nth_error (flat_map g (seq 0 N)) (sum_nat (map (fun i => length (g i)) (seq 0 n)) + k) = Some x.
Proof.
  intros N n k x Hn Hk. assert (E : seq 0 N = seq 0 n ++ n :: seq (S n) (N - S n)).
  { replace N with (n + S (N - S n)) at 1 by lia. rewrite seq_app. reflexivity. }
  assert (Lg : length (flat_map g (seq 0 n)) = sum_nat (map (fun i => length (g i)) (seq 0 n))) by (rewrite flat_map_concat_map, length_concat_sum, map_map; reflexivity).
  rewrite E, flat_map_app. cbn [flat_map]. rewrite nth_error_app2 by lia. rewrite Lg.
  match goal with |- nth_error _ (?s + k - ?s) = _ => replace (s + k - s) with k by lia end. rewrite nth_error_app1; [exact Hk|]. apply nth_error_Some. congruence.
Qed.
Lemma start_map c n : n <= length c -> start c n = sum_nat (map (fun i => nth i c 0) (seq 0 n)).
Proof.
  revert n. induction c as [|a c IH]; intros [|n] H; try reflexivity; cbn in H; [lia|]. rewrite start_cons. cbn [seq map sum_nat fold_right nth]. rewrite <- seq_shift, map_map. rewrite IH by lia. reflexivity.
Qed.
Lemma sizes_value a b : length a = length b -> add_sizes a b = Ok (map (fun n => nth n a 0 + nth n b 0) (seq 0 (length a))).
Proof.
  intros H. unfold add_sizes. rewrite H, Nat.eqb_refl. f_equal. revert b H. induction a as [|x a IH]; intros [|y b] H; try discriminate; [reflexivity|]. cbn [combine map length seq nth fst snd]. f_equal.
  rewrite <- seq_shift, map_map. cbn in H. injection H as H. rewrite IH by exact H. reflexivity.
Qed.
