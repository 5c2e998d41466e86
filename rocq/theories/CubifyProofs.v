(* cubify: row-major bookkeeping, and which faces are emitted. *)
From Coq Require Import Lra.
From Verif Require Import Base Packing RBase Geom FaceAreas MeshesSpec Meshes Subdivide SubdivideProofs Cubify CubifySpec.
Local Open Scope nat_scope.

(* ---- row-major order ---- *)
Lemma flat_seq k n : flat_map (fun i => map (fun x => i * k + x) (seq 0 k)) (seq 0 n) = seq 0 (n * k).
Proof.
  induction n as [|n IH]; [reflexivity|]. rewrite seq_S, flat_map_app, IH. cbn [flat_map Nat.add]. rewrite app_nil_r. change (fun x => n * k + x) with (Nat.add (n * k)). rewrite map_seq.
  replace (S n * k) with (n * k + k) by lia. rewrite seq_app, Nat.add_0_r. reflexivity.
Qed.
Lemma flat_map_map {A B C} (f : A -> B) (g : B -> list C) l : flat_map g (map f l) = flat_map (fun x => g (f x)) l.
Proof. induction l as [|x l IH]; [reflexivity|]. cbn. rewrite IH. reflexivity. Qed.
Lemma map_flat_map {A B C} (f : B -> C) (g : A -> list B) l : map f (flat_map g l) = flat_map (fun x => map f (g x)) l.
Proof. induction l as [|x l IH]; [reflexivity|]. cbn. rewrite map_app, IH. reflexivity. Qed.
Lemma flat_map_flat {A B C} (f : A -> list B) (g : B -> list C) l : flat_map g (flat_map f l) = flat_map (fun x => flat_map g (f x)) l.
Proof. induction l as [|x l IH]; [reflexivity|]. cbn. rewrite flat_map_app, IH. reflexivity. Qed.
Lemma fm_ext {A B} (f g : A -> list B) l : (forall x, In x l -> f x = g x) -> flat_map f l = flat_map g l.
Proof. induction l as [|x l IH]; intros H; [reflexivity|]. cbn. rewrite H by (left; reflexivity). f_equal. apply IH. intros y Hy. apply H. right. exact Hy. Qed.

Definition pos3 (H W D : nat) (c : nat * nat * nat) : nat := let '(h, w, d) := c in (h * W + w) * D + d.
Lemma grid_pos H W D : map (pos3 H W D) (grid H W D) = seq 0 (H * W * D).
Proof.
  unfold grid. rewrite map_flat_map.
  rewrite (fm_ext _ (fun h => flat_map (fun r => map (fun d => r * D + d) (seq 0 D)) (map (fun w => h * W + w) (seq 0 W)))).
  2:{ intros h _. rewrite map_flat_map, flat_map_map. apply fm_ext. intros w _. rewrite map_map. reflexivity. }
  rewrite <- flat_map_flat, flat_seq, flat_seq. reflexivity.
Qed.
Lemma grid_length H W D : length (grid H W D) = H * W * D.
Proof. rewrite <- (map_length (pos3 H W D)), grid_pos. apply seq_length. Qed.
Lemma grid_in H W D h w d : In (h, w, d) (grid H W D) <-> h < H /\ w < W /\ d < D.
Proof.
  unfold grid. rewrite in_flat_map. split.
  - intros (h' & Hh & Hi). apply in_flat_map in Hi. destruct Hi as (w' & Hw & Hi). apply in_map_iff in Hi. destruct Hi as (d' & E & Hd). injection E as -> -> ->. apply in_seq in Hh, Hw, Hd. lia.
  - intros (A & B & C). exists h. split; [apply in_seq; lia|]. apply in_flat_map. exists w. split; [apply in_seq; lia|]. apply in_map_iff. exists d. split; [reflexivity|apply in_seq; lia].
Qed.
Lemma grid_nth H W D c : In c (grid H W D) -> nth_error (grid H W D) (pos3 H W D c) = Some c.
Proof.
  intros Hc. apply In_nth_error in Hc. destruct Hc as (k & Hk). assert (k < H * W * D) by (rewrite <- (grid_length H W D); apply nth_error_Some; congruence).
  assert (E : nth_error (map (pos3 H W D) (grid H W D)) k = Some (pos3 H W D c)) by (rewrite nth_error_map_iff, Hk; reflexivity).
  rewrite grid_pos, nth_error_seq_lt in E by exact H0. injection E as E. rewrite <- E. exact Hk.
Qed.
Lemma grid_nodup H W D : NoDup (grid H W D).
Proof. apply (NoDup_map_inv (pos3 H W D)). rewrite grid_pos. apply seq_NoDup. Qed.

Definition pos4 (H W D : nat) (c : nat * nat * nat * nat) : nat := let '(n, h, w, d) := c in ((n * H + h) * W + w) * D + d.
Definition cell_at (n : nat) (c : nat * nat * nat) : nat * nat * nat * nat := let '(h, w, d) := c in (n, h, w, d).
Lemma cells_grid N H W D : cells N H W D = flat_map (fun n => map (cell_at n) (grid H W D)) (seq 0 N).
Proof.
  unfold cells, grid. apply fm_ext. intros n _. rewrite map_flat_map. apply fm_ext. intros h _. rewrite map_flat_map. apply fm_ext. intros w _. rewrite map_map. reflexivity.
Qed.
Lemma cells_pos N H W D : map (pos4 H W D) (cells N H W D) = seq 0 (N * (H * W * D)).
Proof.
  rewrite cells_grid, map_flat_map. rewrite <- flat_seq. apply fm_ext. intros n _. rewrite <- grid_pos, !map_map. apply map_ext. intros ((h, w), d). cbn. ring.
Qed.
Lemma cells_in N H W D n h w d : In (n, h, w, d) (cells N H W D) <-> n < N /\ h < H /\ w < W /\ d < D.
Proof.
  rewrite cells_grid, in_flat_map. split.
  - intros (n' & Hn & Hi). apply in_map_iff in Hi. destruct Hi as (((h', w'), d') & E & Hi). injection E as -> -> -> ->. apply grid_in in Hi. apply in_seq in Hn. lia.
  - intros (A & B). exists n. split; [apply in_seq; lia|]. apply in_map_iff. exists (h, w, d). split; [reflexivity|]. apply grid_in. exact B.
Qed.
Lemma unravel_pos N H W D n h w d : In (n, h, w, d) (cells N H W D) ->
  unravel_index (Z.of_nat H, Z.of_nat W, Z.of_nat D) (Z.of_nat (pos4 H W D (n, h, w, d))) = (Z.of_nat n, Z.of_nat h, Z.of_nat w, Z.of_nat d).
Proof.
  intros Hc. apply cells_in in Hc. destruct Hc as (_ & Hh & Hw & Hd). unfold unravel_index, pos4.
  set (a := Z.of_nat n). set (b := Z.of_nat h). set (c := Z.of_nat w). set (e := Z.of_nat d). set (P := Z.of_nat H). set (Q := Z.of_nat W). set (S := Z.of_nat D).
  replace (Z.of_nat (((n * H + h) * W + w) * D + d)) with (((a * P + b) * Q + c) * S + e)%Z by (subst a b c e P Q S; lia).
  assert (Hb : (0 <= b < P)%Z) by (subst b P; lia). assert (Hc : (0 <= c < Q)%Z) by (subst c Q; lia). assert (He : (0 <= e < S)%Z) by (subst e S; lia).
  assert (K : forall u v s t, (0 <= u < v -> 0 <= s < t -> 0 <= u * t + s < v * t)%Z) by (intros; nia).
  assert (K1 := K _ _ _ _ Hb Hc). assert (K2 := K _ _ _ _ Hc He). assert (K3 := K _ _ _ _ K1 He).
  assert (E1 : ((((a * P + b) * Q + c) * S + e) / (P * Q * S) = a)%Z) by (symmetry; apply Z.div_unique with ((b * Q + c) * S + e)%Z; [left; exact K3|ring]).
  rewrite E1. replace (((a * P + b) * Q + c) * S + e - a * P * Q * S)%Z with ((b * Q + c) * S + e)%Z by ring.
  assert (E2 : (((b * Q + c) * S + e) / (Q * S) = b)%Z) by (symmetry; apply Z.div_unique with (c * S + e)%Z; [left; exact K2|ring]).
  rewrite E2. replace ((b * Q + c) * S + e - b * Q * S)%Z with (c * S + e)%Z by ring.
  assert (E3 : ((c * S + e) / S = c)%Z) by (symmetry; apply Z.div_unique with e; [left; lia|ring]). rewrite E3. f_equal. ring.
Qed.

(* ---- nonzero ---- *)
Definition cols (row : list R) : list nat := map fst (filter (fun p => negb (Reqb (snd p) 0)) (combine (seq 0 (length row)) row)).
Lemma nonzero_row_cols i row : forall j, nonzero_row i j row = map (fun k => (i, k)) (map fst (filter (fun p => negb (Reqb (snd p) 0)) (combine (seq j (length row)) row))).
Proof.
  induction row as [|x row IH]; intros j; [reflexivity|]. cbn [nonzero_row length seq combine filter snd]. rewrite IH. destruct (Reqb x 0); reflexivity.
Qed.
Lemma nonzero_cells {A} (f : A -> nat) (g : A -> list R) l : forall s, map f l = seq s (length l) ->
  nonzero (Z.of_nat s) (map g l) = flat_map (fun c => map (fun k => (Z.of_nat (f c), k)) (cols (g c))) l.
Proof.
  induction l as [|c l IH]; intros s E; [reflexivity|]. cbn in E. injection E as E1 E2. cbn [map nonzero flat_map]. rewrite nonzero_row_cols, <- E1. fold (cols (g c)). f_equal. replace (Z.of_nat (f c) + 1)%Z with (Z.of_nat (S (f c))) by lia. apply IH. rewrite E1. exact E2.
Qed.
Lemma cols_map (f : nat -> R) K : cols (map f (seq 0 K)) = filter (fun k => negb (Reqb (f k) 0)) (seq 0 K).
Proof.
  unfold cols. rewrite map_length, seq_length. generalize (seq 0 K) as l. induction l as [|k l IH]; [reflexivity|]. cbn [map combine filter snd]. destruct (negb (Reqb (f k) 0)); cbn [map fst]; rewrite IH; reflexivity.
Qed.

(* ---- which faces ---- *)
Section Grid.
Variables (N D H W : nat) (vox : nat -> nat -> nat -> nat -> R) (thresh : R).

Definition occ (n : nat) (p : pt) : bool :=
  let '(x, y, z) := p in
  (0 <=? x)%Z && (x <? Z.of_nat W)%Z && (0 <=? y)%Z && (y <? Z.of_nat H)%Z && (0 <=? z)%Z && (z <? Z.of_nat D)%Z &&
  Rleb thresh (vox n (Z.to_nat z) (Z.to_nat y) (Z.to_nat x)).
Definition pt_of (c : nat * nat * nat) : pt := let '(h, w, d) := c in (Z.of_nat w, Z.of_nat h, Z.of_nat d).
Definition dir (s : nat) : pt :=
  match s with 0 => (-1, 0, 0)%Z | 1 => (0, 1, 0)%Z | 2 => (0, 0, -1)%Z | 3 => (0, -1, 0)%Z | 4 => (1, 0, 0)%Z | _ => (0, 0, 1)%Z end.
Definition exp (n : nat) (p : pt) (s : nat) : bool := occ n p && negb (occ n (plus p (dir s))).

Lemma occ_in n h w d : h < H -> w < W -> d < D -> occ n (Z.of_nat w, Z.of_nat h, Z.of_nat d) = Rleb thresh (vox n d h w).
Proof.
  intros A B C. unfold occ. rewrite !Nat2Z.id.
  replace (0 <=? Z.of_nat w)%Z with true by (symmetry; apply Z.leb_le; lia). replace (Z.of_nat w <? Z.of_nat W)%Z with true by (symmetry; apply Z.ltb_lt; lia).
  replace (0 <=? Z.of_nat h)%Z with true by (symmetry; apply Z.leb_le; lia). replace (Z.of_nat h <? Z.of_nat H)%Z with true by (symmetry; apply Z.ltb_lt; lia).
  replace (0 <=? Z.of_nat d)%Z with true by (symmetry; apply Z.leb_le; lia). replace (Z.of_nat d <? Z.of_nat D)%Z with true by (symmetry; apply Z.ltb_lt; lia). reflexivity.
Qed.
Lemma occ_true n p : occ n p = true -> exists h w d, p = (Z.of_nat w, Z.of_nat h, Z.of_nat d) /\ h < H /\ w < W /\ d < D.
Proof.
  destruct p as ((x, y), z). unfold occ. rewrite !andb_true_iff, !Z.leb_le, !Z.ltb_lt. intros H0. exists (Z.to_nat y), (Z.to_nat x), (Z.to_nat z). rewrite !Z2Nat.id by lia. repeat split; lia.
Qed.
Lemma occ_out n x y z : (x < 0 \/ Z.of_nat W <= x \/ y < 0 \/ Z.of_nat H <= y \/ z < 0 \/ Z.of_nat D <= z)%Z -> occ n (x, y, z) = false.
Proof.
  intros H0. destruct (occ n (x, y, z)) eqn:E; [|reflexivity]. apply occ_true in E. destruct E as (h & w & d & E & ? & ? & ?). injection E as -> -> ->. lia.
Qed.
Notation vt := (voxelt vox thresh).
Lemma both a b c d n : gt_half (1 / 2 * vt n a b c + 1 / 2 * vt n a b d) = (if Rleb thresh (vox n a b c) && Rleb thresh (vox n a b d) then 1 else 0)%R.
Proof. unfold voxelt, gt_half. destruct (Rleb thresh (vox n a b c)), (Rleb thresh (vox n a b d)); cbn [andb]; match goal with |- context [Rltb ?x ?y] => destruct (Rltb_spec x y) end; lra. Qed.
Lemma both_y a b c d n : gt_half (1 / 2 * vt n a b c + 1 / 2 * vt n a d c) = (if Rleb thresh (vox n a b c) && Rleb thresh (vox n a d c) then 1 else 0)%R.
Proof. unfold voxelt, gt_half. destruct (Rleb thresh (vox n a b c)), (Rleb thresh (vox n a d c)); cbn [andb]; match goal with |- context [Rltb ?x ?y] => destruct (Rltb_spec x y) end; lra. Qed.
Lemma both_z a b c d n : gt_half (1 / 2 * vt n a b c + 1 / 2 * vt n d b c) = (if Rleb thresh (vox n a b c) && Rleb thresh (vox n d b c) then 1 else 0)%R.
Proof. unfold voxelt, gt_half. destruct (Rleb thresh (vox n a b c)), (Rleb thresh (vox n d b c)); cbn [andb]; match goal with |- context [Rltb ?x ?y] => destruct (Rltb_spec x y) end; lra. Qed.
Lemma low_case (v : nat -> R) i (prev now : bool) : (forall i', i = S i' -> v i' = (if prev && now then 1 else 0)%R) -> (i = 0 -> prev = false) ->
  negb (Reqb (mask_low v i * (if now then 1 else 0)) 0) = now && negb prev.
Proof.
  intros H1 H2. unfold mask_low. destruct i as [|i'].
  - rewrite H2 by reflexivity. destruct now; cbn; match goal with |- context [Reqb ?x ?y] => destruct (Reqb_spec x y) end; try reflexivity; lra.
  - rewrite (H1 i' eq_refl). destruct now, prev; cbn [andb negb]; match goal with |- context [Reqb ?x ?y] => destruct (Reqb_spec x y) end; try reflexivity; lra.
Qed.
Lemma high_case (v : nat -> R) size i (now next : bool) : (S i < size -> v i = (if now && next then 1 else 0)%R) -> (size <= S i -> next = false) ->
  negb (Reqb (mask_high v size i * (if now then 1 else 0)) 0) = now && negb next.
Proof.
  intros H1 H2. unfold mask_high. destruct (Nat.ltb_spec (S i) size) as [L|L].
  - rewrite (H1 L). destruct now, next; cbn [andb negb]; match goal with |- context [Reqb ?x ?y] => destruct (Reqb_spec x y) end; try reflexivity; lra.
  - rewrite H2 by exact L. destruct now; cbn; match goal with |- context [Reqb ?x ?y] => destruct (Reqb_spec x y) end; try reflexivity; lra.
Qed.
Ltac lo := apply low_case; [intros i' Hi; subst; (rewrite both || rewrite both_y || rewrite both_z); rewrite Nat2Z.inj_succ;
  replace (Z.succ (Z.of_nat i') + -1)%Z with (Z.of_nat i') by lia; rewrite occ_in by lia; reflexivity | intros Hi; subst; apply occ_out; lia].
Ltac hi := apply high_case; [intros L; (rewrite both || rewrite both_y || rewrite both_z);
  match goal with |- context [(Z.of_nat ?t + 1)%Z] => replace (Z.of_nat t + 1)%Z with (Z.of_nat (S t)) by lia end; rewrite occ_in by lia; reflexivity | intros Hi; apply occ_out; lia].
Definition side_of_face (k : nat) : nat := Nat.div2 k.
Lemma mask_exposed n h w d k : h < H -> w < W -> d < D -> k < 12 ->
  negb (Reqb (faces_idx D H W vox thresh k n h w d) 0) = exp n (pt_of (h, w, d)) (side_of_face k).
Proof.
  intros A B C K. unfold exp, pt_of. rewrite (occ_in n h w d A B C).
  assert (X : forall f, negb (Reqb (f * voxelt vox thresh n d h w) 0) = negb (Reqb (f * (if Rleb thresh (vox n d h w) then 1 else 0)) 0)) by reflexivity.
  unfold faces_idx. rewrite X. unfold voxelt_x, voxelt_y, voxelt_z.
  do 12 (destruct k as [|k]; [cbn [side_of_face Nat.div2 dir plus]; rewrite !Z.add_0_r; (lo || hi)|]). lia.
Qed.
End Grid.
