(* The rows mesh_normal_consistency sorts, and the value of the loss on a whole batch. *)
From Coq Require Import Permutation Sorted.
From Verif Require Import Base Packing RBase Geom FaceAreas FaceAreasSpec Meshes MeshesSpec MeshesHistSpec Laplace LaplaceSpec MeshesProofs MeshesProofs2 MeshesProofs3 MeshesProofs6 MeshesProofs9 MeshesProofs10 LaplaceProofs3 Consistency ConsistencySpec ConsistencyProofs ConsistencyProofs2.
Local Open Scope R_scope.

Definition row := ((Z * face) * touch)%type.
Definition rkey (r : row) : Z := fst (fst r).
Definition rface (r : row) : face := snd (fst r).
Definition rtouch (r : row) : touch := snd r.
Definition face_rows (q : face * (Z * Z * Z)) : list row := let '(f, (i, j, k)) := q in combine [(i, f); (j, f); (k, f)] (touches f).
Definition rows_of (fs : list face) (f2e : list (Z * Z * Z)) : list row := flat_map face_rows (combine fs f2e).

Lemma rows_parts es fs f2e : Forall2 (opposite_edges es) fs f2e ->
  map rkey (rows_of fs f2e) = flat_map (fun t => let '(i, j, k) := t in [i; j; k]) f2e /\
  map rface (rows_of fs f2e) = flat_map (fun f => [f; f; f]) fs /\
  map rtouch (rows_of fs f2e) = mesh_touches fs /\
  (forall r, In r (rows_of fs f2e) -> (0 <= rkey r)%Z /\ nth_error es (Z.to_nat (rkey r)) = Some (fst (snd r)) /\ In (rface r) fs /\ In (snd r) (touches (rface r))).
Proof.
  induction 1 as [|f t fs f2e Hf H IH]; [repeat split; easy|]. destruct IH as (I1 & I2 & I3 & I4). unfold rows_of, mesh_touches in *. cbn [combine flat_map]. rewrite !map_app, I1, I2, I3. destruct f as [[a b] c], t as [[i j] k]. cbn [face_rows touches combine map].
  repeat split.
  - apply in_app_iff in H0 as [H0|H0]; [|now apply I4]. cbn in Hf. destruct H0 as [<-|[<-|[<-|[]]]]; unfold rkey; cbn [fst]; tauto.
  - apply in_app_iff in H0 as [H0|H0]; [|now apply I4]. cbn in Hf. destruct H0 as [<-|[<-|[<-|[]]]]; unfold rkey; cbn [fst snd]; tauto.
  - apply in_app_iff in H0 as [H0|H0]; [|right; now apply I4]. left. destruct H0 as [<-|[<-|[<-|[]]]]; reflexivity.
  - apply in_app_iff in H0 as [H0|H0]; [|now apply I4]. destruct H0 as [<-|[<-|[<-|[]]]]; unfold rface; cbn [fst snd]; unfold touches; cbn; tauto.
Qed.
Lemma gather_ok {A} (l : list A) d order : (forall i, In i order -> (i < length l)%nat) -> rmap (fun i => rget l i) order = Ok (map (fun i => nth i l d) order).
Proof.
  induction order as [|i o IH]; intros H; [reflexivity|]. cbn [rmap map]. rewrite IH by (intros; apply H; now right). specialize (H i (or_introl eq_refl)). unfold rget. rewrite (nth_error_nth' l d H). reflexivity.
Qed.
Lemma seq_nths {A} (l : list A) d : map (fun i => nth i l d) (seq 0 (length l)) = l.
Proof.
  apply nth_ext with (d := d) (d' := d); rewrite map_length, seq_length; [reflexivity|]. intros n Hn. rewrite (nth_indep _ d (nth 0 l d)) by (rewrite map_length, seq_length; exact Hn). rewrite (map_nth (fun i => nth i l d)), seq_nth by exact Hn. reflexivity.
Qed.
Lemma gather_perm {A} (l : list A) d order : Permutation order (seq 0 (length l)) -> Permutation (map (fun i => nth i l d) order) l.
Proof. intros H. rewrite (Permutation_map (fun i => nth i l d) H), seq_nths. reflexivity. Qed.
Lemma rmap_all_ok {A B} (f : A -> result B) (g : A -> B) l : (forall x, In x l -> f x = Ok (g x)) -> rmap f l = Ok (map g l).
Proof. induction l as [|x l IH]; intros H; [reflexivity|]. cbn [rmap map]. rewrite (H x) by now left. rewrite IH by (intros; apply H; now right). reflexivity. Qed.
Lemma zget_at vs i : (0 <= i < Z.of_nat (length vs))%Z -> zget vs i = Ok (at_ vs i).
Proof. intros H. unfold zget. destruct (Z.ltb_spec i 0); [lia|]. unfold at_. rewrite (nth_error_nth' vs (V3 0 0 0)) by lia. reflexivity. Qed.
Lemma tri_swap u v w : tri_cross u v w = cross3 (sub3 v u) (sub3 w u).
Proof. reflexivity. Qed.
Lemma row_normal_ok vs es r : (0 <= rkey r)%Z -> nth_error es (Z.to_nat (rkey r)) = Some (fst (snd r)) -> in_range (length vs) (rface r) -> In (snd r) (touches (rface r)) ->
  row_normal vs es (fst r) = Ok (wing vs (snd r)).
Proof.
  destruct r as [[key f] [e o]]. unfold rkey, rface. cbn [fst snd]. intros Hk He Hf Ht. unfold row_normal. cbn [fst snd]. unfold zget at 1. destruct (Z.ltb_spec key 0); [lia|]. rewrite He. cbn [rbind]. destruct f as [[a b] c]. unfold in_range in Hf. destruct Hf as (Ha & Hb & Hc).
  unfold touches, low_high in Ht. cbn [fst snd] in Ht. rewrite (zget_at vs a), (zget_at vs b), (zget_at vs c) by lia.
  destruct Ht as [E|[E|[E|[]]]]; injection E as <- <-; cbn [fst snd]; rewrite !zget_at by lia; cbn [rbind]; unfold wing; cbn [fst snd]; rewrite tri_swap; f_equal.
  - destruct (Z.min_spec b c) as [[_ ->]|[_ ->]], (Z.max_spec b c) as [[_ ->]|[_ ->]]; try lia; destruct (at_ vs a) as [p1 p2 p3], (at_ vs b) as [q1 q2 q3], (at_ vs c) as [r1 r2 r3]; unfold add3, cross3, sub3; cbn [x3 y3 z3]; f_equal; try ring.
  - destruct (Z.min_spec c a) as [[_ ->]|[_ ->]], (Z.max_spec c a) as [[_ ->]|[_ ->]]; try lia; destruct (at_ vs a) as [p1 p2 p3], (at_ vs b) as [q1 q2 q3], (at_ vs c) as [r1 r2 r3]; unfold add3, cross3, sub3; cbn [x3 y3 z3]; f_equal; try ring.
  - destruct (Z.min_spec a b) as [[_ ->]|[_ ->]], (Z.max_spec a b) as [[_ ->]|[_ ->]]; try lia; destruct (at_ vs a) as [p1 p2 p3], (at_ vs b) as [q1 q2 q3], (at_ vs c) as [r1 r2 r3]; unfold add3, cross3, sub3; cbn [x3 y3 z3]; f_equal; try ring.
Qed.

Lemma bincount_ok n l : (forall z, In z l -> (0 <= z < Z.of_nat n)%Z) -> bincount n l = Ok (map (fun i => length (filter (fun z => (z =? Z.of_nat i)%Z) l)) (seq 0 n)).
Proof.
  intros H. unfold bincount. replace (existsb _ l) with false.
  - do 3 f_equal. apply Nat.max_l. induction l as [|z l IH]; [cbn; lia|]. cbn [map]. unfold max_nat in *. cbn [fold_right]. specialize (IH (fun z Hz => H z (or_intror Hz))). specialize (H z (or_introl eq_refl)). lia.
  - symmetry. apply not_true_is_false. intros E. apply existsb_exists in E as (z & Hz & E). apply Z.ltb_lt in E. specialize (H z Hz). lia.
Qed.
Lemma counts_sum n l : (forall z, In z l -> (0 <= z < Z.of_nat n)%Z) -> sum_nat (map (fun i => length (filter (fun z => (z =? Z.of_nat i)%Z) l)) (seq 0 n)) = length l.
Proof.
  intros H. induction l as [|z l IH].
  - cbn [filter length]. induction (seq 0 n); [reflexivity|]. cbn. exact IHl.
  - cbn [length]. rewrite <- IH by (intros; apply H; now right). specialize (H z (or_introl eq_refl)). assert (Hz : In (Z.to_nat z) (seq 0 n)) by (apply in_seq; lia).
    rewrite (map_ext _ (fun i => ((if (z =? Z.of_nat i)%Z then 1 else 0) + length (filter (fun z => (z =? Z.of_nat i)%Z) l))%nat)) by (intros i; cbn [filter]; destruct (z =? Z.of_nat i)%Z; reflexivity).
    pose proof (seq_NoDup n 0) as Hn. revert Hz Hn. generalize (seq 0 n). clear IH. intros s Hz Hn.
    induction s as [|x s IHs]; [easy|]. apply NoDup_cons_iff in Hn as [Hx Hn]. unfold sum_nat in *. cbn [map fold_right]. destruct (Z.eqb_spec z (Z.of_nat x)) as [E|E].
    + cbn [Nat.add]. do 2 f_equal. f_equal. apply map_ext_in. intros y Hy. destruct (Z.eqb_spec z (Z.of_nat y)) as [E'|]; [|reflexivity]. exfalso. apply Hx. replace x with y by lia. exact Hy.
    + destruct Hz as [Hz|Hz]; [lia|]. rewrite (IHs Hz Hn). lia.
Qed.
Lemma filter_count {A} (f : A -> Z) k l : INR (length (filter (fun z => (z =? k)%Z) (map f l))) = rsum (map (fun x => if (f x =? k)%Z then 1 else 0) l).
Proof. induction l as [|x l IH]; [reflexivity|]. cbn [map filter]. rewrite rsum_cons. destruct (f x =? k)%Z; rewrite <- IH; [cbn [length]; rewrite S_INR|]; ring. Qed.
Lemma weighted_map {A} (g : A -> R) (w : A -> nat) l : weighted_sum (map g l) (map w l) = rsum (map (fun x => g x * (1 / INR (w x))) l).
Proof. unfold weighted_sum. f_equal. induction l as [|x l IH]; [reflexivity|]. cbn [map combine]. now rewrite IH. Qed.

(* the touches of a packed face belong to the mesh of its first corner *)
Lemma home_face b : Forall good_mesh b -> forall f t, In f (all_faces b) -> In t (touches f) -> zget (owners 0 (vcount b)) (fst (fst f)) = Ok (home b t) /\ (0 <= home b t < Z.of_nat (length b))%Z /\ home b t = nth (Z.to_nat (fst (fst t))) (owners 0 (vcount b)) 0%Z.
Proof.
  intros Hb f t Hf Ht. unfold all_faces in Hf.
  assert (G : exists k p f', nth_error b k = Some p /\ In f' (snd p) /\ f = move_face (vstart b k) f').
  { clear Ht Hb t. change 0%nat with (vstart b 0) in Hf. revert Hf. assert (G : forall c pre, b = pre ++ c -> In f (faces_from (vstart b (length pre)) c) -> exists k p f', nth_error b k = Some p /\ In f' (snd p) /\ f = move_face (vstart b k) f').
    { induction c as [|p c IH]; intros pre E H; [easy|]. cbn [faces_from] in H. apply in_app_iff in H as [H|H].
      - apply in_map_iff in H as (f' & <- & H). exists (length pre), p, f'. split; [|auto]. rewrite E, nth_error_app2, Nat.sub_diag by lia. reflexivity.
      - apply (IH (pre ++ [p])); [rewrite <- app_assoc; exact E|]. replace (vstart b (length (pre ++ [p]))) with (vstart b (length pre) + length (fst p))%nat; [exact H|]. rewrite E. unfold vstart, vcount. rewrite app_length, !map_app. cbn [length map]. rewrite !firstn_app, !map_length, Nat.sub_diag. replace (length pre + 1 - length pre)%nat with 1%nat by lia. rewrite (firstn_all2 (n := length pre + 1)), (firstn_all2 (n := length pre)) by (rewrite map_length; lia). cbn [firstn]. rewrite app_nil_r, sum_nat_app. unfold sum_nat. cbn [fold_right]. lia. }
    apply (G b []). reflexivity. }
  destruct G as (k & p & f' & Hk & Hf' & ->). rewrite touches_move in Ht. apply in_map_iff in Ht as (t' & <- & Ht'). rewrite Forall_forall in Hb. assert (Hp : good_mesh p) by (apply Hb; eapply nth_error_In; eauto).
  rewrite (home_at b k p t' Hk Hp) by (apply in_flat_map; eauto). assert (Hl : (k < length b)%nat) by (apply nth_error_Some; congruence). split; [|split; [lia|]].
  2:{ assert (Hr : In t' (mesh_touches (snd p))) by (apply in_flat_map; eauto). apply (touch_range _ _ _ Hp) in Hr as (Hr & _). unfold tmove, move_edge. cbn [fst]. replace (Z.to_nat (fst (fst t') + Z.of_nat (vstart b k))) with (vstart b k + Z.to_nat (fst (fst t')))%nat by lia. unfold vstart. rewrite (owners_nth (vcount b) 0 k _ (length (fst p)) (vcount_nth _ _ _ Hk)) by lia. reflexivity. }
  unfold good_mesh in Hp. rewrite Forall_forall in Hp. specialize (Hp f' Hf'). destruct f' as [[u v] w]. destruct Hp as (Hu & _ & _). cbn [move_face fst].
  pose proof (owners_nth (vcount b) 0 k (Z.to_nat u) (length (fst p)) (vcount_nth _ _ _ Hk) ltac:(lia)) as E. fold (vstart b k) in E. unfold zget. destruct (Z.ltb_spec (u + Z.of_nat (vstart b k)) 0); [lia|]. replace (Z.to_nat (u + Z.of_nat (vstart b k))) with (vstart b k + Z.to_nat u)%nat by lia.
  rewrite (nth_error_nth' _ 0%Z); [now rewrite E|].
  assert (L : length (owners 0 (vcount b)) = length (all_verts b)).
  { unfold all_verts. rewrite length_concat_sum, map_map. unfold vcount. generalize 0%nat. clear. induction b as [|p b IH]; intros n; [reflexivity|]. cbn [map owners]. rewrite app_length, repeat_length, IH. reflexivity. }
  rewrite L. destruct (vstart_split b k p Hk) as (pre & suf & -> & <-). rewrite !app_length. lia.
Qed.
Lemma wing_sym_bend vs x y : bend vs (x, y) = bend vs (y, x).
Proof.
  unfold bend, cosine. cbn [fst snd]. generalize (wing vs x), (wing vs y). intros u v.
  assert (Hn : forall w, norm3 (neg3 w) = norm3 w). { intros [a b c]. unfold norm3, neg3, scal3, dot3. cbn [x3 y3 z3]. f_equal. ring. }
  rewrite !Hn. replace (dot3 u (neg3 v)) with (dot3 v (neg3 u)); [|destruct u as [p1 p2 p3], v as [q1 q2 q3]; unfold dot3, neg3, scal3; cbn [x3 y3 z3]; ring]. now rewrite (Rmult_comm (Rmax (norm3 u) kEps)).
Qed.
