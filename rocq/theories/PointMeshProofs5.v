(* The gradients: what the additions of any execution add up to, and that they are derivatives. *)
From Verif Require Import Base RBase Threads ThreadsProofs Geom GeomSpec Sampling SamplingProofs Laplace LaplaceSpec LaplaceProofs3 PointMesh PointMeshSpec.
From Verif Require GeomProps.
Local Open Scope R_scope.

Definition hit (c : cell) (w : cell * R) : R := if cell_eqb c (fst w) then snd w else 0.
Lemma add_all_sum ws c : add_all ws c = rsum (map (hit c) ws).
Proof.
  unfold add_all. assert (G : forall m, fold_left add_at ws m c = m c + rsum (map (hit c) ws)).
  { induction ws as [|w ws IH]; intros m; cbn [fold_left map]; [cbn; lra|]. rewrite IH, rsum_cons. unfold add_at, hit at 2. destruct (cell_eqb c (fst w)); lra. }
  rewrite G. lra.
Qed.
Lemma add_all_perm ws ws' : Permutation ws ws' -> forall c, add_all ws c = add_all ws' c.
Proof. intros P c. rewrite !add_all_sum. apply rsum_perm, Permutation_map, P. Qed.
Lemma numbered_sum side row l c : rsum (map (hit c) (numbered side row l)) = if Bool.eqb (fst (fst c)) side && (snd (fst c) =? row)%nat then nth (snd c) l 0 else 0.
Proof.
  unfold numbered. rewrite map_map. destruct c as ((s, r), k). cbn [fst snd].
  assert (G : forall s0, rsum (map (fun p => hit (s, r, k) (side, row, fst p, snd p)) (combine (seq s0 (length l)) l)) = if Bool.eqb s side && (r =? row)%nat then (if (s0 <=? k)%nat then nth (k - s0) l 0 else 0) else 0).
  { induction l as [|x l IH]; intros s0; cbn [length seq combine map].
    - cbn. destruct (_ && _); [|reflexivity]. destruct (s0 <=? k)%nat; [|reflexivity]. destruct (k - s0)%nat; reflexivity.
    - rewrite rsum_cons, IH. unfold hit, cell_eqb. cbn [fst snd]. destruct (Bool.eqb s side && (r =? row)%nat); cbn [andb]; [|lra].
      destruct (Nat.eqb_spec k s0) as [->|N].
      + rewrite Nat.leb_refl. destruct (Nat.leb_spec (S s0) s0); [lia|]. replace (s0 - s0)%nat with 0%nat by lia. cbn. lra.
      + destruct (Nat.leb_spec (S s0) k); destruct (Nat.leb_spec s0 k); try lia; [|lra]. replace (k - s0)%nat with (S (k - S s0)) by lia. cbn [nth]. lra. }
  rewrite G. cbn. destruct (_ && _); [|reflexivity]. rewrite Nat.sub_0_r. reflexivity.
Qed.

Lemma rsum_concat (ls : list (list R)) : rsum (concat ls) = rsum (map rsum ls).
Proof. induction ls as [|l ls IH]; [reflexivity|]. cbn [concat map]. rewrite rsum_app, rsum_cons, IH. reflexivity. Qed.
Lemma rsum_single (n k : nat) (f : nat -> R) : (k < n)%nat -> (forall o, o <> k -> f o = 0) -> rsum (map f (seq 0 n)) = f k.
Proof.
  intros Hk Hz. replace n with (k + S (n - S k))%nat by lia. rewrite seq_app, map_app, rsum_app. cbn [seq map]. rewrite rsum_cons.
  assert (Z : forall l, ~ In k l -> rsum (map f l) = 0) by (induction l as [|o l IH]; [reflexivity|]; intros H; cbn [map]; rewrite rsum_cons, IH, Hz; [lra|intros ->; apply H; left; reflexivity|intros X; apply H; right; exact X]).
  rewrite !Z; [cbn [Nat.add]; lra|intros H; apply in_seq in H; lia|intros H; apply in_seq in H; lia].
Qed.

Section Sum.
Context {A B : Type} (bw : A -> B -> R -> list R * list R) (As : list A) (Bs : list B) (idx : list Z) (g : list R).
Context (HP : picks As Bs idx g).
Notation at_object := (at_object As Bs idx g).
Definition writes (pf : bool) (o : nat) : list (cell * R) :=
  at_object o (fun a i b x => let r := bw a b x in if pf then numbered false o (fst r) ++ numbered true i (snd r) else numbered true i (snd r) ++ numbered false o (fst r)) [].
Lemma picked o : (o < length As)%nat -> exists a i b x, nth_error As o = Some a /\ nth_error idx o = Some i /\ nth_error g o = Some x /\ (0 <= i)%Z /\ nth_error Bs (Z.to_nat i) = Some b.
Proof.
  intros Ho. destruct HP as (L1 & L2 & HF). destruct (nth_error As o) as [a|] eqn:Ea; [|apply nth_error_None in Ea; lia]. destruct (nth_error idx o) as [i|] eqn:Ei; [|apply nth_error_None in Ei; lia]. destruct (nth_error g o) as [x|] eqn:Ex; [|apply nth_error_None in Ex; lia].
  pose proof (proj1 (Forall_forall _ _) HF i (nth_error_In _ _ Ei)) as Hi. cbv beta in Hi. destruct (nth_error Bs (Z.to_nat i)) as [b|] eqn:Eb; [|apply nth_error_None in Eb; lia]. exists a, i, b, x. repeat split; lia || assumption.
Qed.
Lemma adds_ok pf o : (o < length As)%nat -> adds_of bw pf As Bs idx g o = Ok (writes pf o).
Proof.
  intros Ho. destruct (picked o Ho) as (a & i & b & x & Ea & Ei & Ex & Hi & Eb). unfold adds_of, writes, at_object, rget. rewrite Ea, Ei, Ex, Eb. cbn [rbind]. destruct (Z.ltb_spec i 0); [lia|]. rewrite Eb. reflexivity.
Qed.
Lemma adds_all pf l : (forall o, In o l -> (o < length As)%nat) -> rmap (adds_of bw pf As Bs idx g) l = Ok (map (writes pf) l).
Proof. induction l as [|o l IH]; intros H; [reflexivity|]. cbn [rmap map]. rewrite adds_ok by (apply H; left; reflexivity). cbn [rbind]. rewrite IH by (intros x Hx; apply H; right; exact Hx). reflexivity. Qed.
Lemma cpu_writes : cpu_backward bw As Bs idx g = Ok (add_all (concat (map (writes true) (seq 0 (length As))))).
Proof.
  unfold cpu_backward. destruct HP as (L1 & L2 & _). rewrite L1, L2, Nat.eqb_refl. cbn [andb negb]. rewrite adds_all by (intros o H; apply in_seq in H; lia). reflexivity.
Qed.
Lemma gpu_writes n pf out : (0 < n)%nat -> gpu_backward bw n pf As Bs idx g out -> exists tr, out = Ok (add_all tr) /\ Permutation tr (concat (map (writes pf) (seq 0 (length As)))).
Proof.
  intros Hn. unfold gpu_backward.
  assert (E : rmap (fun t => ws <- rmap (adds_of bw pf As Bs idx g) (grid_stride t n (length As)) ;; Ok (concat ws)) (seq 0 n) = Ok (map (fun t => concat (map (writes pf) (grid_stride t n (length As)))) (seq 0 n))).
  { assert (G : forall l, (forall t, In t l -> (t < n)%nat) -> rmap (fun t => ws <- rmap (adds_of bw pf As Bs idx g) (grid_stride t n (length As)) ;; Ok (concat ws)) l = Ok (map (fun t => concat (map (writes pf) (grid_stride t n (length As)))) l)).
    { induction l as [|t l IH]; intros H; [reflexivity|]. cbn [rmap map]. rewrite adds_all by (intros o Ho; apply (grid_stride_in t n _ o Hn (H t (or_introl eq_refl))) in Ho; tauto). cbn [rbind]. rewrite IH by (intros x Hx; apply H; right; exact Hx). reflexivity. }
    apply G. intros t Ht. apply in_seq in Ht. lia. }
  rewrite E. intros (tr & HI & ->). exists tr. split; [reflexivity|]. apply interleaving_perm in HI. eapply Permutation_trans; [exact HI|].
  replace (concat (map (fun t => concat (map (writes pf) (grid_stride t n (length As)))) (seq 0 n))) with (concat (map (writes pf) (flat_map (fun t => grid_stride t n (length As)) (seq 0 n)))).
  - rewrite <- !flat_map_concat_map. apply Permutation_flat_map. apply NoDup_Permutation; [| |].
    + apply NoDup_flat_map; [apply seq_NoDup|intros t _; apply grid_stride_nodup; exact Hn|].
      intros t1 t2 o H1 H2 Ho1 Ho2. apply in_seq in H1, H2. apply grid_stride_in in Ho1; [|lia|lia]. apply grid_stride_in in Ho2; [|lia|lia]. lia.
    + apply seq_NoDup.
    + intros o. rewrite in_flat_map, in_seq. split; [intros (t & Ht & Ho); apply in_seq in Ht; apply grid_stride_in in Ho; lia|]. intros Ho. exists (o mod n)%nat. pose proof (Nat.mod_upper_bound o n ltac:(lia)). split; [apply in_seq; lia|]. apply grid_stride_in; lia.
  - generalize (seq 0 n). induction l as [|t l IH]; [reflexivity|]. cbn [flat_map map concat]. rewrite map_app, concat_app, IH. reflexivity.
Qed.
Lemma writes_sum pf o c : rsum (map (hit c) (writes pf o)) = at_object o (fun a i b x => let r := bw a b x in
  (if Bool.eqb (fst (fst c)) false && (snd (fst c) =? o)%nat then nth (snd c) (fst r) 0 else 0) + (if Bool.eqb (fst (fst c)) true && (snd (fst c) =? i)%nat then nth (snd c) (snd r) 0 else 0)) 0.
Proof.
  unfold writes, at_object. destruct (nth_error As o); [|reflexivity]. destruct (nth_error idx o) as [i|]; [|reflexivity]. destruct (nth_error g o); [|reflexivity]. destruct (nth_error Bs (Z.to_nat i)); [|reflexivity]. cbv zeta. destruct pf; rewrite map_app, rsum_app, !numbered_sum; lra.
Qed.
(* whatever the order, the cells hold these values *)
Notation cells := (gradient_rows As Bs idx g bw).
Lemma cells_of pf tr : Permutation tr (concat (map (writes pf) (seq 0 (length As)))) -> cells (add_all tr).
Proof.
  intros P. assert (E : forall c, add_all tr c = rsum (map (fun o => rsum (map (hit c) (writes pf o))) (seq 0 (length As)))).
  { intros c. rewrite (add_all_perm _ _ P), add_all_sum, concat_map, rsum_concat, !map_map. reflexivity. }
  split.
  - intros o a i b x k Ea Ei Ex Eb. assert (Ho : (o < length As)%nat) by (apply nth_error_Some; congruence). rewrite E, (rsum_single _ o); [|exact Ho|].
    + rewrite writes_sum. unfold PointMeshSpec.at_object. rewrite Ea, Ei, Ex, Eb. cbn [fst snd Bool.eqb andb]. rewrite Nat.eqb_refl. lra.
    + intros o' N. rewrite writes_sum. unfold PointMeshSpec.at_object. destruct (nth_error As o'); [|reflexivity]. destruct (nth_error idx o') as [i'|]; [|reflexivity]. destruct (nth_error g o'); [|reflexivity]. destruct (nth_error Bs (Z.to_nat i')); [|reflexivity]. cbn [fst snd Bool.eqb andb]. destruct (Nat.eqb_spec o o'); [congruence|lra].
  - intros j k. rewrite E. f_equal. apply map_ext. intros o. rewrite writes_sum. unfold PointMeshSpec.at_object. destruct (nth_error As o); [|reflexivity]. destruct (nth_error idx o) as [i'|]; [|reflexivity]. destruct (nth_error g o); [|reflexivity]. destruct (nth_error Bs (Z.to_nat i')); [|reflexivity]. cbn [fst snd Bool.eqb andb]. lra.
Qed.
Lemma cpu_cells : exists out, cpu_backward bw As Bs idx g = Ok out /\ cells out.
Proof. eexists. split; [apply cpu_writes|]. eapply cells_of. apply Permutation_refl. Qed.
Lemma gpu_cells n pf out : (0 < n)%nat -> gpu_backward bw n pf As Bs idx g out -> exists o, out = Ok o /\ cells o.
Proof. intros Hn H. destruct (gpu_writes n pf out Hn H) as (tr & -> & P). eexists. split; [reflexivity|]. exact (cells_of _ _ P). Qed.
Lemma gpu_runs n pf : (0 < n)%nat -> exists out, gpu_backward bw n pf As Bs idx g out.
Proof.
  intros Hn. unfold gpu_backward. destruct (rmap _ (seq 0 n)) as [per|e]; [|exists (Fail e); reflexivity]. exists (Ok (add_all (concat per))), (concat per). split; [apply interleaving_seq|reflexivity].
Qed.
End Sum.

(* the same value of every cell in both implementations *)
Lemma cells_agree {A B} (bw : A -> B -> R -> list R * list R) As Bs idx g o1 o2 : picks As Bs idx g -> gradient_rows As Bs idx g bw o1 -> gradient_rows As Bs idx g bw o2 ->
  (forall o k, (o < length As)%nat -> o1 (false, o, k) = o2 (false, o, k)) /\ (forall j k, o1 (true, j, k) = o2 (true, j, k)).
Proof.
  intros HP (A1 & B1) (A2 & B2). split.
  - intros o k Ho. destruct (picked bw As Bs idx g HP o Ho) as (a & i & b & x & Ea & Ei & Ex & Hi & Eb). rewrite (A1 o a i b x k), (A2 o a i b x k) by assumption. reflexivity.
  - intros j k. rewrite B1, B2. reflexivity.
Qed.

Lemma set_same {T} (l : list T) j v : (j < length l)%nat -> nth_error (set_nth l j v) j = Some v.
Proof. intros H. unfold set_nth. rewrite nth_error_app2 by (rewrite firstn_length; lia). rewrite firstn_length, Nat.min_l by lia. rewrite Nat.sub_diag. reflexivity. Qed.
Lemma set_other {T} (l : list T) j v i : i <> j -> nth_error (set_nth l j v) i = nth_error l i \/ (length l <= j)%nat.
Proof.
  intros N. destruct (Nat.le_gt_cases (length l) j) as [L|L]; [right; exact L|left]. unfold set_nth. destruct (Nat.lt_ge_cases i j) as [Q|Q].
  - rewrite nth_error_app1 by (rewrite firstn_length; lia). rewrite nth_error_firstn. destruct (Nat.ltb_spec i j); [reflexivity|lia].
  - rewrite nth_error_app2 by (rewrite firstn_length; lia). rewrite firstn_length, Nat.min_l by lia. destruct (i - j)%nat as [|q] eqn:E; [lia|]. cbn [nth_error]. rewrite nth_error_skipn. f_equal. lia.
Qed.
Lemma set_length {T} (l : list T) j v : (j < length l)%nat -> length (set_nth l j v) = length l.
Proof. intros H. unfold set_nth. rewrite app_length, firstn_length. cbn [length]. rewrite skipn_length. lia. Qed.

Section Deriv.
Context {A B : Type} (d : A -> B -> R) (bw : A -> B -> R -> list R * list R) (As : list A) (Bs : list B) (idx : list Z) (g : list R).
Context (HP : picks As Bs idx g) (out : cell -> R) (HC : gradient_rows As Bs idx g bw out).
(* moving object o along a curve *)
Lemma object_derivative o a i b x (curve : R -> A) t0 k : nth_error As o = Some a -> nth_error idx o = Some i -> nth_error g o = Some x -> nth_error Bs (Z.to_nat i) = Some b ->
  derivable_pt_lim (fun t => x * d (curve t) b) t0 (nth k (fst (bw a b x)) 0) ->
  derivable_pt_lim (fun t => weighted_total (set_nth As o (curve t)) Bs idx g d) t0 (out (false, o, k)).
Proof.
  intros Ea Ei Ex Eb HD. rewrite (proj1 HC o a i b x k Ea Ei Ex Eb). assert (Ho : (o < length As)%nat) by (apply nth_error_Some; congruence).
  apply (deriv_ext _ (fun t => rsum (map (fun o' => if (o' =? o)%nat then x * d (curve t) b else at_object As Bs idx g o' (fun a _ b x => x * d a b) 0) (seq 0 (length As))))).
  - intros t. unfold weighted_total. rewrite set_length by exact Ho. f_equal. apply map_ext. intros o'. unfold PointMeshSpec.at_object. destruct (Nat.eqb_spec o' o) as [->|N].
    + rewrite set_same, Ei, Ex, Eb by exact Ho. reflexivity.
    + destruct (set_other As o (curve t) o' N) as [->|]; [reflexivity|lia].
  - apply (deriv_val _ _ (rsum (map (fun o' => if (o' =? o)%nat then nth k (fst (bw a b x)) 0 else 0) (seq 0 (length As))))).
    + rewrite (rsum_single _ o); [rewrite Nat.eqb_refl; reflexivity|exact Ho|]. intros o' N. destruct (Nat.eqb_spec o' o); [contradiction|reflexivity].
    + apply deriv_rsum. intros o' _. destruct (Nat.eqb_spec o' o); [exact HD|apply deriv_const].
Qed.
(* moving target j along a curve *)
Lemma target_derivative j b (curve : R -> B) t0 k : nth_error Bs j = Some b ->
  (forall a x, In a As -> derivable_pt_lim (fun t => x * d a (curve t)) t0 (nth k (snd (bw a b x)) 0)) ->
  derivable_pt_lim (fun t => weighted_total As (set_nth Bs j (curve t)) idx g d) t0 (out (true, j, k)).
Proof.
  intros Eb HD. rewrite (proj2 HC j k). assert (Hj : (j < length Bs)%nat) by (apply nth_error_Some; congruence). unfold weighted_total. apply deriv_rsum. intros o _. unfold PointMeshSpec.at_object.
  destruct (nth_error As o) as [a|] eqn:Ea; [|apply deriv_const]. destruct (nth_error idx o) as [i|] eqn:Ei; [|apply deriv_const]. destruct (nth_error g o) as [x|] eqn:Ex; [|apply deriv_const].
  destruct (Nat.eq_dec (Z.to_nat i) j) as [E|N].
  - rewrite E, Eb, Nat.eqb_refl. apply (deriv_ext _ (fun t => x * d a (curve t))); [intros t; rewrite set_same by exact Hj; reflexivity|]. apply HD. exact (nth_error_In _ _ Ea).
  - assert (E : forall t, nth_error (set_nth Bs j (curve t)) (Z.to_nat i) = nth_error Bs (Z.to_nat i)) by (intros t; destruct (set_other Bs j (curve t) _ N) as [H|H]; [exact H|lia]).
    destruct (nth_error Bs (Z.to_nat i)) as [b'|] eqn:E'.
    + destruct (Nat.eqb_spec j (Z.to_nat i)); [congruence|]. apply (deriv_ext _ (fun _ => x * d a b')); [intros t; rewrite E; reflexivity|apply deriv_const].
    + apply (deriv_ext _ (fun _ => 0)); [intros t; rewrite E; reflexivity|apply deriv_const].
Qed.
End Deriv.

Ltac sides := unfold point_edge, triple in *; cbn [Nat.add] in *.
Ltac bwd p s x Hs := let H := fresh in pose proof (GeomProps.segment_distance_3d_backward p (fst s) (snd s) x Hs) as H; unfold edge_point_bwd, point_edge_bwd; destruct (pline3_bwd p (fst s) (snd s) x) as ((?, ?), ?); destruct H as ((? & ? & ?) & (? & ? & ?) & (? & ? & ?)); cbn; assumption.
(* points are the objects, segments the targets *)
Theorem point_edge_gradient ps segs idx g out : picks ps segs idx g -> List.Forall long_seg segs -> gradient_rows ps segs idx g point_edge_bwd out -> points_to_segs_gradient ps segs idx g out.
Proof.
  intros HP HF HC. split.
  - intros o p Ep. assert (Ho : (o < length ps)%nat) by (apply nth_error_Some; congruence). destruct (picked point_edge_bwd ps segs idx g HP o Ho) as (a & i & s & x & Ea & Ei & Ex & Hi & Eb). assert (p = a) by congruence. subst a.
    assert (Hs : long_seg s) by (exact (proj1 (Forall_forall _ _) HF s (nth_error_In _ _ Eb))). sides. repeat split; cbn [x3 y3 z3];
    eapply (object_derivative _ _ ps segs idx g out HC o p i s x); try eassumption; bwd p s x Hs.
  - intros j s Es. assert (Hs : long_seg s) by (exact (proj1 (Forall_forall _ _) HF s (nth_error_In _ _ Es))). sides.
    split; repeat split; cbn [x3 y3 z3]; eapply (target_derivative _ _ ps segs idx g out HC j s); try eassumption; intros p x _; cbn [fst snd]; bwd p s x Hs.
Qed.
(* segments are the objects, points the targets *)
Theorem edge_point_gradient segs ps idx g out : picks segs ps idx g -> List.Forall long_seg segs -> gradient_rows segs ps idx g edge_point_bwd out -> segs_to_points_gradient segs ps idx g out.
Proof.
  intros HP HF HC. split.
  - intros o s Es. assert (Ho : (o < length segs)%nat) by (apply nth_error_Some; congruence). destruct (picked edge_point_bwd segs ps idx g HP o Ho) as (a & i & p & x & Ea & Ei & Ex & Hi & Eb). assert (s = a) by congruence. subst a.
    assert (Hs : long_seg s) by (exact (proj1 (Forall_forall _ _) HF s (nth_error_In _ _ Es))). sides. split; repeat split; cbn [x3 y3 z3];
    eapply (object_derivative (fun (s : seg) p => pline3 p (fst s) (snd s)) _ segs ps idx g out HC o s i p x); try eassumption; cbn [fst snd]; bwd p s x Hs.
  - intros j p Ep. sides. repeat split; cbn [x3 y3 z3]; eapply (target_derivative (fun (s : seg) p => pline3 p (fst s) (snd s)) _ segs ps idx g out HC j p); try eassumption; intros s x Hin;
    assert (Hs : long_seg s) by (exact (proj1 (Forall_forall _ _) HF s Hin)); bwd p s x Hs.
Qed.
