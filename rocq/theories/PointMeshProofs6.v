(* What the values of the losses mean, and where the CPU kernel goes wrong. *)
From Verif Require Import Base RBase Geom GeomSpec FaceAreas FaceAreasSpec MeshesSpec Laplace LaplaceSpec LaplaceProofs5 PointMesh PointMeshSpec PointMeshProofs PointMeshProofs4.
From Verif Require GeomProofs GeomProps.
Local Open Scope R_scope.

Lemma flt_max_pos : 0 < flt_max.
Proof. unfold flt_max. apply Rmult_lt_0_compat; [|apply pow_lt; lra]. assert (H : 1 < 2 ^ 24) by (apply Rlt_pow_R1; [lra|lia]). lra. Qed.
Lemma smallest_nonneg l : Forall (fun x => 0 <= x) l -> 0 <= smallest l.
Proof. intros H. apply smallest_glb; [left; exact flt_max_pos|]. apply Forall_forall. exact H. Qed.
Lemma smallest_zero l : Forall (fun x => 0 <= x) l -> (smallest l = 0 <-> In 0 l).
Proof.
  intros H. split.
  - induction H as [|x l Hx H IH]; cbn; [intros E; pose proof flt_max_pos; lra|]. change (fold_right Rmin flt_max l) with (smallest l). unfold Rmin. destruct (Rle_dec x (smallest l)); intros E; [left; exact E|right; apply IH; exact E].
  - intros Hin. apply Rle_antisym; [apply smallest_le; exact Hin|apply smallest_nonneg; exact H].
Qed.
Lemma edge_nonneg p s : 0 <= point_edge p s.
Proof. unfold point_edge. destruct (GeomProofs.pline3_attained p (fst s) (snd s)) as (q & _ & <-). apply GeomProofs.sqd3_nonneg. Qed.
Lemma face_nonneg ma p t : 0 <= point_face ma p t.
Proof.
  unfold point_face, ptri3. cbv zeta. destruct (_ && _); [apply Rle_0_sqr|]. pose proof (fun a b => edge_nonneg p (a, b)) as H. unfold point_edge in H. cbn [fst snd] in H.
  destruct (Rltb _ _); [apply H|]. destruct (Rltb _ _); apply H.
Qed.
Lemma sqd3_zero p q : sqd3 p q = 0 -> p = q.
Proof. destruct p as [a b c], q as [a' b' c']. unfold sqd3. cbn. intros H. assert (a = a' /\ b = b' /\ c = c') as (-> & -> & ->); [|reflexivity]. pose proof (Rle_0_sqr (a - a')). pose proof (Rle_0_sqr (b - b')). pose proof (Rle_0_sqr (c - c')). unfold Rsqr in *. repeat split; apply Rminus_diag_uniq; apply Rsqr_0_uniq; unfold Rsqr; nra. Qed.
Lemma sqd3_refl p : sqd3 p p = 0.
Proof. unfold sqd3. ring. Qed.
Lemma edge_zero p s : sound_seg s -> (point_edge p s = 0 <-> on_seg3 p (fst s) (snd s)).
Proof.
  intros Hs. unfold point_edge. split.
  - intros E. destruct (GeomProofs.pline3_attained p (fst s) (snd s)) as (q & Hq & Eq). rewrite E in Eq. apply sqd3_zero in Eq. subst q. exact Hq.
  - intros H. destruct (GeomProps.segment_distance_3d p (fst s) (snd s) Hs) as (_ & M). specialize (M p H). rewrite sqd3_refl in M. apply Rle_antisym; [exact M|exact (edge_nonneg p s)].
Qed.
(* the smallest of the code's distances is the distance to the nearest point of the edges *)
Theorem smallest_is_min p segs : segs <> [] -> Forall sound_seg segs -> Forall (fun s => point_edge p s < flt_max) segs -> is_min (on_segs segs) (sqd3 p) (smallest (map (point_edge p) segs)).
Proof.
  intros Hne Hs Hm. rewrite Forall_forall in Hs, Hm. split.
  - assert (In (smallest (map (point_edge p) segs)) (map (point_edge p) segs)) as Hin.
    { destruct segs as [|s0 segs]; [contradiction|]. clear Hne Hs. assert (G : forall l, (forall s, In s l -> point_edge p s < flt_max) -> In (smallest (map (point_edge p) l)) (map (point_edge p) l) \/ smallest (map (point_edge p) l) = flt_max).
      { induction l as [|s l IH]; intros H; [right; reflexivity|]. cbn [map smallest fold_right In]. change (fold_right Rmin flt_max (map (point_edge p) l)) with (smallest (map (point_edge p) l)). unfold Rmin. destruct (Rle_dec (point_edge p s) (smallest (map (point_edge p) l))) as [L|L]; [left; left; reflexivity|]. destruct IH as [I|I]; [intros; apply H; right; assumption|left; right; exact I|]. exfalso. apply L. rewrite I. left. apply H. left. reflexivity. }
      destruct (G _ Hm) as [I|I]; [exact I|]. exfalso. assert (smallest (map (point_edge p) (s0 :: segs)) <= point_edge p s0) by (apply smallest_le; left; reflexivity). specialize (Hm s0 (or_introl eq_refl)). lra. }
    apply in_map_iff in Hin as (s & <- & Hin). destruct (GeomProofs.pline3_attained p (fst s) (snd s)) as (q & Hq & Eq). exists q. split; [exists s; split; assumption|exact Eq].
  - intros q (s & Hin & Hq). eapply Rle_trans; [apply smallest_le, in_map, Hin|]. destruct (GeomProps.segment_distance_3d p (fst s) (snd s) (Hs s Hin)) as (_ & M). exact (M q Hq).
Qed.
Section Mean.
Context {T : Type} (d : vec3 -> T -> R) (Hd : forall p x, 0 <= d p x).
Lemma row_nonneg {X Y} (f : X -> Y -> R) (Hf : forall x y, 0 <= f x y) xs ys : Forall (fun v => 0 <= v) (map (fun x => smallest (map (f x) ys)) xs).
Proof. apply Forall_map, Forall_forall. intros x _. apply smallest_nonneg, Forall_map, Forall_forall. intros y _. apply Hf. Qed.
Lemma to_nearest_nonneg ps xs : 0 <= to_nearest d ps xs.
Proof. unfold to_nearest. pose proof (mean_nonneg _ (row_nonneg d Hd ps xs)). pose proof (mean_nonneg _ (row_nonneg (fun x p => d p x) (fun x p => Hd p x) xs ps)). lra. Qed.
Lemma loss_nonneg C X : 0 <= mean_to_nearest d C X.
Proof. apply mean_nonneg, Forall_map, Forall_forall. intros q _. apply to_nearest_nonneg. Qed.
Lemma loss_zero C X : length C = length X -> (mean_to_nearest d C X = 0 <-> forall g ps xs, nth_error C g = Some ps -> nth_error X g = Some xs ->
  (forall p, In p ps -> exists x, In x xs /\ d p x = 0) /\ (forall x, In x xs -> exists p, In p ps /\ d p x = 0)).
Proof.
  intros HL. unfold mean_to_nearest. rewrite mean_zero by (apply Forall_map, Forall_forall; intros q _; apply to_nearest_nonneg). rewrite Forall_map, Forall_forall.
  assert (E : forall ps xs, to_nearest d ps xs = 0 <-> (forall p, In p ps -> exists x, In x xs /\ d p x = 0) /\ (forall x, In x xs -> exists p, In p ps /\ d p x = 0)).
  { intros ps xs. pose proof (row_nonneg d Hd ps xs) as N1. pose proof (row_nonneg (fun x p => d p x) (fun x p => Hd p x) xs ps) as N2.
    assert (Z : forall {X Y} (f : X -> Y -> R) (Hf : forall x y, 0 <= f x y) us vs, mean (map (fun x => smallest (map (f x) vs)) us) = 0 <-> forall u, In u us -> exists v, In v vs /\ f u v = 0).
    { intros X0 Y f Hf us vs. rewrite (mean_zero _ (row_nonneg f Hf us vs)), Forall_map, Forall_forall. split; intros H u Hu; specialize (H u Hu).
      - apply smallest_zero in H; [|apply Forall_map, Forall_forall; intros y _; apply Hf]. apply in_map_iff in H as (v & E & Hv). exists v. split; assumption.
      - apply smallest_zero; [apply Forall_map, Forall_forall; intros y _; apply Hf|]. destruct H as (v & Hv & E). apply in_map_iff. exists v. split; assumption. }
    rewrite <- (Z _ _ d Hd ps xs), <- (Z _ _ (fun x p => d p x) (fun x p => Hd p x) xs ps). unfold to_nearest. pose proof (mean_nonneg _ N1). pose proof (mean_nonneg _ N2). split; [intros; split; lra|intros (A & B); lra]. }
  split.
  - intros H g ps xs Hp Hx. apply E. apply (H (ps, xs)). apply (nth_error_In _ g). clear -Hp Hx. revert X g Hp Hx. induction C as [|c C IH]; intros [|x X] [|g] Hp Hx; cbn in *; try discriminate; [congruence|auto].
  - intros H (ps, xs) Hin. cbn [fst snd]. apply E. apply In_nth_error in Hin as (g & Hg). apply (H g); clear -Hg; revert X g Hg; induction C as [|c C IH]; intros [|x X] [|g] Hg; cbn in *; try discriminate; try congruence; eauto.
Qed.
End Mean.

Theorem edge_loss_zero C X : length C = length X -> Forall (Forall sound_seg) X ->
  (mean_to_nearest point_edge C X = 0 <-> forall g ps segs, nth_error C g = Some ps -> nth_error X g = Some segs ->
     (forall p, In p ps -> on_segs segs p) /\ (forall s, In s segs -> exists p, In p ps /\ on_seg3 p (fst s) (snd s))).
Proof.
  intros HL HS. rewrite (loss_zero point_edge edge_nonneg C X HL). rewrite Forall_forall in HS.
  assert (Q : forall g segs s p, nth_error X g = Some segs -> In s segs -> (point_edge p s = 0 <-> on_seg3 p (fst s) (snd s))).
  { intros g segs s p Hg Hs. apply edge_zero. exact (proj1 (Forall_forall _ _) (HS segs (nth_error_In _ _ Hg)) s Hs). }
  split; intros H g ps segs Hp Hx; destruct (H g ps segs Hp Hx) as (A & B); split.
  - intros p Hin. destruct (A p Hin) as (s & Hs & E). exists s. split; [exact Hs|]. apply (Q g segs s p Hx Hs). exact E.
  - intros s Hs. destruct (B s Hs) as (p & Hin & E). exists p. split; [exact Hin|]. apply (Q g segs s p Hx Hs). exact E.
  - intros p Hin. destruct (A p Hin) as (s & Hs & E). exists s. split; [exact Hs|]. apply (Q g segs s p Hx Hs). exact E.
  - intros s Hs. destruct (B s Hs) as (p & Hin & E). exists p. split; [exact Hin|]. apply (Q g segs s p Hx Hs). exact E.
Qed.
Lemma mean_const x (l : list R) : l <> [] -> Forall (fun y => y = x) l -> mean l = x.
Proof.
  intros Hne H. assert (E : rsum l = x * INR (length l)) by (clear Hne; induction H as [|y l -> H IH]; [cbn; lra|]; rewrite rsum_cons, IH; change (length (x :: l)) with (S (length l)); rewrite S_INR; lra).
  unfold mean. destruct l as [|y l]; [contradiction|]. rewrite E. field. apply not_0_INR. discriminate.
Qed.
(* a batch element without points, or without primitives *)
Theorem lonely_primitives {T} (d : vec3 -> T -> R) xs : xs <> [] -> to_nearest d [] xs = flt_max.
Proof. intros H. unfold to_nearest. cbn [map]. rewrite (mean_const flt_max (map _ xs)); [cbn; lra|destruct xs; [contradiction|discriminate]|]. apply Forall_map, Forall_forall. intros x _. reflexivity. Qed.
Theorem lonely_points {T} (d : vec3 -> T -> R) ps : ps <> [] -> to_nearest d ps [] = flt_max.
Proof. intros H. unfold to_nearest. cbn [map]. rewrite (mean_const flt_max (map _ ps)); [cbn; lra|destruct ps; [contradiction|discriminate]|]. apply Forall_map, Forall_forall. intros x _. reflexivity. Qed.

(* point_mesh_cpu.cpp:186-198 goes to the next batch element once per object, so it never skips an element without objects *)
Definition far : vec3 := V3 1 0 0.
Definition zero : vec3 := V3 0 0 0.
Lemma degenerate p v : pline3 p v v = sqd3 p v.
Proof.
  destruct (GeomProofs.pline3_attained p v v) as (q & (t & _ & X & Y & Z) & E). rewrite <- E. f_equal. destruct q as [a b c], v as [a' b' c']. cbn in *. f_equal; lra.
Qed.
Theorem cpu_empty_refuted : ~ (forall As Bs out, length As = length Bs -> below_max point_edge As Bs -> cpu_forward point_edge (concat As) (firsts As) (concat Bs) (firsts Bs) = Ok out -> nearest_all point_edge As Bs out).
Proof.
  intros H. pose (As := [[]; [zero]]). pose (Bs := [[(far, far)]; [(zero, zero)]]).
  assert (E : cpu_forward point_edge (concat As) (firsts As) (concat Bs) (firsts Bs) = Ok [(1, 0%Z)]).
  { unfold As, Bs, cpu_forward. cbn. unfold point_edge. cbn [fst snd]. rewrite degenerate. replace (sqd3 zero far) with 1 by (unfold sqd3, zero, far; cbn; ring).
    destruct (Rleb_spec 1 flt_max) as [L|L]; [reflexivity|]. exfalso. apply L. unfold flt_max. assert (2 <= 2 ^ 24) by (replace 2 with (2 ^ 1) at 1 by ring; apply Rle_pow; [lra|lia]). assert (1 <= 2 ^ 104) by (apply pow_R1_Rle; lra). nra. }
  assert (M : 1 < flt_max).
  { unfold flt_max. assert (4 <= 2 ^ 24) by (replace 4 with (2 ^ 2) by ring; apply Rle_pow; [lra|lia]). assert (1 <= 2 ^ 104) by (apply pow_R1_Rle; lra). nra. }
  destruct (H As Bs [(1, 0%Z)] eq_refl) as (_ & N); [|exact E|].
  - intros g xs ys a b Hx Hy Ha Hb. destruct g as [|[|g]]; cbn in Hx, Hy; [injection Hx as <-; destruct Ha| |destruct g; discriminate]. injection Hx as <-. injection Hy as <-. destruct Ha as [<-|[]]. destruct Hb as [<-|[]]. unfold point_edge. cbn [fst snd]. rewrite degenerate, sqd3_refl. lra.
  - destruct (N 1%nat [zero] [(zero, zero)] 0%nat zero eq_refl eq_refl eq_refl) as (r & Er & Nr). cbn in Er. injection Er as <-. destruct Nr as (j & b & Hj & Er & _). destruct j as [|j]; [|destruct j; discriminate]. cbn in Hj. injection Hj as <-. injection Er as Er _. unfold point_edge in Er. cbn [fst snd] in Er. rewrite degenerate, sqd3_refl in Er. lra.
Qed.
