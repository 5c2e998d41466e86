(* Splatting: results of the whole function. *)
From Coq Require Import ZArith Reals Lra.
From Verif Require Import Base RBase Geom Threads ThreadsProofs TexturesProofs Splat SplatSpec SplatProofs SplatProofs2 SplatProofs3 SplatProofs4.
Local Open Scope R_scope.

Lemma over_ext P m f g : (forall i, (i < P)%nat -> f i = g i) -> over_points P m f = over_points P m g.
Proof. intros H. unfold over_points. apply sumf_ext. intros i Hi. destruct (Reqb _ _); [reflexivity|apply H; exact Hi]. Qed.
Lemma over_le P m f g : (forall i, (i < P)%nat -> f i <= g i) -> over_points P m f <= over_points P m g.
Proof. intros H. unfold over_points. apply sumf_le. intros i Hi. destruct (Reqb _ _); [lra|apply H; exact Hi]. Qed.
Lemma over_scal P m a f : over_points P m (fun i => a * f i) = a * over_points P m f.
Proof. unfold over_points. rewrite <- sumf_scal. apply sumf_ext. intros i _. destruct (Reqb _ _); lra. Qed.

Definition divisor (rescale : bool) (low : R) (d : R) : R := if rescale then Rmax d low else 1.
Theorem cpp_accumulates N P C dims pts pf dens feats splat minw mask grid rescale rnd align :
  (forall b, (b < N)%nat -> fits dims (grid b)) ->
  (splat = true -> forall b i, (b < N)%nat -> (i < P)%nat -> regular3 (axes align (grid b) (pts b i))) ->
  exists W F D, all_votes vote N P splat align grid pts W /\
  add_points N P C dims false pts pf dens (Some feats) splat minw mask grid rescale rnd align = Ok (F, D) /\
  accumulates N P C dims W (unmasked mask) pf dens feats (fun d => if rescale then Rmax d (if splat then minw else 1) else 1) F D.
Proof.
  intros Hfit Hreg. exists (fun b i c => at_cell c (increments align splat (grid b) (pts b i))).
  destruct (add_perm N P C dims pts pf grid (unmasked mask) 1 align splat Hfit _ (joined_volumes dens feats) (Permutation_refl _)) as (v' & E & HV & _).
  unfold add_points. fold (unmasked mask). unfold forward_cpu. change (flat_map (fun b => flat_map (point_writes C pts pf grid (unmasked mask) 1 align splat b) (seq 0 P)) (seq 0 N)) with (all_writes N P C pts pf grid (unmasked mask) 1 align splat). rewrite E. cbn [rbind]. unfold scaled.
  eexists. eexists. split; [|split; [reflexivity|]].
  - intros b i c Hb Hi. split; [intros Hc; apply votes; auto|apply incr_outside].
  - intros b c Hb Hc. split.
    + rewrite HV by exact Hb. cbn [joined_volumes]. f_equal. apply over_ext. intros i _. cbn [factor]. lra.
    + intros k Hk. rewrite !HV by exact Hb. cbn [joined_volumes factor]. rewrite (proj2 (Nat.ltb_lt k C) Hk).
      rewrite (over_ext _ _ (fun i => at_cell c (increments align splat (grid b) (pts b i)) * (pf b i k * 1)) (fun i => at_cell c (increments align splat (grid b) (pts b i)) * pf b i k)) by (intros; lra).
      destruct rescale; [reflexivity|]. unfold Rdiv. rewrite Rinv_1, Rmult_1_r. reflexivity.
Qed.
Theorem cuda_same N P C dims pts pf grid mask pw align splat blocks threads t v :
  (forall b, (b < N)%nat -> fits dims (grid b)) -> (0 < blocks)%nat -> (0 < threads)%nat ->
  interleaving (thread_writes N P C pts pf grid mask pw align splat blocks threads) t ->
  exists v1 v2, add_all dims t v = Ok v1 /\ forward_cpu N P C dims pts pf grid mask pw align splat v = Ok v2 /\ forall b k c, v1 b k c = v2 b k c.
Proof.
  intros Hfit HB HT HI. pose proof (cuda_perm _ _ _ _ _ _ _ _ _ _ _ _ _ HB HT HI) as HP.
  destruct (add_perm N P C dims pts pf grid mask pw align splat Hfit _ v HP) as (v1 & E1 & H1 & H1').
  destruct (add_perm N P C dims pts pf grid mask pw align splat Hfit _ v (Permutation_refl _)) as (v2 & E2 & H2 & H2').
  exists v1, v2. split; [exact E1|]. split; [exact E2|]. intros b k c. destruct (Nat.lt_ge_cases b N); [rewrite H1, H2 by assumption; reflexivity|rewrite H1', H2' by assumption; reflexivity].
Qed.

(* mass *)
Definition within (l : R) (g : Z) : Prop := 0 <= l <= IZR g - 1.
Lemma to_nat_INR g x : 0 <= x <= IZR g - 1 -> INR (Z.to_nat g) = IZR g.
Proof. intros H. rewrite INR_IZR_INZ, Z2Nat.id; [reflexivity|]. apply le_IZR. lra. Qed.
Lemma mass_one gz gy gx lz ly lx : 0 <= lz <= IZR gz - 1 -> 0 <= ly <= IZR gy - 1 -> 0 <= lx <= IZR gx - 1 -> rsum (map (tri_weight (lz, ly, lx)) (all_cells (gz, gy, gx))) = 1.
Proof.
  assert (A : forall g l, 0 <= l <= IZR g - 1 -> axis_sum (Z.to_nat g) l = 1) by (intros g l H; apply axis_sum_one; rewrite (to_nat_INR g l H); exact H).
  intros Hz Hy Hx. rewrite total_weight, (A gz), (A gy), (A gx) by assumption. lra.
Qed.
Lemma mass_le grid l : 0 <= rsum (map (tri_weight l) (all_cells grid)) <= 1.
Proof.
  destruct grid as ((gz, gy), gx), l as ((lz, ly), lx). rewrite total_weight. pose proof (axis_sum_range (Z.to_nat gz) lz). pose proof (axis_sum_range (Z.to_nat gy) ly). pose proof (axis_sum_range (Z.to_nat gx) lx).
  assert (0 <= axis_sum (Z.to_nat gz) lz * axis_sum (Z.to_nat gy) ly <= 1) by nra. nra.
Qed.
Lemma weight_nonneg l c : 0 <= tri_weight l c.
Proof. destruct l as ((lz, ly), lx), c as ((z, y), x). unfold tri_weight. pose proof (tent_range (lz - IZR z)). pose proof (tent_range (ly - IZR y)). pose proof (tent_range (lx - IZR x)). apply Rmult_le_pos; [apply Rmult_le_pos|]; lra. Qed.
Lemma axis_far l g x : l <= -1 \/ IZR g <= l -> (0 <= x < g)%Z -> tent (l - IZR x) = 0.
Proof. intros HL (H1 & H2). apply IZR_le in H1. assert (H3 : (x + 1 <= g)%Z) by lia. apply IZR_le in H3. rewrite plus_IZR in H3. apply tent_zero. destruct HL; [left|right]; lra. Qed.
Lemma vote_far grid l c : (exists a, along a l <= -1 \/ IZR (along a grid) <= along a l) -> inside grid c -> tri_weight l c = 0.
Proof.
  destruct grid as ((gz, gy), gx), l as ((lz, ly), lx), c as ((z, y), x). intros (a & H) (Hz & Hy & Hx). unfold tri_weight. destruct a; cbn [along] in H.
  - rewrite (axis_far _ _ _ H Hx). lra.
  - rewrite (axis_far _ _ _ H Hy). lra.
  - rewrite (axis_far _ _ _ H Hz). lra.
Qed.
(* nearest: the votes of a point are 1 for one voxel, 0 for the others *)
Lemma nearest_one grid l (W : cell -> R) c0 : (forall c, inside grid c -> vote false l c (W c)) -> nearest_cell l c0 -> inside grid c0 ->
  W c0 = 1 /\ forall c, inside grid c -> c <> c0 -> W c = 0.
Proof.
  intros HW HN Hin. split.
  - destruct (HW c0 Hin) as [(_ & H)|(H & _)]; [exact H|contradiction].
  - intros c Hc Nc. destruct (HW c Hc) as [(H & _)|(_ & H)]; [|exact H]. exfalso. apply Nc. destruct l as ((lz, ly), lx), c as ((z, y), x), c0 as ((z0, y0), x0). destruct H as (A1 & A2 & A3), HN as (B1 & B2 & B3).
    f_equal; [f_equal|]; eapply nearest_unique; eassumption.
Qed.
Lemma vote_nonneg splat l c w : vote splat l c w -> 0 <= w.
Proof. unfold vote. destruct splat; [intros ->; apply weight_nonneg|]. intros [(_ & ->)|(_ & ->)]; lra. Qed.

(* weighted means *)
Lemma mean_between P m (w f : nat -> R) low lo hi : (forall i, (i < P)%nat -> 0 <= w i) -> 0 < low -> low <= over_points P m w ->
  (forall i, (i < P)%nat -> lo <= f i <= hi) -> lo <= (0 + over_points P m (fun i => w i * f i)) / Rmax (0 + over_points P m w) low <= hi.
Proof.
  intros Hw Hl HL Hf. rewrite !Rplus_0_l. rewrite Rmax_left by lra. set (s := over_points P m w) in *.
  assert (A : lo * s <= over_points P m (fun i => w i * f i)) by (unfold s; rewrite <- over_scal; apply over_le; intros i Hi; pose proof (Hw i Hi); pose proof (Hf i Hi); nra).
  assert (B : over_points P m (fun i => w i * f i) <= hi * s) by (unfold s; rewrite <- over_scal; apply over_le; intros i Hi; pose proof (Hw i Hi); pose proof (Hf i Hi); nra).
  split; apply (Rmult_le_reg_r s); try lra; unfold Rdiv; rewrite Rmult_assoc, Rinv_l by lra; lra.
Qed.

(* the Python path *)
Theorem python_accumulates N P C dims pts pf dens feats splat minw mask grid rescale rnd align :
  (0 < N)%nat -> (forall b, (b < N)%nat -> grid b = dims) -> (let '(D, H, W) := dims in 0 < D /\ 0 < H /\ 0 < W)%Z ->
  (forall b i, (b < N)%nat -> (i < P)%nat -> (0 <= rnd b i < cell_prod dims)%Z) ->
  (forall b i, (b < N)%nat -> (i < P)%nat -> unmasked mask b i = 0 \/ unmasked mask b i = 1) ->
  exists W F D, all_votes vote_even N P splat true grid pts W /\
  add_points N P C dims true pts pf dens feats splat minw mask grid rescale rnd align = Ok (F, D) /\
  accumulates N P C dims W (unmasked mask) pf dens (match feats with None => fun _ _ _ => 0 | Some f => f end) (fun d => Rmax d (if splat then minw else 1)) F D.
Proof.
  intros HN Hg Hpos Hr Hbin. exists (fun b i c => if in_grid dims c then weight dims pts grid splat b i c else 0).
  unfold add_points. set (f0 := match feats with None => _ | Some _ => _ end).
  match goal with |- context [py_sums _ _ _ _ _ _ _ _ _ _ ?v] => destruct (py_sums_ok N P C dims pts pf grid mask rnd HN Hg Hpos Hr Hbin splat v) as (v' & E & HV) end.
  rewrite E. cbn [rbind]. unfold scaled. eexists. eexists. split; [|split; [reflexivity|]].
  - intros b i c Hb Hi. rewrite (Hg b Hb). split; intros Hc.
    + rewrite (proj2 (in_grid_iff dims c) Hc). eapply weight_vote; eassumption.
    + destruct (in_grid dims c) eqn:E2; [apply in_grid_iff in E2; contradiction|reflexivity].
  - intros b c Hb Hc. rewrite (proj2 (in_grid_iff dims c) Hc). pose proof (flat_cell dims c Hc) as FC. split.
    + rewrite HV by assumption. destruct dims as ((D0, H0), W0). cbv zeta in FC. rewrite FC. cbn [joined_volumes]. f_equal. apply over_ext. intros i _. cbn [factor]. lra.
    + intros k Hk. rewrite !HV by assumption. destruct dims as ((D0, H0), W0). cbv zeta in FC. rewrite FC. cbn [joined_volumes factor]. rewrite (proj2 (Nat.ltb_lt k C) Hk). reflexivity.
Qed.
(* the two paths *)
Lemma even_nearest l c w w' : no_tie l ->
  vote false l c w -> vote_even false l c w' -> w = w'.
Proof.
  destruct l as ((lz, ly), lx), c as ((z, y), x). intros HT Hv He. cbn in Hv, He.
  assert (K : nearest_cell (lz, ly, lx) (z, y, x) <-> nearest_even_cell (lz, ly, lx) (z, y, x)).
  { unfold nearest_cell, nearest_even_cell, is_nearest, is_nearest_even. pose proof (HT z) as (T1 & _ & _). pose proof (HT y) as (_ & T2 & _). pose proof (HT x) as (_ & _ & T3). tauto. }
  unfold nearest_cell, nearest_even_cell in K. destruct Hv as [(A & ->)|(A & ->)], He as [(B & ->)|(B & ->)]; try reflexivity; tauto.
Qed.

Theorem paths_agree N P C dims pts pf dens feats (splat : bool) minw mask grid rnd rnd' :
  (0 < N)%nat -> (forall b, (b < N)%nat -> grid b = dims) -> (let '(D, H, W) := dims in 0 < D /\ 0 < H /\ 0 < W)%Z ->
  (forall b i, (b < N)%nat -> (i < P)%nat -> (0 <= rnd b i < cell_prod dims)%Z) ->
  (forall b i, (b < N)%nat -> (i < P)%nat -> unmasked mask b i = 0 \/ unmasked mask b i = 1) ->
  (forall b i, (b < N)%nat -> (i < P)%nat -> let l := axes true dims (pts b i) in
     if splat then regular3 l else no_tie l) ->
  exists F D F' D',
  add_points N P C dims true pts pf dens (Some feats) splat minw mask grid true rnd true = Ok (F, D) /\
  add_points N P C dims false pts pf dens (Some feats) splat minw mask grid true rnd' true = Ok (F', D') /\
  forall b c, (b < N)%nat -> inside dims c -> D b c = D' b c /\ forall k, (k < C)%nat -> F b k c = F' b k c.
Proof.
  intros HN Hg Hpos Hr Hbin Hl.
  destruct (python_accumulates N P C dims pts pf dens (Some feats) splat minw mask grid true rnd true HN Hg Hpos Hr Hbin) as (W & F & D & HW & E & HA).
  destruct (cpp_accumulates N P C dims pts pf dens feats splat minw mask grid true rnd' true) as (W' & F' & D' & HW' & E' & HA').
  { intros b Hb c. rewrite (Hg b Hb). auto. }
  { intros -> b i Hb Hi. rewrite (Hg b Hb). apply (Hl b i Hb Hi). }
  exists F, D, F', D'. split; [exact E|]. split; [exact E'|]. intros b c Hb Hc.
  assert (EW : forall i, (i < P)%nat -> W b i c = W' b i c).
  { intros i Hi. destruct (HW b i c Hb Hi) as (A & _). destruct (HW' b i c Hb Hi) as (A' & _). rewrite (Hg b Hb) in A, A'. specialize (A Hc). specialize (A' Hc). specialize (Hl b i Hb Hi). cbv zeta in Hl. destruct splat.
    - cbn in A, A'. congruence.
    - symmetry. eapply even_nearest; eassumption. }
  destruct (HA b c Hb Hc) as (D1 & F1). destruct (HA' b c Hb Hc) as (D2 & F2). assert (ED : D b c = D' b c) by (rewrite D1, D2; f_equal; apply over_ext; exact EW). split; [exact ED|].
  intros k Hk. rewrite F1, F2, ED by exact Hk. f_equal. f_equal. apply over_ext. intros i Hi. rewrite EW by exact Hi. reflexivity.
Qed.

(* ---- single points, for the refutations ---- *)
Definition one (p : vec3) : nat -> nat -> vec3 := fun _ _ => p.
Lemma one_point g p splat align minw rnd rescale c : inside g c ->
  exists F D, add_points 1 1 0 g false (one p) (fun _ _ _ => 0) (fun _ _ => 0) (Some (fun _ _ _ => 0)) splat minw None (fun _ => g) rescale rnd align = Ok (F, D) /\
  forall c, D O c = at_cell c (increments align splat g p).
Proof.
  intros _. unfold add_points. destruct (add_perm 1 1 0 g (one p) (fun _ _ _ => 0) (fun _ => g) (fun _ _ => 1) 1 align splat (fun _ _ _ H => H) _ (joined_volumes (fun _ _ => 0) (fun _ _ _ => 0)) (Permutation_refl _)) as (v' & E & HV & _).
  unfold forward_cpu. change (flat_map (fun b => flat_map (point_writes 0 (one p) (fun _ _ _ => 0) (fun _ => g) (fun _ _ => 1) 1 align splat b) (seq 0 1)) (seq 0 1)) with (all_writes 1 1 0 (one p) (fun _ _ _ => 0) (fun _ => g) (fun _ _ => 1) 1 align splat). rewrite E. cbn [rbind]. unfold scaled. eexists. eexists. split; [reflexivity|]. intros c'. cbv beta. rewrite HV by lia. cbn [joined_volumes]. unfold over_points. rewrite sumf_S, sumf_0. unfold one. destruct (Reqb_spec 1 0); [lra|]. cbn [factor]. lra.
Qed.
Lemma trunc_at l k r : (0 <= r < 1) -> l = - (IZR k + r) -> (0 <= k)%Z -> l < 0 -> trunc l = (- k)%Z.
Proof. intros Hr -> Hk Hl. rewrite trunc_neg by exact Hl. f_equal. apply floor_unique. lra. Qed.
Lemma line_cell align x l k r c : loc align 2 x = l -> trunc l = k -> l - IZR k = r ->
  at_cell c (increments align true (1, 1, 2)%Z (V3 x 0 0)) =
  (if in_grid (1, 1, 2)%Z (0, 0, k)%Z then if cell_dec (0, 0, k)%Z c then 1 - r else 0 else 0) +
  (if in_grid (1, 1, 2)%Z (0, 0, k + 1)%Z then if cell_dec (0, 0, k + 1)%Z c then r else 0 else 0).
Proof.
  intros El Ek Er. assert (L0 : loc align 1 0 = 0) by (unfold loc; destruct align; lra). assert (T0 : trunc 0 = 0%Z) by (rewrite trunc_pos by lra; change 0 with (IZR 0); apply floor_IZR).
  unfold increments, at_cell. etransitivity; [apply (rsum_filter _ _ (fun cw : cell * R => if cell_dec (fst cw) c then snd cw else 0))|].
  unfold eight_directions, direction. cbn [map x3 y3 z3 fst snd]. rewrite !L0, !T0, !El, !Ek, Er. unfold up, part. cbn [Z.add]. rewrite Z.add_0_r. rewrite !rsum_cons, rsum_nil.
  assert (G1 : forall x, in_grid (1, 1, 2)%Z (1, 0, x)%Z = false) by (intros; unfold in_grid; cbn; rewrite ?orb_true_r; reflexivity).
  assert (G2 : forall x, in_grid (1, 1, 2)%Z (1, 1, x)%Z = false) by (intros; unfold in_grid; cbn; rewrite ?orb_true_r; reflexivity).
  assert (G3 : forall x, in_grid (1, 1, 2)%Z (0, 1, x)%Z = false) by (intros; unfold in_grid; cbn; rewrite ?orb_true_r; reflexivity).
  rewrite !G1, !G2, !G3. destruct (in_grid _ (0, 0, k)%Z), (in_grid _ (0, 0, k + 1)%Z); repeat destruct (cell_dec _ _); lra.
Qed.
Theorem border_point : exists F D, add_points 1 1 0 (1, 1, 2)%Z false (one (V3 (-3 / 4) 0 0)) (fun _ _ _ => 0) (fun _ _ => 0) (Some (fun _ _ _ => 0)) true 1 None (fun _ => (1, 1, 2)%Z) true (fun _ _ => 0%Z) false = Ok (F, D) /\
  D O (0, 0, 0)%Z = 5 / 4 /\ D O (0, 0, 1)%Z = - (1 / 4).
Proof.
  destruct (one_point (1, 1, 2)%Z (V3 (-3 / 4) 0 0) true false 1 (fun _ _ => 0%Z) true (0, 0, 0)%Z) as (F & D & E & HD); [cbn; lia|]. exists F, D. split; [exact E|]. rewrite !HD.
  assert (El : loc false 2 (-3 / 4) = -1 / 4) by (unfold loc; lra). assert (Ek : trunc (-1 / 4) = 0%Z) by (apply (trunc_at _ 0 (1 / 4)); lra || lia).
  rewrite !(line_cell _ _ _ _ _ _ El Ek eq_refl). split; cbn; lra.
Qed.
Theorem far_point : exists F D, add_points 1 1 0 (1, 1, 2)%Z false (one (V3 (-7 / 2) 0 0)) (fun _ _ _ => 0) (fun _ _ => 0) (Some (fun _ _ _ => 0)) true 1 None (fun _ => (1, 1, 2)%Z) true (fun _ _ => 0%Z) true = Ok (F, D) /\
  D O (0, 0, 0)%Z = - (1 / 4).
Proof.
  destruct (one_point (1, 1, 2)%Z (V3 (-7 / 2) 0 0) true true 1 (fun _ _ => 0%Z) true (0, 0, 0)%Z) as (F & D & E & HD); [cbn; lia|]. exists F, D. split; [exact E|]. rewrite !HD.
  assert (El : loc true 2 (-7 / 2) = -5 / 4) by (unfold loc; lra). assert (Ek : trunc (-5 / 4) = (-1)%Z) by (apply (trunc_at _ 1 (1 / 4)); lra || lia).
  rewrite !(line_cell _ _ _ _ _ _ El Ek eq_refl). cbn. lra.
Qed.
(* align_corners = False in the two paths *)
Theorem python_align : exists F D F' D',
  add_points 1 1 0 (1, 1, 2)%Z true (one (V3 (- 1 / 2) 0 0)) (fun _ _ _ => 0) (fun _ _ => 0) (Some (fun _ _ _ => 0)) true 1 None (fun _ => (1, 1, 2)%Z) true (fun _ _ => 0%Z) false = Ok (F, D) /\
  add_points 1 1 0 (1, 1, 2)%Z false (one (V3 (- 1 / 2) 0 0)) (fun _ _ _ => 0) (fun _ _ => 0) (Some (fun _ _ _ => 0)) true 1 None (fun _ => (1, 1, 2)%Z) true (fun _ _ => 0%Z) false = Ok (F', D') /\
  D O (0, 0, 0)%Z = 3 / 4 /\ D' O (0, 0, 0)%Z = 1.
Proof.
  destruct (python_accumulates 1 1 0 (1, 1, 2)%Z (one (V3 (- 1 / 2) 0 0)) (fun _ _ _ => 0) (fun _ _ => 0) (Some (fun _ _ _ => 0)) true 1 None (fun _ => (1, 1, 2)%Z) true (fun _ _ => 0%Z) false) as (W & F & D & HW & E & HA); [lia|reflexivity|lia|cbn; lia|intros; right; reflexivity|].
  destruct (one_point (1, 1, 2)%Z (V3 (- 1 / 2) 0 0) true false 1 (fun _ _ => 0%Z) true (0, 0, 0)%Z) as (F' & D' & E' & HD'); [cbn; lia|]. exists F, D, F', D'. split; [exact E|]. split; [exact E'|]. split.
  - destruct (HA O (0, 0, 0)%Z) as (HD & _); [lia|cbn; lia|]. rewrite HD. unfold over_points. rewrite sumf_S, sumf_0. cbn [unmasked]. destruct (Reqb_spec 1 0); [lra|]. destruct (HW O O (0, 0, 0)%Z) as (Hv & _); [lia|lia|]. specialize (Hv ltac:(cbn; lia)). cbn in Hv. rewrite Hv. unfold location.
    rewrite !tent_pos by lra. lra.
  - rewrite HD'. assert (El : loc false 2 (-1 / 2) = 0) by (unfold loc; lra). assert (Ek : trunc 0 = 0%Z) by (rewrite trunc_pos by lra; change 0 with (IZR 0); apply floor_IZR).
    rewrite !(line_cell _ _ _ _ _ _ El Ek eq_refl). cbn. lra.
Qed.
Theorem python_small_grid : exists F D,
  add_points 1 1 0 (1, 2, 2)%Z true (one (V3 0 1 0)) (fun _ _ _ => 0) (fun _ _ => 0) None false 1 None (fun _ => (1, 2, 1)%Z) true (fun _ _ => 0%Z) true = Ok (F, D) /\
  nearest_even_cell (axes true (1, 2, 1)%Z (V3 0 1 0)) (0, 1, 0)%Z /\ D O (0, 1, 0)%Z = 0 /\ D O (0, 0, 1)%Z = 1.
Proof.
  assert (R0 : round_even (py_loc 1 0) = 0%Z).
  { apply (nearest_even_unique _ _ _ (round_even_nearest _)). unfold py_loc. split; [rewrite Rabs_right; lra|intros _; reflexivity]. }
  assert (R1 : round_even (py_loc 2 1) = 1%Z).
  { apply (nearest_even_unique _ _ _ (round_even_nearest _)). unfold py_loc. split; [rewrite Rabs_right; lra|]. intros H. rewrite Rabs_right in H; lra. }
  unfold add_points, py_sums, py_scatter, py_round_vote, one. cbn [seq flat_map map x3 y3 z3 app]. rewrite R0, R1. cbn [py_check map seq fold_left]. cbn. eexists. eexists. split; [reflexivity|]. split; [|split; cbn; lra].
  split; [|split]; (split; [|intros H; exfalso; revert H]); unfold location, Rabs; destruct (Rcase_abs _); lra.
Qed.
