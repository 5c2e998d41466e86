(* C43: points to volumes. *)
From Coq Require Import ZArith Reals Lra.
From Verif Require Import Base RBase Geom Threads Splat SplatSpec SplatProofs SplatProofs2 SplatProofs3 SplatProofs4 SplatProofs5.
From Verif Require ThreadsProofs.
Local Open Scope R_scope.

(* The default path adds, to every voxel, exactly the votes of the unmasked points (trilinear or nearest),
   to the features the votes times the features of the points, and then divides. *)
Theorem points_to_volumes_adds_votes : forall N P C dims pts pf dens feats splat min_weight mask grid rescale rand align,
  (forall b c, (b < N)%nat -> inside (grid b) c -> inside dims c) ->
  (splat = true -> forall b i, (b < N)%nat -> (i < P)%nat -> regular3 (axes align (grid b) (pts b i))) ->
  exists W F D, all_votes vote N P splat align grid pts W /\
  add_points N P C dims false pts pf dens (Some feats) splat min_weight mask grid rescale rand align = Ok (F, D) /\
  accumulates N P C dims W (unmasked mask) pf dens feats (fun d => if rescale then Rmax d (if splat then min_weight else 1) else 1) F D.
Proof.
  intros N P C dims pts pf dens feats splat mw mask grid rescale rnd align Hf Hr.
  exact (cpp_accumulates N P C dims pts pf dens feats splat mw mask grid rescale rnd align (fun b Hb c => Hf b c Hb) Hr).
Qed.
Print Assumptions points_to_volumes_adds_votes.

(* For points inside [-1, 1] and aligned corners, every location is regular. *)
Theorem aligned_points_are_regular : forall grid p,
  (let '(gz, gy, gx) := grid in 1 <= gz /\ 1 <= gy /\ 1 <= gx)%Z -> -1 <= x3 p -> -1 <= y3 p -> -1 <= z3 p ->
  regular3 (axes true grid p).
Proof.
  intros ((gz, gy), gx) p (Hz & Hy & Hx) Px Py Pz. apply IZR_le in Hz, Hy, Hx. unfold axes, regular3, regular, location.
  split; [|split]; left; nra.
Qed.
Print Assumptions aligned_points_are_regular.

(* Any interleaving of the atomic additions of the CUDA threads gives the CPU result. *)
Theorem points_to_volumes_cuda_is_cpu : forall N P C dims pts pf grid mask weight align splat blocks threads t v,
  (forall b c, (b < N)%nat -> inside (grid b) c -> inside dims c) -> (0 < blocks)%nat -> (0 < threads)%nat ->
  interleaving (thread_writes N P C pts pf grid mask weight align splat blocks threads) t ->
  exists v1 v2, add_all dims t v = Ok v1 /\ forward_cpu N P C dims pts pf grid mask weight align splat v = Ok v2 /\ forall b k c, v1 b k c = v2 b k c.
Proof. intros N P C dims pts pf grid mask weight align splat blocks threads t v Hf. apply cuda_same. exact (fun b Hb c => Hf b c Hb). Qed.
Print Assumptions points_to_volumes_cuda_is_cpu.

(* Trilinear votes are not negative, add up to at most one, to one inside the grid, and vanish one voxel beyond it. *)
Theorem trilinear_votes_conserve_mass : forall gz gy gx lz ly lx,
  0 <= lz <= IZR gz - 1 -> 0 <= ly <= IZR gy - 1 -> 0 <= lx <= IZR gx - 1 ->
  rsum (map (tri_weight (lz, ly, lx)) (all_cells (gz, gy, gx))) = 1.
Proof. exact mass_one. Qed.
Print Assumptions trilinear_votes_conserve_mass.
Theorem trilinear_votes_bounded : forall grid l, (forall c, 0 <= tri_weight l c) /\ rsum (map (tri_weight l) (all_cells grid)) <= 1.
Proof. intros grid l. split; [apply weight_nonneg|apply mass_le]. Qed.
Print Assumptions trilinear_votes_bounded.
Theorem trilinear_votes_outside : forall grid l c, (exists a, along a l <= -1 \/ IZR (along a grid) <= along a l) -> inside grid c -> tri_weight l c = 0.
Proof. exact vote_far. Qed.
Print Assumptions trilinear_votes_outside.
(* every cell of the grid is counted once in these sums *)
Theorem all_cells_are_the_grid : forall grid c, (In c (all_cells grid) <-> inside grid c) /\ NoDup (all_cells grid).
Proof. intros grid c. split; [apply all_cells_in|apply all_cells_nodup]. Qed.
Print Assumptions all_cells_are_the_grid.

(* In nearest mode a point adds one to its voxel and nothing to the others, and nothing at all if its voxel is outside. *)
Theorem nearest_votes_one_voxel : forall grid l (W : Z * Z * Z -> R) c0,
  (forall c, inside grid c -> vote false l c (W c)) -> nearest_cell l c0 ->
  (inside grid c0 -> W c0 = 1) /\ (forall c, inside grid c -> c <> c0 -> W c = 0).
Proof.
  intros grid l W c0 HW HN. split.
  - intros Hin. apply (nearest_one grid l W c0 HW HN Hin).
  - intros c Hc Nc. destruct (HW c Hc) as [(H & _)|(_ & H)]; [|exact H]. exfalso. apply Nc.
    destruct l as ((lz, ly), lx), c as ((z, y), x), c0 as ((z0, y0), x0). destruct H as (A1 & A2 & A3), HN as (B1 & B2 & B3).
    f_equal; [f_equal|]; eapply nearest_unique; eassumption.
Qed.
Print Assumptions nearest_votes_one_voxel.
(* and there is always such a voxel *)
Theorem nearest_voxel_exists : forall l, exists c, nearest_cell l c.
Proof. intros ((lz, ly), lx). exists (lround lz, lround ly, lround lx). split; [|split]; apply lround_nearest. Qed.
Print Assumptions nearest_voxel_exists.

(* With empty volumes and rescaling, where enough votes arrive, features are means of the features of the points:
   they stay within their range. *)
Theorem rescaled_features_are_means : forall N P C dims pts pf splat min_weight mask grid rand align,
  (forall b c, (b < N)%nat -> inside (grid b) c -> inside dims c) ->
  (splat = true -> forall b i, (b < N)%nat -> (i < P)%nat -> regular3 (axes align (grid b) (pts b i))) ->
  0 < min_weight ->
  exists F D, add_points N P C dims false pts pf (fun _ _ => 0) (Some (fun _ _ _ => 0)) splat min_weight mask grid true rand align = Ok (F, D) /\
  forall b c k lo hi, (b < N)%nat -> inside dims c -> (k < C)%nat -> (if splat then min_weight else 1) <= D b c ->
  (forall i, (i < P)%nat -> lo <= pf b i k <= hi) -> lo <= F b k c <= hi.
Proof.
  intros N P C dims pts pf splat mw mask grid rnd align Hf Hr Hm.
  destruct (cpp_accumulates N P C dims pts pf (fun _ _ => 0) (fun _ _ _ => 0) splat mw mask grid true rnd align) as (W & F & D & HW & E & HA); [exact (fun b Hb c => Hf b c Hb)|exact Hr|].
  exists F, D. split; [exact E|]. intros b c k lo hi Hb Hc Hk HL Hp. destruct (HA b c Hb Hc) as (HD & HF). rewrite (HF k Hk). rewrite HD in HL |- *.
  apply mean_between; [|destruct splat; lra|rewrite Rplus_0_l in HL; exact HL|exact Hp].
  intros i Hi. destruct (HW b i c Hb Hi) as (H1 & H2). destruct (in_grid (grid b) c) eqn:E2.
  - apply in_grid_iff in E2. eapply vote_nonneg. apply H1. exact E2.
  - rewrite H2; [lra|]. intros H. apply in_grid_iff in H. congruence.
Qed.
Print Assumptions rescaled_features_are_means.

(* The backward pass is the derivative of the pairing of the output with the incoming gradient. *)
Theorem points_to_volumes_feature_gradient : forall N P C dims pf grid mask weight align splat gd gf,
  (forall b, (b < N)%nat -> fits dims (grid b)) -> forall pts b i k v V, (b < N)%nat -> (i < P)%nat -> (k < C)%nat ->
  (forall t, forward_cpu N P C dims pts (replaced pf b i (fun k' => if Nat.eqb k' k then t else pf b i k')) grid mask weight align splat v = Ok (V t)) ->
  derivable_pt_lim (fun t => pairing dims C (gd b) (gf b) (V t b)) (pf b i k) (grad_point_feature pts grid mask weight align splat gf b i k).
Proof. exact feature_gradient. Qed.
Print Assumptions points_to_volumes_feature_gradient.
Theorem points_to_volumes_coordinate_gradient : forall N P C dims pf grid mask weight align gd gf,
  (forall b, (b < N)%nat -> fits dims (grid b)) -> forall pts b i a v V, (b < N)%nat -> (i < P)%nat ->
  not_integer (location align (along a (grid b)) (coord a (pts b i))) ->
  (forall t, forward_cpu N P C dims (replaced pts b i (put a (pts b i) t)) pf grid mask weight align true v = Ok (V t)) ->
  derivable_pt_lim (fun t => pairing dims C (gd b) (gf b) (V t b)) (coord a (pts b i)) (coord a (grad_point C pts pf grid mask weight align true gd gf b i)).
Proof. intros N P C dims pf grid mask weight align gd gf Hf. exact (coordinate_gradient N P C dims pf grid mask weight align true gd gf Hf eq_refl). Qed.
Print Assumptions points_to_volumes_coordinate_gradient.

(* The Python path: the same for grids that fill the volume, for all locations, with aligned corners. *)
Theorem points_to_volumes_python_adds_votes : forall N P C dims pts pf dens feats splat min_weight mask grid rescale rand align,
  (0 < N)%nat -> (forall b, (b < N)%nat -> grid b = dims) -> (let '(D, H, W) := dims in 0 < D /\ 0 < H /\ 0 < W)%Z ->
  (forall b i, (b < N)%nat -> (i < P)%nat -> (0 <= rand b i < cell_prod dims)%Z) ->
  (forall b i, (b < N)%nat -> (i < P)%nat -> unmasked mask b i = 0 \/ unmasked mask b i = 1) ->
  exists W F D, all_votes vote_even N P splat true grid pts W /\
  add_points N P C dims true pts pf dens feats splat min_weight mask grid rescale rand align = Ok (F, D) /\
  accumulates N P C dims W (unmasked mask) pf dens (match feats with None => fun _ _ _ => 0 | Some f => f end) (fun d => Rmax d (if splat then min_weight else 1)) F D.
Proof. exact python_accumulates. Qed.
Print Assumptions points_to_volumes_python_adds_votes.
Theorem points_to_volumes_paths_agree : forall N P C dims pts pf dens feats splat min_weight mask grid rand rand',
  (0 < N)%nat -> (forall b, (b < N)%nat -> grid b = dims) -> (let '(D, H, W) := dims in 0 < D /\ 0 < H /\ 0 < W)%Z ->
  (forall b i, (b < N)%nat -> (i < P)%nat -> (0 <= rand b i < cell_prod dims)%Z) ->
  (forall b i, (b < N)%nat -> (i < P)%nat -> unmasked mask b i = 0 \/ unmasked mask b i = 1) ->
  (forall b i, (b < N)%nat -> (i < P)%nat -> let l := axes true dims (pts b i) in if splat : bool then regular3 l else no_tie l) ->
  exists F D F' D',
  add_points N P C dims true pts pf dens (Some feats) splat min_weight mask grid true rand true = Ok (F, D) /\
  add_points N P C dims false pts pf dens (Some feats) splat min_weight mask grid true rand' true = Ok (F', D') /\
  forall b c, (b < N)%nat -> inside dims c -> D b c = D' b c /\ forall k, (k < C)%nat -> F b k c = F' b k c.
Proof. exact paths_agree. Qed.
Print Assumptions points_to_volumes_paths_agree.

(* ---- where the code departs from the documentation ---- *)
(* A point inside [-1, 1] near the border, with align_corners=False: one voxel gets more than one, its neighbour a
   negative vote (the fraction is taken towards zero). *)
Theorem splat_border_weights_refuted : exists p F D, (-1 <= x3 p <= 1 /\ -1 <= y3 p <= 1 /\ -1 <= z3 p <= 1) /\
  add_points 1 1 0 (1, 1, 2)%Z false (fun _ _ => p) (fun _ _ _ => 0) (fun _ _ => 0) (Some (fun _ _ _ => 0)) true 1 None (fun _ => (1, 1, 2)%Z) true (fun _ _ => 0%Z) false = Ok (F, D) /\
  1 < D O (0, 0, 0)%Z /\ D O (0, 0, 1)%Z < 0.
Proof. destruct border_point as (F & D & E & H1 & H2). exists (V3 (-3 / 4) 0 0), F, D. split; [cbn; lra|]. split; [exact E|]. rewrite H1, H2. lra. Qed.
Print Assumptions splat_border_weights_refuted.
(* A point more than one voxel away from the grid still changes it. *)
Theorem splat_outside_refuted : exists p F D, location true 2 (x3 p) < -1 /\
  add_points 1 1 0 (1, 1, 2)%Z false (fun _ _ => p) (fun _ _ _ => 0) (fun _ _ => 0) (Some (fun _ _ _ => 0)) true 1 None (fun _ => (1, 1, 2)%Z) true (fun _ _ => 0%Z) true = Ok (F, D) /\
  D O (0, 0, 0)%Z < 0.
Proof. destruct far_point as (F & D & E & H1). exists (V3 (-7 / 2) 0 0), F, D. split; [unfold location; cbn [x3]; lra|]. split; [exact E|]. rewrite H1. lra. Qed.
Print Assumptions splat_outside_refuted.
(* volume_features=None is documented to start from zeros; the default path raises. *)
Theorem missing_features_refuted : forall N P C dims pts pf dens splat min_weight mask grid rescale rand align,
  add_points N P C dims false pts pf dens None splat min_weight mask grid rescale rand align = Fail EAttr.
Proof. reflexivity. Qed.
Print Assumptions missing_features_refuted.
(* The Python path ignores align_corners. *)
Theorem python_align_corners_refuted : exists p F D F' D',
  add_points 1 1 0 (1, 1, 2)%Z true (fun _ _ => p) (fun _ _ _ => 0) (fun _ _ => 0) (Some (fun _ _ _ => 0)) true 1 None (fun _ => (1, 1, 2)%Z) true (fun _ _ => 0%Z) false = Ok (F, D) /\
  add_points 1 1 0 (1, 1, 2)%Z false (fun _ _ => p) (fun _ _ _ => 0) (fun _ _ => 0) (Some (fun _ _ _ => 0)) true 1 None (fun _ => (1, 1, 2)%Z) true (fun _ _ => 0%Z) false = Ok (F', D') /\
  D O (0, 0, 0)%Z <> D' O (0, 0, 0)%Z.
Proof. destruct python_align as (F & D & F' & D' & E & E' & H1 & H2). exists (V3 (- 1 / 2) 0 0), F, D, F', D'. split; [exact E|]. split; [exact E'|]. rewrite H1, H2. lra. Qed.
Print Assumptions python_align_corners_refuted.
(* In the Python path a grid smaller than the volume makes points vote for the wrong voxel. *)
Theorem python_smaller_grid_refuted : exists p F D,
  add_points 1 1 0 (1, 2, 2)%Z true (fun _ _ => p) (fun _ _ _ => 0) (fun _ _ => 0) None false 1 None (fun _ => (1, 2, 1)%Z) true (fun _ _ => 0%Z) true = Ok (F, D) /\
  nearest_even_cell (axes true (1, 2, 1)%Z p) (0, 1, 0)%Z /\ D O (0, 1, 0)%Z = 0 /\ D O (0, 0, 1)%Z = 1.
Proof. destruct python_small_grid as (F & D & H). exists (V3 0 1 0), F, D. exact H. Qed.
Print Assumptions python_smaller_grid_refuted.

(* ---- the hypotheses can be met ---- *)
Example two_points_splat : exists W F D, all_votes vote 1 2 true true (fun _ => (2, 3, 4)%Z) (fun _ i => match i with O => V3 (1 / 3) (- 1 / 2) 1 | _ => V3 5 0 0 end) W /\
  add_points 1 2 1 (2, 3, 4)%Z false (fun _ i => match i with O => V3 (1 / 3) (- 1 / 2) 1 | _ => V3 5 0 0 end) (fun _ i _ => INR i) (fun _ _ => 0) (Some (fun _ _ _ => 0)) true (1 / 100) None (fun _ => (2, 3, 4)%Z) true (fun _ _ => 0%Z) true = Ok (F, D) /\
  D O (1, 0, 2)%Z = 1 / 2.
Proof.
  destruct (points_to_volumes_adds_votes 1 2 1 (2, 3, 4)%Z (fun _ i => match i with O => V3 (1 / 3) (- 1 / 2) 1 | _ => V3 5 0 0 end) (fun _ i _ => INR i) (fun _ _ => 0) (fun _ _ _ => 0) true (1 / 100) None (fun _ => (2, 3, 4)%Z) true (fun _ _ => 0%Z) true) as (W & F & D & H1 & H2 & H3); [auto| |].
  - intros _ b i _ _. apply aligned_points_are_regular; [lia| | |]; destruct i; cbn; lra.
  - exists W, F, D. split; [exact H1|]. split; [exact H2|]. destruct (H3 O (1, 0, 2)%Z) as (E & _); [lia|cbn; lia|]. rewrite E. unfold over_points. rewrite !sumf_S, sumf_0. cbn [unmasked].
    destruct (Reqb_spec 1 0); [lra|]. destruct (H1 O O (1, 0, 2)%Z) as (A & _); [lia|lia|]. destruct (H1 O 1%nat (1, 0, 2)%Z) as (B & _); [lia|lia|]. specialize (A ltac:(cbn; lia)). specialize (B ltac:(cbn; lia)).
    cbn in A, B. rewrite A, B. unfold location. rewrite (tent_pos ((1 + 1) / 2 * (2 - 1) - 1)) by lra. rewrite (tent_pos ((-1 / 2 + 1) / 2 * (3 - 1) - 0)) by lra. rewrite (tent_pos ((1 / 3 + 1) / 2 * (4 - 1) - 2)) by lra.
    rewrite (tent_zero ((5 + 1) / 2 * (4 - 1) - 2)) by lra. lra.
Qed.
Example two_threads_splat : exists t, interleaving (thread_writes 1 2 1 (fun _ _ => V3 0 0 0) (fun _ i _ => INR i) (fun _ => (2, 3, 4)%Z) (fun _ _ => 1) 1 true true 1 2) t.
Proof. eexists. apply ThreadsProofs.interleaving_seq. Qed.
Example python_hypotheses : exists F D F' D',
  add_points 1 1 1 (1, 1, 2)%Z true (fun _ _ => V3 (1 / 2) 0 0) (fun _ _ _ => 7) (fun _ _ => 0) (Some (fun _ _ _ => 0)) true (1 / 10) None (fun _ => (1, 1, 2)%Z) true (fun _ _ => 0%Z) true = Ok (F, D) /\
  add_points 1 1 1 (1, 1, 2)%Z false (fun _ _ => V3 (1 / 2) 0 0) (fun _ _ _ => 7) (fun _ _ => 0) (Some (fun _ _ _ => 0)) true (1 / 10) None (fun _ => (1, 1, 2)%Z) true (fun _ _ => 0%Z) true = Ok (F', D') /\
  D O (0, 0, 1)%Z = D' O (0, 0, 1)%Z.
Proof.
  destruct (points_to_volumes_paths_agree 1 1 1 (1, 1, 2)%Z (fun _ _ => V3 (1 / 2) 0 0) (fun _ _ _ => 7) (fun _ _ => 0) (fun _ _ _ => 0) true (1 / 10) None (fun _ => (1, 1, 2)%Z) (fun _ _ => 0%Z) (fun _ _ => 0%Z)) as (F & D & F' & D' & E & E' & H); [lia|reflexivity|lia|cbn; lia|right; reflexivity| |].
  - intros. apply aligned_points_are_regular; [lia| | |]; cbn; lra.
  - exists F, D, F', D'. split; [exact E|]. split; [exact E'|]. apply (H O (0, 0, 1)%Z); [lia|cbn; lia].
Qed.
Example gradient_hypotheses : not_integer (location true 2 (1 / 2)).
Proof. intros k H. unfold location in H. assert (H1 : 0 < IZR k < 1) by lra. destruct H1 as (H1 & H2). apply lt_IZR in H1, H2. lia. Qed.
