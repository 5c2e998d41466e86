(* C64: marching cubes. *)
From Verif Require Import Base RBase Geom MarchingTables Marching MarchingSpec MarchingProofs MarchingProofs3 MarchingProofs4 MarchingProofs7.
From Coq Require Import Lra.
Local Open Scope R_scope.

(* the Python implementation: a correct, consistently oriented mesh of the level set for every batch of fields whose crossings are
   not closer than the tolerance to a grid point *)
Theorem marching_cubes_naive_level_mesh : forall D H W fs iso local,
  (2 <= D)%nat -> (2 <= H)%nat -> (2 <= W)%nat -> (forall f, In f fs -> all_clear D H W f iso) ->
  exists outs, marching_cubes_naive (map (sample D H W) fs) D H W (Some iso) local = Ok outs /\
    Forall2 (fun f o => exists verts, level_mesh D H W f iso verts (snd o) /\ fst o = if local then map (scaled D H W) verts else verts) fs outs.
Proof.
  intros D H W fs iso local HD HH HW HC. eexists. split; [now apply naive_wrap|]. apply wrap_level; auto. intros f Hf. split; [auto|]. now apply tris_full, HC.
Qed.
Print Assumptions marching_cubes_naive_level_mesh.
(* the C++ implementation, for volumes of at most 2^24 samples *)
Theorem marching_cubes_cpp_level_mesh : forall D H W fs iso local,
  (2 <= D)%nat -> (2 <= H)%nat -> (2 <= W)%nat -> (Z.of_nat W * Z.of_nat H * Z.of_nat D <= 2 ^ 24)%Z -> (forall f, In f fs -> all_clear D H W f iso) ->
  exists outs, marching_cubes (map (sample D H W) fs) D H W (Some iso) local = Ok outs /\
    Forall2 (fun f o => exists verts, level_mesh D H W f iso verts (snd o) /\ fst o = if local then map (scaled D H W) verts else verts) fs outs.
Proof.
  intros D H W fs iso local HD HH HW HV HC. eexists. split; [now apply cpp_wrap|]. apply wrap_level; auto. intros f Hf. split; [auto|]. now apply tris_full, HC.
Qed.
Print Assumptions marching_cubes_cpp_level_mesh.
(* and then the two return the same lists *)
Theorem marching_cubes_implementations_agree : forall D H W fs iso local,
  (2 <= D)%nat -> (2 <= H)%nat -> (2 <= W)%nat -> (Z.of_nat W * Z.of_nat H * Z.of_nat D <= 2 ^ 24)%Z -> (forall f, In f fs -> all_clear D H W f iso) ->
  marching_cubes (map (sample D H W) fs) D H W (Some iso) local = marching_cubes_naive (map (sample D H W) fs) D H W (Some iso) local.
Proof.
  intros D H W fs iso local HD HH HW HV HC. rewrite naive_wrap, cpp_wrap by assumption. f_equal. apply map_ext_in. intros f Hf. unfold used. destruct (tris_full D H W f iso (HC f Hf)) as [-> ->]. reflexivity.
Qed.
Print Assumptions marching_cubes_implementations_agree.
(* any samples: valid indices, vertices on crossing links, every vertex used, no degenerate triangle *)
Theorem marching_cubes_naive_any_samples : forall D H W fs iso local, (2 <= D)%nat -> (2 <= H)%nat -> (2 <= W)%nat ->
  exists outs, marching_cubes_naive (map (sample D H W) fs) D H W (Some iso) local = Ok outs /\
    Forall2 (fun f o => exists verts, partial_mesh D H W f iso (fun p q => p <> q) verts (snd o) /\ fst o = if local then map (scaled D H W) verts else verts) fs outs.
Proof. intros D H W fs iso local HD HH HW. eexists. split; [now apply naive_wrap|]. apply wrap_any, differ_py_apart. Qed.
Print Assumptions marching_cubes_naive_any_samples.
Theorem marching_cubes_cpp_any_samples : forall D H W fs iso local, (2 <= D)%nat -> (2 <= H)%nat -> (2 <= W)%nat -> (Z.of_nat W * Z.of_nat H * Z.of_nat D <= 2 ^ 24)%Z ->
  exists outs, marching_cubes (map (sample D H W) fs) D H W (Some iso) local = Ok outs /\
    Forall2 (fun f o => exists verts, partial_mesh D H W f iso (apart_by (/ 100000)) verts (snd o) /\ fst o = if local then map (scaled D H W) verts else verts) fs outs.
Proof. intros D H W fs iso local HD HH HW HV. eexists. split; [now apply cpp_wrap|]. apply wrap_any, differ_cpp_apart. Qed.
Print Assumptions marching_cubes_cpp_any_samples.
(* a level set that stays away from the outer boundary gives a closed surface *)
Theorem level_mesh_closed : forall D H W f iso verts faces, level_mesh D H W f iso verts faces ->
  (forall e a k, crossing D H W f iso e -> in_plane a k e -> k <> 0%nat /\ k <> (size D H W a - 1)%nat) ->
  forall i j, In (i, j) (flat_map tri_sides faces) -> In (j, i) (flat_map tri_sides faces).
Proof.
  intros D H W f iso verts faces (E & _ & HE & _ & HF & _ & _ & HR) HB i j Hs.
  assert (K : exists a b, nth_error E i = Some a /\ nth_error E j = Some b).
  { apply in_flat_map in Hs as ([[p q] r] & Ht & Hs). destruct (HF p q r Ht) as (a & b & c & E1 & E2 & E3 & _). cbn in Hs. destruct Hs as [X|[X|[X|[]]]]; injection X as <- <-; eauto. }
  destruct K as (a & b & E1 & E2). apply (HR i j a b Hs E1 E2). intros (ax & k & Hk & P & _). destruct (HB a ax k (proj1 (HE a) (nth_error_In _ _ E1)) P). lia.
Qed.
Print Assumptions level_mesh_closed.
(* no crossing, no mesh *)
Theorem level_mesh_empty : forall D H W f iso verts faces, level_mesh D H W f iso verts faces -> (forall e, ~ crossing D H W f iso e) -> verts = [] /\ faces = [].
Proof.
  intros D H W f iso verts faces (E & _ & HE & -> & HF & _) HN. destruct E as [|e E]; [|exfalso; apply (HN e), HE; now left]. split; [reflexivity|]. destruct faces as [|[[i j] k] faces]; [reflexivity|]. destruct (HF i j k (or_introl eq_refl)) as (a & _ & _ & E1 & _). destruct i; discriminate E1.
Qed.
Print Assumptions level_mesh_empty.
(* a vertex divides its link so that the interpolated sample is the level *)
Theorem vertex_on_level : forall D H W f iso e, crossing D H W f iso e ->
  exists t, 0 <= t <= 1 /\ cut f iso e = along e t /\ (1 - t) * at_point f (near e) + t * at_point f (far e) = iso.
Proof. exact cut_level. Qed.
Print Assumptions vertex_on_level.
(* local coordinates lie in [-1, 1] *)
Theorem local_coordinates_in_box : forall D H W f iso verts faces v, level_mesh D H W f iso verts faces -> In v (map (scaled D H W) verts) ->
  -1 <= x3 v <= 1 /\ -1 <= y3 v <= 1 /\ -1 <= z3 v <= 1.
Proof.
  intros D H W f iso verts faces v (E & _ & HE & -> & _) Hv. apply in_map_iff in Hv as (u & <- & Hu). apply in_map_iff in Hu as (e & <- & He). apply HE in He. destruct (cut_level D H W f iso e He) as (t & Ht & -> & _). destruct He as (G1 & G2 & _). rewrite along_pos. destruct e as [[[x y] z] a]. unfold near, far in *. cbn [fst snd next in_grid] in *.
  assert (B : forall n i s, (i < n)%nat -> 0 <= s -> (0 < s -> (S i < n)%nat) -> s <= 1 -> (1 < n)%nat -> -1 <= 2 * (INR i + s) / (INR n - 1) - 1 <= 1).
  { intros n i s Hi Hs Hs' Hs1 Hn. pose proof (pos_INR i). apply lt_INR in Hn. cbn [INR] in Hn. assert (Q : INR i + s <= INR n - 1).
    { destruct (Req_dec s 0) as [->|N]; [apply (le_INR (S i) n) in Hi; rewrite S_INR in Hi; lra|]. assert (L : (S i < n)%nat) by (apply Hs'; lra). apply (le_INR (S (S i)) n) in L. rewrite !S_INR in L. lra. }
    assert (0 < / (INR n - 1)) by (apply Rinv_0_lt_compat; lra). unfold Rdiv. assert (0 <= 2 * (INR i + s) * / (INR n - 1)) by (apply Rmult_le_pos; lra). split; [lra|]. apply Rplus_le_reg_r with 1. apply Rmult_le_reg_r with (INR n - 1); [lra|]. field_simplify; lra. }
  assert (B1 : forall i, (i < 1)%nat -> -1 <= 2 * INR i / (INR 1 - 1) - 1 <= 1).
  { intros i Hi. replace i with 0%nat by lia. cbn [INR]. unfold Rdiv. rewrite Rmult_0_r, Rmult_0_l. lra. }
  assert (B0 : forall n i, (i < n)%nat -> -1 <= 2 * INR i / (INR n - 1) - 1 <= 1).
  { intros n i Hi. destruct (Nat.eq_dec n 1) as [->|N]; [now apply B1|]. replace (INR i) with (INR i + 0) by ring. apply B; try (intros; exfalso; lra); try lra; lia. }
  assert (T0 : 0 <= t) by lra. assert (T1 : t <= 1) by lra. clear - G1 G2 B B0 T0 T1.
  destruct a; cbn [x3 y3 z3 scaled]; (split; [|split]); first [apply B0; cbn in G1; lia|apply B; cbn in G1, G2; try assumption; try (intros _); lia].
Qed.
Print Assumptions local_coordinates_in_box.
(* without isolevel the level is half way between the smallest and the largest sample of each volume *)
Theorem default_level : forall vol, concat (concat vol) <> [] ->
  exists hi lo, In hi (concat (concat vol)) /\ In lo (concat (concat vol)) /\ (forall v, In v (concat (concat vol)) -> lo <= v <= hi) /\
    forall D H W local, marching_cubes_naive [vol] D H W None local = marching_cubes_naive [vol] D H W (Some ((hi + lo) / 2)) local /\
                        marching_cubes [vol] D H W None local = marching_cubes [vol] D H W (Some ((hi + lo) / 2)) local.
Proof.
  intros vol Hv. destruct (threshold_mid vol Hv) as (hi & lo & H1 & H2 & H3 & H4). exists hi, lo. repeat split; auto; try (apply H3; assumption); unfold marching_cubes_naive, marching_cubes; cbn [rmap]; rewrite H4; reflexivity.
Qed.
Print Assumptions default_level.
(* the tables of the two implementations are the same *)
Theorem marching_tables_equal : cpp_EDGE_TO_VERTICES = EDGE_TO_VERTICES /\ cpp_INDEX_TABLE = INDEX /\ rmap row_upto_X cpp_FACE_TABLE = Ok FACE_TABLE.
Proof. exact tables_equal. Qed.
Print Assumptions marching_tables_equal.
(* false: every clear crossing gets a vertex. A triangle whose corners coincide makes both implementations skip the remaining
   triangles of its cell: tri and ps are not cleared. *)
Theorem clear_crossing_kept_refuted : exists f e, crossing 2 2 2 f 0 e /\ clear_cut f 0 e /\
  naive (sample 2 2 2 f) 2 2 2 0 = Ok ([], []) /\ MarchingCubesCpu (sample 2 2 2 f) 2 2 2 0 = Ok ([], []).
Proof.
  exists hidden, ((1, 0, 1)%nat, AxY). split; [|split; [|split]].
  - unfold crossing, near, far. cbn. repeat split; try lia. left. lra.
  - unfold clear_cut, near, far, EPS. cbn. unfold Rabs. repeat match goal with |- context [Rcase_abs ?x] => destruct (Rcase_abs x) end; lra.
  - rewrite py_run. unfold used. rewrite hidden_tris; [reflexivity|]. intros [a b c]. unfold differ_py. cbn. destruct (Reqb_spec a a), (Reqb_spec b b), (Reqb_spec c c); try contradiction. reflexivity.
  - rewrite cpp_run by (cbn; lia). unfold used. rewrite hidden_tris; [reflexivity|]. intros [a b c]. unfold differ_cpp. cbn. unfold Rminus. rewrite !Rplus_opp_r, Rabs_R0. destruct (Rleb_spec EPS 0) as [L|L]; [pose proof EPS_pos; lra|reflexivity].
Qed.
Print Assumptions clear_crossing_kept_refuted.
(* false: the C++ keys tell links apart in every volume. In a volume of 512^3 samples the float ids of neighbours coincide. *)
Theorem link_keys_distinct_refuted : exists D H W (e e' : link),
  in_grid D H W (near e) /\ in_grid D H W (far e) /\ in_grid D H W (near e') /\ in_grid D H W (far e') /\ e <> e' /\
  HashVpair (Z.of_nat W) (Z.of_nat H) (Z.of_nat D) (near e, far e) = HashVpair (Z.of_nat W) (Z.of_nat H) (Z.of_nat D) (near e', far e').
Proof.
  exists 512%nat, 512%nat, 512%nat, ((0, 0, 64)%nat, AxY), ((1, 0, 64)%nat, AxY). unfold near, far, in_grid. cbn [fst snd next]. repeat split; try lia; try discriminate.
Qed.
Print Assumptions link_keys_distinct_refuted.

(* every set of grid points is the inside of a field with clear crossings *)
Example sets_are_clear : forall (inside : nat -> nat -> nat -> bool) D H W, all_clear D H W (fun x y z => if inside x y z then -1 else 1) 0.
Proof. exact pm_clear. Qed.
(* one point inside a 3 x 3 x 3 grid: all crossings stay away from the outer boundary *)
Definition ball : field := fun x y z => if ((x =? 1) && (y =? 1) && (z =? 1))%nat then -1 else 1.
Example ball_clear : all_clear 3 3 3 ball 0. Proof. apply (pm_clear (fun x y z => (x =? 1) && (y =? 1) && (z =? 1))%nat). Qed.
Example ball_crosses : crossing 3 3 3 ball 0 ((1, 1, 1)%nat, AxX).
Proof. unfold crossing, near, far, ball. cbn. repeat split; try lia. left. lra. Qed.
Example ball_inside : forall e a k, crossing 3 3 3 ball 0 e -> in_plane a k e -> k <> 0%nat /\ k <> (size 3 3 3 a - 1)%nat.
Proof.
  intros [[[x y] z] ax] a k (G1 & G2 & C) (P1 & P2). unfold near, far in *. cbn [fst snd] in *.
  assert (V : forall p, at_point ball p < 0 -> p = (1, 1, 1)%nat).
  { intros [[u v] w]. unfold ball. cbn. destruct (Nat.eqb_spec u 1), (Nat.eqb_spec v 1), (Nat.eqb_spec w 1); cbn; intros; try lra. now subst. }
  destruct C as [(C & _)|(_ & C)]; apply V in C; destruct ax; cbn in C; injection C as C1 C2 C3; subst; destruct a; cbn in *; lia.
Qed.
Example samples_nonempty : concat (concat (sample 1 1 1 ball)) <> []. Proof. discriminate. Qed.
