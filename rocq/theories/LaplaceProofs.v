From Coq Require Import Permutation.
From Verif Require Import Base Packing RBase Geom FaceAreas FaceAreasSpec Meshes MeshesSpec MeshesProofs6 MeshesProofs10 Laplace LaplaceSpec.
Local Open Scope R_scope.

(* ---- coordinates ---- *)
Lemma coord_ext u v : (forall a, coord a u = coord a v) -> u = v.
Proof. intros H. pose proof (H AX). pose proof (H AY). pose proof (H AZ). destruct u, v. cbn in *. congruence. Qed.
Lemma coord_add a u v : coord a (add3 u v) = coord a u + coord a v.
Proof. destruct a; reflexivity. Qed.
Lemma coord_sub a u v : coord a (sub3 u v) = coord a u - coord a v.
Proof. destruct a; reflexivity. Qed.
Lemma coord_scal a c v : coord a (scal3 c v) = c * coord a v.
Proof. destruct a; reflexivity. Qed.
Lemma coord_0 a : coord a (V3 0 0 0) = 0.
Proof. destruct a; reflexivity. Qed.
Lemma coord_vsum a l : coord a (vsum l) = rsum (map (coord a) l).
Proof. induction l as [|v l IH]; [apply coord_0|]. cbn [map]. rewrite rsum_cons, <- IH. apply coord_add. Qed.
Lemma vec_sum_eq l : vec_sum l = vsum l.
Proof. reflexivity. Qed.

(* ---- rows of matrices given by entries ---- *)
Lemma rsum_swap {X Y} (g : X -> Y -> R) T J : rsum (map (fun j => rsum (map (fun e => g e j) T)) J) = rsum (map (fun e => rsum (map (g e) J)) T).
Proof.
  induction T as [|e T IH]; cbn [map].
  - rewrite rsum_nil. apply rsum_map_zero. reflexivity.
  - rewrite rsum_cons, <- IH, <- rsum_map_plus. apply rsum_map_ext. intros j _. rewrite rsum_cons. reflexivity.
Qed.
Lemma pick_one (F : nat -> R) b n : forall s, (Z.of_nat s <= b < Z.of_nat (s + n))%Z -> rsum (map (fun j => if (b =? Z.of_nat j)%Z then F j else 0) (seq s n)) = F (Z.to_nat b).
Proof.
  induction n as [|n IH]; intros s H; [lia|]. cbn [seq map]. rewrite rsum_cons. destruct (Z.eqb_spec b (Z.of_nat s)) as [->|N].
  - rewrite Nat2Z.id. rewrite rsum_map_zero; [lra|]. intros j Hj. apply in_seq in Hj. destruct (Z.eqb_spec (Z.of_nat s) (Z.of_nat j)); [lia|reflexivity].
  - rewrite IH by lia. lra.
Qed.
Lemma combine_map_seq {X} (f : nat -> R) (vs : list X) d : forall s, combine (map f (seq s (length vs))) vs = map (fun j => (f j, nth (j - s) vs d)) (seq s (length vs)).
Proof.
  induction vs as [|v vs IH]; intros s; [reflexivity|]. cbn [length seq map combine]. rewrite Nat.sub_diag. cbn [nth]. f_equal. rewrite IH. apply map_ext_in. intros j Hj. apply in_seq in Hj. f_equal. replace (j - s)%nat with (S (j - S s)) by lia. reflexivity.
Qed.
Definition e_row (e : Z * Z * R) : Z := fst (fst e).
Definition e_col (e : Z * Z * R) : Z := snd (fst e).
Definition row_vec (T : list (Z * Z * R)) (vs : list vec3) (i : nat) : vec3 := vsum (map (fun e => if (e_row e =? Z.of_nat i)%Z then scal3 (snd e) (at_ vs (e_col e)) else V3 0 0 0) T).
Definition row_total (T : list (Z * Z * R)) (i : nat) : R := rsum (map (fun e => if (e_row e =? Z.of_nat i)%Z then snd e else 0) T).
Definition cols_ok (n : nat) (T : list (Z * Z * R)) : Prop := Forall (fun e => (0 <= e_col e < Z.of_nat n)%Z) T.
Lemma coo_mat_vecs T vs : cols_ok (length vs) T -> mat_vecs (coo (length vs) T) vs = map (row_vec T vs) (seq 0 (length vs)).
Proof.
  intros H. unfold mat_vecs, coo. rewrite map_map. apply map_ext. intros i. apply coord_ext. intros a. rewrite vec_sum_eq. unfold row_vec. rewrite !coord_vsum, !map_map. rewrite (combine_map_seq _ vs (V3 0 0 0)), map_map. cbn [fst snd].
  transitivity (rsum (map (fun j => rsum (map (fun e => if (e_row e =? Z.of_nat i)%Z then if (e_col e =? Z.of_nat j)%Z then snd e * coord a (nth j vs (V3 0 0 0)) else 0 else 0) T)) (seq 0 (length vs)))).
  - apply rsum_map_ext. intros j _. rewrite Nat.sub_0_r, coord_scal, Rmult_comm, <- rsum_map_scal. apply rsum_map_ext. intros ((ra, cb), x) _. cbn [e_row e_col fst snd]. destruct (ra =? Z.of_nat i)%Z, (cb =? Z.of_nat j)%Z; cbn [andb]; ring.
  - rewrite rsum_swap. apply rsum_map_ext. intros e He. destruct (e_row e =? Z.of_nat i)%Z; [|rewrite coord_0; apply rsum_map_zero; reflexivity].
    unfold cols_ok in H. rewrite Forall_forall in H. specialize (H e He). cbv beta in H. rewrite (pick_one (fun j => snd e * coord a (nth j vs (V3 0 0 0)))) by lia. rewrite coord_scal. reflexivity.
Qed.
Lemma coo_row_sums T n : cols_ok n T -> row_sums (coo n T) = map (row_total T) (seq 0 n).
Proof.
  intros H. unfold row_sums, coo. rewrite map_map. apply map_ext. intros i. unfold row_total.
  transitivity (rsum (map (fun j => rsum (map (fun e => if (e_row e =? Z.of_nat i)%Z then if (e_col e =? Z.of_nat j)%Z then snd e else 0 else 0) T)) (seq 0 n))).
  - apply rsum_map_ext. intros j _. apply rsum_map_ext. intros ((ra, cb), x) _. cbn [e_row e_col fst snd]. destruct (ra =? Z.of_nat i)%Z, (cb =? Z.of_nat j)%Z; reflexivity.
  - rewrite rsum_swap. apply rsum_map_ext. intros e He. destruct (e_row e =? Z.of_nat i)%Z; [|apply rsum_map_zero; reflexivity].
    unfold cols_ok in H. rewrite Forall_forall in H. specialize (H e He). cbv beta in H. rewrite (pick_one (fun j => snd e)) by lia. reflexivity.
Qed.
Lemma nth_map_seq {X} (f : nat -> X) n i d : (i < n)%nat -> nth i (map f (seq 0 n)) d = f i.
Proof. intros H. rewrite (nth_indep _ d (f 0%nat)) by (rewrite map_length, seq_length; exact H). rewrite map_nth, seq_nth by exact H. reflexivity. Qed.
Lemma coo_entry n T i j : (i < n)%nat -> (j < n)%nat -> entry (coo n T) i j = rsum (map (fun e => if ((e_row e =? Z.of_nat i) && (e_col e =? Z.of_nat j))%Z then snd e else 0) T).
Proof.
  intros Hi Hj. unfold entry, coo. rewrite (nth_map_seq _ n i [] Hi), (nth_map_seq _ n j 0 Hj). apply rsum_map_ext. intros ((a, b), x) _. reflexivity.
Qed.
Lemma coo_square n T : square n (coo n T).
Proof. unfold square, coo. rewrite map_length, seq_length. split; [reflexivity|]. apply Forall_map, Forall_forall. intros i _. rewrite map_length, seq_length. reflexivity. Qed.
Lemma coo_symmetric n T : symmetric n (coo n (T ++ transposed T)).
Proof.
  intros i j Hi Hj. rewrite !coo_entry by assumption. rewrite !map_app, !rsum_app. unfold transposed. rewrite !map_map.
  set (f := fun i j (e : Z * Z * R) => if ((e_row e =? Z.of_nat i) && (e_col e =? Z.of_nat j))%Z then snd e else 0).
  assert (E : forall i j, map (fun x => (fun e => if ((e_row e =? Z.of_nat i) && (e_col e =? Z.of_nat j))%Z then snd e else 0) (let '(a, b, x0) := x in (b, a, x0))) T = map (f j i) T).
  { intros i' j'. apply map_ext. intros ((a, b), x). unfold f. cbn [e_row e_col fst snd]. rewrite andb_comm. reflexivity. }
  rewrite (E i j), (E j i). fold (f i j) (f j i). lra.
Qed.

(* ---- the uniform Laplacian of any graph ---- *)
Lemma lap_entry_at V E i j : (i < V)%nat -> (j < V)%nat -> entry (laplacian V E) i j = MeshesHistSpec.lap_entry E i j.
Proof.
  intros Hi Hj. rewrite laplacian_value. unfold entry. rewrite (nth_map_seq _ V i [] Hi), (nth_map_seq _ V j 0 Hj). reflexivity.
Qed.
Lemma deg_edges_at V E i : simple_edges V E -> deg E i = INR (edges_at E i).
Proof.
  intros (H & _). unfold deg, edges_at. induction H as [|e E He H IH]; [reflexivity|]. cbn [map filter]. rewrite rsum_cons, IH. destruct He as (_ & _ & NE). destruct (Z.eqb_spec (fst e) (Z.of_nat i)), (Z.eqb_spec (snd e) (Z.of_nat i)); cbn [orb length]; rewrite ?S_INR; try lra. congruence.
Qed.
Lemma low_high_cases e x y : low_high e = low_high (x, y) -> e = (x, y) \/ e = (y, x).
Proof. destruct e as (a, b). unfold low_high. cbn. intros H. injection H as H1 H2. destruct (Z.le_ge_cases a b), (Z.le_ge_cases x y); [left|right|right|left]; f_equal; lia. Qed.
Lemma low_high_swap x y : low_high (x, y) = low_high (y, x).
Proof. unfold low_high. cbn. f_equal; lia. Qed.
Lemma nodup_low E : NoDup (map low_high E) -> NoDup E.
Proof. apply NoDup_map_inv. Qed.
Lemma not_both E x y : NoDup (map low_high E) -> x <> y -> In (x, y) E -> ~ In (y, x) E.
Proof.
  induction E as [|e E IH]; intros ND NE H1 H2; [destruct H1|]. cbn [map] in ND. inversion ND as [|? ? N1 N2]; subst. destruct H1 as [->|H1], H2 as [H2|H2].
  - injection H2. intros. congruence.
  - apply N1. rewrite low_high_swap. apply in_map. exact H2.
  - subst e. apply N1. rewrite low_high_swap. apply in_map. exact H1.
  - apply (IH N2 NE H1 H2).
Qed.
Theorem uniform_entries V E i j : simple_edges V E -> (i < V)%nat -> (j < V)%nat ->
  (i = j -> entry (laplacian V E) i j = -1) /\ (i <> j -> joined E i j -> entry (laplacian V E) i j = / INR (edges_at E i)) /\ (i <> j -> ~ joined E i j -> entry (laplacian V E) i j = 0).
Proof.
  intros HS Hi Hj. rewrite lap_entry_at, lap_entry_split by assumption. rewrite (deg_edges_at V E i HS). destruct HS as (H & ND). pose proof (nodup_low E ND) as NE. split; [|split].
  - intros ->. rewrite Nat.eqb_refl. assert (NI : ~ In (Z.of_nat j, Z.of_nat j) E) by (intros HI; rewrite Forall_forall in H; specialize (H _ HI); cbn in H; lia). rewrite !sum_none by exact NI. lra.
  - intros NEQ J. destruct (Nat.eqb_spec i j); [contradiction|]. assert (NZ : Z.of_nat i <> Z.of_nat j) by lia. destruct J as [J|J].
    + rewrite sum_one by assumption. rewrite sum_none; [lra|]. apply (not_both E _ _ ND NZ J).
    + rewrite sum_none; [|apply (not_both E _ _ ND (not_eq_sym NZ) J)]. rewrite sum_one by assumption. lra.
  - intros NEQ J. destruct (Nat.eqb_spec i j); [contradiction|]. unfold joined in J. rewrite !sum_none by tauto. lra.
Qed.
Definition lap_entries (V : nat) (E : list (Z * Z)) : list (Z * Z * R) :=
  let both := E ++ map (fun e => (snd e, fst e)) E in
  map (fun e => (fst e, snd e, recip_pos (degree both (fst e)))) both ++ map (fun i => (Z.of_nat i, Z.of_nat i, -1)) (seq 0 V).
Lemma laplacian_coo V E : laplacian V E = coo V (lap_entries V E).
Proof. reflexivity. Qed.
Lemma lap_cols V E : Forall (fun e => (0 <= fst e < Z.of_nat V /\ 0 <= snd e < Z.of_nat V)%Z) E -> cols_ok V (lap_entries V E).
Proof.
  intros H. unfold cols_ok, lap_entries. apply Forall_app. split.
  - apply Forall_map, Forall_app. split; [|apply Forall_map]; (eapply Forall_impl; [|exact H]); intros e He; cbv beta in He |- *; unfold e_col; cbn [fst snd]; lia.
  - apply Forall_map, Forall_forall. intros i Hi. apply in_seq in Hi. unfold e_col. cbn [fst snd]. lia.
Qed.
Lemma diag_pick (F : nat -> R) V i : (i < V)%nat -> rsum (map (fun k => if (Z.of_nat k =? Z.of_nat i)%Z then F k else 0) (seq 0 V)) = F i.
Proof.
  intros H. pose proof (pick_one F (Z.of_nat i) V 0 ltac:(lia)) as K. rewrite Nat2Z.id in K. rewrite <- K. apply rsum_map_ext. intros k _. rewrite Z.eqb_sym. reflexivity.
Qed.
(* the sum of F over the other ends of the edges at i *)
Definition ends_sum (F : Z -> R) (E : list (Z * Z)) (i : nat) : R :=
  rsum (map (fun e => (if (fst e =? Z.of_nat i)%Z then F (snd e) else 0) + (if (snd e =? Z.of_nat i)%Z then F (fst e) else 0)) E).
Lemma ends_deg E i : ends_sum (fun _ => 1) E i = deg E i.
Proof. reflexivity. Qed.
Lemma lap_row_sum (F : Z -> R) V E i : (i < V)%nat ->
  rsum (map (fun e => if (e_row e =? Z.of_nat i)%Z then snd e * F (e_col e) else 0) (lap_entries V E)) = recip_pos (deg E i) * ends_sum F E i - F (Z.of_nat i).
Proof.
  intros Hi. unfold lap_entries. rewrite !map_app, !rsum_app, !map_map. unfold e_row, e_col. cbn [fst snd].
  rewrite (diag_pick (fun k => -1 * F (Z.of_nat k)) V i Hi). unfold ends_sum.
  rewrite (rsum_map_plus (fun e : Z * Z => if (fst e =? Z.of_nat i)%Z then F (snd e) else 0) (fun e : Z * Z => if (snd e =? Z.of_nat i)%Z then F (fst e) else 0)), Rmult_plus_distr_l, <- !rsum_map_scal.
  rewrite (rsum_map_ext _ (fun e : Z * Z => recip_pos (deg E i) * (if (fst e =? Z.of_nat i)%Z then F (snd e) else 0)) E).
  2:{ intros e _. destruct (Z.eqb_spec (fst e) (Z.of_nat i)) as [->|]; [rewrite degree_deg; reflexivity|ring]. }
  rewrite (rsum_map_ext (fun x : Z * Z => if (snd x =? Z.of_nat i)%Z then _ else 0) (fun e : Z * Z => recip_pos (deg E i) * (if (snd e =? Z.of_nat i)%Z then F (fst e) else 0)) E).
  2:{ intros e _. destruct (Z.eqb_spec (snd e) (Z.of_nat i)) as [->|]; [rewrite degree_deg; reflexivity|ring]. }
  ring.
Qed.
Lemma recip_ends (E : list (Z * Z)) i : recip_pos (deg E i) * deg E i = if (edges_at E i =? 0)%nat then 0 else 1.
Proof.
  unfold recip_pos. destruct (Nat.eqb_spec (edges_at E i) 0) as [Z0|NZ].
  - assert (D0 : deg E i = 0). { unfold deg. apply rsum_map_zero. intros e He. unfold edges_at in Z0. destruct ((fst e =? Z.of_nat i) || (snd e =? Z.of_nat i))%Z eqn:O.
      - exfalso. assert (HI : In e (filter (fun e => (fst e =? Z.of_nat i) || (snd e =? Z.of_nat i))%Z E)) by (apply filter_In; auto). destruct (filter _ E); [destruct HI|discriminate].
      - apply orb_false_iff in O. destruct O as (-> & ->). lra. }
    rewrite D0. destruct (Rltb_spec 0 0); lra.
  - assert (HE : exists e, In e E /\ (fst e = Z.of_nat i \/ snd e = Z.of_nat i)). { unfold edges_at in NZ. destruct (filter _ E) as [|e l] eqn:EF; [cbn in NZ; lia|]. assert (HI : In e (e :: l)) by (left; reflexivity). rewrite <- EF in HI. apply filter_In in HI. exists e. rewrite orb_true_iff, !Z.eqb_eq in HI. exact HI. }
    destruct HE as (e & He & Ht). pose proof (deg_pos E i e He Ht). destruct (Rltb_spec 0 (deg E i)); [field; lra|lra].
Qed.
Theorem uniform_row_sums V E i : simple_edges V E -> (i < V)%nat -> nth i (row_sums (laplacian V E)) 0 = if (edges_at E i =? 0)%nat then -1 else 0.
Proof.
  intros (H & _) Hi. rewrite laplacian_coo, coo_row_sums by (apply lap_cols; eapply Forall_impl; [|exact H]; cbv beta; intros; lia).
  rewrite (nth_map_seq _ V i 0 Hi). unfold row_total.
  pose proof (lap_row_sum (fun _ => 1) V E i Hi) as K. rewrite ends_deg, recip_ends in K. cbn [Nat.add]. rewrite (rsum_map_ext _ (fun e => if (e_row e =? Z.of_nat i)%Z then snd e * 1 else 0)); [rewrite K; destruct (edges_at E i =? 0)%nat; lra|]. intros e _. destruct (_ =? _)%Z; lra.
Qed.
(* the row of vertex i applied to vertices *)
Lemma lap_row_vec V E vs i : (i < V)%nat -> row_vec (lap_entries V E) vs i = sub3 (scal3 (recip_pos (deg E i)) (vsum (map (fun e => add3 (if (fst e =? Z.of_nat i)%Z then at_ vs (snd e) else V3 0 0 0) (if (snd e =? Z.of_nat i)%Z then at_ vs (fst e) else V3 0 0 0)) E))) (at_ vs (Z.of_nat i)).
Proof.
  intros Hi. apply coord_ext. intros a. rewrite coord_sub, coord_scal. unfold row_vec. rewrite !coord_vsum, !map_map. pose proof (lap_row_sum (fun z => coord a (at_ vs z)) V E i Hi) as K.
  rewrite (rsum_map_ext _ (fun e => if (e_row e =? Z.of_nat i)%Z then snd e * coord a (at_ vs (e_col e)) else 0)) by (intros e _; destruct (e_row e =? Z.of_nat i)%Z; [apply coord_scal|apply coord_0]).
  rewrite K. do 2 f_equal. unfold ends_sum. apply rsum_map_ext. intros e _. rewrite coord_add. destruct (fst e =? Z.of_nat i)%Z, (snd e =? Z.of_nat i)%Z; rewrite ?coord_0; reflexivity.
Qed.
Theorem uniform_annihilates V E c i : simple_edges V E -> (i < V)%nat -> edges_at E i <> 0%nat -> nth_error (mat_vecs (laplacian V E) (repeat c V)) i = Some (V3 0 0 0).
Proof.
  intros (H & _) Hi NZ. rewrite laplacian_coo. rewrite <- (repeat_length c V) at 1. rewrite coo_mat_vecs by (rewrite repeat_length; apply lap_cols; eapply Forall_impl; [|exact H]; cbv beta; intros; lia).
  rewrite repeat_length. rewrite nth_error_map_iff, nth_error_seq_lt by exact Hi. cbn [option_map Nat.add]. f_equal. rewrite lap_row_vec by exact Hi. apply coord_ext. intros a. rewrite coord_sub, coord_scal, coord_vsum, map_map, coord_0.
  assert (AT : forall z, (0 <= z < Z.of_nat V)%Z -> at_ (repeat c V) z = c). { intros z Hz. unfold at_. rewrite (nth_indep _ _ c) by (rewrite repeat_length; lia). apply nth_repeat. }
  rewrite AT by lia. rewrite (rsum_map_ext _ (fun e => coord a c * ((if (fst e =? Z.of_nat i)%Z then 1 else 0) + (if (snd e =? Z.of_nat i)%Z then 1 else 0))) E).
  - rewrite rsum_map_scal. fold (deg E i). pose proof (recip_ends E i) as K. destruct (Nat.eqb_spec (edges_at E i) 0); [contradiction|]. rewrite <- (Rmult_1_l (coord a c)) at 2. rewrite <- K. ring.
  - intros e He. rewrite Forall_forall in H. specialize (H e He). cbv beta in H. rewrite !AT by lia. rewrite coord_add. destruct (fst e =? Z.of_nat i)%Z, (snd e =? Z.of_nat i)%Z; rewrite ?coord_0; ring.
Qed.
Lemma sym_sum_low (G : Z * Z -> R) E : (forall x y, G (x, y) = G (y, x)) -> rsum (map G E) = rsum (map G (map low_high E)).
Proof.
  intros S. rewrite map_map. apply rsum_map_ext. intros (x, y) _. unfold low_high. cbn. destruct (Z.le_ge_cases x y); [rewrite Z.min_l, Z.max_r by lia; reflexivity|rewrite Z.min_r, Z.max_l by lia; apply S].
Qed.
Lemma sym_sum_perm (G : Z * Z -> R) E E' : (forall x y, G (x, y) = G (y, x)) -> Permutation (map low_high E) (map low_high E') -> rsum (map G E) = rsum (map G E').
Proof. intros S P. rewrite (sym_sum_low G E S), (sym_sum_low G E' S). apply rsum_perm, Permutation_map, P. Qed.
Theorem uniform_edge_set V E E' : Permutation (map low_high E) (map low_high E') -> laplacian V E = laplacian V E'.
Proof.
  intros P. rewrite !laplacian_value. assert (D : forall i, deg E i = deg E' i) by (intros i; unfold deg; apply sym_sum_perm; [intros; cbn; ring|exact P]).
  apply map_ext. intros i. apply map_ext. intros j. unfold MeshesHistSpec.lap_entry. rewrite <- D. f_equal. apply sym_sum_perm; [intros; cbn; apply Rplus_comm|exact P].
Qed.
