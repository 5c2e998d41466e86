From Coq Require Import Reals Bool Lia Lra Permutation.
From Verif Require Import Base RBase Knn KnnSpec KnnProofs Chamfer ChamferSpec ChamferProofs ChamferProofs2 ChamferProofs3.
Local Open Scope R_scope.

(* ---- cosines ---- *)
Lemma dot_self_nonneg a : 0 <= dot a a.
Proof. unfold dot. induction a as [|x a IH]; cbn [combine map fst snd]; [rewrite rsum_nil; lra|]. rewrite rsum_cons. pose proof (Rle_0_sqr x) as H. unfold Rsqr in H. lra. Qed.
Lemma sq_le u v : 0 <= v -> u * u <= v * v -> u <= v.
Proof. intros H1 H2. destruct (Rle_lt_dec u v) as [L|L]; [exact L|]. assert (v * v < u * u) by (apply Rmult_le_0_lt_compat; lra). lra. Qed.
Lemma cauchy a : forall b, dot a b * dot a b <= dot a a * dot b b.
Proof.
  induction a as [|x a IH]; intros b.
  - unfold dot. cbn [combine map]. rewrite rsum_nil. rewrite Rmult_0_l, Rmult_0_l. lra.
  - destruct b as [|y b].
    + unfold dot. cbn [combine map]. rewrite rsum_nil. lra.
    + specialize (IH b). assert (EC : forall u v l m, dot (u :: l) (v :: m) = u * v + dot l m) by (intros; unfold dot; cbn [combine map fst snd]; apply rsum_cons). rewrite !EC.
      pose proof (dot_self_nonneg a) as PA. pose proof (dot_self_nonneg b) as PB. set (s := dot a b) in *. set (A := dot a a) in *. set (B := dot b b) in *.
      assert (K : 2 * (x * y) * s <= x * x * B + y * y * A).
      { apply sq_le; [pose proof (Rle_0_sqr x); pose proof (Rle_0_sqr y); unfold Rsqr in *; nra|].
        assert (K1 : (2 * (x * y) * s) * (2 * (x * y) * s) <= 4 * ((x * y) * (x * y)) * (A * B)). { replace ((2 * (x * y) * s) * (2 * (x * y) * s)) with (4 * ((x * y) * (x * y)) * (s * s)) by ring. apply Rmult_le_compat_l; [pose proof (Rle_0_sqr (x * y)) as H; unfold Rsqr in H; lra|exact IH]. }
        eapply Rle_trans; [exact K1|]. pose proof (Rle_0_sqr (x * x * B - y * y * A)) as H. unfold Rsqr in H. lra. }
      nra.
Qed.
Lemma cosine_range a b : -1 <= cosine a b <= 1.
Proof.
  unfold cosine. set (p := Rmax (sqrt (dot a a)) (/ 1000000)). set (q := Rmax (sqrt (dot b b)) (/ 1000000)).
  assert (Hp : 0 < p) by (unfold p; eapply Rlt_le_trans; [|apply Rmax_r]; apply Rinv_0_lt_compat; lra). assert (Hq : 0 < q) by (unfold q; eapply Rlt_le_trans; [|apply Rmax_r]; apply Rinv_0_lt_compat; lra).
  assert (PQ : 0 < p * q) by (apply Rmult_lt_0_compat; assumption).
  assert (PA : dot a a <= p * p). { rewrite <- (sqrt_sqrt (dot a a)) by apply dot_self_nonneg. apply Rmult_le_compat; try apply sqrt_pos; apply Rmax_l. }
  assert (PB : dot b b <= q * q). { rewrite <- (sqrt_sqrt (dot b b)) by apply dot_self_nonneg. apply Rmult_le_compat; try apply sqrt_pos; apply Rmax_l. }
  assert (B2 : dot a b * dot a b <= (p * q) * (p * q)). { eapply Rle_trans; [apply cauchy|]. replace ((p * q) * (p * q)) with ((p * p) * (q * q)) by ring. apply Rmult_le_compat; try apply dot_self_nonneg; assumption. }
  assert (U : dot a b <= p * q) by (apply sq_le; [lra|exact B2]). assert (L : - dot a b <= p * q) by (apply sq_le; [lra|]; lra).
  split.
  - apply Rmult_le_reg_r with (p * q); [exact PQ|]. unfold Rdiv. rewrite Rmult_assoc, Rinv_l by lra. lra.
  - apply Rmult_le_reg_r with (p * q); [exact PQ|]. unfold Rdiv. rewrite Rmult_assoc, Rinv_l by lra. lra.
Qed.
Lemma normal_term_range ab u v : 0 <= normal_term ab u v <= (if ab then 1 else 2).
Proof. unfold normal_term. pose proof (cosine_range u v) as H. destruct ab; [|lra]. pose proof (Rabs_pos (cosine u v)). assert (Rabs (cosine u v) <= 1) by (apply Rabs_le; lra). lra. Qed.
Lemma sum_bound c l : (forall d, In d l -> 0 <= d <= c) -> 0 <= rsum l <= c * INR (length l).
Proof.
  induction l as [|d l IH]; intros H; [rewrite rsum_nil; cbn; lra|]. rewrite rsum_cons. cbn [length]. rewrite S_INR. pose proof (H d (or_introl eq_refl)). assert (0 <= rsum l <= c * INR (length l)) by (apply IH; intros; apply H; right; assumption). lra.
Qed.
Lemma normals_mean_range ab na nb js : 0 <= normals_one_way PMean ab na nb js <= (if ab then 1 else 2).
Proof.
  unfold normals_one_way. cbv zeta. set (l := map _ _). set (c := if ab then 1 else 2). assert (Hc : 0 <= c) by (unfold c; destruct ab; lra).
  assert (HB : 0 <= rsum l <= c * INR (length l)). { apply sum_bound. intros d Hd. apply in_map_iff in Hd. destruct Hd as (p & <- & _). apply normal_term_range. }
  assert (LL : (length l <= Nat.max (length na) 1)%nat) by (unfold l; rewrite map_length, combine_length; lia). apply le_INR in LL. pose proof (maxi_pos (length na)) as MP.
  split; [apply Rmult_le_pos; [lra|]; left; apply Rinv_0_lt_compat; exact MP|]. apply Rmult_le_reg_r with (INR (Nat.max (length na) 1)); [exact MP|]. unfold Rdiv. rewrite Rmult_assoc, Rinv_l by lra. assert (c * INR (length l) <= c * INR (Nat.max (length na) 1)) by (apply Rmult_le_compat_l; assumption). lra.
Qed.

(* ---- one cloud ---- *)
Definition full_terms (ab : bool) (nx ny : list (list R)) (js : list nat) : list R := map (fun p => normal_term ab (fst p) (nth (snd p) ny [])) (combine nx js).
Definition nn_fit (q : quad) (nn : list (list R) * list (list R)) : Prop := length (fst nn) = length (qx q) /\ length (snd nn) = length (qy q) /\ (0 < qm q)%nat.
Lemma normal_row_ok ab norm q nn rows m : fitting q -> near_rows norm q rows -> nn_fit q nn ->
  normal_rows ab (fst nn) (snd nn) (qm q) m (map snd rows) = Ok (full_terms ab (fst nn) (snd nn) (map snd rows)) /\
  nearest_picks norm (firstn (ql q) (qx q)) (firstn (qm q) (qy q)) (firstn (ql q) (map snd rows)).
Proof.
  intros (F1 & F2) (LR & HR) (L1 & L2 & HP). destruct nn as (nx, ny). cbn [fst snd] in *.
  assert (HJ : forall j, In j (map snd rows) -> (j < qm q)%nat).
  { intros j Hj. apply in_map_iff in Hj. destruct Hj as (r & <- & Hr). apply In_nth_error in Hr. destruct Hr as (i & Ei). specialize (HR i r Ei). unfold near_row in HR. destruct (i <? ql q)%nat; [apply HR; exact HP|]. subst r. exact HP. }
  split.
  - unfold normal_rows. rewrite map_length, LR, L1, Nat.eqb_refl. cbn [negb]. rewrite (rmap_total _ (fun j => nth j ny [])).
    + cbn [rbind]. f_equal. unfold full_terms. rewrite combine_map_r, map_map. reflexivity.
    + intros j Hj. specialize (HJ j Hj). unfold knn_gather. cbn [rmap]. rewrite (nth_error_nth' ny [] (n := j)) by lia. cbn [rbind seq map]. destruct (m <? 1)%nat; [|reflexivity]. destruct (Nat.leb_spec (qm q) 0); [lia|reflexivity].
  - split; [rewrite !firstn_length, map_length; lia|]. rewrite firstn_length, Nat.min_l by exact F1. intros i Hi. rewrite firstn_length, Nat.min_l by exact F2.
    assert (Li : (i < length rows)%nat) by lia. destruct (nth_error rows i) as [r|] eqn:Er; [|apply nth_error_None in Er; lia]. pose proof (HR i r Er) as H. unfold near_row in H. destruct (Nat.ltb_spec i (ql q)); [|lia]. destruct H as (_ & H & _). destruct (H HP) as (H1 & H2).
    assert (EJ : nth i (firstn (ql q) (map snd rows)) 0%nat = snd r). { apply nth_error_nth. rewrite nth_error_firstn. destruct (Nat.ltb_spec i (ql q)); [|lia]. rewrite nth_error_map, Er. reflexivity. }
    assert (EX : nth i (firstn (ql q) (qx q)) [] = nth i (qx q) []). { apply nth_error_nth. rewrite nth_error_firstn. destruct (Nat.ltb_spec i (ql q)); [|lia]. apply nth_error_nth'. lia. }
    rewrite EJ, EX. split; [exact H1|]. rewrite <- H2. f_equal. apply nth_error_nth. rewrite nth_error_firstn. destruct (Nat.ltb_spec (snd r) (qm q)); [|lia]. apply nth_error_nth'. lia.
Qed.
Lemma mask_firstn n l : (n <= length l)%nat -> mask_row n l = firstn n l ++ repeat 0 (length l - n).
Proof.
  intros H. rewrite <- (firstn_skipn n l) at 1. assert (LF : length (firstn n l) = n) by (rewrite firstn_length; lia). assert (G : forall s (a : list R), (n <= s)%nat -> map (fun p => if (n <=? fst p)%nat then 0 else snd p) (combine (seq s (length a)) a) = repeat 0 (length a)).
  { intros s a. revert s. induction a as [|x a IH]; intros s Hs; [reflexivity|]. cbn. destruct (Nat.leb_spec n s); [|lia]. f_equal. apply IH. lia. }
  assert (G2 : forall s (a : list R), (s + length a <= n)%nat -> map (fun p => if (n <=? fst p)%nat then 0 else snd p) (combine (seq s (length a)) a) = a).
  { intros s a. revert s. induction a as [|x a IH]; intros s Hs; [reflexivity|]. cbn in *. destruct (Nat.leb_spec n s); [lia|]. f_equal. apply IH. lia. }
  assert (CA : forall (a b : list nat) (c d : list R), length a = length c -> combine (a ++ b) (c ++ d) = combine a c ++ combine b d) by (clear; induction a as [|x a IH]; intros b [|y c] d L; cbn in *; try discriminate; [reflexivity|]; f_equal; apply IH; lia).
  unfold mask_row. rewrite app_length, seq_app, CA by (rewrite seq_length; reflexivity). rewrite map_app. rewrite G2 by lia. rewrite G by lia. rewrite skipn_length. reflexivity.
Qed.
Lemma sum_masked n l : (n <= length l)%nat -> rsum (mask_row n l) = rsum (firstn n l).
Proof. intros H. rewrite mask_firstn, rsum_app by exact H. assert (Z : forall k, rsum (repeat 0 k) = 0) by (induction k; [apply rsum_nil|]; cbn [repeat]; rewrite rsum_cons; lra). rewrite Z. lra. Qed.
(* a pair of clouds with sizes, normals and the picked indices *)
Notation trip := ((quad * ((list (list R) * list (list R)) * list nat))%type).
Definition tn (t : trip) := fst (fst (snd t)). Definition tm (t : trip) := snd (fst (snd t)). Definition tj (t : trip) := snd (snd t).
Definition t_full (ab : bool) (t : trip) := full_terms ab (tn t) (tm t) (tj t).
Definition t_one (r : point_red) (ab : bool) (t : trip) : R := normals_one_way r ab (firstn (ql (fst t)) (tn t)) (firstn (qm (fst t)) (tm t)) (firstn (ql (fst t)) (tj t)).
Definition t_good (norm : nat) (t : trip) : Prop :=
  fitting (fst t) /\ nn_fit (fst t) (tn t, tm t) /\ length (tj t) = length (qx (fst t)) /\
  nearest_picks norm (firstn (ql (fst t)) (qx (fst t))) (firstn (qm (fst t)) (qy (fst t))) (firstn (ql (fst t)) (tj t)).
Lemma all_normals ab norm m Q : forall NN rows, List.Forall fitting Q -> Forall2 (near_rows norm) Q rows -> Forall2 nn_fit Q NN ->
  exists T, map fst T = Q /\ map (fun t => (tn t, tm t)) T = NN /\ List.Forall (t_good norm) T /\
  rmap (fun q => normal_rows ab (fst (fst q)) (snd (fst q)) (fst (snd q)) m (map snd (snd (snd q)))) (combine NN (combine (map qm Q) rows)) = Ok (map (t_full ab) T).
Proof.
  induction Q as [|q Q IH]; intros NN rows HF HR HN; inversion HR as [|? r ? rows' R1 R2]; inversion HN as [|? nn ? NN' N1 N2]; inversion HF as [|? ? F1 F2]; subst; [exists []; repeat split; constructor|].
  destruct (IH NN' rows' F2 R2 N2) as (T & E1 & E2 & HT & ET). destruct (normal_row_ok ab norm q nn r m F1 R1 N1) as (EO & HP). exists ((q, (nn, map snd r)) :: T). cbn [map fst]. split; [f_equal; exact E1|].
  split; [unfold tn at 1, tm at 1; cbn [fst snd]; destruct nn; f_equal; exact E2|]. split.
  - constructor; [|exact HT]. unfold t_good, tn, tm, tj. cbn [fst snd]. split; [exact F1|]. split; [destruct nn; exact N1|]. split; [rewrite map_length; apply R1|exact HP].
  - cbn [combine rmap fst snd]. rewrite EO. cbn [rbind]. rewrite ET. reflexivity.
Qed.
Lemma nth_firstn_lt {A} n (l : list A) j d : (j < n)%nat -> nth j (firstn n l) d = nth j l d.
Proof. revert n j. induction l as [|a l IH]; intros [|n] [|j] H; cbn; try lia; try reflexivity. apply IH. lia. Qed.
Lemma combine_firstn' {A B} n (a : list A) (b : list B) : firstn n (combine a b) = combine (firstn n a) (firstn n b).
Proof. revert a b. induction n as [|n IH]; intros [|x a] [|y b]; cbn; try reflexivity. f_equal. apply IH. Qed.
Lemma one_sum ab norm t : t_good norm t -> rsum (mask_row (ql (fst t)) (t_full ab t)) = t_one PSum ab t.
Proof.
  intros ((F1 & F2) & (L1 & L2 & L3) & L4 & (_ & HP)). cbn [fst snd] in L1, L2. rewrite sum_masked.
  - unfold t_full, full_terms, t_one, normals_one_way. cbv zeta. rewrite firstn_map, combine_firstn'. f_equal. apply map_ext_in. intros (u, j) Hu. cbn [fst snd]. f_equal. symmetry. apply nth_firstn_lt.
    apply in_combine_r in Hu. apply In_nth with (d := 0%nat) in Hu. destruct Hu as (i & Li & <-). rewrite firstn_length in HP, Li. specialize (HP i ltac:(lia)). destruct HP as (HP & _). rewrite firstn_length in HP. lia.
  - unfold t_full, full_terms. rewrite map_length, combine_length. lia.
Qed.
Lemma mask_scale n l w : map (fun d => d * w) (mask_row n l) = mask_row n (map (fun d => d * w) l).
Proof. unfold mask_row. rewrite map_length. rewrite combine_map_r, !map_map. apply map_ext. intros (i, d). cbn. destruct (n <=? i)%nat; lra. Qed.
Lemma normals_reduced r ab norm w T : r <> PMax -> List.Forall (t_good norm) T -> match w with None => True | Some w => length w = length T end ->
  reduce_points (Some r) (map (fun t => ql (fst t)) T) (scale_rows w (map (fun t => mask_row (ql (fst t)) (t_full ab t)) T)) = Ok (V (weighted w (t_one r ab) T)).
Proof.
  intros Hr HT HW. rewrite Forall_forall in HT.
  assert (EM : forall t, In t T -> t_one PMean ab t = t_one PSum ab t / INR (Nat.max (ql (fst t)) 1)).
  { intros t Ht. destruct (HT t Ht) as ((F1 & F2) & (L1 & L2 & L3) & L4 & _). cbn [fst snd] in L1. unfold t_one, normals_one_way. rewrite firstn_length, Nat.min_l by lia. reflexivity. }
  destruct w as [w|]; cbn [scale_rows weighted].
  - rewrite combine_map_r, map_map. cbn [fst snd]. destruct r; cbn [reduce_points]; [| |congruence].
    + f_equal. f_equal. rewrite map_map. apply map_ext_in. intros (a, t) Hp. cbn [fst snd]. rewrite rsum_scale, (one_sum ab norm) by (apply HT; eapply in_combine_r; exact Hp). reflexivity.
    + f_equal. f_equal. assert (EL : map (fun t => ql (fst t)) T = map (fun p => ql (fst (snd p))) (combine w T)). { transitivity (map (fun t : trip => ql (fst t)) (map snd (combine w T))); [rewrite map_snd_combine by exact HW; reflexivity|apply map_map]. } rewrite EL, combine_map2, map_map. apply map_ext_in. intros (a, t) Hp. cbn [fst snd]. assert (It : In t T) by (eapply in_combine_r; exact Hp). rewrite rsum_scale, (one_sum ab norm) by (apply HT; exact It). rewrite (EM t It). unfold Rdiv. ring.
  - destruct r; cbn [reduce_points]; [| |congruence].
    + f_equal. f_equal. rewrite map_map. apply map_ext_in. intros t Ht. apply (one_sum ab norm). apply HT. exact Ht.
    + f_equal. f_equal. rewrite combine_map2, map_map. apply map_ext_in. intros t Ht. cbn [fst snd]. rewrite (one_sum ab norm) by (apply HT; exact Ht). symmetry. apply EM. exact Ht.
Qed.
Lemma f2_fit x y xl yl xn yn : well_shaped x xl -> well_shaped y yl -> matching x y -> normals_fit x xn -> normals_fit y yn -> List.Forall (fun l => (0 < l)%nat) yl ->
  Forall2 nn_fit (quads x y xl yl) (combine xn yn).
Proof.
  intros (L1 & F1 & D1) (L2 & F2 & D2) (M1 & M2) (N1 & G1) (N2 & G2) HP. unfold quads. revert xl yl xn yn L1 F1 L2 F2 N1 G1 N2 G2 HP. generalize dependent (t_data y). generalize dependent (t_data x).
  induction l as [|c l IH]; intros D1 [|d l'] D2 M1 [|a xl] [|b yl] [|e xn] [|g yn] L1 F1 L2 F2 N1 G1 N2 G2 HP; cbn in *; try lia; [constructor|].
  apply Forall_cons_iff in D1, D2, F1, F2, G1, G2, HP. destruct D1 as ((D1 & _) & D1'), D2 as ((D2 & _) & D2'), F1 as (F1 & F1'), F2 as (F2 & F2'), G1 as (G1 & G1'), G2 as (G2 & G2'), HP as (HP & HP').
  constructor; [repeat split; unfold qx, qy, qm; cbn [fst snd]; congruence || assumption|]. apply IH; try assumption; lia.
Qed.
Lemma mask_all n l : length l = n -> mask_row n l = l.
Proof. intros <-. rewrite mask_firstn by lia. rewrite firstn_all, Nat.sub_diag. apply app_nil_r. Qed.
Lemma single_normals sort x y xl yl xn yn w r norm ab : r <> PMax -> norm = 1%nat \/ norm = 2%nat -> well_shaped x xl -> well_shaped y yl -> matching x y -> fine_weights w (length (t_data x)) ->
  normals_fit x xn -> normals_fit y yn -> List.Forall (fun l => (0 < l)%nat) yl ->
  exists T, map fst T = quads x y xl yl /\ map (fun t => (tn t, tm t)) T = combine xn yn /\ List.Forall (t_good norm) T /\
  single_direction sort x y xl yl (Some xn) (Some yn) w (Some r) norm ab = Ok (V (weighted w (q_one r norm) (quads x y xl yl)), Some (V (weighted w (t_one r ab) T))).
Proof.
  intros Hr Hn WX WY MA HW NX NY HP. unfold single_direction. pose proof (f2_fit x y xl yl xn yn WX WY MA NX NY HP) as HN. destruct MA as (M1 & M2). rewrite <- M1, M2, !Nat.eqb_refl. cbn [negb orb]. destruct (weights_ok w _ HW) as (EW & PW). rewrite EW.
  set (Q := quads x y xl yl) in *. change (combine (combine (t_data x) (t_data y)) (combine xl yl)) with Q. pose proof (q_fit x y xl yl WX WY (conj M1 M2)) as HF. fold Q in HF. pose proof (q_m x y xl yl WX WY (conj M1 M2)) as QM. fold Q in QM. pose proof (q_l x y xl yl WX WY (conj M1 M2)) as QL. fold Q in QL. pose proof (q_points_x x y xl yl WX WY (conj M1 M2)) as QP. fold Q in QP.
  destruct (all_rows sort norm Q (min_of yl) Hn HF) as (rows & E & HR). { apply Forall_forall. intros q Hq. apply min_le. rewrite <- QM. apply in_map. exact Hq. }
  destruct (all_normals ab norm (min_of yl) Q (combine xn yn) rows HF HR HN) as (T & T1 & T2 & TG & TE). exists T. split; [exact T1|]. split; [exact T2|]. split; [exact TG|].
  rewrite E. cbn [rbind]. rewrite (all_dists norm Q rows HF HR). rewrite QM in TE. rewrite TE. cbn [rbind].
  set (het := existsb _ xl).
  assert (ED : (if het then map (fun q => mask_row (fst q) (snd q)) (combine xl (map (q_dists norm) Q)) else map (q_dists norm) Q) = map (q_dists norm) Q). { rewrite <- QL, (all_masked norm Q HF). destruct het; reflexivity. } rewrite ED.
  assert (QT : xl = map (fun t => ql (fst t)) T). { rewrite <- QL, <- T1. apply map_map. }
  assert (EN : (if het then map (fun q => mask_row (fst q) (snd q)) (combine xl (map (t_full ab) T)) else map (t_full ab) T) = map (fun t => mask_row (ql (fst t)) (t_full ab t)) T).
  { destruct het eqn:EH; [rewrite QT, combine_map2, map_map; reflexivity|]. apply map_ext_in. intros t Ht. symmetry. apply mask_all. rewrite Forall_forall in TG, QP. destruct (TG t Ht) as ((F1 & F2) & (L1 & L2 & L3) & L4 & _). cbn [fst snd] in L1. unfold t_full, full_terms. rewrite map_length, combine_length, L1, L4, Nat.min_id.
    assert (IQ : In (fst t) Q) by (rewrite <- T1; apply in_map; exact Ht). rewrite (QP _ IQ). unfold het in EH. destruct (Nat.eq_dec (ql (fst t)) (t_points x)) as [Eq|Ne]; [symmetry; exact Eq|]. exfalso. assert (existsb (fun l => negb (l =? t_points x)%nat) xl = true); [|congruence]. apply existsb_exists. exists (ql (fst t)). split; [rewrite <- QL; apply in_map; exact IQ|]. destruct (Nat.eqb_spec (ql (fst t)) (t_points x)); [contradiction|reflexivity]. }
  rewrite EN. rewrite <- QL at 1. rewrite dists_reduced; [|exact HF|congruence|].
  - cbn [rbind]. rewrite QT, (normals_reduced r ab norm w T Hr TG).
    + cbn [rbind]. destruct r; [reflexivity|reflexivity|congruence].
    + destruct w as [w|]; [|exact I]. destruct PW as (P1 & _). rewrite P1. rewrite <- (map_length fst T), T1. symmetry. apply (q_len x y xl yl WX WY (conj M1 M2)).
  - destruct w as [w|]; [|exact I]. destruct PW as (P1 & P2). split; [|exact P2]. rewrite P1. symmetry. apply (q_len x y xl yl WX WY (conj M1 M2)).
Qed.
