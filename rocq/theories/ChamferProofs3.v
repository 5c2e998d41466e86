From Coq Require Import Reals Bool Lia Lra Permutation.
From Verif Require Import Base RBase Knn KnnSpec KnnProofs Chamfer ChamferSpec ChamferProofs ChamferProofs2.
Local Open Scope R_scope.

(* ---- properties of the definition ---- *)
Lemma both_comm r norm a b : both_ways r norm false a b = both_ways r norm false b a.
Proof. unfold both_ways. destruct r; [lra|lra|apply Rmax_comm]. Qed.
Lemma fold_min_perm l l' : forall a a', Permutation (a :: l) (a' :: l') -> fold_left Rmin l a = fold_left Rmin l' a'.
Proof.
  intros a a' HP. destruct (fold_min_spec l a) as (H1 & H2), (fold_min_spec l' a') as (H3 & H4). apply Rle_antisym.
  - apply H2. apply (Permutation_in _ (Permutation_sym HP)). exact H3.
  - apply H4. apply (Permutation_in _ HP). exact H1.
Qed.
Lemma nearest_perm norm b b' p : Permutation b b' -> nearest norm b p = nearest norm b' p.
Proof.
  intros HP. unfold nearest. pose proof (Permutation_map (distance norm p) HP) as HM. destruct (map (distance norm p) b) as [|d l], (map (distance norm p) b') as [|d' l'].
  - reflexivity.
  - apply Permutation_nil in HM. discriminate.
  - apply Permutation_sym, Permutation_nil in HM. discriminate.
  - apply fold_min_perm. exact HM.
Qed.
Lemma fold_max_perm l l' a : Permutation l l' -> fold_left Rmax l a = fold_left Rmax l' a.
Proof.
  intros HP. destruct (fold_max_spec l a) as (H1 & H2), (fold_max_spec l' a) as (H3 & H4). assert (HP' : Permutation (a :: l) (a :: l')) by (apply perm_skip; exact HP). apply Rle_antisym.
  - apply H4. apply (Permutation_in _ HP'). exact H1.
  - apply H2. apply (Permutation_in _ (Permutation_sym HP')). exact H3.
Qed.
Lemma one_way_perm r norm a a' b b' : Permutation a a' -> Permutation b b' -> one_way r norm a b = one_way r norm a' b'.
Proof.
  intros Ha Hb. unfold one_way. assert (E : Permutation (map (nearest norm b) a) (map (nearest norm b') a')).
  { rewrite (map_ext (nearest norm b) (nearest norm b')) by (intros; apply nearest_perm; exact Hb). apply Permutation_map. exact Ha. }
  destruct r; [apply rsum_perm; exact E| |apply fold_max_perm; exact E]. rewrite (rsum_perm _ _ E), (Permutation_length Ha). reflexivity.
Qed.
Lemma both_perm r norm s a a' b b' : Permutation a a' -> Permutation b b' -> both_ways r norm s a b = both_ways r norm s a' b'.
Proof. intros Ha Hb. unfold both_ways. rewrite (one_way_perm r norm a a' b b' Ha Hb), (one_way_perm r norm b b' a a' Hb Ha). reflexivity. Qed.
Lemma sum_nonneg l : (forall d, In d l -> 0 <= d) -> 0 <= rsum l.
Proof. induction l as [|d l IH]; intros H; [rewrite rsum_nil; lra|]. rewrite rsum_cons. assert (0 <= d) by (apply H; left; reflexivity). assert (0 <= rsum l) by (apply IH; intros; apply H; right; assumption). lra. Qed.
Lemma sum_zero l : (forall d, In d l -> 0 <= d) -> (rsum l = 0 <-> forall d, In d l -> d = 0).
Proof.
  induction l as [|d l IH]; intros H; [rewrite rsum_nil; split; [intros _ x []|reflexivity]|]. rewrite rsum_cons. assert (H0 : 0 <= d) by (apply H; left; reflexivity). assert (H1 : forall x, In x l -> 0 <= x) by (intros; apply H; right; assumption). pose proof (sum_nonneg l H1). specialize (IH H1). split.
  - intros E x [<-|Hx]; [lra|]. apply IH; [lra|exact Hx].
  - intros Hz. rewrite (Hz d (or_introl eq_refl)). rewrite (proj2 IH) by (intros; apply Hz; right; assumption). lra.
Qed.
Lemma maxi_pos (n : nat) : 0 < INR (Nat.max n 1).
Proof. apply lt_0_INR. lia. Qed.
Lemma one_way_nonneg r norm a b : 0 <= one_way r norm a b.
Proof.
  assert (HD : forall d, In d (map (nearest norm b) a) -> 0 <= d) by (intros d Hd; apply in_map_iff in Hd; destruct Hd as (p & <- & _); apply nearest_nonneg).
  unfold one_way. destruct r; [apply sum_nonneg; exact HD| |].
  - apply Rmult_le_pos; [apply sum_nonneg; exact HD|]. left. apply Rinv_0_lt_compat. apply maxi_pos.
  - apply (fold_max_spec (map (nearest norm b) a) 0). left. reflexivity.
Qed.
Lemma one_way_zero r norm a b : one_way r norm a b = 0 <-> forall p, In p a -> nearest norm b p = 0.
Proof.
  assert (HD : forall d, In d (map (nearest norm b) a) -> 0 <= d) by (intros d Hd; apply in_map_iff in Hd; destruct Hd as (p & <- & _); apply nearest_nonneg).
  assert (EQ : (forall d, In d (map (nearest norm b) a) -> d = 0) <-> forall p, In p a -> nearest norm b p = 0).
  { split; [intros H p Hp; apply H; apply in_map; exact Hp|]. intros H d Hd. apply in_map_iff in Hd. destruct Hd as (p & <- & Hp). apply H. exact Hp. }
  rewrite <- EQ. unfold one_way. destruct r; [apply sum_zero; exact HD| |].
  - rewrite <- (sum_zero _ HD). pose proof (maxi_pos (length a)) as MP. split; [intros H; apply Rmult_integral in H; destruct H as [H|H]; [exact H|]; exfalso; revert H; apply Rinv_neq_0_compat; lra|]. intros ->. unfold Rdiv. ring.
  - destruct (fold_max_spec (map (nearest norm b) a) 0) as (H1 & H2). split.
    + intros E d Hd. apply Rle_antisym; [rewrite <- E; apply H2; right; exact Hd|apply HD; exact Hd].
    + intros H. destruct H1 as [H1|H1]; [symmetry; exact H1|]. apply H. exact H1.
Qed.
Lemma distance_zero norm p q : length p = length q -> (distance norm p q = 0 <-> p = q).
Proof.
  unfold distance. intros L. destruct (norm =? 1)%nat; revert q L; induction p as [|x p IH]; intros [|y q] L; cbn in L; try discriminate; try (cbn; tauto); injection L as L; specialize (IH q L); cbn.
  - pose proof (Rabs_pos (x - y)). pose proof (dist_nonneg 1 p q) as N. unfold distance in N. cbn in N. split.
    + intros E. assert (E1 : Rabs (x - y) = 0) by lra. assert (E2 : dist_L1 p q = 0) by lra. apply IH in E2. subst. f_equal. destruct (Req_dec (x - y) 0) as [Z|Z]; [lra|]. apply Rabs_no_R0 in Z. contradiction.
    + intros E. injection E as -> ->. rewrite (proj2 IH eq_refl). replace (y - y) with 0 by lra. rewrite Rabs_R0. lra.
  - pose proof (pow2_ge_0 (x - y)) as Sq. cbn in Sq. pose proof (dist_nonneg 2 p q) as N. unfold distance in N. cbn in N. split.
    + intros E. assert (E1 : (x - y) * (x - y) = 0) by lra. assert (E2 : dist_L2sq p q = 0) by lra. apply IH in E2. subst. f_equal. apply Rmult_integral in E1. lra.
    + intros E. injection E as -> ->. rewrite (proj2 IH eq_refl). ring.
Qed.
Lemma nearest_zero norm b p : b <> [] -> (forall q, In q b -> length p = length q) -> (nearest norm b p = 0 <-> In p b).
Proof.
  intros Hb HL. destruct (nearest_spec norm b p Hb) as ((q & I & E) & HM). split.
  - intros Z. rewrite Z in E. symmetry in E. apply distance_zero in E; [subst; exact I|apply HL; exact I].
  - intros Hp. apply Rle_antisym; [|apply nearest_nonneg]. rewrite <- (proj2 (distance_zero norm p p eq_refl) eq_refl). apply HM. exact Hp.
Qed.
Lemma both_zero r norm single a b D : (forall p, In p a -> length p = D) -> (forall p, In p b -> length p = D) -> b <> [] -> (single = false -> a <> []) ->
  (both_ways r norm single a b = 0 <-> incl a b /\ (single = false -> incl b a)).
Proof.
  intros La Lb Nb Na.
  assert (ZA : one_way r norm a b = 0 <-> incl a b).
  { rewrite one_way_zero. split; intros H p Hp; specialize (H p Hp); (apply (nearest_zero norm b p Nb); [intros q Hq; rewrite (La p Hp), (Lb q Hq); reflexivity|exact H]). }
  unfold both_ways. destruct single; [rewrite ZA; intuition discriminate|]. specialize (Na eq_refl).
  assert (ZB : one_way r norm b a = 0 <-> incl b a).
  { rewrite one_way_zero. split; intros H p Hp; specialize (H p Hp); (apply (nearest_zero norm a p Na); [intros q Hq; rewrite (Lb p Hp), (La q Hq); reflexivity|exact H]). }
  pose proof (one_way_nonneg r norm a b) as PA. pose proof (one_way_nonneg r norm b a) as PB.
  assert (K : (match r with PMax => Rmax (one_way r norm a b) (one_way r norm b a) | _ => one_way r norm a b + one_way r norm b a end = 0 <-> one_way r norm a b = 0 /\ one_way r norm b a = 0)).
  { destruct r; [split; [intros; split; lra|intros (-> & ->); lra]|split; [intros; split; lra|intros (-> & ->); lra]|].
    split; [|intros (-> & ->); apply Rmax_left; lra]. intros E. pose proof (Rmax_l (one_way PMax norm a b) (one_way PMax norm b a)). pose proof (Rmax_r (one_way PMax norm a b) (one_way PMax norm b a)). split; lra. }
  rewrite K, ZA, ZB. intuition.
Qed.

(* ---- the arguments ---- *)
Lemma shown_ok p ol x l : shown p ol x l -> well_shaped x l -> handle_input p ol None = Ok (x, l, None).
Proof.
  destruct p as [x'|x' l' n]; cbn [shown].
  - intros (-> & H) W. destruct ol as [l'|]; [destruct H as (-> & N)|subst; reflexivity]. apply handle_ok; [exact W|]. intros C. destruct W as (L & _). rewrite C in L. destruct l; [congruence|discriminate].
  - intros (-> & -> & ->) _. reflexivity.
Qed.
Lemma chamfer_shown sort px py oxl oyl x y xl yl w b p norm single ab : shown px oxl x xl -> shown py oyl y yl -> well_shaped x xl -> well_shaped y yl ->
  chamfer_distance sort px py oxl oyl None None w b p norm single ab = chamfer_distance sort (FromClouds x xl None) (FromClouds y yl None) None None None None w b p norm single ab.
Proof.
  intros SX SY WX WY. unfold chamfer_distance. destruct (negb (valid_reductions b p)); [reflexivity|]. destruct (negb _); [reflexivity|]. destruct (match p with Some PMax => _ | _ => _ end); [reflexivity|]. rewrite (shown_ok _ _ _ _ SX WX), (shown_ok _ _ _ _ SY WY). reflexivity.
Qed.
Theorem chamfer_value_any sort px py oxl oyl x y xl yl w b r norm single ab : shown px oxl x xl -> shown py oyl y yl -> norm = 1%nat \/ norm = 2%nat ->
  well_shaped x xl -> well_shaped y yl -> matching x y -> fine_weights w (length (t_data x)) -> max_defined r single x y ->
  chamfer_distance sort px py oxl oyl None None w b (Some r) norm single ab = Ok (reduced b w (pair_losses r norm single w (combine (clouds x xl) (clouds y yl))), None).
Proof.
  intros SX SY Hn WX WY MA HW HM. rewrite (chamfer_shown _ _ _ _ _ x y xl yl) by assumption.
  destruct (t_data x) as [|c0 cs] eqn:EX.
  - (* an empty batch *)
    assert (EY : t_data y = []) by (destruct MA as (M & _); rewrite EX in M; destruct (t_data y); [reflexivity|discriminate]).
    assert (EXL : xl = []) by (destruct WX as (L & _); rewrite EX in L; destruct xl; [reflexivity|discriminate]). assert (EYL : yl = []) by (destruct WY as (L & _); rewrite EY in L; destruct yl; [reflexivity|discriminate]). subst xl yl.
    assert (EW : w = None) by (destruct w as [w|]; [|reflexivity]; destruct HW as (L & _ & S); destruct w; [|discriminate]; exfalso; apply S; apply rsum_nil). subst w.
    unfold chamfer_distance. destruct MA as (_ & M2). assert (E2 : negb ((norm =? 1)%nat || (norm =? 2)%nat) = false) by (destruct Hn as [-> | ->]; reflexivity). destruct b as [b|]; cbn [valid_reductions negb]; rewrite E2; cbn [handle_input rbind];
    unfold single_direction; rewrite EX, EY, M2; rewrite !Nat.eqb_refl; cbn; destruct r, single; cbn; try destruct b; unfold reduced, pair_losses, clouds; cbn; try reflexivity; f_equal; f_equal; f_equal; unfold rsum; cbn; lra.
  - rewrite <- (chamfer_shown sort (FromTensor x) (FromTensor y) (Some xl) (Some yl) x y xl yl); try assumption.
    + apply chamfer_value; auto; rewrite EX; [discriminate|exact HW].
    + split; [reflexivity|]. split; [reflexivity|]. intros ->. destruct WX as (L & _). rewrite EX in L. discriminate.
    + split; [reflexivity|]. split; [reflexivity|]. intros ->. destruct WY as (L & _), MA as (M & _). rewrite EX in M. destruct (t_data y); discriminate.
Qed.
(* ---- per point ---- *)
Lemma per_point sort px py oxl oyl x y xl yl w norm single ab : shown px oxl x xl -> shown py oyl y yl -> norm = 1%nat \/ norm = 2%nat ->
  well_shaped x xl -> well_shaped y yl -> matching x y -> fine_weights w (length (t_data x)) ->
  chamfer_distance sort px py oxl oyl None None w None None norm single ab =
  Ok ((if single then One (M (scale_rows w (map (q_dists norm) (quads x y xl yl))))
       else Two (M (scale_rows w (map (q_dists norm) (quads x y xl yl)))) (M (scale_rows w (map (q_dists norm) (quads y x yl xl))))), None).
Proof.
  intros SX SY Hn WX WY MA HW.
  assert (S1 : forall x y xl yl, well_shaped x xl -> well_shaped y yl -> matching x y -> fine_weights w (length (t_data x)) -> single_direction sort x y xl yl None None w None norm ab = Ok (M (scale_rows w (map (q_dists norm) (quads x y xl yl))), None)).
  { clear -Hn. intros x y xl yl WX WY MA HW. unfold single_direction. destruct MA as (M1 & M2). rewrite <- M1, M2, !Nat.eqb_refl. cbn [negb orb]. destruct (weights_ok w _ HW) as (EW & PW). rewrite EW.
    set (Q := quads x y xl yl). change (combine (combine (t_data x) (t_data y)) (combine xl yl)) with Q. pose proof (q_fit x y xl yl WX WY (conj M1 M2)) as HF. fold Q in HF. pose proof (q_m x y xl yl WX WY (conj M1 M2)) as QM. fold Q in QM. pose proof (q_l x y xl yl WX WY (conj M1 M2)) as QL. fold Q in QL.
    destruct (all_rows sort norm Q (min_of yl) Hn HF) as (rows & E & HR). { apply Forall_forall. intros q Hq. apply min_le. rewrite <- QM. apply in_map. exact Hq. }
    rewrite E. cbn [rbind]. rewrite (all_dists norm Q rows HF HR). rewrite <- QL. rewrite (all_masked norm Q HF). destruct (existsb _ _); reflexivity. }
  rewrite (chamfer_shown _ _ _ _ _ x y xl yl) by assumption. unfold chamfer_distance. cbn [valid_reductions negb]. assert (E2 : negb ((norm =? 1)%nat || (norm =? 2)%nat) = false) by (destruct Hn as [-> | ->]; reflexivity). rewrite E2. cbn [handle_input rbind]. rewrite (S1 x y xl yl WX WY MA HW). cbn [rbind]. destruct single; [reflexivity|].
  assert (MA' : matching y x) by (destruct MA; split; symmetry; assumption). rewrite (S1 y x yl xl WY WX MA') by (destruct MA as (M1 & _); rewrite <- M1; exact HW). reflexivity.
Qed.
