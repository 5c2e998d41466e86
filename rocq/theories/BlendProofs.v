From Coquelicot Require Import Coquelicot.
From Verif Require Import Base RBase Blend BlendSpec.
Local Open Scope R_scope.

Lemma prob_cov sigma d : sig_prob sigma d = coverage sigma d.
Proof. unfold sig_prob, coverage. do 3 f_equal. unfold Rdiv. ring. Qed.
Lemma cov_range sigma d : 0 < coverage sigma d < 1.
Proof.
  unfold coverage. assert (E := exp_pos (d / sigma)). split.
  - apply Rdiv_lt_0_compat; lra.
  - apply Rmult_lt_reg_r with (1 + exp (d / sigma)); [lra|]. unfold Rdiv. rewrite Rmult_assoc, Rinv_l by lra. lra.
Qed.
Lemma sab_acc sigma row : forall a,
  fold_left (fun alpha x => if (fst x <? 0)%Z then alpha else alpha * (1 - sig_prob sigma (snd x))) row a =
  a * rprod (map (fun d => 1 - coverage sigma d) (valid_dists row)).
Proof.
  induction row as [|[f d] row IH]; intros a; cbn [fold_left]; [cbn; ring|]. cbn [fst snd]. rewrite IH.
  unfold valid_dists. cbn [flat_map fst snd]. destruct (f <? 0)%Z; [reflexivity|]. cbn [app map rprod fold_right]. rewrite prob_cov.
  unfold rprod. ring.
Qed.
Lemma sab_fwd_prod sigma row : sab_fwd sigma row = 1 - rprod (map (fun d => 1 - coverage sigma d) (valid_dists row)).
Proof. unfold sab_fwd, sab_trans. rewrite sab_acc. ring. Qed.
Lemma rprod_unit_open {A} (g : A -> R) l : (forall x, In x l -> 0 < g x <= 1) -> 0 < rprod (map g l) <= 1.
Proof.
  induction l as [|x l IH]; intros H; cbn; [lra|]. assert (H1 := H x (or_introl eq_refl)).
  specialize (IH (fun y Hy => H y (or_intror Hy))). unfold rprod in IH. nra.
Qed.
Lemma sab_bounds sigma row : 0 <= sab_fwd sigma row < 1.
Proof.
  rewrite sab_fwd_prod. destruct (rprod_unit_open (fun d => 1 - coverage sigma d) (valid_dists row)) as [H1 H2]; [|lra].
  intros d _. assert (H := cov_range sigma d). lra.
Qed.
Lemma valid_perm row row' : Permutation row row' -> Permutation (valid_dists row) (valid_dists row').
Proof. intros H. apply Permutation_flat_map, H. Qed.
Lemma sab_perm sigma row row' : Permutation row row' -> sab_fwd sigma row = sab_fwd sigma row'.
Proof. intros H. rewrite !sab_fwd_prod. f_equal. apply rprod_perm, Permutation_map, valid_perm, H. Qed.
Lemma sab_cons sigma f d row : sab_fwd sigma ((f, d) :: row) =
  if (f <? 0)%Z then sab_fwd sigma row else sab_fwd sigma row + coverage sigma d * (1 - sab_fwd sigma row).
Proof.
  rewrite !sab_fwd_prod. unfold valid_dists. cbn [flat_map fst snd]. destruct (f <? 0)%Z; [reflexivity|].
  cbn [app map rprod fold_right]. unfold rprod. ring.
Qed.
Lemma sab_mono sigma f d row : (0 <= f)%Z -> sab_fwd sigma row < sab_fwd sigma ((f, d) :: row).
Proof.
  intros Hf. rewrite sab_cons. destruct (Z.ltb_spec f 0); [lia|]. assert (B := sab_bounds sigma row). assert (C := cov_range sigma d). nra.
Qed.
Lemma cov_decr sigma d d' : 0 < sigma -> d <= d' -> coverage sigma d' <= coverage sigma d.
Proof.
  intros Hs H. unfold coverage. unfold Rdiv at 1 3. rewrite !Rmult_1_l. apply Rinv_le_contravar.
  - assert (E := exp_pos (d / sigma)). lra.
  - apply Rplus_le_compat_l. destruct H as [H| ->]; [|lra]. left. apply exp_increasing.
    unfold Rdiv. apply Rmult_lt_compat_r; [apply Rinv_0_lt_compat; lra|exact H].
Qed.
Lemma sab_mono_dist sigma row : 0 < sigma -> forall k t t', t <= t' -> sab_fwd sigma (set_dist row k t') <= sab_fwd sigma (set_dist row k t).
Proof.
  intros Hs. induction row as [|[f d] row IH]; intros k t t' Ht; [destruct k; cbn; lra|].
  destruct k as [|k]; cbn [set_dist]; rewrite !sab_cons; destruct (f <? 0)%Z; try lra; try (apply IH; exact Ht).
  - assert (C := cov_decr sigma t t' Hs Ht). assert (B := sab_bounds sigma row). nra.
  - specialize (IH k t t' Ht). assert (C := cov_range sigma d). nra.
Qed.
Lemma cov_deriv sigma d : sigma <> 0 -> derivable_pt_lim (coverage sigma) d (- / sigma * coverage sigma d * (1 - coverage sigma d)).
Proof.
  intros Hs. apply is_derive_Reals. unfold coverage. assert (E := exp_pos (d / sigma)). auto_derive.
  - unfold Rdiv in *. lra.
  - unfold Rdiv in *. field. split; [lra|assumption].
Qed.
Lemma sab_deriv sigma row : sigma <> 0 -> forall k f d, nth_error row k = Some (f, d) ->
  derivable_pt_lim (fun t => sab_fwd sigma (set_dist row k t)) d
    (if (f <? 0)%Z then 0 else -1 / sigma * coverage sigma d * (1 - sab_fwd sigma row)).
Proof.
  intros Hs. induction row as [|[g e] row IH]; intros k f d E; [destruct k; discriminate|]. destruct k as [|k]; cbn [nth_error] in E.
  - injection E as -> ->. cbn [set_dist]. eapply deriv_ext; [intros t; apply sab_cons|]. rewrite sab_cons.
    destruct (f <? 0)%Z; [apply deriv_const|].
    eapply deriv_val; [|apply (deriv_plus (fun _ => sab_fwd sigma row) (fun t => coverage sigma t * (1 - sab_fwd sigma row))); [apply deriv_const|]].
    2:{ eapply deriv_ext; [intros t; rewrite Rmult_comm; reflexivity|]. apply deriv_scal, cov_deriv, Hs. }
    unfold Rdiv. ring.
  - cbn [set_dist]. eapply deriv_ext; [intros t; apply sab_cons|]. rewrite sab_cons. specialize (IH k f d E).
    destruct (g <? 0)%Z; [exact IH|].
    eapply deriv_ext with (g := fun t => coverage sigma e + (1 - coverage sigma e) * sab_fwd sigma (set_dist row k t)); [intros t; ring|].
    eapply deriv_val; [|apply (deriv_plus (fun _ => coverage sigma e) (fun t => (1 - coverage sigma e) * sab_fwd sigma (set_dist row k t)));
      [apply deriv_const|apply deriv_scal, IH]].
    destruct (f <? 0)%Z; unfold Rdiv; ring.
Qed.
Lemma sab_bwd_grad sigma g row : sigma <> 0 -> forall k f d, nth_error row k = Some (f, d) ->
  exists v, nth_error (sab_bwd sigma g (sab_fwd sigma row) row) k = Some v /\
    derivable_pt_lim (fun t => g * sab_fwd sigma (set_dist row k t)) d v.
Proof.
  intros Hs k f d E. eexists. split; [unfold sab_bwd; exact (map_nth_error _ _ _ E)|]. cbn [fst snd].
  eapply deriv_val; [|apply deriv_scal, (sab_deriv sigma row Hs k f d E)]. rewrite prob_cov. destruct (f <? 0)%Z; ring.
Qed.

(* ------------------------------------------------------------------ softmax *)
Lemma sm_eps_pos : 0 < sm_eps.
Proof. unfold sm_eps. apply Rinv_0_lt_compat. lra. Qed.
Lemma fold_max_ge g (row : list sslot) : forall m, m <= fold_left (fun m x => Rmax m (g x)) row m /\
  forall x, In x row -> g x <= fold_left (fun m x => Rmax m (g x)) row m.
Proof.
  induction row as [|y row IH]; intros m; cbn [fold_left]; [split; [lra|intros x []]|].
  destruct (IH (Rmax m (g y))) as [H1 H2]. assert (L1 := Rmax_l m (g y)). assert (L2 := Rmax_r m (g y)).
  split; [lra|]. intros x [<-|Hx]; [lra|auto].
Qed.
Lemma s_prob_range sigma s : 0 <= s_prob sigma s < 1.
Proof.
  unfold s_prob, s_mask. assert (E := exp_pos (- (- s_dist s / sigma))). set (e := exp _) in *. clearbody e.
  assert (0 < 1 / (1 + e) < 1).
  { split; [apply Rdiv_lt_0_compat; lra|]. apply Rmult_lt_reg_r with (1 + e); [lra|]. unfold Rdiv. rewrite Rmult_assoc, Rinv_l by lra. lra. }
  destruct (0 <=? s_face s)%Z; lra.
Qed.
Lemma combine_sum (g col : sslot -> R) D row :
  rsum (map (fun p => fst p * col (snd p)) (combine (map (fun x => x / D) (map g row)) row)) = rsum (map (fun s => g s * col s) row) / D.
Proof. induction row as [|s r IH]; cbn [map combine]; [cbn; unfold Rdiv; ring|]. rewrite !rsum_cons. cbn [fst snd]. rewrite IH. unfold Rdiv. ring. Qed.
Lemma softmax_convex sigma gamma znear zfar bg row : row <> [] ->
  exists ws wb v, softmax_blend sigma gamma znear zfar bg row = Ok (v, 1 - rprod (map (fun s => 1 - s_prob sigma s) row)) /\
    length ws = length row /\ (forall w, In w ws -> 0 <= w) /\ 0 < wb /\ rsum ws + wb = 1 /\
    v = rsum (map (fun p => fst p * s_col (snd p)) (combine ws row)) + wb * bg /\
    (forall k s w, nth_error row k = Some s -> nth_error ws k = Some w -> (s_face s < 0)%Z -> w = 0).
Proof.
  intros Hne. destruct row as [|s0 row0]; [congruence|]. set (row := s0 :: row0) in *.
  unfold softmax_blend. cbn [zinv_max row rbind]. fold row. set (zm := Rmax _ sm_eps).
  set (w := map (s_weight sigma gamma znear zfar zm) row). set (de := sm_delta gamma zm).
  assert (Hw : forall x, In x w -> 0 <= x).
  { intros x Hx. apply in_map_iff in Hx as [s [<- _]]. unfold s_weight. apply Rmult_le_pos; [apply s_prob_range|left; apply exp_pos]. }
  assert (Hd : 0 < de). { unfold de, sm_delta. assert (H := Rmax_r (exp ((sm_eps - zm) / gamma)) sm_eps). assert (P := sm_eps_pos). lra. }
  assert (Hs : 0 <= rsum w) by (apply rsum_nonneg, Forall_forall; exact Hw).
  exists (map (fun x => x / (rsum w + de)) w), (de / (rsum w + de)). eexists. split; [reflexivity|].
  split; [unfold w; rewrite !map_length; reflexivity|].
  split. { intros x Hx. apply in_map_iff in Hx as [y [<- Hy]]. apply Rmult_le_pos; [auto|]. left. apply Rinv_0_lt_compat. lra. }
  split; [apply Rdiv_lt_0_compat; lra|].
  assert (Es : rsum (map (fun x => x / (rsum w + de)) w) = rsum w / (rsum w + de)).
  { unfold Rdiv. transitivity (rsum (map (fun x => / (rsum w + de) * x) w)); [apply rsum_map_ext; intros; ring|].
    rewrite rsum_map_scal, map_id. ring. }
  split; [rewrite Es; field; lra|]. split.
  - assert (Ec := combine_sum (s_weight sigma gamma znear zfar zm) s_col (rsum w + de) row). fold w in Ec. rewrite Ec. field. lra.
  - intros k s v Es' Ew Hf. unfold w in Ew. rewrite map_map in Ew.
    rewrite (map_nth_error _ _ _ Es') in Ew. injection Ew as <-. unfold s_weight, s_prob, s_mask.
    destruct (Z.leb_spec 0 (s_face s)); [lia|]. unfold Rdiv. ring.
Qed.
Lemma rsum_range {A} (ws : list R) (xs : list A) (col : A -> R) wb bg lo hi : length ws = length xs ->
  (forall w, In w ws -> 0 <= w) -> 0 <= wb -> rsum ws + wb = 1 -> lo <= bg <= hi -> (forall x, In x xs -> lo <= col x <= hi) ->
  lo <= rsum (map (fun p => fst p * col (snd p)) (combine ws xs)) + wb * bg <= hi.
Proof.
  intros HL Hw Hb Hs Hbg Hc.
  assert (G : lo * rsum ws <= rsum (map (fun p => fst p * col (snd p)) (combine ws xs)) <= hi * rsum ws).
  { clear Hs. revert xs HL Hc. induction ws as [|w ws IH]; intros [|x xs] HL Hc; try discriminate; [cbn; lra|].
    cbn [combine map]. rewrite !rsum_cons. cbn [fst snd]. injection HL as HL.
    destruct (IH (fun w Hw' => Hw w (or_intror Hw')) xs HL (fun x Hx => Hc x (or_intror Hx))) as [G1 G2].
    assert (Hw0 := Hw w (or_introl eq_refl)). assert (Hc0 := Hc x (or_introl eq_refl)). nra. }
  nra.
Qed.
Lemma softmax_stable sigma gamma znear zfar row zm : 0 < gamma -> zinv_max znear zfar row = Ok zm ->
  forall s, In s row -> 0 <= s_weight sigma gamma znear zfar zm s <= 1.
Proof.
  intros Hg E s Hs. destruct row as [|s0 row]; [destruct Hs|]. cbn in E. injection E as <-.
  assert (Z1 : s_zinv znear zfar s <= Rmax (fold_left (fun m x => Rmax m (s_zinv znear zfar x)) row (s_zinv znear zfar s0)) sm_eps).
  { eapply Rle_trans; [|apply Rmax_l]. destruct (fold_max_ge (s_zinv znear zfar) row (s_zinv znear zfar s0)) as [H1 H2].
    destruct Hs as [<-|Hs]; auto. }
  set (zm := Rmax _ sm_eps) in *. unfold s_weight. assert (P := s_prob_range sigma s).
  assert (X : 0 < exp ((s_zinv znear zfar s - zm) / gamma) <= 1).
  { split; [apply exp_pos|]. rewrite <- exp_0. assert (Y : (s_zinv znear zfar s - zm) / gamma <= 0).
    { unfold Rdiv. assert (0 < / gamma) by (apply Rinv_0_lt_compat; lra). nra. }
    destruct Y as [Y| ->]; [left; apply exp_increasing, Y|lra]. }
  nra.
Qed.
