(* Properties C14 (sample_pdf), C45 (raymarching), C48 (LinearWithRepeat), C49 (HarmonicEmbedding),
   C54 (depths of ray samples) and C55 (implicitron raymarchers). *)
From Verif Require Import Base RBase Implicit ImplicitSpec ImplicitProofs ImplicitProofs2 ImplicitProofs3.
Local Open Scope R_scope.

(* ---- C14 *)
Theorem sample_pdf_inside : forall eps bins ws us vs, 0 < eps -> nonneg ws -> ws <> [] -> length bins = (length ws + 1)%nat ->
  nondecreasing bins -> nonneg us -> sample_pdf eps bins ws us = Ok vs -> all_in (nth 0 bins 0) (last bins 0) vs.
Proof.
  intros eps bins ws us vs He Hw Hn HL Hs Hu E. rewrite sample_pdf_eq in E by assumption. revert vs E.
  assert (W : 0 <= rsum ws) by (apply rsum_nonneg, Forall_forall, Hw).
  induction us as [|u us IH]; intros vs E; cbn [rmap] in E; [injection E as <-; intros v []|].
  assert (U : 0 <= u) by (apply Hu; left; reflexivity).
  destruct (scan_inside eps ltac:(lra) ws bins ((rsum ws + eps) * u) Hs HL Hn ltac:(nra)) as [v [Ev Hv]]. rewrite Ev in E. cbn [rbind] in E.
  destruct (rmap _ us) as [r|] eqn:Er; [|discriminate]. cbn [rbind] in E. injection E as <-.
  intros x [<-|Hx]; [exact Hv|]. apply (IH (fun y Hy => Hu y (or_intror Hy)) r eq_refl x Hx).
Qed.
Print Assumptions sample_pdf_inside.
(* every quantile produces a sample *)
Theorem sample_pdf_total : forall eps bins ws us, 0 < eps -> nonneg ws -> ws <> [] -> length bins = (length ws + 1)%nat ->
  nondecreasing bins -> nonneg us -> exists vs, sample_pdf eps bins ws us = Ok vs /\ length vs = length us.
Proof.
  intros eps bins ws us He Hw Hn HL Hs Hu. rewrite sample_pdf_eq by assumption.
  assert (W : 0 <= rsum ws) by (apply rsum_nonneg, Forall_forall, Hw).
  induction us as [|u us IH]; [exists []; split; reflexivity|]. cbn [rmap].
  assert (U : 0 <= u) by (apply Hu; left; reflexivity).
  destruct (scan_inside eps ltac:(lra) ws bins ((rsum ws + eps) * u) Hs HL Hn ltac:(nra)) as [v [Ev Hv]]. rewrite Ev. cbn [rbind].
  destruct IH as [vs [E L]]; [intros y Hy; apply Hu; right; exact Hy|]. rewrite E. cbn [rbind]. exists (v :: vs). split; [reflexivity|]. cbn. lia.
Qed.
Print Assumptions sample_pdf_total.
(* larger quantiles never give smaller samples *)
Theorem sample_pdf_monotone : forall eps bins ws u u' v v', 0 < eps -> nonneg ws -> ws <> [] -> length bins = (length ws + 1)%nat ->
  nondecreasing bins -> 0 <= u <= u' -> sample_pdf eps bins ws [u; u'] = Ok [v; v'] -> v <= v'.
Proof.
  intros eps bins ws u u' v v' He Hw Hn HL Hs Hu E. rewrite sample_pdf_eq in E by assumption.
  assert (W : 0 <= rsum ws) by (apply rsum_nonneg, Forall_forall, Hw). cbn [rmap] in E.
  destruct (pdf_scan eps bins ws ((rsum ws + eps) * u)) as [x|] eqn:E1; [|discriminate]. cbn [rbind] in E.
  destruct (pdf_scan eps bins ws ((rsum ws + eps) * u')) as [y|] eqn:E2; [|discriminate]. cbn [rbind] in E. injection E as <- <-.
  apply (scan_mono eps ltac:(lra) ws bins ((rsum ws + eps) * u) ((rsum ws + eps) * u') x y Hs HL Hn); [nra|nra|exact E1|exact E2].
Qed.
Print Assumptions sample_pdf_monotone.
(* the sample is where the cumulative weight reaches u * (total + eps), within eps; exactly so when no
   bin weight is below eps *)
Theorem sample_pdf_inverts_cdf : forall eps bins ws u v, 0 < eps -> nonneg ws -> ws <> [] -> length bins = (length ws + 1)%nat ->
  0 <= u -> sample_pdf eps bins ws [u] = Ok [v] ->
  let target := Rmin ((rsum ws + eps) * u) (rsum ws) in
  exists q, on_cdf bins ws v q /\ target - eps <= q <= target /\ ((forall w, In w ws -> eps < w) -> q = target).
Proof.
  intros eps bins ws u v He Hw Hn HL Hu E target. rewrite sample_pdf_eq in E by assumption.
  assert (W : 0 <= rsum ws) by (apply rsum_nonneg, Forall_forall, Hw). cbn [rmap] in E.
  destruct (pdf_scan eps bins ws ((rsum ws + eps) * u)) as [x|] eqn:E1; [|discriminate]. cbn [rbind] in E. injection E as <-.
  apply (scan_cdf eps ltac:(lra) ws bins ((rsum ws + eps) * u) x Hw HL ltac:(nra) E1).
Qed.
Print Assumptions sample_pdf_inverts_cdf.
Example sample_pdf_ex : nonneg [1; 0; 3] /\ nondecreasing [0; 1; 2; 4] /\ sample_pdf (/ 10) [0; 1; 2; 4] [1; 0; 3] [0] = Ok [0].
Proof.
  split; [intros x [<-|[<-|[<-|[]]]]; lra|]. split.
  - intros i j Hij Hj. cbn in Hj. destruct i as [|[|[|[|i]]]], j as [|[|[|[|j]]]]; try lia; cbn; lra.
  - rewrite sample_pdf_eq; [|intros x [<-|[<-|[<-|[]]]]; lra|lra|discriminate|reflexivity]. cbn [rmap pdf_scan].
    destruct (Rltb_spec 1 ((rsum [1; 0; 3] + / 10) * 0)); [lra|]. unfold pdf_finish. destruct (Rltb_spec 1 ((rsum [1; 0; 3] + / 10) * 0)); [lra|].
    destruct (Rltb_spec (/ 10) 1); [|lra]. cbn [rbind]. do 2 f_equal. field.
Qed.
(* taken literally (quantile u of the total weight) the claim is false: eps shifts the quantiles *)
Theorem sample_pdf_exact_quantile_refuted : ~ (forall eps bins ws u v, 0 < eps -> nonneg ws -> ws <> [] ->
  length bins = (length ws + 1)%nat -> 0 <= u <= 1 -> sample_pdf eps bins ws [u] = Ok [v] -> on_cdf bins ws v (rsum ws * u)).
Proof.
  intros H.
  assert (N1 : nonneg [1]) by (intros x [<-|[]]; lra).
  assert (E : sample_pdf (/ 10) [0; 1] [1] [1/2] = Ok [11/20]).
  { rewrite sample_pdf_eq; [|exact N1|lra|discriminate|reflexivity]. cbn [rmap pdf_scan]. unfold pdf_finish.
    replace (rsum [1]) with 1 by (cbn; lra).
    destruct (Rltb_spec 1 ((1 + / 10) * (1/2))); [lra|]. destruct (Rltb_spec (/ 10) 1); [|lra]. cbn [rbind]. do 2 f_equal. field. }
  destruct (H (/ 10) [0; 1] [1] (1/2) (11/20) ltac:(lra) N1 ltac:(discriminate) eq_refl ltac:(lra) E) as [i [t [Hi [Ht [Hv Hq]]]]].
  cbn in Hi. replace i with 0%nat in * by lia. cbn in Hv, Hq. lra.
Qed.
Print Assumptions sample_pdf_exact_quantile_refuted.
(* the two compile-time search strategies agree *)
Theorem sample_pdf_search_agrees : forall eps bins ws u, nonneg ws -> length bins = (length ws + 1)%nat -> ws <> [] ->
  sample_pdf_one eps bins ws u = pdf_scan eps bins ws ((rsum ws + eps) * u).
Proof. exact sample_one_scan. Qed.
Print Assumptions sample_pdf_search_agrees.
(* the pure Python version, which adds eps to every weight *)
Theorem sample_pdf_python_inverts_cdf : forall eps bins ws u, 0 < eps -> (forall w, In w ws -> - eps < w) -> ws <> [] ->
  length bins = (length ws + 1)%nat -> 0 <= u <= 1 ->
  let pdf := map (fun w => (w + eps) / rsum (map (fun w => w + eps) ws)) ws in
  exists v q, sample_pdf_python eps bins ws u = Ok v /\ on_cdf bins pdf v q /\ u - eps <= q <= u /\
    ((forall p, In p pdf -> eps <= p) -> q = u) /\ (nondecreasing bins -> nth 0 bins 0 <= v <= last bins 0).
Proof.
  intros eps bins ws u He Hw Hn HL Hu pdf. destruct (python_cdf eps bins ws u He Hw Hn HL Hu) as [v [q [E [C [Q X]]]]].
  exists v, q. split; [exact E|]. split; [exact C|]. split; [exact Q|]. split.
  - intros Hp. apply X. intros w Hi. apply Hp. apply in_map_iff. exists w. split; [reflexivity|exact Hi].
  - intros Hs. apply (on_cdf_inside bins pdf v q Hs); [unfold pdf; rewrite map_length; exact HL|exact C].
Qed.
Print Assumptions sample_pdf_python_inverts_cdf.

(* ---- C45 *)
Theorem ea_raymarch_renders : forall s eps dens feats, (0 < s)%nat -> length feats = length dens ->
  ea_raymarch (Z.of_nat s) eps dens feats =
  Ok (map (ea_weight s eps dens) (seq 0 (length dens)), sumf (length dens) (fun k => ea_weight s eps dens k * nth k feats 0),
      1 - rprod (map (fun d => 1 - d) dens)).
Proof. exact ea_eq. Qed.
Print Assumptions ea_raymarch_renders.
(* weights are non-negative; what they do not carry is transmitted, up to the stabiliser eps *)
Theorem ea_raymarch_partition : forall eps dens, 0 <= eps -> all_in 0 1 dens ->
  (forall s k, 0 <= ea_weight s eps dens k) /\
  sumf (length dens) (ea_weight 1 eps dens) + rprod (map (fun d => 1 + eps - d) dens)
    = 1 + eps * sumf (length dens) (fun k => prod_first k (fun d => 1 + eps - d) dens).
Proof.
  intros eps dens He Hd. split; [intros s k; apply ea_weight_nonneg; assumption|].
  rewrite ea_telescope by lia. rewrite prod_first_all. ring.
Qed.
Print Assumptions ea_raymarch_partition.
(* without the stabiliser it is a partition of the light, and the opacity is the sum of the weights *)
Theorem ea_raymarch_partition_exact : forall dens, all_in 0 1 dens ->
  sumf (length dens) (ea_weight 1 0 dens) = 1 - rprod (map (fun d => 1 - d) dens) /\
  0 <= 1 - rprod (map (fun d => 1 - d) dens) <= 1.
Proof.
  intros dens Hd. split; [|apply opacity_range, Hd]. rewrite ea_telescope by lia. rewrite prod_first_all.
  replace (map (fun d => 1 + 0 - d) dens) with (map (fun d => 1 - d) dens) by (apply map_ext; intros; ring). ring.
Qed.
Print Assumptions ea_raymarch_partition_exact.
Example ea_raymarch_ex : all_in 0 1 [1/2; 0; 1] /\ ea_weight 1 0 [1/2; 0; 1] 2 = 1/2.
Proof. split; [intros x [<-|[<-|[<-|[]]]]; lra|]. unfold ea_weight, prod_first. cbn. lra. Qed.
(* with the stabiliser the weights can exceed one in total *)
Theorem ea_raymarch_weights_le_one_refuted : ~ (forall eps dens, 0 < eps -> all_in 0 1 dens -> sumf (length dens) (ea_weight 1 eps dens) <= 1).
Proof.
  intros H. specialize (H 1 [1; 1] ltac:(lra)). assert (A : all_in 0 1 [1; 1]) by (intros x [<-|[<-|[]]]; lra). specialize (H A).
  unfold sumf, ea_weight, prod_first in H. cbn in H. lra.
Qed.
Print Assumptions ea_raymarch_weights_le_one_refuted.
(* a zero surface thickness is not usable: for two or more samples the call fails *)
Theorem ea_raymarch_zero_thickness_refuted : ~ (forall eps dens feats, length feats = length dens ->
  exists r, ea_raymarch 0 eps dens feats = Ok r).
Proof. intros H. destruct (H 0 [0; 0] [0; 0] eq_refl) as [r E]. cbn in E. discriminate. Qed.
Print Assumptions ea_raymarch_zero_thickness_refuted.
Theorem absorption_only_matches : forall s eps dens feats w f o, (0 < s)%nat ->
  ea_raymarch (Z.of_nat s) eps dens feats = Ok (w, f, o) -> ao_raymarch dens = o.
Proof.
  intros s eps dens feats w f o Hs E. destruct (Nat.eq_dec (length feats) (length dens)) as [L|L].
  - rewrite ea_eq in E by assumption. injection E as _ _ <-. reflexivity.
  - unfold ea_raymarch in E. apply Nat.eqb_neq in L. rewrite L in E. discriminate.
Qed.
Print Assumptions absorption_only_matches.

(* ---- C55: implicitron's emission-absorption and cumulative-sum raymarchers *)
Theorem acc_raymarch_partition : forall c w rl bg_op relu blend bg dens feats lengths, pairing c w ->
  dens <> [] -> length feats = length dens -> length lengths = length dens ->
  (rl = true -> (2 <= length dens)%nat) -> 0 <= bg_op -> nondecreasing lengths -> (relu = true \/ forall d, In d dens -> 0 <= d) ->
  exists weights depth o, acc_raymarch c w 1 rl bg_op relu blend bg dens feats lengths =
      Ok (weights, (if blend then o else 1) * sumf (length dens) (fun k => nth k weights 0 * nth k feats 0) + (1 - o) * bg, depth, o) /\
    length weights = length dens /\ nonneg weights /\ rsum weights = o /\ 0 <= o <= 1 /\
    depth = sumf (length dens) (fun k => nth k weights 0 * nth k lengths 0).
Proof. exact acc_ok. Qed.
Print Assumptions acc_raymarch_partition.
Example acc_raymarch_ex : pairing CapExp WProduct /\ nondecreasing [1; 2; 3].
Proof. split; [left; split; reflexivity|]. intros i j Hij Hj. cbn in Hj. destruct i as [|[|[|i]]], j as [|[|[|j]]]; try lia; cbn; lra. Qed.
(* the unblended render stays in the range of the features and the background *)
Theorem acc_raymarch_in_range : forall c w rl bg_op relu bg dens feats lengths a b, pairing c w ->
  dens <> [] -> length feats = length dens -> length lengths = length dens ->
  (rl = true -> (2 <= length dens)%nat) -> 0 <= bg_op -> nondecreasing lengths -> (relu = true \/ forall d, In d dens -> 0 <= d) ->
  all_in a b feats -> a <= bg <= b ->
  exists weights v depth o, acc_raymarch c w 1 rl bg_op relu false bg dens feats lengths = Ok (weights, v, depth, o) /\ a <= v <= b.
Proof.
  intros c w rl bg_op relu bg dens feats lengths a b P Hn HF HL Hr Hb Hs Hd Hf Hbg.
  destruct (acc_ok c w rl bg_op relu false bg dens feats lengths P Hn HF HL Hr Hb Hs Hd) as [W [z [o [E [LW [PW [SW [Ho _]]]]]]]].
  do 4 eexists. split; [exact E|]. rewrite Rmult_1_l. apply convex_bound; try assumption; lra.
Qed.
Print Assumptions acc_raymarch_in_range.
(* blend_output applies the opacity a second time, so the render of a uniform scene over the same
   background changes colour *)
Theorem acc_raymarch_blend_range_refuted : ~ (forall bg_op bg dens feats lengths a b,
  dens <> [] -> length feats = length dens -> length lengths = length dens -> 0 <= bg_op -> nondecreasing lengths ->
  all_in a b feats -> a <= bg <= b ->
  exists weights v depth o, acc_raymarch CapOne WMinimum 1 false bg_op true true bg dens feats lengths = Ok (weights, v, depth, o) /\ a <= v <= b).
Proof.
  intros H.
  assert (Hs : nondecreasing [0]) by (intros i j Hij Hj; cbn in Hj; replace i with 0%nat by lia; replace j with 0%nat by lia; lra).
  assert (Hf : all_in 1 1 [1]) by (intros x [<-|[]]; lra).
  assert (Hn : [1/2] <> []) by discriminate.
  destruct (H 1 1 [1/2] [1] [0] 1 1 Hn eq_refl eq_refl ltac:(lra) Hs Hf ltac:(lra)) as [W [v [z [o [E Hv]]]]].
  assert (E2 : exists w z, acc_raymarch CapOne WMinimum 1 false 1 true true 1 [1/2] [1] [0] = Ok (w, 3/4, z, 1/2)).
  { unfold acc_raymarch. cbn. rewrite (Rmax_left (1/2) 0) by lra. do 2 eexists.
    replace (Rmin (0 + 1 * (1/2)) 1) with (1/2) by (rewrite Rmin_left; lra).
    replace (Rmin (1 * (1/2)) 1) with (1/2) by (rewrite Rmin_left; lra).
    replace (Rmin (1/2) 1) with (1/2) by (rewrite Rmin_left; lra).
    match goal with |- Ok (_, ?b, _, _) = _ => replace b with (3/4) by lra end. reflexivity. }
  destruct E2 as [w2 [z2 E2]]. rewrite E2 in E. injection E as _ Ev _ _. lra.
Qed.
Print Assumptions acc_raymarch_blend_range_refuted.
(* and a surface thickness above one lets the weights sum to more than one *)
Theorem acc_raymarch_thick_refuted : ~ (forall thick bg_op dens feats lengths weights v depth o,
  (1 <= thick)%nat -> 0 <= bg_op -> nondecreasing lengths ->
  acc_raymarch CapOne WMinimum thick false bg_op true false 0 dens feats lengths = Ok (weights, v, depth, o) -> rsum weights <= 1).
Proof.
  intros H.
  assert (E : exists v z o, acc_raymarch CapOne WMinimum 2 false 1 true false 0 [1; 1] [0; 0] [0; 1] = Ok ([1; 1], v, z, o)).
  { unfold acc_raymarch. cbn. do 3 eexists. f_equal. f_equal. f_equal. f_equal. rewrite !(Rmax_left 1 0) by lra.
    replace ((1 - 0) * 1) with 1 by ring. replace (1 * 1) with 1 by ring. unfold Rmin. repeat (destruct Rle_dec; try lra). reflexivity. }
  destruct E as [v [z [o E]]]. specialize (H 2%nat 1 [1; 1] [0; 0] [0; 1] [1; 1] v z o ltac:(lia) ltac:(lra)).
  assert (rsum [1; 1] <= 1).
  { apply H; [|exact E]. intros i j Hij Hj. cbn in Hj. destruct i as [|[|i]], j as [|[|j]]; try lia; cbn; lra. }
  cbn in H0. lra.
Qed.
Print Assumptions acc_raymarch_thick_refuted.

(* ---- C54: depths along a ray *)
Theorem ray_depths_sorted_in_range : forall lo hi n jitter, lo <= hi ->
  match jitter with None => True | Some rs => length rs = n /\ all_in 0 1 rs end ->
  let z := ray_depths lo hi n jitter in
  length z = n /\ nondecreasing z /\ all_in lo hi z.
Proof.
  intros lo hi n jitter H Hj z. unfold z, ray_depths. assert (LL := linspace_length lo hi n). assert (LM := linspace_mono lo hi n H).
  assert (LR : forall i, (i < n)%nat -> lo <= nth i (linspace lo hi n) 0 <= hi) by (intros i Hi; apply linspace_range; assumption).
  destruct jitter as [rs|].
  - destruct Hj as [Lr Rr]. destruct (jiggle_ok (linspace lo hi n) rs LM ltac:(lia) Rr) as [J1 [J2 J3]]. rewrite LL in *.
    split; [exact J1|]. split; [exact J2|]. intros x Hx. apply In_nth with (d := 0) in Hx as [i [Hi <-]]. rewrite J1 in Hi.
    assert (B := J3 i Hi). assert (K := LR i Hi). unfold stratum_lo, stratum_hi in B. rewrite LL in B.
    assert (K0 := LR 0%nat ltac:(lia)).
    assert (KP : lo <= nth (i - 1) (linspace lo hi n) 0) by (apply LR; lia).
    assert (KS : S i <> n -> lo <= nth (S i) (linspace lo hi n) 0 <= hi) by (intros; apply LR; lia).
    destruct (Nat.eqb_spec i 0); destruct (Nat.eqb_spec (S i) n) as [|Q]; try specialize (KS Q); lra.
  - split; [exact LL|]. split; [exact LM|]. intros x Hx. apply In_nth with (d := 0) in Hx as [i [Hi <-]]. rewrite LL in Hi. apply LR, Hi.
Qed.
Print Assumptions ray_depths_sorted_in_range.
(* stratified jitter keeps every sample in its own stratum *)
Theorem jitter_stays_in_stratum : forall centers rs, nondecreasing centers -> length rs = length centers -> all_in 0 1 rs ->
  length (jiggle centers rs) = length centers /\
  forall i, (i < length centers)%nat -> stratum_lo centers i <= nth i (jiggle centers rs) 0 <= stratum_hi centers i.
Proof. intros c rs Hs HL Hr. destruct (jiggle_ok c rs Hs HL Hr) as [J1 [J2 J3]]. split; [exact J1|exact J3]. Qed.
Print Assumptions jitter_stays_in_stratum.
Example jitter_ex : all_in 0 1 [1/3; 1/2] /\ stratum_lo [1; 2] 1 = 3/2.
Proof. split; [intros x [<-|[<-|[]]]; lra|]. unfold stratum_lo. cbn. lra. Qed.

(* ---- C49 *)
Theorem harmonic_output_size : forall freqs ap x cov, match cov with None => True | Some c => length c = length x end ->
  length (harmonic freqs ap x cov) = harmonic_output_dim (length x) (length freqs) ap.
Proof. exact harmonic_length. Qed.
Print Assumptions harmonic_output_size.
Theorem harmonic_layout : forall freqs x cov i j, (i < length x)%nat -> (j < length freqs)%nat ->
  match cov with None => True | Some c => length c = length x end ->
  let out := harmonic freqs false x cov in
  nth (i * length freqs + j) out 0 = sin (nth i x 0 * nth j freqs 0) * decay (nth j freqs 0) cov i /\
  nth (length x * length freqs + (i * length freqs + j)) out 0 = cos (nth i x 0 * nth j freqs 0) * decay (nth j freqs 0) cov i.
Proof. intros freqs x cov i j Hi Hj Hc. apply (harmonic_emb_nth freqs x cov i j Hi Hj Hc). Qed.
Print Assumptions harmonic_layout.
Theorem harmonic_append_input : forall freqs x cov, harmonic freqs true x cov = harmonic freqs false x cov ++ x.
Proof. reflexivity. Qed.
Print Assumptions harmonic_append_input.
(* the entries are bounded by one and the integrated embedding decays with the variance *)
Theorem harmonic_decay : forall f c c' i, 0 <= nth i c 0 <= nth i c' 0 ->
  0 < decay f (Some c') i <= decay f (Some c) i /\ decay f (Some c) i <= 1 /\
  (forall a, Rabs (sin a * decay f (Some c) i) <= 1 /\ Rabs (cos a * decay f (Some c) i) <= 1).
Proof.
  intros f c c' i H. cbn [decay]. set (E := exp (- / 2 * (nth i c 0 * (f * f)))). set (E' := exp (- / 2 * (nth i c' 0 * (f * f)))).
  assert (M : forall a b, a <= b -> exp a <= exp b) by (intros a b [L| ->]; [left; apply exp_increasing, L|right; reflexivity]).
  assert (F : 0 <= f * f) by nra.
  assert (E1 : 0 < E) by apply exp_pos. assert (E2 : 0 < E') by apply exp_pos.
  assert (E3 : E' <= E) by (apply M; nra). assert (E4 : E <= 1) by (rewrite <- exp_0; apply M; nra).
  split; [lra|]. split; [exact E4|]. intros a. assert (S := SIN_bound a). assert (C := COS_bound a).
  split; apply Rabs_le; nra.
Qed.
Print Assumptions harmonic_decay.
Theorem harmonic_frequencies : forall n omega0 j, (j < n)%nat ->
  nth j (harmonic_freqs n omega0 true) 0 = 2 ^ j * omega0 /\
  (nth 0 (harmonic_freqs n omega0 false) 0 = omega0 /\ ((2 <= n)%nat -> nth (n - 1) (harmonic_freqs n omega0 false) 0 = 2 ^ (n - 1) * omega0)).
Proof.
  intros n omega0 j Hj. unfold harmonic_freqs.
  assert (G : forall l k, (k < length l)%nat -> nth k (map (fun f => f * omega0) l) 0 = nth k l 0 * omega0).
  { intros l k Hk. rewrite (nth_indep _ 0 ((fun f => f * omega0) 0)) by (rewrite map_length; exact Hk). apply (map_nth (fun f => f * omega0)). }
  rewrite (G (map _ _)) by (rewrite map_length, seq_length; exact Hj). split; [rewrite nth_map_seq by exact Hj; reflexivity|].
  rewrite G by (rewrite linspace_length; lia). rewrite linspace_nth by lia. split; [cbn [INR]; ring|]. intros Hn.
  rewrite G by (rewrite linspace_length; lia). rewrite linspace_nth by lia. f_equal.
  replace (2 ^ n) with (2 * 2 ^ (n - 1)) by (replace n with (S (n - 1)) at 2 by lia; reflexivity). field. apply not_0_INR. lia.
Qed.
Print Assumptions harmonic_frequencies.

(* ---- C48 *)
Theorem linear_with_repeat_is_linear_on_concat : forall W b n1 xs y, xs <> [] -> (forall x, In x xs -> length x = n1) ->
  linear_with_repeat W b n1 xs y = rmap (fun x => f_linear (x ++ y) W b) xs.
Proof. exact lwr_eq. Qed.
Print Assumptions linear_with_repeat_is_linear_on_concat.
Example linear_with_repeat_ex :
  linear_with_repeat (3%nat, [[1; 2; 3]; [4; 5; 6]]) (Some [1; 1]) 2 [[1; 0]; [0; 1]] [2] = Ok [[8; 17]; [9; 18]].
Proof. cbn. unfold dot. cbn. repeat (f_equal; try lra). Qed.
