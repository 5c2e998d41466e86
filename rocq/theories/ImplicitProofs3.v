From Verif Require Import Base RBase Implicit ImplicitSpec ImplicitProofs ImplicitProofs2.
Local Open Scope R_scope.

(* ------------------------------------------------------------------ sample_pdf_python *)
Lemma count_le_sorted u : forall l, nondecreasing l -> exists m, count_if (fun c => Rleb c u) l = m /\ (m <= length l)%nat /\
  (forall j, (j < m)%nat -> nth j l 0 <= u) /\ (forall j, (m <= j < length l)%nat -> u < nth j l 0).
Proof.
  induction l as [|a l IH]; intros H; [exists 0%nat; cbn; repeat split; try lia; intros; lia|].
  unfold count_if in *. cbn [filter]. destruct (Rleb_spec a u) as [L|L].
  - destruct (IH (nondecreasing_tl _ _ H)) as [m [E [M1 [M2 M3]]]]. exists (S m). cbn [length]. rewrite E. split; [reflexivity|]. split; [lia|]. split.
    + intros [|j] Hj; [exact L|]. apply M2. lia.
    + intros [|j] Hj; [lia|]. apply M3. lia.
  - exists 0%nat. split; [|split; [lia|split; [intros; lia|]]].
    + replace (filter (fun c => Rleb c u) l) with (@nil R); [reflexivity|]. symmetry.
      assert (G : forall x, In x l -> u < x).
      { intros x Hx. apply In_nth with (d := 0) in Hx as [n [Hn <-]]. specialize (H 0%nat (S n)). cbn in H. specialize (H ltac:(lia) ltac:(lia)). lra. }
      clear -G. induction l as [|b l IH]; [reflexivity|]. cbn. destruct (Rleb_spec b u) as [X|X]; [specialize (G b (or_introl eq_refl)); lra|]. apply IH. intros x Hx. apply G. right. exact Hx.
    + intros j Hj. assert (H' : a <= nth j (a :: l) 0) by exact (H 0%nat j ltac:(lia) ltac:(lia)). lra.
Qed.
Lemma rsum_scal_r l c : rsum (map (fun w => w / c) l) = rsum l / c.
Proof. induction l as [|a l IH]; [cbn; unfold Rdiv; ring|]. cbn [map]. rewrite !rsum_cons, IH. unfold Rdiv. ring. Qed.
Lemma rsum_pos l : l <> [] -> (forall x, In x l -> 0 < x) -> 0 < rsum l.
Proof.
  intros Hn H. destruct l as [|a l]; [contradiction|]. rewrite rsum_cons. assert (0 < a) by (apply H; left; reflexivity).
  assert (0 <= rsum l) by (apply rsum_nonneg, Forall_forall; intros x Hx; apply Rlt_le, H; right; exact Hx). lra.
Qed.
Lemma rmin_list_gt l c : (forall x, In x l -> c < x) -> l <> [] -> exists m, rmin_list l = Ok m /\ c < m.
Proof.
  intros H Hn. destruct l as [|w ws]; [contradiction|]. eexists. split; [reflexivity|].
  assert (G : forall l a, c < a -> (forall x, In x l -> c < x) -> c < fold_left Rmin l a).
  { induction l as [|b l IH]; intros a Ha Hl; [exact Ha|]. cbn. apply IH; [|intros y Hy; apply Hl; right; exact Hy].
    apply Rmin_glb_lt; [exact Ha|apply Hl; left; reflexivity]. }
  apply G; [apply H; left; reflexivity|intros y Hy; apply H; right; exact Hy].
Qed.
Lemma python_cdf eps bins ws u : 0 < eps -> (forall w, In w ws -> - eps < w) -> ws <> [] -> length bins = (length ws + 1)%nat -> 0 <= u <= 1 ->
  exists v q, sample_pdf_python eps bins ws u = Ok v /\
    on_cdf bins (map (fun w => (w + eps) / rsum (map (fun w => w + eps) ws)) ws) v q /\ u - eps <= q <= u /\
    ((forall w, In w ws -> eps <= (w + eps) / rsum (map (fun w => w + eps) ws)) -> q = u).
Proof.
  intros He Hw Hn HL Hu. unfold sample_pdf_python. set (ws' := map (fun w => w + eps) ws).
  assert (Hp : forall x, In x ws' -> 0 < x). { intros x Hx. apply in_map_iff in Hx as [w [<- Hi]]. specialize (Hw w Hi). lra. }
  assert (Hn' : ws' <> []) by (unfold ws'; destruct ws; [contradiction|discriminate]).
  destruct (rmin_list_gt ws' 0 Hp Hn') as [m [-> Hm]]. cbn [rbind]. destruct (Rleb_spec m 0); [lra|].
  assert (Tp := rsum_pos ws' Hn' Hp). set (T := rsum ws') in *.
  replace (map (fun w => (w + eps) / T) ws) with (map (fun w => w / T) ws') by (unfold ws'; rewrite map_map; reflexivity).
  assert (LW : length ws' = length ws) by apply map_length. 
  set (p := map (fun w => w / T) ws'). assert (Lp : length p = length ws) by (unfold p; rewrite map_length; exact LW).
  assert (Pp : forall x, In x p -> 0 < x). { intros x Hx. apply in_map_iff in Hx as [w [<- Hi]]. apply Rmult_lt_0_compat; [apply Hp, Hi|apply Rinv_0_lt_compat, Tp]. }
  assert (Sp : rsum p = 1). { unfold p. rewrite rsum_scal_r. fold T. field. lra. }
  assert (Pall : (forall w, In w ws -> eps <= (w + eps) / T) -> forall x, In x p -> eps <= x).
  { intros Hq x Hx. apply in_map_iff in Hx as [y [<- Hy]]. apply in_map_iff in Hy as [w [<- Hi]]. apply Hq, Hi. }
  clearbody T p. clear Hp Hm m n Tp ws' Hn' LW.
  set (cdf := 0 :: rscan Rplus 0 p).
  assert (C : forall k, (k <= length ws)%nat -> nth k cdf 0 = rsum (firstn k p)).
  { intros [|k] Hk; [reflexivity|]. unfold cdf. cbn [nth]. rewrite rscan_plus, nth_map_seq by lia. ring. }
  assert (Lc : length cdf = (length ws + 1)%nat) by (unfold cdf; cbn [length]; rewrite rscan_length; lia).
  assert (NL : (0 < length ws)%nat) by (destruct ws; [contradiction|cbn; lia]).
  assert (Mono : forall i j, (i <= j)%nat -> (j <= length ws)%nat -> rsum (firstn i p) <= rsum (firstn j p)).
  { intros i j Hij. induction Hij as [|j Hij IH]; intros Hj; [lra|]. specialize (IH ltac:(lia)). rewrite rsum_firstn_S by lia.
    assert (0 < nth j p 0) by (apply Pp, nth_In; lia). lra. }
  assert (Hs : nondecreasing cdf). { intros i j Hij Hj. rewrite Lc in Hj. rewrite !C by lia. apply Mono; lia. }
  destruct (count_le_sorted u cdf Hs) as [m [E [M1 [M2 M3]]]]. rewrite E. rewrite Lc in *.
  assert (M0 : (1 <= m)%nat). { destruct m; [|lia]. specialize (M3 0%nat ltac:(lia)). rewrite C in M3 by lia. cbn in M3. lra. }
  set (k := (m - 1)%nat). assert (Ek : m = S k) by lia.
  rewrite (rget_ok cdf k) by lia. cbn [rbind]. rewrite (rget_ok cdf (Nat.min m (length ws + 1 - 1))) by lia. cbn [rbind].
  rewrite (rget_ok bins k) by lia. cbn [rbind]. rewrite (rget_ok bins (Nat.min m (length ws + 1 - 1))) by lia. cbn [rbind].
  assert (L1 := M2 k ltac:(lia)). rewrite C in L1 by lia.
  destruct (Nat.eq_dec k (length ws)) as [Hk|Hk].
  - replace (Nat.min m (length ws + 1 - 1)) with k by lia. rewrite C by lia.
    assert (Sk : rsum (firstn k p) = 1) by (rewrite firstn_all2 by lia; exact Sp). rewrite Sk in *. assert (u = 1) by lra. subst u.
    eexists. exists 1. split; [reflexivity|]. split; [|split; [lra|reflexivity]].
    exists (length ws - 1)%nat, 1. split; [lia|]. split; [lra|]. replace (length ws - 1 + 1)%nat with k by lia. split; [unfold Rdiv; ring|].
    assert (K := rsum_firstn_S p (length ws - 1) ltac:(lia)). replace (S (length ws - 1)) with k in K by lia. rewrite Sk in K. lra.
  - replace (Nat.min m (length ws + 1 - 1)) with (S k) by lia. rewrite !C by lia.
    assert (L2 := M3 (S k) ltac:(lia)). rewrite C in L2 by lia. rewrite rsum_firstn_S in * by lia.
    set (c0 := rsum (firstn k p)) in *. set (pk := nth k p 0) in *. assert (Ppk : 0 < pk) by (apply Pp, nth_In; lia).
    assert (Pk1 : pk <= 1). { assert (K := Mono (S k) (length ws) ltac:(lia) ltac:(lia)). rewrite rsum_firstn_S in K by lia. rewrite (firstn_all2 p (n := length ws)) in K by lia. fold c0 pk in K.
      assert (K2 := Mono 0%nat k ltac:(lia) ltac:(lia)). fold c0 in K2. cbn in K2. lra. }
    replace (c0 + pk - c0) with pk by ring.
    assert (G : forall d, 0 < d -> u - c0 <= d -> c0 + (u - c0) / d * pk <= u /\ u - eps <= c0 + (u - c0) / d * pk ->
       ((forall w, In w ws -> eps <= (w + eps) / T) -> c0 + (u - c0) / d * pk = u) ->
       exists v q, Ok (nth k bins 0 + (u - c0) / d * (nth (S k) bins 0 - nth k bins 0)) = Ok v /\ on_cdf bins p v q /\ u - eps <= q <= u /\
       ((forall w, In w ws -> eps <= (w + eps) / T) -> q = u)).
    { intros d Hd Hud Hq Hx. eexists. exists (c0 + (u - c0) / d * pk). split; [reflexivity|]. split; [|split; [lra|exact Hx]].
      exists k, ((u - c0) / d). split; [lia|]. split; [|rewrite Nat.add_1_r; split; reflexivity].
      split; [apply Rmult_le_pos; [lra|apply Rlt_le, Rinv_0_lt_compat, Hd]|]. apply Rmult_le_reg_r with d; [exact Hd|]. unfold Rdiv. rewrite Rmult_assoc, Rinv_l; lra. }
    destruct (Rltb_spec pk eps) as [X|X]; apply G; try lra.
    + assert (Q : (u - c0) / 1 * pk = (u - c0) * pk) by (unfold Rdiv; rewrite Rinv_1; ring). rewrite Q. split; nra.
    + intros Hq. assert (eps <= pk) by (apply (Pall Hq), nth_In; lia). lra.
    + assert (Q : (u - c0) / pk * pk = u - c0) by (field; lra). rewrite Q. lra.
    + intros _. assert (Q : (u - c0) / pk * pk = u - c0) by (field; lra). rewrite Q. ring.
Qed.
Lemma nth_last l : l <> [] -> last l 0 = nth (length l - 1) l 0.
Proof.
  intros Hn. rewrite (app_removelast_last 0 Hn) at 2 3. rewrite app_length. cbn [length].
  replace (length (removelast l) + 1 - 1)%nat with (length (removelast l) + 0)%nat by lia. rewrite app_nth2_plus. reflexivity.
Qed.
Lemma on_cdf_inside bins ws v q : nondecreasing bins -> length bins = (length ws + 1)%nat -> on_cdf bins ws v q ->
  nth 0 bins 0 <= v <= last bins 0.
Proof.
  intros Hs HL [i [t [Hi [Ht [-> _]]]]]. assert (H1 := Hs 0%nat i ltac:(lia) ltac:(lia)). assert (H2 := Hs i (i + 1)%nat ltac:(lia) ltac:(lia)).
  assert (H3 := Hs (i + 1)%nat (length bins - 1)%nat ltac:(lia) ltac:(lia)).
  rewrite nth_last by (intros ->; cbn in HL; lia). nra.
Qed.

(* ------------------------------------------------------------------ jiggle *)
Lemma tl_nth (l : list R) k : nth k (tl l) 0 = nth (S k) l 0.
Proof. destruct l; [destruct k; reflexivity|reflexivity]. Qed.
Lemma removelast_nth (l : list R) k : (S k < length l)%nat -> nth k (removelast l) 0 = nth k l 0.
Proof.
  intros H. assert (Hn : l <> []) by (intros ->; cbn in H; lia). rewrite (app_removelast_last 0 Hn) at 2.
  assert (L := f_equal (@length R) (app_removelast_last 0 Hn)). rewrite app_length in L. cbn [length] in L.
  rewrite app_nth1 by lia. reflexivity.
Qed.
Lemma removelast_length (l : list R) : length (removelast l) = (length l - 1)%nat.
Proof.
  destruct l as [|a l]; [reflexivity|]. assert (Hn : a :: l <> []) by discriminate.
  assert (L := f_equal (@length R) (app_removelast_last 0 Hn)). rewrite app_length in L. cbn [length] in L |- *. lia.
Qed.
Lemma jiggle_eq c rs : length rs = length c ->
  jiggle c rs = map (fun i => stratum_lo c i + (stratum_hi c i - stratum_lo c i) * nth i rs 0) (seq 0 (length c)).
Proof.
  intros HL. unfold jiggle. destruct c as [|c0 cr] eqn:Ec; [destruct rs; [reflexivity|discriminate]|]. rewrite <- Ec in *.
  assert (NL : (0 < length c)%nat) by (rewrite Ec; cbn; lia). assert (Hn : c <> []) by (rewrite Ec; discriminate).
  assert (F1 : firstn 1 c = [nth 0 c 0]) by (rewrite Ec; reflexivity).
  assert (R1 : match rev c with [] => [] | x :: _ => [x] end = [nth (length c - 1) c 0]).
  { destruct (rev c) as [|z zs] eqn:E; [apply (f_equal (@length R)) in E; rewrite rev_length in E; cbn in E; lia|].
    rewrite <- (rev_last _ _ _ 0 E), nth_last by exact Hn. reflexivity. }
  rewrite F1, R1. clear F1 R1 Ec c0 cr.
  set (mids := map (fun p => / 2 * (fst p + snd p)) (combine (tl c) (removelast c))).
  assert (Tl : length (tl c) = (length c - 1)%nat) by (destruct c; cbn; lia).
  assert (Em : mids = map (fun k => (nth k c 0 + nth (S k) c 0) / 2) (seq 0 (length c - 1))).
  { unfold mids. rewrite (combine_nth_map (fun a b => / 2 * (a + b))) by (rewrite removelast_length; exact Tl). rewrite Tl.
    apply map_ext_in. intros k Hk. apply in_seq in Hk. rewrite tl_nth, removelast_nth by lia. field. }
  assert (Lm : length mids = (length c - 1)%nat) by (rewrite Em, map_length, seq_length; reflexivity).
  assert (Nm : forall k, (k < length c - 1)%nat -> nth k mids 0 = (nth k c 0 + nth (S k) c 0) / 2) by (intros k Hk; rewrite Em, nth_map_seq by exact Hk; reflexivity).
  clearbody mids. clear Em.
  assert (Lu : length (mids ++ [nth (length c - 1) c 0]) = length c) by (rewrite app_length; cbn; lia).
  assert (Ll : length ([nth 0 c 0] ++ mids) = length c) by (cbn; lia).
  assert (Nu : forall k, (k < length c)%nat -> nth k (mids ++ [nth (length c - 1) c 0]) 0 = stratum_hi c k).
  { intros k Hk. unfold stratum_hi. destruct (Nat.eqb_spec (S k) (length c)).
    - rewrite app_nth2 by lia. replace (k - length mids)%nat with 0%nat by lia. cbn. f_equal. lia.
    - rewrite app_nth1 by lia. apply Nm. lia. }
  assert (Nl : forall k, (k < length c)%nat -> nth k ([nth 0 c 0] ++ mids) 0 = stratum_lo c k).
  { intros [|k] Hk; [reflexivity|]. cbn [app nth]. rewrite Nm by lia. unfold stratum_lo. cbn [Nat.eqb]. replace (S k - 1)%nat with k by lia. reflexivity. }
  set (U := mids ++ _) in *. set (Lo := _ ++ mids) in *. clearbody U Lo.
  apply (nth_ext _ _ 0 0); [rewrite !map_length, !combine_length, seq_length; lia|].
  intros k Hk. rewrite map_length, !combine_length in Hk. rewrite nth_map_seq by lia.
  set (h := fun p : R * R * R => let '(l, u, r) := p in l + (u - l) * r).
  change (nth k (map h (combine (combine Lo U) rs)) 0 = stratum_lo c k + (stratum_hi c k - stratum_lo c k) * nth k rs 0).
  rewrite (nth_indep _ 0 (h (0, 0, 0))) by (rewrite map_length, !combine_length; lia). rewrite map_nth.
  rewrite combine_nth by (rewrite combine_length; lia). rewrite combine_nth by lia. unfold h. rewrite Nl, Nu by lia. reflexivity.
Qed.
Lemma stratum_lo_stratum_hi c i : nondecreasing c -> (i < length c)%nat -> stratum_lo c i <= nth i c 0 <= stratum_hi c i.
Proof.
  intros Hs Hi. unfold stratum_lo, stratum_hi. split.
  - destruct (Nat.eqb_spec i 0) as [->|]; [lra|]. assert (H := Hs (i - 1)%nat i ltac:(lia) Hi). lra.
  - destruct (Nat.eqb_spec (S i) (length c)); [lra|]. assert (H := Hs i (S i) ltac:(lia) ltac:(lia)). lra.
Qed.
Lemma stratum_hi_stratum_lo c i j : nondecreasing c -> (i < j)%nat -> (j < length c)%nat -> stratum_hi c i <= stratum_lo c j.
Proof.
  intros Hs Hij Hj. unfold stratum_lo, stratum_hi. destruct (Nat.eqb_spec (S i) (length c)); [lia|]. destruct (Nat.eqb_spec j 0); [lia|].
  assert (H1 := Hs i (j - 1)%nat ltac:(lia) ltac:(lia)). assert (H2 := Hs (S i) j ltac:(lia) Hj). lra.
Qed.
Lemma jiggle_ok c rs : nondecreasing c -> length rs = length c -> all_in 0 1 rs ->
  length (jiggle c rs) = length c /\ nondecreasing (jiggle c rs) /\
  forall i, (i < length c)%nat -> stratum_lo c i <= nth i (jiggle c rs) 0 <= stratum_hi c i.
Proof.
  intros Hs HL Hr. rewrite jiggle_eq by exact HL.
  assert (B : forall i, (i < length c)%nat -> stratum_lo c i <= stratum_lo c i + (stratum_hi c i - stratum_lo c i) * nth i rs 0 <= stratum_hi c i).
  { intros i Hi. assert (J := stratum_lo_stratum_hi c i Hs Hi). assert (K := Hr (nth i rs 0) ltac:(apply nth_In; lia)). nra. }
  assert (LJ : length (map (fun i => stratum_lo c i + (stratum_hi c i - stratum_lo c i) * nth i rs 0) (seq 0 (length c))) = length c) by (rewrite map_length, seq_length; reflexivity).
  split; [exact LJ|]. split.
  - intros i j Hij Hj. rewrite LJ in Hj. rewrite !nth_map_seq by lia. destruct (Nat.eq_dec i j) as [->|]; [lra|].
    assert (J := stratum_hi_stratum_lo c i j Hs ltac:(lia) Hj). assert (B1 := B i ltac:(lia)). assert (B2 := B j Hj). lra.
  - intros i Hi. rewrite nth_map_seq by exact Hi. apply B, Hi.
Qed.
Lemma linspace_nth a b n i : (i < n)%nat -> nth i (linspace a b n) 0 = a + INR i * ((b - a) / INR (n - 1)).
Proof. intros H. unfold linspace. apply nth_map_seq, H. Qed.
Lemma linspace_length a b n : length (linspace a b n) = n.
Proof. unfold linspace. rewrite map_length, seq_length. reflexivity. Qed.
Lemma linspace_mono a b n : a <= b -> nondecreasing (linspace a b n).
Proof.
  intros H i j Hij Hj. rewrite linspace_length in Hj. rewrite !linspace_nth by lia.
  assert (0 <= (b - a) / INR (n - 1)).
  { destruct (Nat.eq_dec n 1) as [->|]; [cbn; unfold Rdiv; rewrite Rinv_0; lra|]. apply Rmult_le_pos; [lra|]. apply Rlt_le, Rinv_0_lt_compat, lt_0_INR. lia. }
  assert (INR i <= INR j) by (apply le_INR; lia). nra.
Qed.
Lemma linspace_range a b n i : a <= b -> (i < n)%nat -> a <= nth i (linspace a b n) 0 <= b.
Proof.
  intros H Hi. assert (M1 := linspace_mono a b n H 0%nat i ltac:(lia) ltac:(rewrite linspace_length; lia)).
  assert (M2 := linspace_mono a b n H i (n - 1)%nat ltac:(lia) ltac:(rewrite linspace_length; lia)).
  rewrite (linspace_nth a b n 0) in M1 by lia. rewrite (linspace_nth a b n (n - 1)) in M2 by lia. cbn [INR] in M1.
  destruct (Nat.eq_dec n 1) as [->|].
  - replace i with 0%nat in * by lia. rewrite linspace_nth by lia. cbn [INR]. lra.
  - assert (E : INR (n - 1) * ((b - a) / INR (n - 1)) = b - a) by (field; apply not_0_INR; lia). rewrite E in M2. lra.
Qed.

(* ------------------------------------------------------------------ harmonic embedding *)
Lemma flat_map_map_length {A B C} (g : A -> B -> C) (l : list A) (m : list B) : length (flat_map (fun a => map (g a) m) l) = (length l * length m)%nat.
Proof. induction l as [|a l IH]; [reflexivity|]. cbn. rewrite app_length, map_length, IH. reflexivity. Qed.
Lemma flat_map_map_nth (g : R -> R -> R) (l m : list R) i j : (i < length l)%nat -> (j < length m)%nat ->
  nth (i * length m + j) (flat_map (fun a => map (g a) m) l) 0 = g (nth i l 0) (nth j m 0).
Proof.
  revert i. induction l as [|a l IH]; intros i Hi Hj; [cbn in Hi; lia|]. cbn [flat_map]. destruct i as [|i].
  - cbn [Nat.mul Nat.add nth]. rewrite app_nth1 by (rewrite map_length; lia).
    rewrite (nth_indep _ 0 (g a 0)) by (rewrite map_length; lia). rewrite map_nth. reflexivity.
  - rewrite app_nth2 by (rewrite map_length; cbn; lia). rewrite map_length.
    replace (S i * length m + j - length m)%nat with (i * length m + j)%nat by (cbn; lia). cbn [length] in Hi. rewrite IH by lia. reflexivity.
Qed.
Lemma harmonic_emb_nth freqs x cov i j : (i < length x)%nat -> (j < length freqs)%nat ->
  match cov with None => True | Some c => length c = length x end ->
  let out := harmonic freqs false x cov in
  length out = (2 * (length x * length freqs))%nat /\
  nth (i * length freqs + j) out 0 = sin (nth i x 0 * nth j freqs 0) * decay (nth j freqs 0) cov i /\
  nth (length x * length freqs + (i * length freqs + j)) out 0 = cos (nth i x 0 * nth j freqs 0) * decay (nth j freqs 0) cov i.
Proof.
  intros Hi Hj Hc. cbv zeta. unfold harmonic. cbv zeta.
  set (A := fun ph => flat_map (fun xi => map (fun f => sin (xi * f + ph)) freqs) x).
  replace (flat_map A [0; PI / 2]) with (A 0 ++ A (PI / 2)) by (cbn [flat_map]; rewrite app_nil_r; reflexivity).
  assert (LA : forall ph, length (A ph) = (length x * length freqs)%nat) by (intros; apply (flat_map_map_length (fun xi f => sin (xi * f + ph)))).
  assert (NA : forall ph, nth (i * length freqs + j) (A ph) 0 = sin (nth i x 0 * nth j freqs 0 + ph)) by (intros ph; apply (flat_map_map_nth (fun xi f => sin (xi * f + ph))); assumption).
  assert (HI : (i * length freqs + j < length x * length freqs)%nat) by nia.
  assert (Ecos : sin (nth i x 0 * nth j freqs 0 + PI / 2) = cos (nth i x 0 * nth j freqs 0)) by (rewrite cos_sin, Rplus_comm; reflexivity).
  destruct cov as [c|]; cbn [decay].
  - set (e := flat_map (fun v => map (fun f => exp (- / 2 * (v * (f * f)))) freqs) c).
    assert (Le : length e = (length x * length freqs)%nat) by (unfold e; rewrite (flat_map_map_length (fun v f => exp (- / 2 * (v * (f * f))))), Hc; reflexivity).
    assert (Ne : nth (i * length freqs + j) e 0 = exp (- / 2 * (nth i c 0 * (nth j freqs 0 * nth j freqs 0)))) by (apply (flat_map_map_nth (fun v f => exp (- / 2 * (v * (f * f))))); lia).
    clearbody e A. rewrite combine_nth_map by (rewrite !app_length, !LA, Le; reflexivity). rewrite app_length, !LA.
    split; [rewrite map_length, seq_length; lia|]. rewrite !nth_map_seq by lia. split.
    + rewrite !app_nth1 by (rewrite ?LA, ?Le; exact HI). rewrite NA, Ne, Rplus_0_r. reflexivity.
    + rewrite (app_nth2 (A 0)) by (rewrite LA; lia). rewrite (app_nth2 e) by lia. rewrite LA, Le.
      replace (length x * length freqs + (i * length freqs + j) - length x * length freqs)%nat with (i * length freqs + j)%nat by lia. rewrite NA, Ne, Ecos. reflexivity.
  - clearbody A. rewrite app_length, !LA. split; [lia|]. split.
    + rewrite app_nth1 by (rewrite LA; exact HI). rewrite NA, Rplus_0_r. ring.
    + rewrite app_nth2 by (rewrite LA; lia). rewrite LA.
      replace (length x * length freqs + (i * length freqs + j) - length x * length freqs)%nat with (i * length freqs + j)%nat by lia. rewrite NA, Ecos. ring.
Qed.
Lemma harmonic_length freqs ap x cov : match cov with None => True | Some c => length c = length x end ->
  length (harmonic freqs ap x cov) = harmonic_output_dim (length x) (length freqs) ap.
Proof.
  intros Hc. unfold harmonic, harmonic_output_dim.
  set (E := flat_map (fun ph => flat_map (fun xi => map (fun f => sin (xi * f + ph)) freqs) x) [0; PI / 2]).
  assert (LE : length E = (2 * (length x * length freqs))%nat).
  { unfold E. cbn [flat_map]. rewrite app_nil_r, app_length, !(flat_map_map_length (fun xi f => sin (xi * f + _))). lia. }
  clearbody E. destruct cov as [c|].
  - assert (length (map (fun p => fst p * snd p) (combine E (flat_map (fun v => map (fun f => exp (- / 2 * (v * (f * f)))) freqs) c ++ flat_map (fun v => map (fun f => exp (- / 2 * (v * (f * f)))) freqs) c))) = (2 * (length x * length freqs))%nat).
    { rewrite map_length, combine_length, LE, app_length, !(flat_map_map_length (fun v f => exp (- / 2 * (v * (f * f))))), Hc. lia. }
    destruct ap; [rewrite app_length|]; lia.
  - destruct ap; [rewrite app_length|]; lia.
Qed.

(* ------------------------------------------------------------------ LinearWithRepeat *)
Lemma combine_app_split {A B} (x y : list A) : forall (row : list B), combine (x ++ y) row = combine x (firstn (length x) row) ++ combine y (skipn (length x) row).
Proof. induction x as [|a x IH]; intros [|r row]; cbn; try reflexivity; [destruct y; reflexivity|]. rewrite IH. reflexivity. Qed.
Lemma dot_app x y row : dot (x ++ y) row = dot x (firstn (length x) row) + dot y (skipn (length x) row).
Proof. unfold dot. rewrite combine_app_split, map_app, rsum_app. reflexivity. Qed.
Lemma rmap_fail {A B} (f : A -> result B) l e : l <> [] -> (forall a, In a l -> f a = Fail e) -> rmap f l = Fail e.
Proof. intros Hn H. destruct l as [|a l]; [contradiction|]. cbn. rewrite (H a (or_introl eq_refl)). reflexivity. Qed.
Lemma lwr_eq W b n1 xs y : xs <> [] -> (forall x, In x xs -> length x = n1) ->
  linear_with_repeat W b n1 xs y = rmap (fun x => f_linear (x ++ y) W b) xs.
Proof.
  intros Hn Hl. destruct W as [c rows]. unfold linear_with_repeat.
  assert (RHS : (n1 + length y)%nat <> c -> rmap (fun x => f_linear (x ++ y) (c, rows) b) xs = Fail ERuntime).
  { intros Hne. apply rmap_fail; [exact Hn|]. intros x Hx. unfold f_linear. cbn [fst]. rewrite app_length, (Hl x Hx). destruct (Nat.eqb_spec (n1 + length y) c); [contradiction|reflexivity]. }
  destruct (Nat.le_gt_cases n1 c) as [Hc|Hc].
  2:{ rewrite RHS by lia. rewrite (rmap_fail _ xs ERuntime Hn); [reflexivity|]. intros x Hx. unfold f_linear, cols_to. cbn [fst].
      rewrite (Hl x Hx). destruct (Nat.eqb_spec n1 (Nat.min n1 c)); [lia|reflexivity]. }
  assert (BAD : match b with Some b => length b <> length rows | None => False end ->
     rmap (fun x => f_linear x (cols_to n1 (c, rows)) b) xs = Fail ERuntime /\ rmap (fun x => f_linear (x ++ y) (c, rows) b) xs = Fail ERuntime).
  { destruct b as [b|]; [|intros []]. intros Hb. split; apply rmap_fail; try exact Hn; intros x Hx; unfold f_linear, cols_to; cbn [fst snd]; rewrite !map_length;
      destruct (Nat.eqb_spec (length b) (length rows)); try contradiction; destruct (negb _); reflexivity. }
  destruct (match b with Some b => length b =? length rows | None => true end)%nat eqn:Eb.
  2:{ destruct BAD as [B1 B2]; [destruct b; [apply Nat.eqb_neq; exact Eb|discriminate]|]. rewrite B1, B2. reflexivity. }
  set (o1 := fun x => match b with None => map (dot x) (map (firstn n1) rows) | Some b => map (fun p => fst p + snd p) (combine (map (dot x) (map (firstn n1) rows)) b) end).
  rewrite (rmap_ok _ o1).
  2:{ intros x Hx. unfold f_linear, cols_to, o1. cbn [fst snd]. rewrite (Hl x Hx). destruct (Nat.eqb_spec n1 (Nat.min n1 c)); [|lia]. cbn [negb].
      destruct b as [b|]; [|reflexivity]. rewrite !map_length, Eb. reflexivity. }
  cbn [rbind]. unfold f_linear at 1. cbn [cols_from fst snd]. destruct (Nat.eqb_spec (length y) (c - n1)) as [E|E]; cbn [negb].
  2:{ rewrite RHS by lia. reflexivity. }
  cbn [rbind]. rewrite (rmap_ok _ (fun x => map (fun p => fst p + snd p) (combine (o1 x) (map (dot y) (map (skipn n1) rows))))).
  - rewrite map_map. reflexivity.
  - intros x Hx. unfold f_linear. cbn [fst snd]. rewrite app_length, (Hl x Hx). destruct (Nat.eqb_spec (n1 + length y) c); [|lia]. cbn [negb].
    unfold o1. destruct b as [b|].
    + rewrite !map_length, Eb. f_equal. apply Nat.eqb_eq in Eb. rewrite !map_map. clear -Hl Hx Eb. revert b Eb. induction rows as [|r rows IH]; intros [|b0 b] Eb; try discriminate; [reflexivity|].
      cbn [map combine fst snd]. f_equal; [rewrite dot_app, (Hl x Hx); ring|]. apply IH. cbn in Eb. lia.
    + f_equal. rewrite !map_map. clear -Hl Hx. induction rows as [|r rows IH]; [reflexivity|].
      cbn [map combine fst snd]. f_equal; [rewrite dot_app, (Hl x Hx); ring|]. exact IH.
Qed.
