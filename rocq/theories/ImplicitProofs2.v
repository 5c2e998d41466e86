From Verif Require Import Base RBase Implicit ImplicitSpec ImplicitProofs.
Local Open Scope R_scope.

(* ------------------------------------------------------------------ lower_bound *)
Lemma lower_bound_loop_ok xs v n : nondecreasing xs -> (n <= length xs)%nat -> forall fuel first len,
  (len < fuel)%nat -> (first + len <= n)%nat ->
  (forall j, (j < first)%nat -> nth j xs 0 < v) -> (forall j, (first + len <= j < n)%nat -> v <= nth j xs 0) ->
  let r := lower_bound_loop fuel xs first len v in
  (r <= n)%nat /\ (forall j, (j < r)%nat -> nth j xs 0 < v) /\ (forall j, (r <= j < n)%nat -> v <= nth j xs 0).
Proof.
  intros Hs Hn. induction fuel as [|fuel IH]; intros first len Hf Hb Hlo Hhi; [lia|]. cbn [lower_bound_loop].
  destruct len as [|len]; [cbn; repeat split; [lia|exact Hlo|intros j Hj; apply Hhi; lia]|].
  set (half := (S len / 2)%nat). assert (Hh : (half < S len)%nat) by (apply Nat.div_lt; lia).
  destruct (nth_error xs (first + half)) as [x|] eqn:E.
  2:{ apply nth_error_None in E. lia. }
  assert (Ex : nth (first + half) xs 0 = x) by (apply nth_error_nth; exact E).
  destruct (Rltb_spec x v) as [L|L].
  - apply IH; [lia|lia| |].
    + intros j Hj. apply Rle_lt_trans with x; [|exact L]. rewrite <- Ex. apply Hs; lia.
    + intros j Hj. apply Hhi. lia.
  - apply IH; [lia|lia|exact Hlo|]. intros j Hj. apply Rle_trans with x; [lra|]. rewrite <- Ex. apply Hs; lia.
Qed.
Lemma lower_bound_ok xs n v : nondecreasing xs -> (n <= length xs)%nat ->
  let r := lower_bound xs n v in
  (r <= n)%nat /\ (forall j, (j < r)%nat -> nth j xs 0 < v) /\ (forall j, (r <= j < n)%nat -> v <= nth j xs 0).
Proof. intros Hs Hn. apply (lower_bound_loop_ok xs v n Hs Hn); intros; lia. Qed.

(* ------------------------------------------------------------------ sample_pdf *)
Lemma psums_sorted ws : nonneg ws -> nondecreasing (rscan Rplus 0 ws).
Proof.
  intros H i j Hij Hj. rewrite rscan_length in Hj. rewrite rscan_plus, !nth_map_seq by lia.
  induction Hij as [|j Hij IH]; [lra|]. specialize (IH ltac:(lia)). rewrite (rsum_firstn_S ws (S j)) by lia.
  assert (0 <= nth (S j) ws 0) by (apply H, nth_In; lia). lra.
Qed.
Lemma scan_at eps ws : forall bins u i, length bins = (length ws + 1)%nat -> (i < length ws)%nat ->
  (forall j, (j < i)%nat -> rsum (firstn (S j) ws) < u) -> ((i < length ws - 1)%nat -> u <= rsum (firstn (S i) ws)) ->
  pdf_scan eps bins ws u = Ok (pdf_finish eps (u - rsum (firstn i ws)) (nth i bins 0) (nth (i + 1) bins 0) (nth i ws 0)).
Proof.
  induction ws as [|w ws IH]; intros bins u i HL Hi Hlo Hhi; [cbn in Hi; lia|].
  destruct bins as [|b0 [|b1 bs]]; try (cbn in HL; lia).
  destruct ws as [|w' ws].
  - cbn in Hi. replace i with 0%nat by lia. cbn. do 2 f_equal. ring.
  - change (pdf_scan eps (b0 :: b1 :: bs) (w :: w' :: ws) u) with
      (if Rltb w u then pdf_scan eps (b1 :: bs) (w' :: ws) (u - w) else Ok (pdf_finish eps u b0 b1 w)).
    destruct i as [|i].
    + specialize (Hhi ltac:(cbn; lia)). cbn in Hhi. destruct (Rltb_spec w u); [lra|]. cbn. do 2 f_equal. ring.
    + assert (H0 := Hlo 0%nat ltac:(lia)). cbn in H0. destruct (Rltb_spec w u); [|lra].
      rewrite (IH (b1 :: bs) (u - w) i).
      * change (firstn (S i) (w :: w' :: ws)) with (w :: firstn i (w' :: ws)). rewrite rsum_cons.
        replace (S i + 1)%nat with (S (i + 1)) by lia. cbn [nth]. do 2 f_equal. ring.
      * cbn in HL |- *. lia.
      * cbn in Hi |- *. lia.
      * intros j Hj. specialize (Hlo (S j) ltac:(lia)). change (firstn (S (S j)) (w :: w' :: ws)) with (w :: firstn (S j) (w' :: ws)) in Hlo. rewrite rsum_cons in Hlo. lra.
      * intros Hi'. specialize (Hhi ltac:(cbn in Hi' |- *; lia)). change (firstn (S (S i)) (w :: w' :: ws)) with (w :: firstn (S i) (w' :: ws)) in Hhi. rewrite rsum_cons in Hhi. lra.
Qed.
Lemma rget_ok l i : (i < length l)%nat -> rget l i = Ok (nth i l 0).
Proof. intros H. unfold rget. rewrite (nth_error_nth' l 0 H). reflexivity. Qed.
Lemma sample_one_scan eps bins ws u : nonneg ws -> length bins = (length ws + 1)%nat -> ws <> [] ->
  sample_pdf_one eps bins ws u = pdf_scan eps bins ws ((rsum ws + eps) * u).
Proof.
  intros Hw HL Hn. unfold sample_pdf_one. destruct (rev (rscan Rplus 0 ws)) as [|tot r] eqn:E.
  { apply (f_equal (@length R)) in E. rewrite rev_length, rscan_length in E. destruct ws; [contradiction|discriminate]. }
  assert (Et : tot = rsum ws).
  { rewrite rscan_plus in E. destruct ws as [|w ws']; [contradiction|]. cbn [length] in E. rewrite rev_map_seq_last in E. injection E as <- _.
    transitivity (0 + rsum (firstn (S (length ws')) (w :: ws'))); [reflexivity|]. rewrite firstn_all2 by (cbn; lia). apply Rplus_0_l. }
  subst tot. set (U := (rsum ws + eps) * u). rewrite rscan_length.
  assert (NL : (0 < length ws)%nat) by (destruct ws; [contradiction|cbn; lia]).
  destruct (lower_bound_ok (rscan Rplus 0 ws) (length ws - 1) U (psums_sorted ws Hw)) as [R1 [R2 R3]]; [rewrite rscan_length; lia|].
  set (i := lower_bound (rscan Rplus 0 ws) (length ws - 1) U) in *. clearbody i.
  assert (PS : forall j, (j < length ws)%nat -> nth j (rscan Rplus 0 ws) 0 = rsum (firstn (S j) ws)).
  { intros j Hj. rewrite rscan_plus, nth_map_seq by exact Hj. ring. }
  rewrite (scan_at eps ws bins U i HL ltac:(lia)).
  - assert (Eu : (if (0 <? i)%nat then p <- rget (rscan Rplus 0 ws) (i - 1);; Ok (U - p) else Ok U) = Ok (U - rsum (firstn i ws))).
    { destruct i as [|i]; [cbn; f_equal; ring|]. change (0 <? S i)%nat with true. cbn iota. rewrite rget_ok by (rewrite rscan_length; lia). cbn [rbind].
      replace (S i - 1)%nat with i by lia. rewrite PS by lia. reflexivity. }
    rewrite Eu. cbn [rbind]. rewrite !rget_ok by lia. reflexivity.
  - intros j Hj. rewrite <- PS by lia. apply R2, Hj.
  - intros Hi. rewrite <- PS by lia. apply R3. lia.
Qed.
Lemma finish_inside eps u b0 b1 w : 0 <= eps -> 0 <= u -> b0 <= b1 -> b0 <= pdf_finish eps u b0 b1 w <= b1.
Proof.
  intros He Hu Hb. unfold pdf_finish. destruct (Rltb_spec w u); [lra|]. destruct (Rltb_spec eps w); [|lra].
  assert (0 <= u / w) by (apply Rmult_le_pos; [lra|apply Rlt_le, Rinv_0_lt_compat; lra]).
  assert (u / w <= 1) by (apply Rmult_le_reg_r with w; [lra|]; unfold Rdiv; rewrite Rmult_assoc, Rinv_l; lra). nra.
Qed.
Lemma finish_mono eps u u' b0 b1 w : 0 <= eps -> u <= u' -> 0 <= u -> b0 <= b1 -> pdf_finish eps u b0 b1 w <= pdf_finish eps u' b0 b1 w.
Proof.
  intros He Hu H0 Hb. unfold pdf_finish. destruct (Rltb_spec w u), (Rltb_spec w u'), (Rltb_spec eps w); try lra.
  - assert (u / w <= 1) by (apply Rmult_le_reg_r with w; [lra|]; unfold Rdiv; rewrite Rmult_assoc, Rinv_l; lra). nra.
  - assert (u / w <= u' / w) by (apply Rmult_le_compat_r; [apply Rlt_le, Rinv_0_lt_compat; lra|lra]). nra.
Qed.
Lemma last_cons2 {A} (a b : A) l d : last (a :: b :: l) d = last (b :: l) d. Proof. reflexivity. Qed.
Lemma sorted_head_last l : nondecreasing l -> l <> [] -> nth 0 l 0 <= last l 0.
Proof.
  intros H Hn. rewrite (app_removelast_last 0 Hn) at 1. destruct (removelast l) as [|x r] eqn:E; cbn; [lra|].
  assert (L : last l 0 = nth (length l - 1) l 0).
  { rewrite (app_removelast_last 0 Hn) at 2 3. rewrite app_length. cbn [length]. replace (length (removelast l) + 1 - 1)%nat with (length (removelast l) + 0)%nat by lia.
    rewrite app_nth2_plus. reflexivity. }
  rewrite L. assert (x = nth 0 l 0) by (rewrite (app_removelast_last 0 Hn), E; reflexivity). subst x. destruct l; [contradiction|]. apply H; cbn; lia.
Qed.
Lemma scan_inside eps : 0 <= eps -> forall ws bins u, nondecreasing bins -> length bins = (length ws + 1)%nat -> ws <> [] -> 0 <= u ->
  exists v, pdf_scan eps bins ws u = Ok v /\ nth 0 bins 0 <= v <= last bins 0.
Proof.
  intros He. induction ws as [|w ws IH]; intros bins u Hs HL Hn Hu; [contradiction|].
  destruct bins as [|b0 [|b1 bs]]; try (cbn in HL; lia).
  assert (B01 : b0 <= b1) by (apply (Hs 0%nat 1%nat); cbn; lia).
  assert (Bl : b1 <= last (b1 :: bs) 0) by (apply (sorted_head_last (b1 :: bs)); [exact (nondecreasing_tl _ _ Hs)|discriminate]).
  destruct ws as [|w' ws].
  - cbn. eexists. split; [reflexivity|]. assert (F := finish_inside eps u b0 b1 w He Hu B01). destruct bs; [cbn; lra|cbn in HL; lia].
  - change (pdf_scan eps (b0 :: b1 :: bs) (w :: w' :: ws) u) with
      (if Rltb w u then pdf_scan eps (b1 :: bs) (w' :: ws) (u - w) else Ok (pdf_finish eps u b0 b1 w)).
    rewrite last_cons2. cbn [nth]. destruct (Rltb_spec w u).
    + destruct (IH (b1 :: bs) (u - w)) as [v [E V]]; [exact (nondecreasing_tl _ _ Hs)|cbn in HL |- *; lia|discriminate|lra|].
      exists v. split; [exact E|]. cbn [nth] in V. lra.
    + eexists. split; [reflexivity|]. assert (F := finish_inside eps u b0 b1 w He Hu B01). lra.
Qed.
Lemma scan_mono eps : 0 <= eps -> forall ws bins u u' v v', nondecreasing bins -> length bins = (length ws + 1)%nat -> ws <> [] ->
  0 <= u -> u <= u' -> pdf_scan eps bins ws u = Ok v -> pdf_scan eps bins ws u' = Ok v' -> v <= v'.
Proof.
  intros He. induction ws as [|w ws IH]; intros bins u u' v v' Hs HL Hn Hu Huu E E'; [contradiction|].
  destruct bins as [|b0 [|b1 bs]]; try (cbn in HL; lia).
  assert (B01 : b0 <= b1) by (apply (Hs 0%nat 1%nat); cbn; lia).
  destruct ws as [|w' ws].
  - cbn in E, E'. injection E as <-. injection E' as <-. apply finish_mono; assumption.
  - change (pdf_scan eps (b0 :: b1 :: bs) (w :: w' :: ws) u) with
      (if Rltb w u then pdf_scan eps (b1 :: bs) (w' :: ws) (u - w) else Ok (pdf_finish eps u b0 b1 w)) in E.
    change (pdf_scan eps (b0 :: b1 :: bs) (w :: w' :: ws) u') with
      (if Rltb w u' then pdf_scan eps (b1 :: bs) (w' :: ws) (u' - w) else Ok (pdf_finish eps u' b0 b1 w)) in E'.
    destruct (Rltb_spec w u), (Rltb_spec w u'); try lra.
    + apply (IH (b1 :: bs) (u - w) (u' - w) v v'); try assumption; [exact (nondecreasing_tl _ _ Hs)|cbn in HL |- *; lia|discriminate|lra|lra].
    + injection E as <-. destruct (scan_inside eps He (w' :: ws) (b1 :: bs) (u' - w)) as [x [Ex Vx]]; [exact (nondecreasing_tl _ _ Hs)|cbn in HL |- *; lia|discriminate|lra|].
      rewrite Ex in E'. injection E' as <-. cbn [nth] in Vx. assert (F := finish_inside eps u b0 b1 w He Hu B01). lra.
    + injection E as <-. injection E' as <-. apply finish_mono; assumption.
Qed.
Lemma finish_cdf eps u b0 b1 w : 0 <= eps -> 0 <= w -> 0 <= u -> exists t, 0 <= t <= 1 /\
  pdf_finish eps u b0 b1 w = b0 + t * (b1 - b0) /\ Rmin u w - eps <= t * w <= Rmin u w /\ (eps < w -> t * w = Rmin u w).
Proof.
  intros He Hw Hu. unfold pdf_finish. destruct (Rltb_spec w u).
  - exists 1. rewrite Rmin_right by lra. repeat split; try lra; ring.
  - rewrite Rmin_left by lra. destruct (Rltb_spec eps w).
    + exists (u / w). assert (u / w * w = u) by (field; lra).
      assert (0 <= u / w) by (apply Rmult_le_pos; [lra|apply Rlt_le, Rinv_0_lt_compat; lra]).
      assert (u / w <= 1) by (apply Rmult_le_reg_r with w; lra). repeat split; try lra; ring.
    + exists 0. repeat split; try lra; ring.
Qed.
Lemma scan_cdf eps : 0 <= eps -> forall ws bins u v, nonneg ws -> length bins = (length ws + 1)%nat -> 0 <= u ->
  pdf_scan eps bins ws u = Ok v -> exists q, on_cdf bins ws v q /\ Rmin u (rsum ws) - eps <= q <= Rmin u (rsum ws) /\
    ((forall w, In w ws -> eps < w) -> q = Rmin u (rsum ws)).
Proof.
  intros He. induction ws as [|w ws IH]; intros bins u v Hw HL Hu E; [destruct bins; discriminate|].
  destruct bins as [|b0 [|b1 bs]]; try (cbn in HL; lia).
  assert (W0 : 0 <= w) by (apply Hw; left; reflexivity).
  assert (Wr : 0 <= rsum ws) by (apply rsum_nonneg, Forall_forall; intros y Hy; apply Hw; right; exact Hy).
  rewrite rsum_cons.
  assert (STOP : u <= w \/ ws = [] -> v = pdf_finish eps u b0 b1 w -> exists q, on_cdf (b0 :: b1 :: bs) (w :: ws) v q /\
     Rmin u (w + rsum ws) - eps <= q <= Rmin u (w + rsum ws) /\ ((forall x, In x (w :: ws) -> eps < x) -> q = Rmin u (w + rsum ws))).
  { intros Hc ->. destruct (finish_cdf eps u b0 b1 w He W0 Hu) as [t [T1 [T2 [T3 T4]]]]. exists (t * w).
    assert (M : Rmin u (w + rsum ws) = Rmin u w).
    { destruct Hc as [Hc| ->]; [rewrite !Rmin_left by lra; reflexivity|cbn; rewrite Rplus_0_r; reflexivity]. }
    rewrite M. split; [|split; [exact T3|intros Hall; apply T4, Hall; left; reflexivity]].
    exists 0%nat, t. cbn. repeat split; try lra; try lia.  }
  destruct ws as [|w' ws].
  - cbn in E. injection E as <-. apply STOP; [right; reflexivity|reflexivity].
  - change (pdf_scan eps (b0 :: b1 :: bs) (w :: w' :: ws) u) with
      (if Rltb w u then pdf_scan eps (b1 :: bs) (w' :: ws) (u - w) else Ok (pdf_finish eps u b0 b1 w)) in E.
    destruct (Rltb_spec w u).
    + destruct (IH (b1 :: bs) (u - w) v) as [q [[i [t [I1 [I2 [I3 I4]]]]] [Q1 Q2]]]; [intros y Hy; apply Hw; right; exact Hy|cbn in HL |- *; lia|lra|exact E|].
      exists (w + q). assert (M : Rmin u (w + rsum (w' :: ws)) = w + Rmin (u - w) (rsum (w' :: ws))).
      { unfold Rmin. repeat destruct Rle_dec; lra. }
      rewrite M. split; [|split; [lra|intros Hall; rewrite Q2; [reflexivity|intros x Hx; apply Hall; right; exact Hx]]].
      exists (S i), t. split; [cbn in I1 |- *; lia|]. split; [exact I2|]. replace (S i + 1)%nat with (S (i + 1)) by lia. split; [exact I3|].
      change (firstn (S i) (w :: w' :: ws)) with (w :: firstn i (w' :: ws)). change (nth (S i) (w :: w' :: ws) 0) with (nth i (w' :: ws) 0).
      rewrite rsum_cons, I4. ring.
    + injection E as <-. apply STOP; [left; lra|reflexivity].
Qed.
Lemma rmin_list_pos ws eps : nonneg ws -> 0 < eps -> ws <> [] -> exists m, rmin_list ws = Ok m /\ - eps < m.
Proof.
  intros H He Hn. destruct ws as [|w ws]; [contradiction|]. eexists. split; [reflexivity|].
  assert (G : forall l a, 0 <= a -> nonneg l -> 0 <= fold_left Rmin l a).
  { induction l as [|b l IH]; intros a Ha Hl; [exact Ha|]. cbn. apply IH; [|intros y Hy; apply Hl; right; exact Hy].
    apply Rmin_glb; [exact Ha|apply Hl; left; reflexivity]. }
  assert (0 <= fold_left Rmin ws w) by (apply G; [apply H; left; reflexivity|intros y Hy; apply H; right; exact Hy]). lra.
Qed.
Lemma sample_pdf_eq eps bins ws us : nonneg ws -> 0 < eps -> ws <> [] -> length bins = (length ws + 1)%nat ->
  sample_pdf eps bins ws us = rmap (fun u => pdf_scan eps bins ws ((rsum ws + eps) * u)) us.
Proof.
  intros Hw He Hn HL. unfold sample_pdf. destruct (rmin_list_pos ws eps Hw He Hn) as [m [-> Hm]]. cbn [rbind].
  destruct (Rleb_spec m (- eps)); [lra|]. rewrite HL, Nat.eqb_refl. cbn [negb].
  induction us as [|u us IH]; [reflexivity|]. cbn [rmap]. rewrite sample_one_scan by assumption. rewrite IH. reflexivity.
Qed.
