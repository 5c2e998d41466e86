From Verif Require Import Base Rectangles RectanglesSpec.
Local Open Scope Z_scope.

Record box := Box { bx : Z; by_ : Z; bw : Z; bh : Z }.
Definition apart (a b : box) : Prop := bx a + bw a <= bx b \/ bx b + bw b <= bx a \/ by_ a + bh a <= by_ b \/ by_ b + bh b <= by_ a.
Fixpoint last_h (d : Z) (l : list (Z * Z)) : Z := match l with [] => d | (_, y) :: r => last_h y r end.
Fixpoint incr (lo : Z) (l : list (Z * Z)) : Prop := match l with [] => True | (_, y) :: r => lo < y /\ incr y r end.
Fixpoint covers (lo : Z) (l : list (Z * Z)) (b : box) : Prop :=
  match l with [] => True | (x, y) :: r => (lo < by_ b + bh b -> by_ b < y -> bx b + bw b <= x) /\ covers y r b end.

Lemma last_h_app a : forall d c, last_h d (a ++ c) = last_h (last_h d a) c.
Proof. induction a as [|(x, y) a IH]; intros; [reflexivity|]. cbn. apply IH. Qed.
Lemma incr_app a : forall lo c, incr lo (a ++ c) <-> incr lo a /\ incr (last_h lo a) c.
Proof. induction a as [|(x, y) a IH]; intros; cbn; [tauto|]. rewrite IH. tauto. Qed.
Lemma incr_le a : forall lo, incr lo a -> lo <= last_h lo a.
Proof. induction a as [|(x, y) a IH]; intros lo H; cbn in *; [lia|]. destruct H as (H1 & H2). apply IH in H2. lia. Qed.
Lemma covers_app a : forall lo c b, covers lo (a ++ c) b <-> covers lo a b /\ covers (last_h lo a) c b.
Proof. induction a as [|(x, y) a IH]; intros; cbn; [tauto|]. rewrite IH. tauto. Qed.
Lemma covers_max l b m : 0 < bh b -> forall lo, covers lo l b -> Forall (fun p => fst p <= m) l -> lo < by_ b + bh b -> by_ b < last_h lo l -> lo <= by_ b \/ l <> [] -> l <> [] -> bx b + bw b <= m.
Proof.
  intros Hb. induction l as [|(x, y) l IH]; intros lo Hc Hf H1 H2 _ Hn; [contradiction|]. cbn in Hc, H2. apply Forall_cons_iff in Hf. cbn in Hf. destruct Hc as (C1 & C2), Hf as (F1 & F2).
  destruct (Z_lt_le_dec (by_ b) y) as [Hy|Hy]; [specialize (C1 H1 Hy); lia|].
  destruct l as [|q l]; [cbn in H2; lia|]. apply (IH y); auto; try lia; try discriminate; right; discriminate.
Qed.
Lemma covers_above l b : forall lo, by_ b + bh b <= lo -> incr lo l -> covers lo l b.
Proof. induction l as [|(x, y) l IH]; intros lo H Hi; cbn in *; [exact I|]. split; [lia|]. apply IH; [lia|apply Hi]. Qed.
Lemma covers_below l b : forall lo, incr lo l -> last_h lo l <= by_ b -> covers lo l b.
Proof. induction l as [|(x, y) l IH]; intros lo Hi H; cbn in *; [exact I|]. destruct Hi as (H1 & H2). pose proof (incr_le _ _ H2). split; [lia|]. apply IH; assumption. Qed.

Lemma search_ok total w need : 0 <= w -> forall l pre run maxw start packed s i m pk,
  start = match run with [] => None | _ => Some (length pre) end ->
  packed = last_h 0 (pre ++ run) - last_h 0 pre ->
  Forall (fun p => 0 <= fst p) l -> Forall (fun p => fst p <= maxw) run -> 0 <= maxw -> (run = [] -> maxw = 0) -> (run <> [] -> maxw <= total - w) -> (run <> [] -> packed < need) ->
  search total w need (length (pre ++ run)) start maxw (last_h 0 (pre ++ run)) packed l = Some (s, i, m, pk) ->
  exists pre' run' x y post, pre ++ run ++ l = pre' ++ run' ++ (x, y) :: post /\ s = length pre' /\ i = length (pre' ++ run') /\
    Forall (fun p => fst p <= m) (run' ++ [(x, y)]) /\ 0 <= m /\ m + w <= total /\ pk = y - last_h 0 pre' /\ need <= pk /\
    (run' <> [] -> last_h 0 (pre' ++ run') - last_h 0 pre' < need).
Proof.
  intros Hw. induction l as [|(x, y) l IH]; intros pre run maxw start packed s i m pk Es Ep H0 Hr Hm Hrn Hrt Hrp E; [discriminate|]. cbn [search] in E.
  apply Forall_cons_iff in H0. cbn [fst] in H0. destruct H0 as (H0 & H0l).
  destruct (Z.leb_spec x (total - w)) as [Hx|Hx].
  - assert (S0 : match start with None => length (pre ++ run) | Some s => s end = length pre).
    { subst start. destruct run; [rewrite app_nil_r; reflexivity|reflexivity]. }
    rewrite S0 in E. destruct (Z.leb_spec need (packed + (y - last_h 0 (pre ++ run)))) as [Hn|Hn].
    + injection E as <- <- <- <-. exists pre, run, x, y, l. repeat split; auto; try lia.
      * apply Forall_app. split; [|repeat constructor; cbn; lia]. eapply Forall_impl; [|exact Hr]. intros a Ha. cbn beta in *. lia.
      * destruct run as [|q run]; [specialize (Hrn eq_refl); lia|]. assert (maxw <= total - w) by (apply Hrt; discriminate). lia.
    + assert (L : last_h 0 (pre ++ run ++ [(x, y)]) = y) by (rewrite app_assoc, last_h_app; reflexivity).
      destruct (IH pre (run ++ [(x, y)]) (Z.max x maxw) (Some (length pre)) (packed + (y - last_h 0 (pre ++ run))) s i m pk) as (pre' & run' & x' & y' & post & E1 & E2); auto.
      * destruct run; reflexivity.
      * rewrite L. lia.
      * apply Forall_app. split; [|repeat constructor; cbn; lia]. eapply Forall_impl; [|exact Hr]. intros a Ha. cbn beta in *. lia.
      * lia.
      * intros Z. destruct run; discriminate.
      * intros _. destruct run as [|q run]; [specialize (Hrn eq_refl); lia|]. assert (maxw <= total - w) by (apply Hrt; discriminate). lia.
      * rewrite L. replace (length (pre ++ run ++ [(x, y)])) with (S (length (pre ++ run))) by (rewrite !app_length; cbn; lia). exact E.
      * exists pre', run', x', y', post. split; [|exact E2]. rewrite <- E1, <- !app_assoc. reflexivity.
  - destruct (IH ((pre ++ run) ++ [(x, y)]) [] 0 None 0 s i m pk) as (pre' & run' & x' & y' & post & E1 & E2); auto.
    + rewrite app_nil_r. lia.
    + lia.
    + contradiction.
    + contradiction.
    + rewrite app_nil_r. rewrite last_h_app. cbn [last_h]. replace (length ((pre ++ run) ++ [(x, y)])) with (S (length (pre ++ run))) by (rewrite !app_length; cbn; lia). exact E.
    + exists pre', run', x', y', post. split; [|exact E2]. rewrite <- E1, <- !app_assoc. reflexivity.
Qed.

(* the occupied list after a placement *)
Lemma first_app {A} (a b : list A) n : n = length a -> firstn n (a ++ b) = a.
Proof. intros ->. rewrite firstn_app, Nat.sub_diag, firstn_all, app_nil_r. reflexivity. Qed.
Lemma skip_app {A} (a b : list A) n : n = length a -> skipn n (a ++ b) = b.
Proof. intros ->. rewrite skipn_app, Nat.sub_diag, skipn_all. reflexivity. Qed.
Lemma occ_after {A} (pre run post : list A) q new : let occ := pre ++ run ++ q :: post in let s := length pre in let i := length (pre ++ run) in
  del_range (set_at occ i new) s i = pre ++ new :: post /\
  (if (s <? i)%nat then del_range (set_at occ (i - 1) new) s (i - 1) else insert_at occ i new) = pre ++ new :: q :: post.
Proof.
  cbn zeta. split.
  - unfold del_range, set_at. rewrite app_assoc. rewrite (first_app (pre ++ run) (q :: post) _ eq_refl).
    replace (skipn (S (length (pre ++ run))) ((pre ++ run) ++ q :: post)) with post.
    2:{ replace ((pre ++ run) ++ q :: post) with (((pre ++ run) ++ [q]) ++ post) by (rewrite <- !app_assoc; reflexivity). rewrite skip_app; [reflexivity|]. rewrite (app_length (pre ++ run)). cbn. lia. }
    rewrite (skip_app (pre ++ run) (new :: post) _ eq_refl). rewrite <- app_assoc. rewrite (first_app pre (run ++ new :: post) _ eq_refl). reflexivity.
  - destruct (Nat.ltb_spec (length pre) (length (pre ++ run))) as [L|L].
    + assert (R : exists run' z, run = run' ++ [z]).
      { destruct (@exists_last _ run) as (r' & z & ->); [intros ->; rewrite app_nil_r in L; lia|]. exists r', z. reflexivity. }
      destruct R as (r' & z & ->). unfold del_range, set_at.
      replace (length (pre ++ r' ++ [z]) - 1)%nat with (length (pre ++ r')) by (rewrite !app_length; cbn; lia).
      replace (pre ++ (r' ++ [z]) ++ q :: post) with ((pre ++ r') ++ z :: q :: post) by (rewrite <- !app_assoc; reflexivity).
      rewrite (first_app (pre ++ r') (z :: q :: post) _ eq_refl).
      replace (skipn (S (length (pre ++ r'))) ((pre ++ r') ++ z :: q :: post)) with (q :: post).
      2:{ replace ((pre ++ r') ++ z :: q :: post) with (((pre ++ r') ++ [z]) ++ q :: post) by (rewrite <- !app_assoc; reflexivity). rewrite skip_app; [reflexivity|]. rewrite (app_length (pre ++ r')). cbn. lia. }
      rewrite (skip_app (pre ++ r') (new :: q :: post) _ eq_refl). rewrite <- app_assoc. rewrite (first_app pre (r' ++ new :: q :: post) _ eq_refl). reflexivity.
    + assert (run = []) as -> by (destruct run; [reflexivity|rewrite app_length in L; cbn in L; lia]). rewrite app_nil_r. cbn [app].
      unfold insert_at. rewrite first_app, skip_app by reflexivity. reflexivity.
Qed.
Lemma below_ok (pre rest : list (Z * Z)) : pre <> [] -> exists q, py_get (pre ++ rest) (Z.of_nat (length pre) - 1) = Ok q /\ snd q = last_h 0 pre.
Proof.
  intros H. destruct (@exists_last _ pre H) as (p' & (x, y) & ->). exists (x, y). unfold py_get. rewrite app_length. cbn [length].
  destruct (Z.ltb_spec (Z.of_nat (length p' + 1) - 1) 0) as [L|L]; [lia|]. destruct (Z.ltb_spec (Z.of_nat (length p' + 1) - 1) 0) as [L'|L']; [lia|].
  replace (Z.to_nat (Z.of_nat (length p' + 1) - 1)) with (length p') by lia. rewrite <- app_assoc, nth_error_app2 by lia. rewrite Nat.sub_diag. cbn. split; [reflexivity|]. rewrite last_h_app. reflexivity.
Qed.

Definition fine (W H : Z) (b : box) : Prop := 0 <= bx b /\ 0 <= by_ b /\ 0 < bw b /\ 0 < bh b /\ bx b + bw b <= W /\ by_ b + bh b <= H.
Definition told (sizes : list (Z * Z)) (placed : list place) (q : nat * box) : Prop :=
  exists s p, nth_error sizes (fst q) = Some s /\ nth_error placed (fst q) = Some p /\ is_first p = true /\ px p = bx (snd q) /\ py p = by_ (snd q) /\ extent s p = (bw (snd q), bh (snd q)).
Record inv (sizes : list (Z * Z)) (W H : Z) (occ : list (Z * Z)) (bs : list (nat * box)) (placed : list place) : Prop := {
  i_head : exists h r, occ = (W, h) :: r;
  i_incr : incr 0 occ;
  i_top : last_h 0 occ = H;
  i_pos : Forall (fun p => 0 <= fst p) occ;
  i_fine : Forall (fun q => fine W H (snd q)) bs;
  i_cov : Forall (fun q => covers 0 occ (snd q)) bs;
  i_apart : ForallOrdPairs (fun p q => apart (snd p) (snd q)) bs;
  i_len : length placed = length sizes;
  i_told : Forall (told sizes placed) bs;
  i_ids : NoDup (map fst bs) }.
Definition asked (sizes : list (Z * Z)) (r : unplaced) : Prop :=
  exists s, nth_error sizes (ind r) = Some s /\ (width r, height r) = (if turned r then (snd s, fst s) else s).

Lemma told_other sizes placed placed' i v q : upd placed i v = Ok placed' -> fst q <> i -> told sizes placed q -> told sizes placed' q.
Proof. intros E N (s & p & H1 & H2 & H3). exists s, p. split; [exact H1|]. split; [|exact H3]. rewrite (upd_other _ _ _ _ _ E); [exact H2|congruence]. Qed.

Lemma try_ok sizes W H occ bs placed r : inv sizes W H occ bs placed -> 0 < width r -> 0 < height r -> asked sizes r -> ~ In (ind r) (map fst bs) ->
  try_place r placed occ = Ok None \/
  exists placed' occ' b, try_place r placed occ = Ok (Some (placed', occ')) /\ inv sizes W H occ' ((ind r, b) :: bs) placed'.
Proof.
  intros Hi Hw Hh (sz & Hsz & Hdim) Hid. destruct (i_head _ _ _ _ _ _ Hi) as (h0 & rest & Eocc). unfold try_place.
  replace (py_get occ 0) with (@Ok (Z * Z) (W, h0)) by (rewrite Eocc; reflexivity). cbn [rbind fst].
  destruct (search W (width r) (height r) 0 None 0 0 0 occ) as [(((s & i) & m) & pk)|] eqn:Es; [|left; reflexivity]. right.
  destruct (search_ok W (width r) (height r) ltac:(lia) occ [] [] 0 None 0 s i m pk) as (pre & run & x & y & post & E1 & -> & -> & Hf & Hm & Hmw & -> & Hpk & Hrun); auto; try lia; try (now constructor); try contradiction.
  { exact (i_pos _ _ _ _ _ _ Hi). }
  cbn [app] in E1.
  assert (Np : pre <> []).
  { intros ->. rewrite Eocc in E1. cbn [app] in E1. destruct run as [|q run]; cbn [app] in E1.
    - injection E1 as <- _ _. inversion Hf; subst. cbn in *. lia.
    - injection E1 as <- _. inversion Hf; subst. cbn in *. lia. }
  pose proof (i_incr _ _ _ _ _ _ Hi) as Hinc. pose proof (i_top _ _ _ _ _ _ Hi) as Htop. pose proof (i_pos _ _ _ _ _ _ Hi) as Hpos.
  destruct (occ_after pre run post (x, y) (m + width r, last_h 0 pre + height r)) as (O1 & O2). cbn zeta in O1, O2. rewrite <- E1 in O1, O2.
  destruct (below_ok pre (run ++ (x, y) :: post) Np) as (q & Eq & Hq). rewrite <- E1 in Eq. rewrite Eq. cbn [rbind]. rewrite Hq.
  assert (Hlt : (ind r < length placed)%nat) by (rewrite (i_len _ _ _ _ _ _ Hi); apply nth_error_Some; congruence).
  destruct (upd_ok placed (ind r) (Place m (last_h 0 pre) (turned r) true) Hlt) as (placed' & Eu). rewrite Eu. cbn [rbind]. rewrite O1, O2.
  set (y0 := last_h 0 pre) in *. set (new := (m + width r, y0 + height r)).
  set (nb := Box m y0 (width r) (height r)).
  rewrite E1 in Hinc, Htop, Hpos. rewrite app_assoc in Htop. rewrite !incr_app in Hinc. destruct Hinc as (I1 & I2 & I3 & I4). fold y0 in I2, I3. cbn [incr last_h] in I3, I4.
  rewrite last_h_app in Htop. cbn [last_h] in Htop.
  assert (L0 : 0 <= y0) by (apply incr_le; exact I1). assert (L1 : y0 <= last_h y0 run) by (apply incr_le; exact I2). assert (L2 : y <= H) by (rewrite <- Htop; apply incr_le; exact I4).
  assert (Rl : last_h y0 run - y0 < height r).
  { destruct run as [|q0 run']; [cbn; lia|]. rewrite last_h_app in Hrun. fold y0 in Hrun. apply Hrun. discriminate. }
  exists placed', (if y - y0 =? height r then pre ++ new :: post else pre ++ new :: (x, y) :: post), nb. split; [reflexivity|].
  assert (Bm : forall b, 0 < bh b -> covers 0 occ b -> y0 < by_ b + bh b -> by_ b < y -> bx b + bw b <= m).
  { intros b Hb Hc C1 C2. rewrite E1 in Hc. rewrite covers_app in Hc. fold y0 in Hc. destruct Hc as (_ & Hc). change ((x, y) :: post) with ([(x, y)] ++ post) in Hc. rewrite app_assoc, covers_app in Hc. destruct Hc as (Hc & _).
    apply (covers_max (run ++ [(x, y)]) b m Hb y0 Hc Hf C1); [|right|]; [rewrite last_h_app; exact C2| |]; destruct run; discriminate. }
  assert (Hhead : exists h r0, pre ++ (new :: post) = (W, h) :: r0 /\ exists r1, pre ++ (new :: (x, y) :: post) = (W, h) :: r1).
  { destruct pre as [|q0 pre']; [contradiction|]. rewrite Eocc in E1. cbn [app] in E1. injection E1 as <- _. exists h0. eexists. split; [reflexivity|]. eexists. reflexivity. }
  assert (Hpos' : Forall (fun p => 0 <= fst p) (pre ++ new :: (x, y) :: post)).
  { apply Forall_app in Hpos. destruct Hpos as (P1 & P2). apply Forall_app in P2. destruct P2 as (_ & P2). apply Forall_app. split; [exact P1|]. constructor; [cbn; lia|exact P2]. }
  assert (Hy : y0 + height r <= y) by lia.
  constructor.
  - destruct Hhead as (h & r0 & A1 & r1 & A2). destruct (y - y0 =? height r); [exists h, r0; exact A1|exists h, r1; exact A2].
  - destruct (Z.eqb_spec (y - y0) (height r)) as [Ey|Ey]; rewrite incr_app; fold y0; cbn [incr]; (split; [exact I1|]); (split; [lia|]).
    + replace (y0 + height r) with y by lia. exact I4.
    + split; [lia|exact I4].
  - destruct (Z.eqb_spec (y - y0) (height r)) as [Ey|Ey]; rewrite last_h_app; cbn [last_h new]; [replace (y0 + height r) with y by lia|]; exact Htop.
  - destruct (y - y0 =? height r); [|exact Hpos']. apply Forall_app in Hpos'. apply Forall_app. split; [apply Hpos'|]. destruct Hpos' as (_ & P). inversion P; subst. constructor; [assumption|]. inversion H3; assumption.
  - constructor; [|exact (i_fine _ _ _ _ _ _ Hi)]. unfold fine, nb. cbn. lia.
  - assert (G : forall b, covers 0 pre b -> (y0 < by_ b + bh b -> by_ b < y0 + height r -> bx b + bw b <= m + width r) -> covers (y0 + height r) ((x, y) :: post) b ->
      covers 0 (if y - y0 =? height r then pre ++ new :: post else pre ++ new :: (x, y) :: post) b).
    { intros b C1 C2 C3. destruct (Z.eqb_spec (y - y0) (height r)) as [Ey|Ey]; rewrite covers_app; fold y0; cbn [covers new]; (split; [exact C1|]); (split; [exact C2|]).
      - replace (y0 + height r) with y by lia. cbn [covers] in C3. apply C3.
      - exact C3. }
    constructor.
    + cbn [snd]. apply G.
      * apply covers_below; [exact I1|]. cbn. fold y0. lia.
      * cbn. lia.
      * cbn [covers]. cbn. split; [lia|]. apply covers_above; [cbn; lia|exact I4].
    + apply Forall_forall. intros q0 Hq0. pose proof (i_cov _ _ _ _ _ _ Hi) as Cv. rewrite Forall_forall in Cv. specialize (Cv _ Hq0).
      pose proof (i_fine _ _ _ _ _ _ Hi) as Fv. rewrite Forall_forall in Fv. specialize (Fv _ Hq0). destruct Fv as (F1 & F2 & F3 & F4 & F5 & F6).
      apply G.
      * rewrite E1, covers_app in Cv. apply Cv.
      * intros C1 C2. assert (bx (snd q0) + bw (snd q0) <= m) by (apply Bm; auto; lia). lia.
      * rewrite E1, covers_app in Cv. fold y0 in Cv. destruct Cv as (_ & Cv). rewrite covers_app in Cv. destruct Cv as (_ & Cv). cbn [covers] in *. destruct Cv as (Cv1 & Cv2). split; [|exact Cv2]. intros C1 C2. apply Cv1; lia.
  - constructor; [|exact (i_apart _ _ _ _ _ _ Hi)]. apply Forall_forall. intros q0 Hq0. pose proof (i_cov _ _ _ _ _ _ Hi) as Cv. rewrite Forall_forall in Cv. specialize (Cv _ Hq0).
    pose proof (i_fine _ _ _ _ _ _ Hi) as Fv. rewrite Forall_forall in Fv. specialize (Fv _ Hq0). destruct Fv as (F1 & F2 & F3 & F4 & F5 & F6).
    unfold apart, nb. cbn. destruct (Z_lt_le_dec y0 (by_ (snd q0) + bh (snd q0))); [|lia]. destruct (Z_lt_le_dec (by_ (snd q0)) (y0 + height r)); [|lia].
    assert (bx (snd q0) + bw (snd q0) <= m) by (apply Bm; auto; lia). lia.
  - rewrite (upd_length _ _ _ _ Eu). exact (i_len _ _ _ _ _ _ Hi).
  - constructor.
    + exists sz, (Place m y0 (turned r) true). cbn. rewrite (upd_same _ _ _ _ Eu). split; [exact Hsz|]. split; [reflexivity|]. split; [reflexivity|]. split; [reflexivity|]. split; [reflexivity|].
      unfold extent. cbn. symmetry. exact Hdim.
    + apply Forall_forall. intros q0 Hq0. pose proof (i_told _ _ _ _ _ _ Hi) as T. rewrite Forall_forall in T. apply (told_other _ _ _ _ _ _ Eu); [|apply T; exact Hq0].
      intros Z. apply Hid. rewrite <- Z. apply in_map. exact Hq0.
  - cbn. constructor; [exact Hid|exact (i_ids _ _ _ _ _ _ Hi)].
Qed.

Lemma append_ok sizes W H occ bs placed r : inv sizes W H occ bs placed -> 0 < width r -> 0 < height r -> width r <= W -> asked sizes r -> ~ In (ind r) (map fst bs) ->
  exists placed', upd placed (ind r) (Place 0 H (turned r) true) = Ok placed' /\
    inv sizes W (H + height r) (occ ++ [(width r, H + height r)]) ((ind r, Box 0 H (width r) (height r)) :: bs) placed'.
Proof.
  intros Hi Hw Hh HW (sz & Hsz & Hdim) Hid.
  assert (Hlt : (ind r < length placed)%nat) by (rewrite (i_len _ _ _ _ _ _ Hi); apply nth_error_Some; congruence).
  destruct (upd_ok placed (ind r) (Place 0 H (turned r) true) Hlt) as (placed' & Eu). exists placed'. split; [exact Eu|].
  pose proof (i_incr _ _ _ _ _ _ Hi) as Hinc. pose proof (i_top _ _ _ _ _ _ Hi) as Htop. pose proof (incr_le _ _ Hinc) as H0. rewrite Htop in H0.
  pose proof (i_fine _ _ _ _ _ _ Hi) as Fv. rewrite Forall_forall in Fv.
  constructor.
  - destruct (i_head _ _ _ _ _ _ Hi) as (h & r0 & ->). exists h. eexists. reflexivity.
  - rewrite incr_app, Htop. cbn. split; [exact Hinc|lia].
  - rewrite last_h_app, Htop. reflexivity.
  - apply Forall_app. split; [exact (i_pos _ _ _ _ _ _ Hi)|repeat constructor; cbn; lia].
  - constructor; [unfold fine; cbn; lia|]. apply Forall_forall. intros q Hq. specialize (Fv _ Hq). unfold fine in *. lia.
  - constructor.
    + cbn [snd]. rewrite covers_app, Htop. split; [apply covers_below; [exact Hinc|cbn; lia]|]. cbn. split; [lia|exact I].
    + apply Forall_forall. intros q Hq. pose proof (i_cov _ _ _ _ _ _ Hi) as Cv. rewrite Forall_forall in Cv. rewrite covers_app. split; [apply Cv; exact Hq|]. rewrite Htop. specialize (Fv _ Hq). unfold fine in Fv. cbn. lia.
  - constructor; [|exact (i_apart _ _ _ _ _ _ Hi)]. apply Forall_forall. intros q Hq. specialize (Fv _ Hq). unfold fine in Fv. unfold apart. cbn. lia.
  - rewrite (upd_length _ _ _ _ Eu). exact (i_len _ _ _ _ _ _ Hi).
  - constructor.
    + exists sz, (Place 0 H (turned r) true). cbn. rewrite (upd_same _ _ _ _ Eu). split; [exact Hsz|]. split; [reflexivity|]. split; [reflexivity|]. split; [reflexivity|]. split; [reflexivity|].
      unfold extent. cbn. symmetry. exact Hdim.
    + apply Forall_forall. intros q0 Hq0. pose proof (i_told _ _ _ _ _ _ Hi) as T. rewrite Forall_forall in T. apply (told_other _ _ _ _ _ _ Eu); [|apply T; exact Hq0].
      intros Z. apply Hid. rewrite <- Z. apply in_map. exact Hq0.
  - cbn. constructor; [exact Hid|exact (i_ids _ _ _ _ _ _ Hi)].
Qed.

Definition good (sizes : list (Z * Z)) (W : Z) (r : unplaced) : Prop := 0 < width r /\ 0 < height r /\ width r <= W /\ asked sizes r.
Lemma rest_ok sizes W q : forall occ bs placed H, inv sizes W H occ bs placed -> Forall (good sizes W) q -> NoDup (map ind q ++ map fst bs) ->
  exists placed' H' occ' bs', pack_rest q placed occ H = Ok (placed', H') /\ inv sizes W H' occ' bs' placed' /\ H <= H' /\
    (forall i, In i (map fst bs') <-> In i (map ind q) \/ In i (map fst bs)).
Proof.
  induction q as [|r q IH]; intros occ bs placed H Hi Hg Hn.
  - exists placed, H, occ, bs. split; [reflexivity|]. split; [exact Hi|]. split; [lia|]. intros i. cbn. tauto.
  - apply Forall_cons_iff in Hg. destruct Hg as ((G1 & G2 & G3 & G4) & Hg). cbn [map app] in Hn. apply NoDup_cons_iff in Hn. destruct Hn as (Hid & Hn).
    assert (Hb : ~ In (ind r) (map fst bs)) by (intros Z; apply Hid, in_or_app; right; exact Z).
    assert (Step : forall b occ' placed' H', inv sizes W H' occ' ((ind r, b) :: bs) placed' -> H <= H' -> exists placed'' H'' occ'' bs', pack_rest q placed' occ' H' = Ok (placed'', H'') /\ inv sizes W H'' occ'' bs' placed'' /\ H <= H'' /\
      (forall i, In i (map fst bs') <-> In i (map ind (r :: q)) \/ In i (map fst bs))).
    { intros b occ' placed' H' Hi' HH. destruct (IH occ' ((ind r, b) :: bs) placed' H' Hi' Hg) as (p2 & H2 & o2 & b2 & E & I2 & L & S).
      - cbn [map fst]. apply Permutation_NoDup with (l := ind r :: map ind q ++ map fst bs); [apply Permutation_middle|]. constructor; assumption.
      - exists p2, H2, o2, b2. split; [exact E|]. split; [exact I2|]. split; [lia|]. intros i. rewrite S. cbn. tauto. }
    cbn [pack_rest]. destruct (try_ok sizes W H occ bs placed r Hi G1 G2 G4 Hb) as [E|(p1 & o1 & b & E & I1)]; rewrite E; cbn [rbind].
    2:{ eapply Step; [exact I1|lia]. }
    assert (A' : asked sizes (Un (height r) (width r) (ind r) (negb (turned r)))).
    { destruct G4 as (s & Hs & Hd). exists s. cbn. split; [exact Hs|]. destruct (turned r); cbn in *; destruct s; cbn in *; congruence. }
    destruct (try_ok sizes W H occ bs placed (Un (height r) (width r) (ind r) (negb (turned r))) Hi G2 G1 A' Hb) as [E2|(p1 & o1 & b & E2 & I1)]; rewrite E2; cbn [rbind].
    2:{ eapply Step; [exact I1|lia]. }
    destruct (append_ok sizes W H occ bs placed r Hi G1 G2 G3 G4 Hb) as (p1 & E3 & I1). rewrite E3. cbn [rbind]. eapply Step; [exact I1|lia].
Qed.

(* sorting *)
Lemma nodup_tail {A} (a b : list A) : NoDup (a ++ b) -> NoDup b.
Proof. induction a as [|x a IH]; intros H; [exact H|]. inversion H; subst. auto. Qed.
Definition le_u (a b : unplaced) : Prop := before b a = false.
Lemma insert_perm a l : Permutation (a :: l) (insert a l).
Proof. induction l as [|b l IH]; cbn; [constructor; constructor|]. destruct (before a b); [reflexivity|]. etransitivity; [apply perm_swap|]. constructor. exact IH. Qed.
Lemma sort_perm l : Permutation l (sort l).
Proof. induction l as [|a l IH]; cbn; [constructor|]. etransitivity; [constructor; exact IH|apply insert_perm]. Qed.
Lemma before_width a b : before a b = false -> width b <= width a.
Proof. unfold before. intros H. apply orb_false_elim in H. lia. Qed.
Fixpoint ascending (l : list unplaced) : Prop := match l with [] => True | a :: l' => Forall (fun b => width a <= width b) l' /\ ascending l' end.
Lemma before_width' a b : before a b = true -> width a <= width b.
Proof. unfold before. intros H. apply orb_prop in H. lia. Qed.
Lemma insert_ascending a l : ascending l -> ascending (insert a l).
Proof.
  induction l as [|b l IH]; intros H; [cbn; auto|]. cbn [insert]. destruct (before a b) eqn:E.
  - apply before_width' in E. cbn. destruct H as (H1 & H2). split; [|split; assumption]. constructor; [exact E|]. eapply Forall_impl; [|exact H1]. cbn. lia.
  - apply before_width in E. destruct H as (H1 & H2). cbn. split; [|apply IH; exact H2]. eapply Permutation_Forall; [apply insert_perm|]. constructor; assumption.
Qed.
Lemma sort_ascending l : ascending (sort l).
Proof. induction l as [|a l IH]; [exact I|]. cbn. apply insert_ascending. exact IH. Qed.
Lemma ascending_last l : forall a, ascending (l ++ [a]) -> Forall (fun b => width b <= width a) l.
Proof. induction l as [|b l IH]; intros a H; [constructor|]. cbn in H. destruct H as (H1 & H2). constructor; [|apply IH; exact H2]. apply Forall_app in H1. destruct H1 as (_ & H1). inversion H1; assumption. Qed.

Lemma queue_ids (sizes : list (Z * Z)) : forall k, map ind (map (fun q => enqueue (fst q) (snd q)) (combine (seq k (length sizes)) sizes)) = seq k (length sizes).
Proof. induction sizes as [|s l IH]; intros k; [reflexivity|]. cbn. rewrite IH. f_equal. unfold enqueue. destruct (fst s <? snd s); reflexivity. Qed.
Lemma queue_asked (sizes : list (Z * Z)) r : Forall positive sizes -> In r (map (fun q => enqueue (fst q) (snd q)) (combine (seq 0 (length sizes)) sizes)) -> 0 < width r /\ 0 < height r /\ asked sizes r.
Proof.
  intros Hp H. apply in_map_iff in H. destruct H as ((i, s) & <- & H). cbn [fst snd].
  assert (Hs : nth_error sizes i = Some s).
  { assert (G : forall (l : list (Z * Z)) k, In (i, s) (combine (seq k (length l)) l) -> exists j, (i = k + j)%nat /\ nth_error l j = Some s).
    { induction l as [|a l IH]; intros k Hk; [destruct Hk|]. cbn in Hk. destruct Hk as [Hk|Hk]; [injection Hk as -> ->; exists 0%nat; split; [lia|reflexivity]|].
      destruct (IH _ Hk) as (j & -> & Hj). exists (S j). split; [lia|exact Hj]. }
    destruct (G _ _ H) as (j & -> & Hj). exact Hj. }
  rewrite Forall_forall in Hp. specialize (Hp s (nth_error_In _ _ Hs)). destruct Hp as (P1 & P2).
  unfold enqueue. destruct (fst s <? snd s); cbn; (split; [assumption|]); (split; [assumption|]); exists s; cbn; (split; [exact Hs|]); [|destruct s]; reflexivity.
Qed.

Definition layout (sizes : list (Z * Z)) (sheet : Z * Z) (locs : list place) : Prop :=
  length locs = length sizes /\
  (forall i s p, nth_error sizes i = Some s -> nth_error locs i = Some p -> is_first p = true /\ within sheet s p) /\
  (forall i j s p s' p' x y, i <> j -> nth_error sizes i = Some s -> nth_error locs i = Some p -> nth_error sizes j = Some s' -> nth_error locs j = Some p' ->
     contains s p x y -> contains s' p' x y -> False).

Lemma apart_sym a b : apart a b -> apart b a.
Proof. unfold apart. tauto. Qed.
Lemma fop_in {A} (P : A -> A -> Prop) l a b : (forall x y, P x y -> P y x) -> ForallOrdPairs P l -> In a l -> In b l -> a <> b -> P a b.
Proof.
  intros S H. induction H as [|c l Hc _ IH]; intros Ha Hb N; [destruct Ha|]. rewrite Forall_forall in Hc.
  destruct Ha as [->|Ha], Hb as [->|Hb]; [contradiction|apply Hc; exact Hb|apply S, Hc; exact Ha|apply IH; assumption].
Qed.
Lemma inv_layout sizes W H occ bs placed : inv sizes W H occ bs placed -> (forall i, (i < length sizes)%nat -> In i (map fst bs)) -> layout sizes (W, H) placed.
Proof.
  intros Hi Hall. split; [exact (i_len _ _ _ _ _ _ Hi)|].
  assert (G : forall i s p, nth_error sizes i = Some s -> nth_error placed i = Some p -> exists b, In (i, b) bs /\ fine W H b /\ is_first p = true /\ px p = bx b /\ py p = by_ b /\ extent s p = (bw b, bh b)).
  { intros i s p Hs Hp. assert (L : (i < length sizes)%nat) by (apply nth_error_Some; congruence). apply Hall in L. apply in_map_iff in L. destruct L as ((i', b) & E & Hin). cbn in E. subst i'.
    exists b. split; [exact Hin|]. pose proof (i_fine _ _ _ _ _ _ Hi) as F. rewrite Forall_forall in F. split; [exact (F _ Hin)|].
    pose proof (i_told _ _ _ _ _ _ Hi) as T. rewrite Forall_forall in T. destruct (T _ Hin) as (s' & p' & T1 & T2 & T3). cbn [fst snd] in *. rewrite Hs in T1. rewrite Hp in T2. injection T1 as <-. injection T2 as <-. exact T3. }
  split.
  - intros i s p Hs Hp. destruct (G i s p Hs Hp) as (b & _ & F & T1 & T2 & T3 & T4). split; [exact T1|]. unfold within. rewrite T4, T2, T3. unfold fine in F. cbn. lia.
  - intros i j s p s' p' x y N Hs Hp Hs' Hp' C C'. destruct (G i s p Hs Hp) as (b & B & F & T1 & T2 & T3 & T4). destruct (G j s' p' Hs' Hp') as (b' & B' & F' & T1' & T2' & T3' & T4').
    assert (A : apart b b').
    { apply (fop_in _ bs (i, b) (j, b') (fun x y => apart_sym (snd x) (snd y)) (i_apart _ _ _ _ _ _ Hi) B B'). congruence. }
    unfold contains in *. rewrite T4, T2, T3 in C. rewrite T4', T2', T3' in C'. unfold apart in A. cbn in C, C'. lia.
Qed.

Theorem pack_ok sizes : (2 <= length sizes)%nat -> Forall positive sizes -> exists sheet locs, pack_rectangles sizes = Ok (sheet, locs) /\ layout sizes sheet locs.
Proof.
  intros HL Hp. unfold pack_rectangles. destruct (Nat.ltb_spec (length sizes) 2) as [L|_]; [lia|].
  set (q0 := map _ _). pose proof (sort_perm q0) as P. pose proof (sort_ascending q0) as As.
  assert (Lq : length (sort q0) = length sizes). { rewrite <- (Permutation_length P). unfold q0. rewrite map_length, combine_length, seq_length. lia. }
  assert (Hids : NoDup (map ind (sort q0))). { eapply Permutation_NoDup; [apply Permutation_map; exact P|]. unfold q0. rewrite queue_ids. apply seq_NoDup. }
  assert (Hin : forall i, In i (map ind (sort q0)) <-> (i < length sizes)%nat).
  { intros i. transitivity (In i (map ind q0)); [split; apply Permutation_in; [symmetry|]; apply Permutation_map; exact P|]. unfold q0. rewrite queue_ids, in_seq. lia. }
  assert (Hask : forall r, In r (sort q0) -> 0 < width r /\ 0 < height r /\ asked sizes r).
  { intros r Hr. apply queue_asked; [exact Hp|]. eapply Permutation_in; [symmetry; exact P|exact Hr]. }
  destruct (@exists_last _ (sort q0)) as (l1 & big & E1); [intros E; rewrite E in Lq; cbn in Lq; lia|].
  destruct (@exists_last _ l1) as (l2 & sec & E2); [intros ->; rewrite E1 in Lq; cbn in Lq; lia|]. subst l1. rewrite E1 in *. rewrite !rev_app_distr. cbn [rev app].
  pose proof (ascending_last _ _ As) as Wd. apply Forall_app in Wd. destruct Wd as (Wd & Wsec). apply Forall_cons_iff in Wsec. destruct Wsec as (Wsec & _).
  destruct (Hask big) as (B1 & B2 & (sb & Bs & Bd)); [apply in_or_app; right; left; reflexivity|].
  destruct (Hask sec) as (S1 & S2 & (ss & Ss & Sd)); [apply in_or_app; left; apply in_or_app; right; left; reflexivity|].
  rewrite !map_app in Hids. cbn [map] in Hids.
  assert (Nd : NoDup (map ind (rev l2) ++ [ind sec; ind big]) ).
  { eapply Permutation_NoDup; [|exact Hids]. rewrite <- app_assoc. cbn. rewrite map_rev. apply Permutation_app_tail. apply Permutation_rev. }
  assert (Nbs : ind sec <> ind big). { apply nodup_tail in Nd. inversion Nd as [|? ? Z _]; subst. intros C. apply Z. left. symmetry. exact C. }
  assert (Ib : (ind big < length sizes)%nat) by (apply nth_error_Some; congruence). assert (Is : (ind sec < length sizes)%nat) by (apply nth_error_Some; congruence).
  set (pl0 := repeat _ _).
  destruct (upd_ok pl0 (ind big) (Place 0 0 (turned big) true)) as (pl1 & U1); [unfold pl0; rewrite repeat_length; exact Ib|]. rewrite U1. cbn [rbind].
  assert (L1 : length pl1 = length sizes) by (rewrite (upd_length _ _ _ _ U1); unfold pl0; apply repeat_length).
  destruct (upd_ok pl1 (ind sec) (Place 0 (height big) (turned sec) true)) as (pl2 & U2); [rewrite L1; exact Is|]. rewrite U2. cbn [rbind].
  assert (I0 : inv sizes (width big) (height big + height sec) [(width big, height big); (width sec, height big + height sec)]
     [(ind sec, Box 0 (height big) (width sec) (height sec)); (ind big, Box 0 0 (width big) (height big))] pl2).
  { constructor.
    - exists (height big). eexists. reflexivity.
    - cbn. lia.
    - reflexivity.
    - repeat constructor; cbn; lia.
    - repeat constructor; unfold fine; cbn; lia.
    - repeat constructor; cbn; lia.
    - constructor; [repeat constructor; unfold apart; cbn; lia|repeat constructor].
    - rewrite (upd_length _ _ _ _ U2). exact L1.
    - constructor; [|constructor; [|constructor]].
      + exists ss, (Place 0 (height big) (turned sec) true). cbn. rewrite (upd_same _ _ _ _ U2). repeat split; auto.
      + exists sb, (Place 0 0 (turned big) true). cbn. rewrite (upd_other _ _ _ _ _ U2) by exact Nbs. rewrite (upd_same _ _ _ _ U1). repeat split; auto.
    - cbn. constructor; [intros [C|[]]; congruence|]. constructor; [intros []|constructor]. }
  destruct (rest_ok sizes (width big) (rev l2) _ _ _ _ I0) as (pl3 & H' & occ' & bs' & E3 & I3 & L3 & Sub).
  - apply Forall_forall. intros r Hr. apply in_rev in Hr. rewrite Forall_forall in Wd. specialize (Wd r Hr).
    destruct (Hask r) as (R1 & R2 & R3); [apply in_or_app; left; apply in_or_app; left; exact Hr|]. repeat split; assumption.
  - exact Nd.
  - rewrite E3. cbn [rbind fst snd]. exists (width big, H'), pl3. split; [reflexivity|]. apply (inv_layout _ _ _ _ _ _ I3).
    intros i Hi. apply Sub. apply Hin in Hi. rewrite !map_app in Hi. apply in_app_or in Hi. cbn in Hi. destruct Hi as [Hi|[Hi|[]]]; [|right; right; left; exact Hi]. apply in_app_or in Hi. destruct Hi as [Hi|[Hi|[]]]; [left|right; left; exact Hi].
    rewrite map_rev. apply -> in_rev. exact Hi.
Qed.
