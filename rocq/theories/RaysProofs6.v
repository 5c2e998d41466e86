(* n_rays_total: rays packed by camera; the Monte Carlo sampler. *)
From Verif Require Import Base Packing PackingSpec PackingProofs PackOpsProofs.
From Verif Require Import RBase Geom GeomProofs LinAlg Transform TransformSpec Camera CameraSpec CameraProofs CameraProofs6 Implicit ImplicitSpec Rays RaysSpec RaysProofs RaysProofs2 RaysProofs3 RaysProofs4 RaysProofs5.
From Verif Require Meshes MeshesProofs5.
From Coq Require Import Sorted.
Local Open Scope nat_scope.

Lemma removelast_firsts l : forall acc, removelast (acc :: cumsum_from acc l) = firsts acc l.
Proof. induction l as [|a l IH]; intros acc; [reflexivity|]. cbn [cumsum_from firsts]. rewrite removelast_cons2, IH. reflexivity. Qed.
Lemma pack_rays_spec b counts : Forall2 (fun c row => c <= length row) counts b ->
  pack_rays b counts = Ok (concat (map (fun p => firstn (fst p) (snd p)) (combine counts b))).
Proof. intros F. unfold pack_rays, cumsum. rewrite removelast_firsts. apply padded_to_packed_cpu_spec. exact F. Qed.

Lemma filter_count ids z : length (filter (Z.eqb z) ids) = count_occ Z.eq_dec ids z.
Proof.
  induction ids as [|a ids IH]; [reflexivity|]. cbn [filter count_occ]. destruct (Z.eq_dec a z) as [->|H].
  - rewrite Z.eqb_refl. cbn [length]. rewrite IH. reflexivity.
  - destruct (Z.eqb_spec z a); [congruence|]. exact IH.
Qed.
Lemma sum_cons_nat a l : sum_nat (a :: l) = a + sum_nat l.
Proof. reflexivity. Qed.
Lemma sum_counts_cons u a ids : NoDup u ->
  sum_nat (map (count_occ Z.eq_dec (a :: ids)) u) = (if in_dec Z.eq_dec a u then 1 else 0) + sum_nat (map (count_occ Z.eq_dec ids) u).
Proof.
  induction 1 as [|x u Hx N IH]; [reflexivity|]. cbn [map]. rewrite !sum_cons_nat, IH. cbn [count_occ].
  destruct (Z.eq_dec a x) as [->|Hne].
  - destruct (in_dec Z.eq_dec x u); [contradiction|]. destruct (in_dec Z.eq_dec x (x :: u)) as [|K]; [lia|]. exfalso. apply K. left; reflexivity.
  - destruct (in_dec Z.eq_dec a u) as [i|n], (in_dec Z.eq_dec a (x :: u)) as [j|m]; try lia.
    + exfalso. apply m. right; exact i.
    + exfalso. destruct j as [E|j]; [congruence|contradiction].
Qed.
Lemma sum_counts u ids : NoDup u -> incl ids u -> sum_nat (map (count_occ Z.eq_dec ids) u) = length ids.
Proof.
  intros N. induction ids as [|a ids IH]; intros I.
  - clear. induction u as [|x u IH]; [reflexivity|]. cbn [map]. rewrite sum_cons_nat, IH. reflexivity.
  - rewrite sum_counts_cons by exact N. cbn [length]. rewrite IH by (intros z Hz; apply I; right; exact Hz).
    destruct (in_dec Z.eq_dec a u) as [|K]; [reflexivity|]. exfalso. apply K, I. left; reflexivity.
Qed.
Lemma sorted_nodup u : StronglySorted Z.lt u -> NoDup u.
Proof.
  induction 1 as [|x u S IH F]; constructor; [|exact IH]. intros H. rewrite Forall_forall in F. specialize (F x H). lia.
Qed.

Lemma position_of n z : (0 <= z)%Z -> position n z = Z.to_nat z.
Proof. intros H. unfold position. destruct (Z.ltb_spec z 0); [lia|]. reflexivity. Qed.
Lemma positions_nth n u k z : Forall (fun z => (0 <= z)%Z) u -> nth_error u k = Some z -> nth_error (positions n (CxList u)) k = Some (Z.to_nat z).
Proof.
  intros F H. cbn [positions]. rewrite nth_error_map, H. cbn [option_map]. rewrite position_of; [reflexivity|].
  rewrite Forall_forall in F. apply F. eapply nth_error_In; exact H.
Qed.

Lemma good_getitem cs u c : good_cameras cs -> u <> [] -> Forall (fun z => (0 <= z)%Z) u -> cams_getitem cs (CxList u) = Ok c ->
  good_cameras c /\ cs_n c = length u /\
  forall k z, nth_error u k = Some z -> (Z.to_nat z < cs_n cs) /\ forall unit ry, ray_of unit c k ry -> ray_of unit cs (Z.to_nat z) ry.
Proof.
  intros (W & HK & Hn & Hreg & HR & Hs) Hu F H.
  destruct (getitem_correct _ _ _ W H) as (G1 & G2 & G3 & G4 & G5 & G6). pose proof (fun k z => positions_nth (cs_n cs) u k z F) as P.
  assert (Lu : cs_n c = length u) by (rewrite G3; cbn [positions]; apply map_length).
  assert (Lt : forall k z, nth_error u k = Some z -> Z.to_nat z < cs_n cs).
  { intros k z Hz. apply P in Hz. rewrite Forall_forall in G5. apply G5. eapply nth_error_In; exact Hz. }
  assert (Ex : forall k, k < cs_n c -> exists z, nth_error u k = Some z).
  { intros k Hk. destruct (nth_error u k) eqn:E; [eauto|]. apply nth_error_None in E. lia. }
  destruct W as (W1 & W2 & W3 & W4 & W5). destruct G4 as (V1 & V2 & V3 & V4 & V5).
  assert (Pos : 0 < cs_n c) by (rewrite Lu; destruct u; [congruence|cbn; lia]).
  assert (K0 : cs_K c = None).
  { destruct (Ex 0 Pos) as (z & Hz). destruct (G6 0 _ (P _ _ Hz)) as (_ & _ & _ & E & _). rewrite HK in E. destruct (cs_K c); [discriminate|reflexivity]. }
  assert (Old : forall {A} (l l' : list A), (forall k z, nth_error u k = Some z -> nth_error l' k = nth_error l (Z.to_nat z)) -> length l' = cs_n c -> forall x, In x l' -> In x l).
  { intros A l l' E L x Hx. apply In_nth_error in Hx as (k & Hk). assert (k < cs_n c) as Hlt by (rewrite <- L; apply nth_error_Some; congruence).
    destruct (Ex k Hlt) as (z & Hz). rewrite (E k z Hz) in Hk. eapply nth_error_In; exact Hk. }
  assert (Siz : forall l, cs_size cs = Some l -> exists l', cs_size c = Some l' /\ length l' = cs_n c /\ forall k z, nth_error u k = Some z -> nth_error l' k = nth_error l (Z.to_nat z)).
  { intros l El. destruct (Ex 0 Pos) as (z0 & Hz0). destruct (G6 0 _ (P _ _ Hz0)) as (_ & _ & _ & _ & E0). rewrite El in E0.
    destruct (cs_size c) as [l'|] eqn:Ec; [|discriminate]. exists l'. split; [reflexivity|]. split; [apply V4; reflexivity|].
    intros k z Hz. destruct (G6 k _ (P _ _ Hz)) as (_ & _ & _ & _ & E). rewrite El in E. cbn in E. injection E as E. exact E. }
  split; [|split; [exact Lu|]].
  - split; [repeat split; assumption|]. split; [exact K0|]. split; [exact Pos|]. split.
    { intros x Hx. apply Hreg. revert x Hx. apply (Old _ (cs_int cs) (cs_int c)); [|reflexivity]. intros k z Hz. apply (G6 k _ (P _ _ Hz)). }
    split.
    { intros x Hx. apply HR. revert x Hx. apply (Old _ (cs_R cs) (cs_R c)); [|exact V1]. intros k z Hz. apply (G6 k _ (P _ _ Hz)). }
    rewrite G2. intros E. destruct (Hs E) as (l & El & Hl). destruct (Siz l El) as (l' & El' & Ll' & Hl'). exists l'. split; [exact El'|].
    intros s Hs'. apply Hl. revert s Hs'. apply (Old _ l l'); [exact Hl'|exact Ll'].
  - intros k z Hz. split; [apply (Lt k z Hz)|]. intros unit ry (o & d & Ho & Hd & cc & r & t & (c0 & (C1 & C2 & C3) & Hc) & Hp & Hseen).
    exists o, d. split; [exact Ho|]. split; [exact Hd|]. exists cc, r, t. split; [|auto].
    assert (Hk : k < cs_n c) by (rewrite Lu; apply nth_error_Some; congruence).
    pose proof (Lt k z Hz) as Hzn. destruct (G6 k _ (P _ _ Hz)) as (E1 & E2 & E3 & _ & _).
    rewrite (batch_nth_lt _ k) in C1 by exact Hk. rewrite (batch_nth_lt _ k) in C2 by (rewrite V1; exact Hk). rewrite (batch_nth_lt _ k) in C3 by (rewrite V2; exact Hk).
    exists c0. split.
    { repeat split; rewrite batch_nth_lt by (rewrite ?W1, ?W2; exact Hzn); congruence. }
    rewrite G2 in Hc. destruct (in_ndc cs) eqn:En; [exact Hc|]. destruct Hc as (l' & s & Hl' & Hb & Hcc).
    destruct (Hs eq_refl) as (l & El & _). destruct (Siz l El) as (l2 & El2 & Ll2 & E). rewrite Hl' in El2. injection El2 as <-.
    rewrite batch_nth_lt in Hb by (rewrite Ll2; exact Hk). exists l, s. split; [exact El|]. split; [|exact Hcc].
    rewrite batch_nth_lt by (rewrite (W4 l El); exact Hzn). rewrite <- (E k z Hz). exact Hb.
Qed.

(* what the sampled cameras are *)
Lemma sample_cameras_ok ids cs mask c m u counts n : good_cameras cs -> ids <> [] -> Forall (fun z => (0 <= z)%Z) ids ->
  sample_cameras ids cs mask = Ok (c, m, u, counts, n) ->
  good_cameras c /\ cs_n c = length u /\ u <> [] /\ StronglySorted Z.lt u /\ (forall z, In z u <-> In z ids) /\
  counts = map (count_occ Z.eq_dec ids) u /\ (forall k, In k counts -> k <= n) /\ sum_nat counts = length ids /\
  (forall k z, nth_error u k = Some z -> (Z.to_nat z < cs_n cs) /\ forall unit ry, ray_of unit c k ry -> ray_of unit cs (Z.to_nat z) ry) /\
  match mask, m with
  | None, None => True
  | Some m0, Some m1 => length m1 = length u /\ forall k z, nth_error u k = Some z -> nth_error m1 k = nth_error m0 (Z.to_nat z)
  | _, _ => False
  end.
Proof.
  intros G Hne F H. unfold sample_cameras in H. cbv zeta in H.
  destruct (cams_getitem cs (CxList (Meshes.unique ids))) as [c0|] eqn:Ec; cbn [rbind] in H; [|discriminate].
  destruct (take_opt mask (IxList (Meshes.unique ids))) as [m0|] eqn:Em; cbn [rbind] in H; [|discriminate].
  injection H as <- <- <- <- <-.
  assert (In_u : forall z, In z (Meshes.unique ids) <-> In z ids) by (intros z; apply MeshesProofs5.unique_in).
  assert (Fu : Forall (fun z => (0 <= z)%Z) (Meshes.unique ids)).
  { apply Forall_forall. intros z Hz. apply In_u in Hz. rewrite Forall_forall in F. apply F; exact Hz. }
  assert (Nu : Meshes.unique ids <> []).
  { intros E. destruct ids as [|z ids]; [congruence|]. assert (In z (Meshes.unique (z :: ids))) as K by (apply In_u; left; reflexivity). rewrite E in K. destruct K. }
  destruct (good_getitem cs _ _ G Nu Fu Ec) as (G1 & G2 & G3).
  assert (Sor := MeshesProofs5.unique_sorted ids).
  assert (Ecn : map (fun i => length (filter (Z.eqb i) ids)) (Meshes.unique ids) = map (count_occ Z.eq_dec ids) (Meshes.unique ids)) by (apply map_ext; intros z; apply filter_count).
  split; [exact G1|]. split; [exact G2|]. split; [exact Nu|]. split; [exact Sor|]. split; [exact In_u|]. split; [exact Ecn|].
  split; [intros k Hk; apply max_nat_ge; exact Hk|]. split.
  { rewrite Ecn. apply sum_counts; [apply sorted_nodup; exact Sor|]. intros z Hz. apply In_u; exact Hz. }
  split; [exact G3|]. unfold take_opt in Em. destruct mask as [mm|]; [|injection Em as <-; exact I].
  destruct (take_index mm (IxList (Meshes.unique ids))) as [x|] eqn:Et; cbn [rbind] in Em; [|discriminate]. injection Em as <-.
  destruct (take_list_selects _ _ _ Et) as (Sel & _). unfold selects in Sel.
  assert (L : length x = length (Meshes.unique ids)). { rewrite <- (map_length (position (length mm))). symmetry. eapply Forall2_length; exact Sel. }
  split; [exact L|]. intros k z Hz. pose proof (positions_nth (length mm) _ _ _ Fu Hz) as Hp. cbn [positions] in Hp.
  clear - Sel Hp. revert k Hp. generalize (Z.to_nat z). intros j. generalize dependent x. generalize (map (position (length mm)) (Meshes.unique ids)).
  intros l x F. induction F as [|a b l l' J F IH]; intros [|k] Hp; try discriminate; cbn in *; [congruence|]. apply IH; exact Hp.
Qed.

Lemma rows_cut counts (B : list (list ray)) : Forall2 (fun c row => c <= length row) counts B ->
  let rows := map (fun p => firstn (fst p) (snd p)) (combine counts B) in
  length rows = length B /\ length (concat rows) = sum_nat counts /\
  forall k row, nth_error rows k = Some row -> exists c full, nth_error counts k = Some c /\ nth_error B k = Some full /\ row = firstn c full /\ length row = c.
Proof.
  cbv zeta. induction 1 as [|c row counts B Hc F (I1 & I2 & I3)]; [split; [reflexivity|split; [reflexivity|intros [|k] row H; discriminate]]|].
  cbn [combine map length concat fst snd]. split; [lia|]. split.
  - rewrite app_length, I2, firstn_length_le by exact Hc. reflexivity.
  - intros [|k] r H; cbn in H; [|apply I3; exact H]. injection H as <-. exists c, row. cbn. rewrite firstn_length_le by exact Hc. auto.
Qed.
Lemma forall2_of_nth {A B} (P : A -> B -> Prop) (l : list A) (l' : list B) : length l = length l' ->
  (forall k x y, nth_error l k = Some x -> nth_error l' k = Some y -> P x y) -> Forall2 P l l'.
Proof.
  revert l'. induction l as [|a l IH]; intros [|b l'] E H; try discriminate; constructor; [apply (H 0); reflexivity|].
  apply IH; [cbn in E; lia|]. intros k x y Hx Hy. apply (H (S k)); assumption.
Qed.

Section Forward.
Variable mult : nat -> bool -> nat -> list (list R) -> nat -> result (list (list nat)).
Hypothesis Hmult : torch_multinomial mult.

Lemma forward_packed sm kw ids jitter cs n rays cids counts : good_cameras cs ->
  por (f_total kw) (s_total sm) = Some n -> length (ids n) = n -> Forall (fun z => (0 <= z)%Z) (ids n) ->
  multinomial_forward mult sm kw ids jitter cs = Ok (Packed rays cids counts) ->
  length rays = n /\ StronglySorted Z.lt cids /\ (forall z, In z cids <-> In z (ids n)) /\
  counts = map (count_occ Z.eq_dec (ids n)) cids /\
  exists rows, rays = concat rows /\ length rows = length cids /\
  forall k z row, nth_error cids k = Some z -> nth_error rows k = Some row ->
    nth_error counts k = Some (length row) /\ Z.to_nat z < cs_n cs /\ Forall (ray_of (s_unit sm) cs (Z.to_nat z)) row /\
    Forall (fun ry => exists p, nth_error (s_xy sm) p = Some (xy ry) /\
              match f_mask kw with Some m => exists w, nth_error m (Z.to_nat z) = Some w /\ (0 < nth p w 0)%R | None => True end) row.
Proof.
  intros G Ht Hids Fids H. rewrite forward_eq in H. cbv zeta in H.
  destruct (match por (f_total kw) (s_total sm), por (f_per_image kw) (s_per_image sm) with Some _, Some _ => true | _, _ => false end); [discriminate|].
  rewrite Ht in H. destruct n as [|n].
  { exfalso. cbn [rbind] in H. destruct (choose _ _ _ _ _) as [grids|]; cbn [rbind] in H; [|discriminate].
    destruct (xy_to_ray_bundle _ _ _ _ _ _ _) as [b|]; cbn [rbind finish] in H; discriminate. }
  destruct (sample_cameras (ids (S n)) cs (f_mask kw)) as [[[[[c m] u] cnt] k0]|] eqn:Es; cbn [rbind] in H; [|discriminate].
  assert (Nid : ids (S n) <> []) by (intros E; rewrite E in Hids; discriminate).
  destruct (sample_cameras_ok _ _ _ _ _ _ _ _ G Nid Fids Es) as (C1 & C2 & C3 & C4 & C5 & C6 & C7 & C8 & C9 & C10).
  destruct (choose mult (s_xy sm) (length (cs_R c)) m (Some k0)) as [grids|] eqn:Eg; cbn [rbind] in H; [|discriminate].
  destruct (xy_to_ray_bundle _ _ _ _ _ _ _) as [B|] eqn:Eb; cbn [rbind finish] in H; [|discriminate].
  destruct (choose_ok mult Hmult _ _ _ _ _ Eg) as (Lg & Sg).
  assert (W1 : length (cs_R c) = cs_n c) by (destruct C1 as ((W1 & _) & _); exact W1). rewrite W1 in *.
  destruct (bundle_good _ _ _ _ _ _ _ _ C1 Lg Eb) as (E1 & E2).
  assert (LB : length B = length u) by (rewrite <- C2, <- Lg, <- E1; symmetry; apply map_length).
  (* every row has k0 rays whose pixels are grid points of positive weight *)
  assert (Row : forall k z row, nth_error u k = Some z -> nth_error B k = Some row -> length row = k0 /\
     Forall (fun ry => exists p, nth_error (s_xy sm) p = Some (xy ry) /\
              match f_mask kw with Some m => exists w, nth_error m (Z.to_nat z) = Some w /\ (0 < nth p w 0)%R | None => True end) row).
  { intros k z row Hz Hr.
    assert (D : exists w, (match f_mask kw with Some m0 => nth_error m0 (Z.to_nat z) = Some w | None => True end) /\ drawn_from (s_xy sm) w k0 (map xy row)).
    { destruct (f_mask kw) as [m0|], m as [m1|]; try (exfalso; exact C10).
      - pose proof (drawn_rows _ _ _ _ _ Sg E1) as FF. destruct C10 as (L1 & C10).
        destruct (nth_error m1 k) as [w|] eqn:Ew.
        + exists w. split; [rewrite <- (C10 k z Hz); exact Ew|]. clear - FF Ew Hr. revert k Ew Hr. induction FF as [|a b l l' J FF IH]; intros [|k] Ew Hr; try discriminate; cbn in *; [congruence|]. eapply IH; eassumption.
        + apply nth_error_None in Ew. assert (k < length u) by (apply nth_error_Some; congruence). lia.
      - pose proof (drawn_rows _ _ _ _ _ Sg E1) as FF.
        destruct (nth_error (repeat (repeat 1%R (length (s_xy sm))) (cs_n c)) k) as [w|] eqn:Ew.
        + exists w. split; [exact I|]. clear - FF Ew Hr. revert k Ew Hr. induction FF as [|a b l l' J FF IH]; intros [|k] Ew Hr; try discriminate; cbn in *; [congruence|]. eapply IH; eassumption.
        + apply nth_error_None in Ew. rewrite repeat_length in Ew. assert (k < length u) by (apply nth_error_Some; congruence). lia. }
    destruct D as (w & Hw & idx & D1 & D2 & D3 & _). split.
    - apply (f_equal (@length _)) in D2. rewrite !map_length in D2. lia.
    - apply Forall_forall. intros ry Hry. apply In_nth_error in Hry as (j & Hj).
      assert (Hx : nth_error (map Some (map xy row)) j = Some (Some (xy ry))) by (rewrite !nth_error_map, Hj; reflexivity).
      rewrite <- D2, nth_error_map in Hx. destruct (nth_error idx j) as [p|] eqn:Ep; [|discriminate]. cbn in Hx. injection Hx as Hx.
      exists p. split; [exact Hx|]. destruct (f_mask kw) as [m0|]; [|exact I]. exists w. split; [exact Hw|].
      rewrite Forall_forall in D3. apply D3. eapply nth_error_In; exact Ep. }
  assert (FC : Forall2 (fun c row => c <= length row) cnt B).
  { apply forall2_of_nth; [rewrite C6, map_length; lia|]. intros k x y Hx Hy.
    destruct (nth_error u k) as [z|] eqn:Ez; [|apply nth_error_None in Ez; assert (k < length B) by (apply nth_error_Some; congruence); lia].
    destruct (Row k z y Ez Hy) as (-> & _). apply C7. eapply nth_error_In; exact Hx. }
  rewrite (pack_rays_spec _ _ FC) in H. cbn [rbind] in H. injection H as <- <- <-.
  destruct (rows_cut _ _ FC) as (R1 & R2 & R3).
  split; [rewrite R2, C8; exact Hids|]. split; [exact C4|]. split; [exact C5|]. split; [exact C6|].
  eexists. split; [reflexivity|]. split; [rewrite R1; exact LB|].
  intros k z row Hz Hr. destruct (R3 k row Hr) as (cc & full & Q1 & Q2 & -> & Q4). split; [rewrite Q4; exact Q1|].
  destruct (C9 k z Hz) as (Lz & Tz). split; [exact Lz|].
  assert (Sub : forall P : ray -> Prop, Forall P full -> Forall P (firstn cc full)).
  { intros P FP. apply Forall_forall. intros x Hx. rewrite Forall_forall in FP. apply FP. rewrite <- (firstn_skipn cc full). apply in_or_app. left; exact Hx. }
  split; [|apply Sub; apply (Row k z full Hz Q2)]. apply Sub. destruct (E2 k full Q2) as (FF & _).
  apply Forall_forall. intros ry Hry. apply Tz. rewrite Forall_forall in FF. apply FF; exact Hry.
Qed.
End Forward.

(* ---- MonteCarloRaysampler ---- *)
Local Open Scope R_scope.
Lemma window_draw a b x : a <= b -> 0 <= x <= 1 -> a <= x * (b - a) + a <= b.
Proof. intros H (H1 & H2). assert (0 <= x * (b - a)) by (apply Rmult_le_pos; lra). assert (0 <= (1 - x) * (b - a)) by (apply Rmult_le_pos; lra). lra. Qed.

Lemma monte_grids min_x max_x min_y max_y rnd n N (B : list (list ray)) : min_x <= max_x -> min_y <= max_y ->
  (forall b j, 0 <= fst (rnd b j) <= 1 /\ 0 <= snd (rnd b j) <= 1) ->
  map (map xy) B = map (fun b => map (fun j => (fst (rnd b j : R * R) * (max_x - min_x) + min_x,
                                     snd (rnd b j) * (max_y - min_y) + min_y)) (seq 0 n)) (seq 0 N) ->
  Forall (fun row => length row = n /\ Forall (fun ry => in_window min_x max_x min_y max_y (xy ry)) row) B.
Proof.
  intros Hx Hy Hr E. apply Forall_forall. intros row Hrow. assert (Hin : In (map xy row) (map (map xy) B)) by (apply in_map; exact Hrow).
  rewrite E in Hin. apply in_map_iff in Hin as (b & Eb & _). split.
  - apply (f_equal (@length _)) in Eb. rewrite !map_length, seq_length in Eb. auto.
  - apply Forall_forall. intros ry Hry. assert (In (xy ry) (map xy row)) as K by (apply in_map; exact Hry). rewrite <- Eb in K.
    apply in_map_iff in K as (j & <- & _). destruct (Hr b j) as (H1 & H2). split; apply window_draw; assumption.
Qed.

Lemma monte_regular min_x max_x min_y max_y per_image total unit lo hi npts ids rnd jitter cs B : good_cameras cs ->
  min_x <= max_x -> min_y <= max_y -> (forall b j, 0 <= fst (rnd b j) <= 1 /\ 0 <= snd (rnd b j) <= 1) ->
  monte_carlo_forward min_x max_x min_y max_y per_image total unit lo hi npts ids rnd jitter cs = Ok (Regular B) ->
  exists n, per_image = Some n /\ length B = cs_n cs /\
    forall i row, nth_error B i = Some row -> length row = n /\
      Forall (fun ry => in_window min_x max_x min_y max_y (xy ry) /\ ray_of unit cs i ry) row.
Proof.
  intros G Hx Hy Hr H. unfold monte_carlo_forward in H.
  assert (W1 : length (cs_R cs) = cs_n cs) by (destruct G as ((W1 & _) & _); exact W1).
  destruct total as [t|], per_image as [n|]; try discriminate.
  - destruct t as [|t]; cbn [rbind] in H; [discriminate|].
    destruct (sample_cameras (ids (S t)) cs None) as [[[[[c m] u] cnt] k0]|]; cbn [rbind] in H; [|discriminate].
    destruct (xy_to_ray_bundle _ _ _ _ _ _ _) as [b|]; cbn [rbind finish] in H; [|discriminate]. destruct (pack_rays b cnt); discriminate.
  - cbn [rbind] in H. destruct (xy_to_ray_bundle _ _ _ _ _ _ _) as [b|] eqn:Eb; cbn [rbind finish] in H; [|discriminate]. injection H as <-.
    exists n. split; [reflexivity|]. rewrite W1 in Eb.
    match type of Eb with xy_to_ray_bundle _ _ _ _ _ _ ?g = _ => assert (Lg : length g = cs_n cs) by (rewrite map_length, seq_length; reflexivity) end.
    destruct (bundle_good _ _ _ _ _ _ _ _ G Lg Eb) as (E1 & E2).
    split; [apply (f_equal (@length _)) in E1; rewrite map_length, Lg in E1; exact E1|].
    pose proof (monte_grids _ _ _ _ _ _ _ _ Hx Hy Hr E1) as F. intros i row Hi. rewrite Forall_forall in F.
    destruct (F row (nth_error_In _ _ Hi)) as (F1 & F2). split; [exact F1|]. destruct (E2 i row Hi) as (F3 & _).
    apply Forall_forall. intros ry Hry. rewrite Forall_forall in F2, F3. auto.
Qed.
Lemma monte_packed min_x max_x min_y max_y per_image total unit lo hi npts ids rnd jitter cs rays cids counts : good_cameras cs ->
  min_x <= max_x -> min_y <= max_y -> (forall b j, 0 <= fst (rnd b j) <= 1 /\ 0 <= snd (rnd b j) <= 1) ->
  (forall n, length (ids n) = n /\ Forall (fun z => (0 <= z)%Z) (ids n)) ->
  monte_carlo_forward min_x max_x min_y max_y per_image total unit lo hi npts ids rnd jitter cs = Ok (Packed rays cids counts) ->
  exists n, total = Some n /\ length rays = n /\ StronglySorted Z.lt cids /\ (forall z, In z cids <-> In z (ids n)) /\
  counts = map (count_occ Z.eq_dec (ids n)) cids /\
  exists rows, rays = concat rows /\ length rows = length cids /\
  forall k z row, nth_error cids k = Some z -> nth_error rows k = Some row ->
    nth_error counts k = Some (length row) /\ (Z.to_nat z < cs_n cs)%nat /\
    Forall (fun ry => in_window min_x max_x min_y max_y (xy ry) /\ ray_of unit cs (Z.to_nat z) ry) row.
Proof.
  intros G Hx Hy Hr Hids H. unfold monte_carlo_forward in H.
  destruct total as [t|], per_image as [n|]; try discriminate.
  2: { cbn [rbind] in H. destruct (xy_to_ray_bundle _ _ _ _ _ _ _); discriminate. }
  destruct t as [|t]; cbn [rbind] in H; [discriminate|]. destruct (Hids (S t)) as (Lid & Fids).
  assert (Nid : ids (S t) <> []) by (intros E; rewrite E in Lid; discriminate).
  destruct (sample_cameras (ids (S t)) cs None) as [[[[[c m] u] cnt] k0]|] eqn:Es; cbn [rbind] in H; [|discriminate].
  destruct (sample_cameras_ok _ _ _ _ _ _ _ _ G Nid Fids Es) as (C1 & C2 & C3 & C4 & C5 & C6 & C7 & C8 & C9 & C10).
  destruct (xy_to_ray_bundle _ _ _ _ _ _ _) as [B|] eqn:Eb; cbn [rbind finish] in H; [|discriminate].
  assert (W1 : length (cs_R c) = cs_n c) by (destruct C1 as ((W1 & _) & _); exact W1). rewrite W1 in Eb.
  match type of Eb with xy_to_ray_bundle _ _ _ _ _ _ ?g = _ => assert (Lg : length g = cs_n c) by (rewrite map_length, seq_length; reflexivity) end.
  destruct (bundle_good _ _ _ _ _ _ _ _ C1 Lg Eb) as (E1 & E2).
  assert (LB : length B = length u) by (apply (f_equal (@length _)) in E1; rewrite map_length, Lg in E1; lia).
  pose proof (monte_grids _ _ _ _ _ _ _ _ Hx Hy Hr E1) as F. rewrite Forall_forall in F.
  assert (FC : Forall2 (fun c row => (c <= length row)%nat) cnt B).
  { apply forall2_of_nth; [rewrite C6, map_length; lia|]. intros k x y Hkx Hky. destruct (F y (nth_error_In _ _ Hky)) as (-> & _). apply C7. eapply nth_error_In; exact Hkx. }
  rewrite (pack_rays_spec _ _ FC) in H. cbn [rbind] in H. injection H as <- <- <-.
  destruct (rows_cut _ _ FC) as (R1 & R2 & R3). exists (S t). split; [reflexivity|].
  split; [rewrite R2, C8; exact Lid|]. split; [exact C4|]. split; [exact C5|]. split; [exact C6|].
  eexists. split; [reflexivity|]. split; [rewrite R1; exact LB|].
  intros k z row Hz Hrw. destruct (R3 k row Hrw) as (cc & full & Q1 & Q2 & -> & Q4). split; [rewrite Q4; exact Q1|].
  destruct (C9 k z Hz) as (Lz & Tz). split; [exact Lz|].
  apply Forall_forall. intros ry Hry. assert (Hin : In ry full) by (rewrite <- (firstn_skipn cc full); apply in_or_app; left; exact Hry).
  destruct (E2 k full Q2) as (FF & _). rewrite Forall_forall in FF. destruct (F full (nth_error_In _ _ Q2)) as (_ & F2). rewrite Forall_forall in F2.
  split; [apply F2; exact Hin|]. apply Tz. apply FF; exact Hin.
Qed.
