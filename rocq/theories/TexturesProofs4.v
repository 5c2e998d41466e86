From Verif Require Import Base RBase Rectangles RectanglesSpec RectanglesProofs RectanglesProofs2 Textures TexturesSpec TexturesProofs TexturesProofs2 TexturesProofs3.
From Coq Require Import Lra.
Local Open Scope R_scope.

Definition rects (align : bool) (memory : Z -> tmap) (ids : list Z) : list rect := map (fun id => (room align (memory id), id)) ids.
Definition entries (ids : list Z) (locs : list place) (vs : list (list (R * R))) := combine (combine ids locs) vs.

Lemma nth_combine3 ids locs vs i : nth_error (entries ids locs vs) i = match nth_error ids i, nth_error locs i, nth_error vs i with Some a, Some b, Some c => Some (a, b, c) | _, _, _ => None end.
Proof.
  unfold entries. revert locs vs i. induction ids as [|a ids IH]; intros [|b locs] [|c vs] [|i]; try reflexivity; cbn;
    try (destruct (nth_error ids i); reflexivity); try (destruct (nth_error ids i), (nth_error locs i); reflexivity); try apply IH; destruct i; reflexivity.
Qed.
Lemma rects_nth align memory ids i r : nth_error (rects align memory ids) i = Some r <-> exists id, nth_error ids i = Some id /\ r = (room align (memory id), id).
Proof.
  unfold rects. rewrite nth_error_map. destruct (nth_error ids i) as [id|]; cbn.
  - split; [intros H; injection H as <-; exists id; split; reflexivity|]. intros (id' & E & ->). injection E as <-. reflexivity.
  - split; [discriminate|]. intros (id & H & _). discriminate.
Qed.
(* the first position of an identifier *)
Lemma first_position (ids : list Z) : forall i id, nth_error ids i = Some id -> exists k, (k <= i)%nat /\ nth_error ids k = Some id /\ forall j, (j < k)%nat -> nth_error ids j <> Some id.
Proof.
  induction ids as [|a ids IH]; intros i id H; [destruct i; discriminate|]. destruct (Z.eq_dec a id) as [->|N].
  - exists 0%nat. split; [lia|]. split; [reflexivity|]. intros j Hj. lia.
  - destruct i as [|i]; [cbn in H; congruence|]. destruct (IH i id H) as (k & K1 & K2 & K3). exists (S k). split; [lia|]. split; [exact K2|]. intros [|j] Hj; [cbn; congruence|]. apply K3. lia.
Qed.

Section Content.
Variables (align : bool) (mode : pad_mode) (memory : Z -> tmap) (ids : list Z) (vs : list (list (R * R))) (total : Z * Z) (locs : list place).
Hypothesis Hbig : forall id, In id ids -> (0 < mh (memory id) /\ 0 < mw (memory id))%Z.
Hypothesis Hlen : length vs = length ids.
Hypothesis Hlay : unique_layout (rects align memory ids) total locs.

Let S := lay align mode memory (entries ids locs vs) (fun _ _ => 0).
Lemma locs_length : length locs = length ids.
Proof. destruct Hlay as (H & _). unfold rects in H. rewrite H. apply map_length. Qed.

Lemma content n id loc : nth_error ids n = Some id -> nth_error locs n = Some loc ->
  let T := src (memory id) loc in
  ((0 <= px loc)%Z /\ (px loc + mh T + 2 * bd align <= fst total)%Z) /\ ((0 <= py loc)%Z /\ (py loc + mw T + 2 * bd align <= snd total)%Z) /\
  (forall i j, (- bd align <= i < mh T + bd align)%Z -> (- bd align <= j < mw T + bd align)%Z ->
    S (px loc + bd align + i)%Z (py loc + bd align + j)%Z = if keeps_border align mode then tex T (clampZ (mh T) i) (clampZ (mw T) j) else cell T i j).
Proof.
  intros Hi Hl T. destruct Hlay as (L1 & L2 & L3). pose proof locs_length as LL.
  assert (Rn : nth_error (rects align memory ids) n = Some (room align (memory id), id)) by (apply rects_nth; exists id; split; [exact Hi|reflexivity]).
  destruct (L2 _ _ _ Rn Hl) as (W & _). cbn [fst] in W.
  assert (WT : (0 <= px loc /\ 0 <= py loc /\ px loc + mh T + 2 * bd align <= fst total /\ py loc + mw T + 2 * bd align <= snd total)%Z).
  { unfold T. unfold within, extent, room, src, bd, transpose in *. destruct (flipped loc), align; cbn [fst snd mh mw] in *; lia. }
  split; [lia|]. split; [lia|]. intros i j HI HJ.
  destruct (first_position ids n id Hi) as (k & K1 & K2 & K3).
  destruct (nth_error locs k) as [lk|] eqn:Ek; [|apply nth_error_None in Ek; assert (k < length ids)%nat by (apply nth_error_Some; congruence); lia].
  assert (Rk : nth_error (rects align memory ids) k = Some (room align (memory id), id)) by (apply rects_nth; exists id; split; [exact K2|reflexivity]).
  destruct (proj1 (L3 _ _ _ _ _ _ Rn Hl Rk Ek) eq_refl) as (E1 & E2 & E3).
  assert (Fk : is_first lk = true).
  { apply (proj2 (L2 _ _ _ Rk Ek)). intros j0 r r' J1 J2 J3 C. apply rects_nth in J3. destruct J3 as (id' & J3 & ->). rewrite Rk in J2. injection J2 as <-. cbn in C. subst id'. exact (K3 _ J1 J3). }
  destruct (nth_error vs k) as [vk|] eqn:Ev; [|apply nth_error_None in Ev; assert (k < length ids)%nat by (apply nth_error_Some; congruence); lia].
  assert (Ee : nth_error (entries ids locs vs) k = Some (id, lk, vk)) by (rewrite nth_combine3, K2, Ek, Ev; reflexivity).
  destruct (nth_error_split _ _ Ee) as (l1 & l2 & El & Lk).
  assert (Hin : forall e, In e (entries ids locs vs) -> big memory (fst (fst e))).
  { intros ((a & b) & c) He. apply In_nth_error in He. destruct He as (q & He). rewrite nth_combine3 in He. destruct (nth_error ids q) as [a'|] eqn:Ea; [|discriminate]. destruct (nth_error locs q); [|discriminate]. destruct (nth_error vs q); [|discriminate]. injection He as -> _ _. cbn. apply Hbig. eapply nth_error_In. exact Ea. }
  set (r := (px loc + bd align + i)%Z). set (c := (py loc + bd align + j)%Z).
  assert (Sk : src (memory id) lk = T) by (unfold T, src; rewrite E3; reflexivity).
  assert (Cn : contains (room align (memory id)) lk r c).
  { apply room_src. rewrite Sk, <- E1, <- E2. unfold r, c. lia. }
  assert (Oth : forall q e, nth_error (entries ids locs vs) q = Some e -> q <> k -> is_first (snd (fst e)) = true -> ~ contains (room align (memory (fst (fst e)))) (snd (fst e)) r c).
  { intros q ((a & b) & d) He Nq Hf Hc. cbn [fst snd] in *. rewrite nth_combine3 in He. destruct (nth_error ids q) as [a'|] eqn:Ea; [|discriminate]. destruct (nth_error locs q) as [b'|] eqn:Eb; [|discriminate]. destruct (nth_error vs q); [|discriminate]. injection He as -> -> _.
    assert (Rq : nth_error (rects align memory ids) q = Some (room align (memory a), a)) by (apply rects_nth; exists a; split; [exact Ea|reflexivity]).
    destruct (Z.eq_dec a id) as [->|Na].
    - destruct (Nat.lt_ge_cases q k) as [L|L]; [exact (K3 q L Ea)|]. pose proof (proj1 (proj2 (L2 _ _ _ Rq Eb)) Hf) as F. apply (F k _ _ ltac:(lia) Rq Rk). reflexivity.
    - exact (proj2 (L3 _ _ _ _ _ _ Rq Eb Rk Ek) Na r c Hc Cn). }
  unfold S. rewrite El, lay_app. cbn [lay]. rewrite Fk.
  assert (B : big memory id) by (apply Hbig; eapply nth_error_In; exact K2). destruct (src_big memory id lk B) as (B1 & B2).
  rewrite lay_untouched.
  - pose proof (proj1 (place_value align mode (lay align mode memory l1 (fun _ _ => 0)) (memory id) lk r c B1 B2) Cn) as (P1 & P2). rewrite Sk in P1, P2. rewrite <- E1, <- E2 in P1, P2.
    replace (r - (px loc + bd align))%Z with i in P1, P2 by (unfold r; lia). replace (c - (py loc + bd align))%Z with j in P1, P2 by (unfold c; lia).
    destruct (keeps_border align mode) eqn:K.
    + apply P1. right. reflexivity.
    + destruct ((0 <=? i)%Z && (i <? mh T)%Z && (0 <=? j)%Z && (j <? mw T)%Z) eqn:Hin'.
      * rewrite P1 by (left; lia). unfold cell. rewrite Hin'. f_equal; unfold clampZ; lia.
      * rewrite P2; [|lia|reflexivity]. rewrite lay_untouched.
        -- unfold cell. rewrite Hin'. reflexivity.
        -- apply Forall_forall. intros e He. apply Hin. rewrite El. apply in_or_app. left. exact He.
        -- apply Forall_forall. intros e He. apply In_nth_error in He. destruct He as (q & He). assert (q < length l1)%nat by (apply nth_error_Some; congruence). apply (Oth q); [|lia]. rewrite El. rewrite nth_error_app1 by assumption. exact He.
  - apply Forall_forall. intros e He. apply Hin. rewrite El. apply in_or_app. right. right. exact He.
  - apply Forall_forall. intros e He. apply In_nth_error in He. destruct He as (q & He). apply (Oth (length l1 + 1 + q)%nat); [|lia]. rewrite El. rewrite nth_error_app2 by lia. replace (length l1 + 1 + q - length l1)%nat with (Datatypes.S q) by lia. exact He.
Qed.
End Content.

(* ---- uv coordinates ---- *)
Lemma merged_affine align total m loc p q r wa wb wc : wa + wb + wc = 1 ->
  merged_uv align total m loc (wa * fst p + wb * fst q + wc * fst r, wa * snd p + wb * snd q + wc * snd r) =
  (wa * fst (merged_uv align total m loc p) + wb * fst (merged_uv align total m loc q) + wc * fst (merged_uv align total m loc r),
   wa * snd (merged_uv align total m loc p) + wb * snd (merged_uv align total m loc q) + wc * snd (merged_uv align total m loc r)).
Proof.
  intros H. unfold merged_uv. cbn zeta. set (A := IZR _ / IZR _). set (B := IZR _ / IZR _). set (C := IZR _ / IZR _). set (D := IZR _ / IZR _). clearbody A B C D.
  destruct (flipped loc); cbn [fst snd]; f_equal; replace wc with (1 - wa - wb) by lra; ring.
Qed.
Lemma pixel_merged align total m loc vs f w uv : total_weight w = 1 -> pixel_uv vs f w = Some uv ->
  pixel_uv (map (merged_uv align total m loc) vs) f w = Some (merged_uv align total m loc uv).
Proof.
  destruct f as ((a, b), c), w as ((wa, wb), wc). unfold pixel_uv, total_weight. cbn [fst snd]. intros H. rewrite !nth_error_map.
  destruct (nth_error vs a), (nth_error vs b), (nth_error vs c); cbn; try discriminate. intros E. injection E as <-. f_equal. symmetry. apply merged_affine. exact H.
Qed.
Lemma pixel_shift pre (vs post : list (R * R)) a b c w uv : pixel_uv vs (a, b, c) w = Some uv ->
  pixel_uv (pre ++ vs ++ post) (length pre + a, length pre + b, length pre + c)%nat w = Some uv.
Proof.
  assert (G : forall k p, nth_error vs k = Some p -> nth_error (pre ++ vs ++ post) (length pre + k) = Some p).
  { intros k p H. rewrite nth_error_app2 by lia. replace (length pre + k - length pre)%nat with k by lia. rewrite nth_error_app1; [exact H|]. apply nth_error_Some. congruence. }
  destruct w as ((wa, wb), wc). unfold pixel_uv. destruct (nth_error vs a) eqn:Ea; [|discriminate]. destruct (nth_error vs b) eqn:Eb; [|discriminate]. destruct (nth_error vs c) eqn:Ec; [|discriminate].
  rewrite (G _ _ Ea), (G _ _ Eb), (G _ _ Ec). auto.
Qed.
Lemma merged_faces_nth (l : list (list (nat * nat * nat) * list (R * R))) : forall off n fs vs k a b c, nth_error l n = Some (fs, vs) -> nth_error fs k = Some (a, b, c) ->
  let o := (off + sum_nat (map (fun e => length (snd e)) (firstn n l)))%nat in
  nth_error (concat (merge_faces off l)) (sum_nat (map (fun e => length (fst e)) (firstn n l)) + k) = Some (o + a, o + b, o + c)%nat.
Proof.
  induction l as [|(fs0, vs0) l IH]; intros off [|n] fs vs k a b c H Hk; cbn [nth_error] in H; try discriminate; cbn [merge_faces concat firstn map sum_nat fst snd]; cbn zeta.
  - injection H as -> ->. replace (sum_nat [] + k)%nat with k by reflexivity. replace (off + sum_nat [])%nat with off by (cbn; lia). rewrite nth_error_app1; [|rewrite map_length; apply nth_error_Some; intros C; congruence]. rewrite nth_error_map. rewrite Hk. reflexivity.
  - specialize (IH (off + length vs0)%nat n fs vs k a b c H Hk). cbn zeta in IH.
    assert (SC : forall a l, sum_nat (a :: l) = (a + sum_nat l)%nat) by reflexivity. rewrite !SC.
    rewrite nth_error_app2 by (rewrite map_length; lia). rewrite map_length. rewrite <- (Nat.add_assoc (length fs0)).
    match goal with |- nth_error _ (?x + ?y - ?x) = _ => replace (x + y - x)%nat with y by lia end.
    rewrite (Nat.add_assoc off). exact IH.
Qed.
Lemma combine_firstn_snd {A B} (l : list A) (l' : list B) (f : B -> nat) : length l = length l' -> forall n, map (fun e => f (snd e)) (firstn n (combine l l')) = map f (firstn n l').
Proof. revert l'. induction l as [|a l IH]; intros [|b l'] H n; try discriminate; [destruct n; reflexivity|]. destruct n as [|n]; [reflexivity|]. cbn. f_equal. apply IH. cbn in H. lia. Qed.
Lemma combine_firstn_fst {A B} (l : list A) (l' : list B) (f : A -> nat) : length l = length l' -> forall n, map (fun e => f (fst e)) (firstn n (combine l l')) = map f (firstn n l).
Proof. revert l'. induction l as [|a l IH]; intros [|b l'] H n; try discriminate; [destruct n; reflexivity|]. destruct n as [|n]; [reflexivity|]. cbn. f_equal. apply IH. cbn in H. lia. Qed.
Lemma nth_split {A} (l : list A) n x : nth_error l n = Some x -> l = firstn n l ++ x :: skipn (S n) l.
Proof. revert n. induction l as [|a l IH]; intros [|n] H; cbn in *; try discriminate; [injection H as ->; reflexivity|]. f_equal. apply IH. exact H. Qed.

(* ---- the planned layout ---- *)
Lemma room_eq (align : bool) m : room align m = (mh m + (if align then 0 else 2), mw m + (if align then 0 else 2))%Z.
Proof. unfold room, bd. destruct align; f_equal; lia. Qed.
Lemma plan_ok memory t : proper memory t -> exists total locs,
  pack_unique (map (fun id => (mh (memory id) + (if align_corners t then 0 else 2), mw (memory id) + (if align_corners t then 0 else 2), id)%Z) (maps t)) = Ok (total, locs) /\
  unique_layout (rects (align_corners t) memory (maps t)) total locs.
Proof.
  intros P. assert (E : map (fun id => (mh (memory id) + (if align_corners t then 0 else 2), mw (memory id) + (if align_corners t then 0 else 2), id)%Z) (maps t) = rects (align_corners t) memory (maps t)).
  { unfold rects. apply map_ext. intros id. rewrite room_eq. reflexivity. }
  rewrite E. apply unique_ok.
  - unfold rects. unfold rect. rewrite map_length. exact (p_two _ _ P).
  - unfold rects. apply Forall_map. apply Forall_forall. intros id Hi. cbn [fst]. rewrite room_eq. pose proof (p_sizes _ _ P id Hi). unfold positive. cbn [fst snd]. destruct (align_corners t); lia.
  - unfold rects, same_sizes. intros r r' H H'. apply in_map_iff in H, H'. destruct H as (i & <- & _), H' as (i' & <- & _). cbn. intros ->. reflexivity.
Qed.
Lemma total_large memory t total locs : proper memory t -> unique_layout (rects (align_corners t) memory (maps t)) total locs ->
  (align_corners t = true -> forall id, In id (maps t) -> (2 <= mh (memory id) /\ 2 <= mw (memory id))%Z) ->
  (fst total <> if align_corners t then 1 else 0)%Z /\ (snd total <> if align_corners t then 1 else 0)%Z.
Proof.
  intros P L H. pose proof (p_two _ _ P) as H2. destruct (maps t) as [|id l] eqn:E; [cbn in H2; lia|].
  destruct L as (L1 & L2 & _). destruct locs as [|loc locs]; [discriminate|]. destruct (L2 0%nat _ loc eq_refl eq_refl) as (W & _). cbn [fst] in W.
  pose proof (p_sizes _ _ P id) as S1. rewrite E in S1. specialize (S1 (or_introl eq_refl)). unfold within, extent in W. rewrite room_eq in W.
  destruct (align_corners t).
  - specialize (H eq_refl id (or_introl eq_refl)). destruct (flipped loc); cbn [fst snd] in W; lia.
  - destruct (flipped loc); cbn [fst snd] in W; lia.
Qed.
Lemma merge_fails (align : bool) mode memory (total : Z * Z) e l single uvs : (fst total = if align then 1 else 0)%Z \/ (snd total = if align then 1 else 0)%Z ->
  exists er, merge align mode memory total (e :: l) single uvs = Fail er.
Proof.
  intros H. destruct e as ((id, loc), vs). cbn [merge].
  destruct ((fst total =? (if align then 1 else 0))%Z || (snd total =? (if align then 1 else 0))%Z)%bool eqn:E; [eexists; reflexivity|].
  apply orb_false_iff in E. destruct E as (E1 & E2). apply Z.eqb_neq in E1, E2. tauto.
Qed.
Lemma joined_value memory t G fs vs : proper memory t -> join_scene memory t = Ok (G, fs, vs) -> exists total locs,
  unique_layout (rects (align_corners t) memory (maps t)) total locs /\
  (fst total <> if align_corners t then 1 else 0)%Z /\ (snd total <> if align_corners t then 1 else 0)%Z /\
  G = TMap (fst total) (snd total) (lay (align_corners t) (padding_mode t) memory (entries (maps t) locs (verts_uvs t)) (fun _ _ => 0)) /\
  fs = concat (merge_faces 0 (combine (faces_uvs t) (verts_uvs t))) /\
  vs = concat (map (fun e => map (merged_uv (align_corners t) total (memory (fst (fst e))) (snd (fst e))) (snd e)) (entries (maps t) locs (verts_uvs t))).
Proof.
  intros P. unfold join_scene. cbn zeta. destruct (plan_ok memory t P) as (total & locs & E & L). rewrite E. cbn [rbind].
  intros H. exists total, locs. split; [exact L|].
  assert (D : (fst total <> if align_corners t then 1 else 0)%Z /\ (snd total <> if align_corners t then 1 else 0)%Z).
  { pose proof (p_two _ _ P) as H2. pose proof (p_verts _ _ P) as H3. pose proof (locs_length _ _ _ _ _ L) as H4.
    destruct (combine (combine (maps t) locs) (verts_uvs t)) as [|e l] eqn:Ec.
    { exfalso. assert (Z : length (combine (combine (maps t) locs) (verts_uvs t)) = 0%nat) by (rewrite Ec; reflexivity). rewrite !combine_length in Z. lia. }
    destruct (Z.eq_dec (fst total) (if align_corners t then 1 else 0)) as [D|D1]; [|destruct (Z.eq_dec (snd total) (if align_corners t then 1 else 0)) as [D|D2]; [|split; assumption]].
    - destruct (merge_fails (align_corners t) (padding_mode t) memory total e l (fun _ _ => 0) [] (or_introl D)) as (er & F). rewrite F in H. discriminate.
    - destruct (merge_fails (align_corners t) (padding_mode t) memory total e l (fun _ _ => 0) [] (or_intror D)) as (er & F). rewrite F in H. discriminate. }
  destruct D as (D1 & D2). split; [exact D1|]. split; [exact D2|]. rewrite merge_ok in H by assumption. cbn [rbind fst snd app] in H. injection H as <- <- <-. split; [reflexivity|]. split; reflexivity.
Qed.
