From Coq Require Import Sorted.
From Verif Require Import Base RBase TopK MinKSpec MinKProofs Geom GeomProofs GeomRefute Knn KnnProofs Raster RasterSpec RasterProofs RasterCuda.
Local Open Scope R_scope.

(* ------------ extent of a bin ------------ *)
Lemma half_pixel S1 S2 : (0 < S1)%Z -> (0 < S2)%Z -> ndc_range S1 S2 / 2 / IZR S1 = 1 / IZR (Z.min S1 S2).
Proof.
  intros H1 H2. unfold ndc_range. apply IZR_lt in H1, H2.
  destruct (S2 <? S1)%Z eqn:E.
  - apply Z.ltb_lt in E. rewrite Z.min_r by lia. field. split; lra.
  - apply Z.ltb_ge in E. rewrite Z.min_l by lia. field. lra.
Qed.
Lemma cuda_bin_min_eq bs S1 S2 b : (0 < S1)%Z -> (0 < S2)%Z ->
  cuda_bin_min bs S1 S2 b = (2 * IZR b * IZR bs - IZR S1) / IZR (Z.min S1 S2).
Proof.
  intros H1 H2. unfold cuda_bin_min. rewrite half_pixel, pix_form by assumption.
  assert (H := min_pos S1 S2 H1 H2). rewrite mult_IZR. field. lra.
Qed.
Lemma cuda_bin_max_eq bs S1 S2 b : (0 < S1)%Z -> (0 < S2)%Z ->
  cuda_bin_max bs S1 S2 b = (2 * (IZR b + 1) * IZR bs - IZR S1) / IZR (Z.min S1 S2).
Proof.
  intros H1 H2. unfold cuda_bin_max. rewrite half_pixel, pix_form by assumption.
  assert (H := min_pos S1 S2 H1 H2). rewrite minus_IZR, mult_IZR, plus_IZR. field. lra.
Qed.
Lemma pixel_in_bin bs S1 S2 i : (0 < bs)%Z -> (0 < S1)%Z -> (0 < S2)%Z ->
  cuda_bin_min bs S1 S2 (i / bs) < pix_to_ndc i S1 S2 < cuda_bin_max bs S1 S2 (i / bs).
Proof.
  intros Hb H1 H2. rewrite cuda_bin_min_eq, cuda_bin_max_eq, pix_form by assumption.
  assert (Hm := min_pos S1 S2 H1 H2).
  assert (Hd := Z.div_mod i bs ltac:(lia)). assert (Hr := Z.mod_pos_bound i bs Hb).
  assert (B1 : (i / bs * bs <= i)%Z) by nia. assert (B2 : (i + 1 <= (i / bs + 1) * bs)%Z) by nia.
  apply IZR_le in B1, B2. rewrite plus_IZR, mult_IZR, plus_IZR in B2. rewrite mult_IZR in B1.
  split; apply Rmult_lt_compat_r; try (apply Rinv_0_lt_compat; assumption); lra.
Qed.

Lemma overlap_covers bs H W bb yi xi px py : (0 < bs)%Z -> (0 < H)%Z -> (0 < W)%Z ->
  px = pix_to_ndc xi W H -> py = pix_to_ndc yi H W ->
  b_xmin bb <= px <= b_xmax bb -> b_ymin bb <= py <= b_ymax bb ->
  cuda_overlap bs H W bb (yi / bs) (xi / bs) = true.
Proof.
  intros Hb HH HW -> -> Hx Hy. unfold cuda_overlap.
  assert (A := pixel_in_bin bs H W yi Hb HH HW). assert (B := pixel_in_bin bs W H xi Hb HW HH).
  rewrite !Bool.andb_true_iff. repeat split; try apply Rleb_true; try apply Rltb_true; lra.
Qed.
Lemma face_hit_bbox o f p h : face_hit o f p = Some h ->
  b_skip (tri_bbox (o_blur o) f) = false /\
  b_xmin (tri_bbox (o_blur o) f) <= x2 p <= b_xmax (tri_bbox (o_blur o) f) /\
  b_ymin (tri_bbox (o_blur o) f) <= y2 p <= b_ymax (tri_bbox (o_blur o) f).
Proof.
  unfold face_hit. destruct (o_cull o && _); [discriminate|].
  destruct (Rleb (face_area f) kEps && _); [discriminate|].
  destruct (outside_bbox f (sqrt (o_blur o)) p) eqn:E; [discriminate|]. intros _.
  unfold outside_bbox in E. rewrite !Bool.orb_false_iff in E. destruct E as [[[[E1 E2] E3] E4] E5].
  cbn. split; [assumption|]. apply Rltb_false in E1, E2, E3, E4. lra.
Qed.
Lemma sq_lt_abs a r : 0 <= r -> a * a < r * r -> - r < a < r.
Proof.
  intros Hr H. split; apply Rnot_le_lt; intros C; nra.
Qed.
Lemma point_hit_bbox q p h : 0 <= pt_radius q -> point_hit p q = Some h ->
  b_skip (point_bbox q) = false /\
  b_xmin (point_bbox q) <= x2 p <= b_xmax (point_bbox q) /\ b_ymin (point_bbox q) <= y2 p <= b_ymax (point_bbox q).
Proof.
  intros Hr. unfold point_hit. destruct (Rltb (z3 (pt_pos q)) 0) eqn:Ez; [discriminate|].
  destruct (Rltb (_ + _) _) eqn:Ed; [|discriminate]. intros _. cbn. split; [assumption|]. apply Rltb_true in Ed.
  assert (A := sq_nonneg (x3 (pt_pos q) - x2 p)). assert (B := sq_nonneg (y3 (pt_pos q) - y2 p)).
  assert (C := sq_lt_abs (x3 (pt_pos q) - x2 p) (pt_radius q) Hr ltac:(lra)).
  assert (D := sq_lt_abs (y3 (pt_pos q) - y2 p) (pt_radius q) Hr ltac:(lra)). lra.
Qed.

(* ------------ filling a bin ------------ *)
Lemma upd_app {A} (l1 l2 : list A) i v l2' : upd l2 i v = Ok l2' -> upd (l1 ++ l2) (length l1 + i) v = Ok (l1 ++ l2').
Proof. intros H. induction l1 as [|a l1 IH]; cbn; [assumption|]. rewrite IH. reflexivity. Qed.
Lemma write_chunk (c : list nat) : forall (pre : list Z) counter k0 n, length pre = (counter + k0)%nat -> (length c <= n)%nat ->
  rfold (fun cl ie => upd cl (counter + fst ie)%nat (Z.of_nat (snd ie)))
    (combine (seq k0 (length c)) c) (pre ++ repeat (-1)%Z n) =
  Ok ((pre ++ map Z.of_nat c) ++ repeat (-1)%Z (n - length c)).
Proof.
  induction c as [|e c IH]; intros pre counter k0 n HL Hn; cbn [length seq combine rfold map fst snd].
  - rewrite app_nil_r, Nat.sub_0_r. reflexivity.
  - destruct n as [|n]; [cbn in Hn; lia|]. rewrite <- HL. rewrite <- (Nat.add_0_r (length pre)).
    rewrite (upd_app pre (repeat (-1)%Z (S n)) 0 (Z.of_nat e) (Z.of_nat e :: repeat (-1)%Z n)) by reflexivity.
    cbn [rbind]. replace (pre ++ Z.of_nat e :: repeat (-1)%Z n) with ((pre ++ [Z.of_nat e]) ++ repeat (-1)%Z n) by (rewrite <- app_assoc; reflexivity).
    rewrite IH.
    + f_equal. rewrite <- !app_assoc. reflexivity.
    + rewrite app_length. cbn. lia.
    + cbn in Hn. lia.
Qed.
Lemma bin_over M chunks : forall counter cells, (M < counter)%nat -> bin_fill M chunks counter cells = Ok cells.
Proof.
  induction chunks as [|c chunks IH]; intros counter cells H; cbn [bin_fill]; [reflexivity|].
  replace (M <? counter + length c)%nat with true by (symmetry; apply Nat.ltb_lt; lia). apply IH. lia.
Qed.
Lemma bin_fill_ok M chunks : forall (pre : list nat), (length pre <= M)%nat ->
  exists m, bin_fill M chunks (length pre) (map Z.of_nat pre ++ repeat (-1)%Z (M - length pre)) =
     Ok (map Z.of_nat (pre ++ concat (firstn m chunks)) ++ repeat (-1)%Z (M - length (pre ++ concat (firstn m chunks)))) /\
    ((length pre + length (concat chunks) <= M)%nat -> concat (firstn m chunks) = concat chunks) /\
    (length (pre ++ concat (firstn m chunks)) <= M)%nat.
Proof.
  induction chunks as [|c chunks IH]; intros pre HP; cbn [bin_fill concat].
  - exists O. cbn [firstn concat]. rewrite app_nil_r. auto.
  - destruct (M <? length pre + length c)%nat eqn:E.
    + apply Nat.ltb_lt in E. exists O. rewrite bin_over by lia. cbn [firstn concat]. rewrite app_nil_r. split; [reflexivity|].
      split; [rewrite app_length; lia|assumption].
    + apply Nat.ltb_ge in E.
      rewrite (write_chunk c (map Z.of_nat pre) (length pre) 0) by (rewrite ?map_length; lia).
      cbn [rbind]. destruct (IH (pre ++ c)) as [m [E1 [E2 E3]]]; [rewrite app_length; lia|].
      rewrite app_length in E1. exists (S m). cbn [firstn concat].
      rewrite <- map_app, <- Nat.sub_add_distr. split; [rewrite E1, <- !app_assoc; reflexivity|].
      split; [|rewrite <- app_assoc in E3; exact E3].
      intros HM. rewrite E2; [reflexivity|]. rewrite !app_length in *. lia.
Qed.
Lemma bin_candidates_eq l n : bin_candidates (map Z.of_nat l ++ repeat (-1)%Z n) = l.
Proof.
  unfold bin_candidates. rewrite filter_app, map_app.
  assert (F : forall n, filter (fun f => negb (f <? 0)%Z) (repeat (-1)%Z n) = []) by (induction n0; cbn; auto).
  rewrite F. cbn [map]. rewrite app_nil_r.
  induction l as [|a l IH]; cbn; [reflexivity|].
  replace (Z.of_nat a <? 0)%Z with false by (symmetry; apply Z.ltb_ge; lia). cbn. rewrite Nat2Z.id. f_equal. exact IH.
Qed.

Lemma concat_chunks (P : nat -> bool) cs k : forall a,
  concat (map (fun c => filter P (seq (c * cs) cs)) (seq a k)) = filter P (seq (a * cs) (k * cs)).
Proof.
  induction k as [|k IH]; intros a; cbn [seq map concat Nat.mul]; [reflexivity|].
  rewrite IH, seq_app, filter_app. replace (S a * cs)%nat with (a * cs + cs)%nat by lia. reflexivity.
Qed.
Lemma concat_perm {A} (l l' : list (list A)) : Permutation l l' -> Permutation (concat l) (concat l').
Proof.
  induction 1; cbn.
  - constructor.
  - apply Permutation_app_head. assumption.
  - rewrite !app_assoc. apply Permutation_app_tail, Permutation_app_comm.
  - etransitivity; eassumption.
Qed.
Lemma filter_range (P : nat -> bool) start stop n : (start <= stop)%nat -> (stop <= n)%nat ->
  filter (fun e => ((start <=? e) && (e <? stop))%nat && P e) (seq 0 n) = filter P (seq start (stop - start)).
Proof.
  intros H1 H2. replace n with (start + ((stop - start) + (n - stop)))%nat by lia.
  rewrite !seq_app, !filter_app. cbn [Nat.add].
  assert (F : forall a k, (forall e, In e (seq a k) -> ((start <=? e) && (e <? stop))%nat = false) ->
     filter (fun e => ((start <=? e) && (e <? stop))%nat && P e) (seq a k) = []).
  { intros a k H. rewrite (filter_ext_in _ (fun _ => false)); [|intros e He; rewrite H by assumption; reflexivity].
    generalize (seq a k). clear. induction l; cbn; auto. }
  rewrite (F 0%nat start), (F (start + (stop - start))%nat (n - stop)%nat), app_nil_r.
  - cbn [app]. apply filter_ext_in. intros e He. apply in_seq in He.
    replace ((start <=? e) && (e <? stop))%nat with true; [reflexivity|].
    symmetry. apply Bool.andb_true_iff. split; [apply Nat.leb_le|apply Nat.ltb_lt]; lia.
  - intros e He. apply in_seq in He. apply Bool.andb_false_iff. right. apply Nat.ltb_ge. lia.
  - intros e He. apply in_seq in He. apply Bool.andb_false_iff. left. apply Nat.leb_gt. lia.
Qed.

(* the primitives of a batch element that the coarse stage must list in a bin *)
Lemma num_chunks_cover E cs : (0 < cs)%nat -> (E <= num_chunks E cs * cs)%nat.
Proof.
  intros H. unfold num_chunks. assert (D := Nat.div_mod (E - 1) cs ltac:(lia)).
  assert (M := Nat.mod_upper_bound (E - 1) cs ltac:(lia)). nia.
Qed.

Lemma coarse_chunks bs H W bboxes start stop cs E order by_ bx : (0 < cs)%nat ->
  (start <= stop <= E)%nat -> Permutation order (seq 0 (num_chunks E cs)) ->
  Permutation (concat (map (fun c => chunk_elems bs H W bboxes start stop cs c by_ bx) order))
    (listed bs H W bboxes start stop by_ bx) /\
  (order = seq 0 (num_chunks E cs) ->
   concat (map (fun c => chunk_elems bs H W bboxes start stop cs c by_ bx) order) = listed bs H W bboxes start stop by_ bx).
Proof.
  intros Hc HE HP.
  assert (G : concat (map (fun c => chunk_elems bs H W bboxes start stop cs c by_ bx) (seq 0 (num_chunks E cs))) =
     listed bs H W bboxes start stop by_ bx).
  { unfold chunk_elems. rewrite concat_chunks. cbn [Nat.mul]. unfold listed.
    rewrite <- (filter_range _ start stop (num_chunks E cs * cs)).
    - apply filter_ext. intros e. rewrite Bool.andb_assoc. reflexivity.
    - lia.
    - assert (X := num_chunks_cover E cs Hc). lia. }
  split; [|intros ->; exact G]. rewrite <- G. apply concat_perm, Permutation_map, HP.
Qed.

Lemma fine_bin_ok bs H W M E cs bboxes start stop order yo xo : (0 < cs)%nat ->
  (start <= stop <= E)%nat -> Permutation order (seq 0 (num_chunks E cs)) ->
  let L := listed (Z.of_nat bs) (Z.of_nat H) (Z.of_nat W) bboxes start stop
             (Z.of_nat ((H - 1 - yo) / bs)) (Z.of_nat ((W - 1 - xo) / bs)) in
  exists c, fine_bin bs H W M E cs bboxes start stop order yo xo = Ok c /\
    (length c <= M)%nat /\ (forall i, In i c -> In i L) /\ NoDup c /\
    ((length L <= M)%nat -> Permutation c L /\ (order = seq 0 (num_chunks E cs) -> c = L)).
Proof.
  intros Hc HE HP L. unfold fine_bin, coarse_bin.
  set (chunks := map _ order).
  destruct (coarse_chunks (Z.of_nat bs) (Z.of_nat H) (Z.of_nat W) bboxes start stop cs E order
     (Z.of_nat ((H - 1 - yo) / bs)) (Z.of_nat ((W - 1 - xo) / bs)) Hc HE HP) as [C1 C2]. fold chunks in C1, C2. fold L in C1, C2.
  destruct (bin_fill_ok M chunks []) as [m [E1 [E2 E3]]]; [cbn; lia|]. cbn [length map app] in E1, E2, E3.
  rewrite Nat.sub_0_r in E1. rewrite E1. cbn [rbind]. rewrite bin_candidates_eq.
  eexists. split; [reflexivity|]. split; [exact E3|].
  assert (NDc : NoDup (concat chunks)).
  { eapply Permutation_NoDup; [symmetry; exact C1|]. apply NoDup_filter, seq_NoDup. }
  assert (Hsp : concat chunks = concat (firstn m chunks) ++ concat (skipn m chunks)).
  { rewrite <- concat_app, firstn_skipn. reflexivity. }
  split; [|split].
  - intros i Hi. eapply Permutation_in; [exact C1|]. rewrite Hsp. apply in_or_app. left. exact Hi.
  - rewrite Hsp in NDc. apply NoDup_app_l in NDc. exact NDc.
  - intros HM. rewrite E2 by (rewrite (Permutation_length C1); exact HM). split; [exact C1|exact C2].
Qed.

(* ------------ fine = naive ------------ *)
Lemma rfold_filter {S X} (hit : nat -> option X) (step : nat -> S -> X -> result S) P l : forall s,
  (forall i h, In i l -> hit i = Some h -> P i = true) ->
  rfold (fun s i => match hit i with Some h => step i s h | None => Ok s end) (filter P l) s =
  rfold (fun s i => match hit i with Some h => step i s h | None => Ok s end) l s.
Proof.
  induction l as [|i l IH]; intros s H; cbn [filter rfold]; [reflexivity|].
  assert (H' : forall j h, In j l -> hit j = Some h -> P j = true) by (intros; eapply H; [right|]; eassumption).
  destruct (P i) eqn:EP; cbn [rfold].
  - destruct (hit i) as [h|]; cbn [rbind]; [destruct (step i s h); cbn [rbind]; auto|auto].
  - destruct (hit i) as [h|] eqn:Eh.
    + rewrite (H i h (or_introl eq_refl) Eh) in EP. discriminate.
    + cbn [rbind]. auto.
Qed.

Definition of_nat_bin (a b : nat) : Z.of_nat (a / b) = (Z.of_nat a / Z.of_nat b)%Z := Nat2Z.inj_div a b.

Lemma listed_covers bs H W bboxes start stop yo xo i : (0 < bs)%nat -> (yo < H)%nat -> (xo < W)%nat ->
  In i (seq start (stop - start)) -> b_skip (bboxes i) = false ->
  b_xmin (bboxes i) <= x2 (pix_center H W yo xo) <= b_xmax (bboxes i) ->
  b_ymin (bboxes i) <= y2 (pix_center H W yo xo) <= b_ymax (bboxes i) ->
  In i (listed (Z.of_nat bs) (Z.of_nat H) (Z.of_nat W) bboxes start stop
             (Z.of_nat ((H - 1 - yo) / bs)) (Z.of_nat ((W - 1 - xo) / bs))).
Proof.
  intros Hb Hy Hx Hi Hs Bx By. unfold listed. apply filter_In. split; [assumption|]. rewrite Hs. cbn [negb andb].
  rewrite !Nat2Z.inj_div, !Nat2Z.inj_sub by lia.
  eapply overlap_covers; [lia|lia|lia| | |eassumption|eassumption]; reflexivity.
Qed.

Lemma rfold_hits_only {S X} (hit : nat -> option X) (step : nat -> S -> X -> result S) l l' s :
  filter (fun i => match hit i with Some _ => true | None => false end) l =
  filter (fun i => match hit i with Some _ => true | None => false end) l' ->
  rfold (fun s i => match hit i with Some h => step i s h | None => Ok s end) l s =
  rfold (fun s i => match hit i with Some h => step i s h | None => Ok s end) l' s.
Proof.
  intros H. rewrite <- (rfold_filter hit step (fun i => match hit i with Some _ => true | None => false end) l).
  - rewrite H. apply rfold_filter. intros i h _ ->. reflexivity.
  - intros i h _ ->. reflexivity.
Qed.

Lemma sel_unique {Y} (q1 : list (R * (nat * Y))) : forall q2 r1 r2, length q1 = length q2 ->
  Permutation (q1 ++ r1) (q2 ++ r2) ->
  StronglySorted (fun a b => before (key a) (key b)) q1 -> StronglySorted (fun a b => before (key a) (key b)) q2 ->
  (forall a b, In a q1 -> In b r1 -> before (key a) (key b)) -> (forall a b, In a q2 -> In b r2 -> before (key a) (key b)) ->
  q1 = q2.
Proof.
  induction q1 as [|a q1 IH]; intros [|b q2] r1 r2 HL HP S1 S2 R1 R2; try discriminate; [reflexivity|].
  inversion S1 as [|? ? S1' F1]; inversion S2 as [|? ? S2' F2]; subst. rewrite Forall_forall in F1, F2.
  assert (a = b).
  { assert (Ha : In a (b :: q2 ++ r2)) by (eapply Permutation_in; [exact HP|left; reflexivity]).
    assert (Hb : In b (a :: q1 ++ r1)) by (eapply Permutation_in; [symmetry; exact HP|left; reflexivity]).
    destruct Ha as [|Ha]; [auto|]. destruct Hb as [|Hb]; [auto|]. exfalso.
    assert (before (key b) (key a)).
    { apply in_app_or in Ha as [Ha|Ha]; [auto|]. apply R2; [left; reflexivity|assumption]. }
    assert (before (key a) (key b)).
    { apply in_app_or in Hb as [Hb|Hb]; [auto|]. apply R1; [left; reflexivity|assumption]. }
    eapply before_irrefl, before_trans; eassumption. }
  subst b. f_equal. apply (IH q2 r1 r2); auto.
  - cbn in HP. eapply Permutation_cons_inv; eassumption.
  - intros; apply R1; [right|]; assumption.
  - intros; apply R2; [right|]; assumption.
Qed.
Lemma sorted_from_nth {A} (P : A -> A -> Prop) (l : list A) :
  (forall i j a b, (i < j)%nat -> nth_error l i = Some a -> nth_error l j = Some b -> P a b) -> StronglySorted P l.
Proof.
  induction l as [|a l IH]; intros H; constructor.
  - apply IH. intros i j x y Hij Hx Hy. apply (H (S i) (S j)); [lia|assumption|assumption].
  - rewrite Forall_forall. intros x Hx. apply In_nth_error in Hx as [j Hj]. apply (H 0%nat (S j)); [lia|reflexivity|assumption].
Qed.
Lemma selection_unique {Y} (hit : nat -> option (R * Y)) prims prims' K q q' :
  Permutation (cands hit prims) (cands hit prims') ->
  selection hit prims K q -> selection hit prims' K q' -> q = q'.
Proof.
  intros P [A1 B1 [r1 [C1 D1]]] [A2 B2 [r2 [C2 D2]]].
  apply (sel_unique q q' r1 r2); auto using sorted_from_nth.
  - rewrite A1, A2, (Permutation_length P). reflexivity.
  - rewrite <- C1, <- C2. exact P.
Qed.

Lemma tup_inj {X} (l l' : list (cpix X)) : map tup l = map tup l' -> l = l'.
Proof.
  revert l'; induction l as [|a l IH]; intros [|b l'] H; cbn in H; try discriminate; [reflexivity|].
  destruct a, b. unfold tup in H. cbn in H. injection H as -> -> -> H. f_equal. auto.
Qed.

Lemma cands_hits_only {Y} (hit : nat -> option (R * Y)) l : cands hit (hits hit l) = cands hit l.
Proof.
  unfold cands, hits. induction l as [|i l IH]; cbn; [reflexivity|].
  destruct (hit i) as [[z y]|] eqn:E; cbn; [rewrite E, IH; reflexivity|exact IH].
Qed.
Lemma perm_filter {A} (P : A -> bool) l l' : Permutation l l' -> Permutation (filter P l) (filter P l').
Proof.
  induction 1; cbn.
  - constructor.
  - destruct (P x); [constructor|]; assumption.
  - destruct (P x), (P y); try reflexivity. apply perm_swap.
  - etransitivity; eassumption.
Qed.

Lemma filter_filter {A} (P Q : A -> bool) l : (forall i, In i l -> Q i = true -> P i = true) ->
  filter Q (filter P l) = filter Q l.
Proof.
  induction l as [|a l IH]; intros H; cbn; [reflexivity|].
  assert (H' : forall i, In i l -> Q i = true -> P i = true) by (intros; apply H; [right|]; assumption).
  destruct (Q a) eqn:E.
  - rewrite (H a (or_introl eq_refl) E). cbn. rewrite E, IH by assumption. reflexivity.
  - destruct (P a); cbn; [rewrite E|]; apply IH; assumption.
Qed.

Section Pipeline.
Variables (bs H W M E cs K : nat) (bboxes : nat -> bbox) (start count yo xo : nat).
Hypothesis Hb : (0 < bs)%nat.
Hypothesis Hcs : (0 < cs)%nat.
Hypothesis Hy : (yo < H)%nat.
Hypothesis Hx : (xo < W)%nat.
Hypothesis HE : (start + count <= E)%nat.
Let p := pix_center H W yo xo.
Let L := listed (Z.of_nat bs) (Z.of_nat H) (Z.of_nat W) bboxes start (start + count)
             (Z.of_nat ((H - 1 - yo) / bs)) (Z.of_nat ((W - 1 - xo) / bs)).

Section One.
Context {X : Type} (hit : nat -> option (R * X)).
Hypothesis Hbb : forall i h, In i (seq start count) -> hit i = Some h -> b_skip (bboxes i) = false /\
  b_xmin (bboxes i) <= x2 p <= b_xmax (bboxes i) /\ b_ymin (bboxes i) <= y2 p <= b_ymax (bboxes i).

Lemma hits_listed : hits hit L = hits hit (seq start count).
Proof.
  unfold hits, L, listed. replace (start + count - start)%nat with count by lia.
  apply filter_filter. intros i Hi Hh. destruct (hit i) as [h|] eqn:Eh; [|discriminate].
  destruct (Hbb i h Hi Eh) as [B1 [B2 B3]].
  assert (I : In i L) by (apply listed_covers; auto; replace (start + count - start)%nat with count by lia; assumption).
  unfold L, listed in I. apply filter_In in I as [_ I]. exact I.
Qed.
Lemma bin_has_hits order : Permutation order (seq 0 (num_chunks E cs)) -> (length L <= M)%nat ->
  exists c, fine_bin bs H W M E cs bboxes start (start + count) order yo xo = Ok c /\
    NoDup c /\ (forall i, In i c -> In i (seq start count)) /\
    (forall i h, In i (seq start count) -> hit i = Some h -> In i c) /\
    Permutation (hits hit c) (hits hit (seq start count)) /\
    (order = seq 0 (num_chunks E cs) -> hits hit c = hits hit (seq start count)).
Proof.
  intros HP HM.
  destruct (fine_bin_ok bs H W M E cs bboxes start (start + count) order yo xo Hcs ltac:(lia) HP)
    as (c & E1 & _ & Hin & ND & HL). fold L in Hin, HL. destruct (HL HM) as [P1 P2].
  exists c. split; [exact E1|]. split; [exact ND|].
  assert (PH : Permutation (hits hit c) (hits hit (seq start count))).
  { rewrite <- hits_listed. apply perm_filter. exact P1. }
  split; [|split; [|split]].
  - intros i Hi. apply Hin in Hi. unfold L, listed in Hi. apply filter_In in Hi as [Hi _].
    replace (start + count - start)%nat with count in Hi by lia. exact Hi.
  - intros i h Hi Hh. assert (I : In i (hits hit (seq start count))) by (apply filter_In; rewrite Hh; auto).
    eapply Permutation_in in I; [|symmetry; exact PH]. apply filter_In in I as [I _]. exact I.
  - exact PH.
  - intros Ho. rewrite (P2 Ho). apply hits_listed.
Qed.
End One.

Lemma fine_mesh_naive (hit : nat -> option (R * (R * vec3))) nbr :
  (forall i h, In i (seq start count) -> hit i = Some h -> b_skip (bboxes i) = false /\
    b_xmin (bboxes i) <= x2 p <= b_xmax (bboxes i) /\ b_ymin (bboxes i) <= y2 p <= b_ymax (bboxes i)) ->
  (length L <= M)%nat ->
  exists c, fine_bin bs H W M E cs bboxes start (start + count) (seq 0 (num_chunks E cs)) yo xo = Ok c /\
    cuda_mesh_pixel K hit nbr c = cuda_mesh_pixel K hit nbr (seq start count).
Proof.
  intros Hbb HM. destruct (bin_has_hits hit Hbb _ (Permutation_refl _) HM) as (c & E1 & _ & _ & _ & _ & E2).
  exists c. split; [exact E1|]. unfold cuda_mesh_pixel.
  assert (G := rfold_hits_only hit (fun i s h => let '(z, pay) := h in cq_mesh_step K (nbr i) s (CPix z i pay)) c (seq start count) cq_init (E2 eq_refl)).
  rewrite G. reflexivity.
Qed.
Lemma fine_mesh_any (hit : nat -> option (R * (R * vec3))) nbr order : (1 <= K)%nat ->
  (forall i h, In i (seq start count) -> hit i = Some h -> b_skip (bboxes i) = false /\
    b_xmin (bboxes i) <= x2 p <= b_xmax (bboxes i) /\ b_ymin (bboxes i) <= y2 p <= b_ymax (bboxes i)) ->
  (forall i z x, In i (seq start count) -> hit i = Some (z, x) -> 0 <= z) ->
  (forall i, In i (seq start count) -> nbr i = (-1)%Z) ->
  distinct_depths hit (seq start count) ->
  (length L <= M)%nat -> Permutation order (seq 0 (num_chunks E cs)) ->
  exists c, fine_bin bs H W M E cs bboxes start (start + count) order yo xo = Ok c /\
    cuda_mesh_pixel K hit nbr c = cuda_mesh_pixel K hit nbr (seq start count).
Proof.
  intros HK Hbb Hz Hn DD HM HP. destruct (bin_has_hits hit Hbb _ HP HM) as (c & E1 & ND & Hsub & _ & PH & _).
  exists c. split; [exact E1|].
  destruct (cuda_mesh_ok K hit nbr c HK) as (l & F1 & F2 & F3); [eauto|eauto|].
  destruct (cuda_mesh_ok K hit nbr (seq start count) HK Hz Hn) as (l' & G1 & G2 & G3).
  rewrite F1, G1. f_equal. apply tup_inj.
  eapply (selection_unique hit c (seq start count) K).
  - rewrite <- (cands_hits_only hit c), <- (cands_hits_only hit (seq start count)). apply cands_perm. exact PH.
  - apply selects_selection; auto. intros i j z x y Hi Hj. apply DD; auto.
  - apply selects_selection; auto. apply seq_NoDup.
Qed.
Lemma fine_point_naive (hit : nat -> option (R * R)) :
  (forall i h, In i (seq start count) -> hit i = Some h -> b_skip (bboxes i) = false /\
    b_xmin (bboxes i) <= x2 p <= b_xmax (bboxes i) /\ b_ymin (bboxes i) <= y2 p <= b_ymax (bboxes i)) ->
  (length L <= M)%nat ->
  exists c, fine_bin bs H W M E cs bboxes start (start + count) (seq 0 (num_chunks E cs)) yo xo = Ok c /\
    cuda_point_pixel K hit c = cuda_point_pixel K hit (seq start count).
Proof.
  intros Hbb HM. destruct (bin_has_hits hit Hbb _ (Permutation_refl _) HM) as (c & E1 & _ & _ & _ & _ & E2).
  exists c. split; [exact E1|]. unfold cuda_point_pixel.
  assert (G := rfold_hits_only hit (fun i s h => let '(z, pay) := h in cq_push K s (CPix z i pay)) c (seq start count) cq_init (E2 eq_refl)).
  rewrite G. reflexivity.
Qed.
Lemma fine_point_any (hit : nat -> option (R * R)) order : (1 <= K)%nat ->
  (forall i h, In i (seq start count) -> hit i = Some h -> b_skip (bboxes i) = false /\
    b_xmin (bboxes i) <= x2 p <= b_xmax (bboxes i) /\ b_ymin (bboxes i) <= y2 p <= b_ymax (bboxes i)) ->
  (forall i z x, In i (seq start count) -> hit i = Some (z, x) -> 0 <= z) ->
  distinct_depths hit (seq start count) ->
  (length L <= M)%nat -> Permutation order (seq 0 (num_chunks E cs)) ->
  exists c, fine_bin bs H W M E cs bboxes start (start + count) order yo xo = Ok c /\
    cuda_point_pixel K hit c = cuda_point_pixel K hit (seq start count).
Proof.
  intros HK Hbb Hz DD HM HP. destruct (bin_has_hits hit Hbb _ HP HM) as (c & E1 & ND & Hsub & _ & PH & _).
  exists c. split; [exact E1|].
  destruct (cuda_point_ok K hit c HK) as (l & F1 & F2 & F3); [eauto|].
  destruct (cuda_point_ok K hit (seq start count) HK Hz) as (l' & G1 & G2 & G3).
  rewrite F1, G1. f_equal. apply tup_inj.
  eapply (selection_unique hit c (seq start count) K).
  - rewrite <- (cands_hits_only hit c), <- (cands_hits_only hit (seq start count)). apply cands_perm. exact PH.
  - apply selects_selection; auto. intros i j z x y Hi Hj. apply DD; auto.
  - apply selects_selection; auto. apply seq_NoDup.
Qed.
End Pipeline.
