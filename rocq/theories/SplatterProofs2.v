From Coq Require Import Reals ZArith Arith Lra Lia Bool List.
From Verif Require Import Base RBase Geom Splatter SplatterSpec SplatterProofs.
Import ListNotations.
Local Open Scope R_scope.

Lemma to_center_half x : half x -> to_center x = 0.
Proof.
  intros [n ->]. unfold to_center. destruct (base_Int_part (IZR n + 1 / 2)) as [A B].
  assert (E : Int_part (IZR n + 1 / 2) = n).
  { apply Z.le_antisymm.
    - apply Z.lt_succ_r. apply lt_IZR. rewrite succ_IZR. lra.
    - apply Z.lt_succ_r. apply lt_IZR. rewrite succ_IZR. lra. }
  rewrite E. lra.
Qed.

(* Direction d of the blender as a step of the specification. *)
Definition step (d : nat) : Z * Z := (Z.of_nat (d mod 3) - 1, Z.of_nat (d / 3) - 1)%Z.

Lemma total_steps f : total f = sumf 9 (fun d => f (step d)).
Proof.
  rewrite nine. unfold total, around, step.
  cbn [map rsum Nat.div Nat.modulo Nat.divmod fst snd Nat.sub Z.of_nat Pos.of_succ_nat Pos.succ Z.sub Z.add Z.opp Z.pos_sub Pos.pred_double].
  unfold rsum. cbn [fold_right fold_left map]. ring.
Qed.

Lemma gauss_step sigma d :
  gauss sigma (step d) = exp (- (offset_x d ^ 2 + offset_y d ^ 2) / (2 * sigma ^ 2)).
Proof. unfold gauss, step, offset_x, offset_y. cbn [fst snd]. f_equal. f_equal. ring. Qed.

Lemma total_gauss sigma :
  total (gauss sigma) = sumf 9 (fun d => exp (- (offset_x d ^ 2 + offset_y d ^ 2) / (2 * sigma ^ 2))).
Proof. rewrite total_steps. apply sumf_ext. intros d _. apply gauss_step. Qed.
Lemma total_gauss_pos sigma : 0 < total (gauss sigma).
Proof. rewrite total_gauss. apply kernel_sum_pos. Qed.

Lemma normalization_is sigma norm : normalization sigma = Ok norm ->
  norm = (1 + 5 / 100) / total (gauss sigma).
Proof.
  unfold normalization. destruct (Rleb sigma 0); [discriminate|]. intros E.
  rewrite total_gauss. exact (f_equal (fun r => match r with Ok v => v | Fail _ => norm end) (eq_sym E)).
Qed.
Lemma splat_weight_kernel sigma norm f d : normalization sigma = Ok norm -> bg f = false ->
  half (x3 (pos f)) -> half (y3 (pos f)) -> splat_weight sigma norm f d = kernel sigma (step d).
Proof.
  intros E B X Y. rewrite (normalization_is _ _ E).
  unfold splat_weight, kernel. rewrite rgba3. unfold screen. rewrite B.
  rewrite (to_center_half _ X), (to_center_half _ Y), !Rplus_0_l, gauss_step.
  pose proof (total_gauss_pos sigma). field. lra.
Qed.

(* The value of the front intersections, direction by direction. *)
Lemma offset_front sigma norm H W im h w d c :
  offset_splats H W (fun a b => splat sigma norm (im a b 0%nat) d c) d h w =
  match front H W im h w (step d) with Some f => splat sigma norm f d c | None => 0 end.
Proof.
  unfold offset_splats, padded, front, step. cbn [fst snd]. rewrite !Z.add_sub_assoc.
  destruct (_ && _)%bool; [|reflexivity].
  destruct (bg _) eqn:B; [apply splat_bg, B|reflexivity].
Qed.

Lemma front_in H W im h w o f : In o around -> front H W im h w o = Some f ->
  exists a b, (a < H)%nat /\ (b < W)%nat /\ near H W h w a b /\ f = im a b 0%nat /\ bg f = false.
Proof.
  intros I. unfold front.
  destruct (_ && _)%bool eqn:L; [|discriminate].
  destruct (bg _) eqn:B; [discriminate|]. intros E. injection E as <-.
  exists (Z.to_nat (Z.of_nat h + fst o)), (Z.to_nat (Z.of_nat w + snd o)).
  assert (R : (-1 <= fst o <= 1 /\ -1 <= snd o <= 1)%Z).
  { unfold around in I. cbn [In] in I.
    repeat (destruct I as [<- | I]; [cbn [fst snd]; lia|]). contradiction. }
  unfold near. repeat split; try lia.
Qed.

Lemma step_in d : (d < 9)%nat -> In (step d) around.
Proof.
  intros D. do 9 (destruct d as [|d]; [cbn; tauto|]). lia.
Qed.

Lemma sumf_first n F : (forall k, (1 <= k <= n)%nat -> F k = 0) -> sumf (S n) F = F 0%nat.
Proof.
  intros Z. induction n as [|m IH]; [rewrite sumf_S, sumf_0; ring|].
  rewrite sumf_S, (Z (S m)) by lia. rewrite IH; [ring|]. intros k K. apply Z. lia.
Qed.

Section Flat.
Variables (sigma norm : R) (H W n : nat) (im : image) (h w : nat) (bgc : nat -> R).
Hypothesis Hnorm : normalization sigma = Ok norm.
Hypothesis Hcentred : centred H W (S n) im.
Hypothesis Hocc : forall d, (d < 9)%nat -> occlusion H W n im h w d = 0%Z.
Hypothesis Hdeep : forall a b k, near H W h w a b -> (1 <= k <= n)%nat -> bg (im a b k) = true.

Lemma flat_layer l c : splatted sigma norm H W n im h w l c =
  if Nat.eqb l 1 then sumf 9 (fun d =>
    match front H W im h w (step d) with Some f => splat sigma norm f d c | None => 0 end) else 0.
Proof.
  unfold splatted.
  assert (Z : forall k, (1 <= k <= n)%nat -> sumf 9 (fun d =>
    if mask l (occlusion H W n im h w d) k
    then offset_splats H W (fun a b => splat sigma norm (im a b k) d c) d h w else 0) = 0).
  { intros k K. apply sumf_zero. intros d D. destruct (mask l _ k); [|reflexivity].
    destruct (offset_where H W h w d D) as [Z | (a & b & Q & Z)]; rewrite Z; [reflexivity|].
    apply splat_bg, Hdeep; assumption. }
  transitivity (sumf 9 (fun d =>
    if mask l (occlusion H W n im h w d) 0
    then offset_splats H W (fun a b => splat sigma norm (im a b 0%nat) d c) d h w else 0)).
  - apply (sumf_first n _ Z).
  - destruct (Nat.eqb_spec l 1) as [-> | L].
    + apply sumf_ext. intros d D. rewrite (Hocc d D). cbn [mask]. rewrite offset_front. reflexivity.
    + apply sumf_zero. intros d D. rewrite (Hocc d D). destruct l as [|[|l]]; [reflexivity|lia|reflexivity].
Qed.

Lemma flat_weight : splatted sigma norm H W n im h w 1 4 = weight sigma H W im h w.
Proof.
  rewrite flat_layer. cbn [Nat.eqb]. unfold weight. rewrite total_steps. apply sumf_ext. intros d D.
  destruct (front H W im h w (step d)) as [f|] eqn:E; [|reflexivity].
  destruct (front_in _ _ _ _ _ _ _ (step_in d D) E) as (a & b & A & B & _ & -> & G).
  destruct (Hcentred a b 0%nat A B ltac:(apply Nat.lt_0_succ) G) as [X Y].
  rewrite splat4. apply splat_weight_kernel; assumption.
Qed.

Lemma flat_colour c : (c < 3)%nat -> splatted sigma norm H W n im h w 1 c = filtered sigma H W im h w c.
Proof.
  intros C. rewrite flat_layer. cbn [Nat.eqb]. unfold filtered. rewrite total_steps. apply sumf_ext. intros d D.
  destruct (front H W im h w (step d)) as [f|] eqn:E; [|reflexivity].
  destruct (front_in _ _ _ _ _ _ _ (step_in d D) E) as (a & b & A & B & _ & -> & G).
  destruct (Hcentred a b 0%nat A B ltac:(apply Nat.lt_0_succ) G) as [X Y].
  rewrite (splat_col _ _ _ _ _ C G). f_equal. apply splat_weight_kernel; assumption.
Qed.

Lemma flat_compose : let m := Rmax (weight sigma H W im h w) 1 in
  compose bgc (splatted sigma norm H W n im h w) 3 = weight sigma H W im h w / m /\
  forall c, (c < 3)%nat -> compose bgc (splatted sigma norm H W n im h w) c =
    filtered sigma H W im h w c / m + (1 - weight sigma H W im h w / m) * bgc c.
Proof.
  cbv zeta. pose proof (Rmax_r (weight sigma H W im h w) 1) as M.
  assert (A3 : splatted sigma norm H W n im h w 1 3 = weight sigma H W im h w)
    by (rewrite splatted_34; apply flat_weight).
  split.
  - unfold compose, over, normalized. cbn [Nat.eqb]. rewrite A3, flat_weight.
    rewrite !(flat_layer 0), !(flat_layer 2). cbn [Nat.eqb]. field. split; [lra|].
    rewrite Rmax_right by lra. lra.
  - intros c C. unfold compose, over, normalized. destruct (Nat.eqb_spec c 3); [lia|].
    rewrite A3, flat_weight, (flat_colour c C).
    rewrite !(flat_layer 0), !(flat_layer 2). cbn [Nat.eqb]. field. split; [lra|].
    rewrite Rmax_right by lra. lra.
Qed.
End Flat.

Lemma forward_single sigma bgc H W im out h w :
  forward sigma bgc H W 1 im = Ok out -> centred H W 1 im ->
  let m := Rmax (weight sigma H W im h w) 1 in
  out h w 3%nat = weight sigma H W im h w / m /\
  forall c, (c < 3)%nat -> out h w c =
    filtered sigma H W im h w c / m + (1 - weight sigma H W im h w / m) * bgc c.
Proof.
  intros E C. apply forward_ok in E. destruct E as (n & norm & K & N & _ & M & E).
  injection K as <-. rewrite E. apply flat_compose; [exact M | exact C | | lia].
  intros d D. unfold occlusion. cbn [first_min]. destruct (Rltb _ _); reflexivity.
Qed.

Lemma first_min_zero f n : f 0%nat = 0 -> (forall k, 0 <= f k) -> first_min f n = (0, 0%nat).
Proof.
  intros Z P. induction n as [|n IH]; cbn [first_min]; [rewrite Z; reflexivity|].
  rewrite IH. destruct (Rltb_spec (f (S n)) 0) as [L|L]; [specialize (P (S n)); lra|reflexivity].
Qed.

Lemma front_inside H W im h w o : In o around -> (1 <= h)%nat -> (h + 1 < H)%nat -> (1 <= w)%nat ->
  (w + 1 < W)%nat -> (forall a b, near H W h w a b -> bg (im a b 0%nat) = false) ->
  front H W im h w o = Some (im (Z.to_nat (Z.of_nat h + fst o)) (Z.to_nat (Z.of_nat w + snd o)) 0%nat).
Proof.
  intros I H1 H2 W1 W2 B. unfold front.
  assert (R : (-1 <= fst o <= 1 /\ -1 <= snd o <= 1)%Z).
  { unfold around in I. cbn [In] in I.
    repeat (destruct I as [<- | I]; [cbn [fst snd]; lia|]). contradiction. }
  destruct (_ && _)%bool eqn:L; [|lia].
  rewrite B; [reflexivity|]. unfold near. lia.
Qed.

Lemma total_ext f g : (forall o, In o around -> f o = g o) -> total f = total g.
Proof. intros E. unfold total. f_equal. apply map_ext_in, E. Qed.
Lemma total_scal k f : total (fun o => k * f o) = k * total f.
Proof. rewrite !total_steps. apply sumf_scal. Qed.

Lemma forward_flat sigma bgc H W K im out h w z :
  forward sigma bgc H W K im = Ok out -> centred H W K im ->
  (1 <= h)%nat -> (h + 1 < H)%nat -> (1 <= w)%nat -> (w + 1 < W)%nat ->
  (forall a b, near H W h w a b -> bg (im a b 0%nat) = false /\ z3 (pos (im a b 0%nat)) = z) ->
  (forall a b k, near H W h w a b -> (1 <= k < K)%nat -> bg (im a b k) = true) ->
  out h w 3%nat = 1 /\
  forall c, (c < 3)%nat -> out h w c =
    total (fun o => gauss sigma o *
      colour (im (Z.to_nat (Z.of_nat h + fst o)) (Z.to_nat (Z.of_nat w + snd o)) 0%nat) c)
    / total (gauss sigma).
Proof.
  intros E C H1 H2 W1 W2 F D. apply forward_ok in E. destruct E as (n & norm & -> & N & _ & M & E).
  rewrite E.
  assert (WG : weight sigma H W im h w = 105 / 100).
  { unfold weight. transitivity (total (kernel sigma)).
    - apply total_ext. intros o I. rewrite (front_inside H W im h w o I H1 H2 W1 W2); [reflexivity|].
      intros a b Q. apply F, Q.
    - pose proof (total_gauss_pos sigma) as P. unfold kernel.
      transitivity (total (fun o => (105 / 100 / total (gauss sigma)) * gauss sigma o)).
      + apply total_ext. intros o _. field. lra.
      + rewrite total_scal. field. lra. }
  assert (FG : forall c, filtered sigma H W im h w c = 105 / 100 * (total (fun o => gauss sigma o *
      colour (im (Z.to_nat (Z.of_nat h + fst o)) (Z.to_nat (Z.of_nat w + snd o)) 0%nat) c)
      / total (gauss sigma))).
  { intros c. pose proof (total_gauss_pos sigma) as P. unfold filtered.
    transitivity (total (fun o => (105 / 100 / total (gauss sigma)) * (gauss sigma o *
      colour (im (Z.to_nat (Z.of_nat h + fst o)) (Z.to_nat (Z.of_nat w + snd o)) 0%nat) c))).
    - apply total_ext. intros o I. rewrite (front_inside H W im h w o I H1 H2 W1 W2).
      + unfold kernel. field. lra.
      + intros a b Q. apply F, Q.
    - rewrite total_scal. field. lra. }
  assert (O : forall d, (d < 9)%nat -> occlusion H W n im h w d = 0%Z).
  { intros d DD. unfold occlusion.
    assert (X : (d / 3 <= 2)%nat) by (apply Nat.lt_succ_r; apply Nat.div_lt_upper_bound; lia).
    assert (Y : (d mod 3 < 3)%nat) by (apply Nat.mod_upper_bound; lia).
    assert (P0 : unfolded H W im d 0 h w = z).
    { unfold unfolded, padded.
      match goal with |- context [if ?c then _ else _] => destruct c eqn:L end; [|lia].
      match goal with |- z3 (screen (im ?a ?b _)) = _ => destruct (F a b) as [B Q]; [unfold near; lia|] end.
      unfold screen. rewrite B. exact Q. }
    assert (Q0 : z3 (screen (im h w 0%nat)) = z).
    { destruct (F h w) as [B Q]; [unfold near; lia|]. unfold screen. rewrite B. exact Q. }
    rewrite first_min_zero.
    2:{ rewrite P0, Q0, Rminus_diag_eq by reflexivity. apply Rabs_R0. }
    2:{ intros k. apply Rabs_pos. }
    rewrite first_min_zero.
    2:{ rewrite P0, Q0, Rminus_diag_eq by reflexivity. apply Rabs_R0. }
    2:{ intros k. apply Rabs_pos. }
    destruct (Rltb _ _); reflexivity. }
  destruct (flat_compose sigma norm H W n im h w bgc M C O) as [A B].
  { intros a b k Q KK. apply D; [exact Q|lia]. }
  rewrite A. split; [rewrite WG, Rmax_left by lra; field|].
  intros c CC. rewrite (B c CC), FG, WG, Rmax_left by lra. field.
  pose proof (total_gauss_pos sigma). lra.
Qed.

(* Mirror images. *)
Definition flip (o : Z * Z) : Z * Z := (fst o, (- snd o)%Z).
Lemma total_flip f : total (fun o => f (flip o)) = total f.
Proof. unfold total, around, flip, rsum. cbn [map fold_right fold_left fst snd Z.opp]. ring. Qed.
Lemma kernel_flip sigma o : kernel sigma (flip o) = kernel sigma o.
Proof.
  unfold kernel, gauss, flip. cbn [fst snd]. rewrite opp_IZR.
  replace ((- IZR (snd o)) ^ 2) with (IZR (snd o) ^ 2) by ring. reflexivity.
Qed.
Lemma front_mirror H W im h w o : (w < W)%nat ->
  front H W (mirror W im) h (W - 1 - w) o = option_map (mirrored W) (front H W im h w (flip o)).
Proof.
  intros L. unfold front, flip, mirror. cbn [fst snd].
  destruct ((0 <=? Z.of_nat h + fst o) && _ && _ && _)%Z%bool eqn:A;
  destruct ((0 <=? Z.of_nat h + fst o) && _ && (0 <=? Z.of_nat w + _) && _)%Z%bool eqn:B; try lia; [|reflexivity].
  replace (W - 1 - Z.to_nat (Z.of_nat (W - 1 - w) + snd o))%nat
    with (Z.to_nat (Z.of_nat w + - snd o)) by lia.
  cbn [mirrored bg]. destruct (bg _); reflexivity.
Qed.
Lemma centred_mirror H W K im : centred H W K im -> centred H W K (mirror W im).
Proof.
  intros C a b k A B KK G. cbn in G. destruct (C a (W - 1 - b)%nat k A ltac:(lia) KK G) as [[x X] Y].
  cbn. split; [|exact Y]. rewrite X. exists (Z.of_nat W - x - 1)%Z.
  rewrite !minus_IZR, <- INR_IZR_INZ. lra.
Qed.

Lemma forward_mirror_single sigma bgc H W im out out' h w c : (w < W)%nat -> (c < 4)%nat ->
  centred H W 1 im -> forward sigma bgc H W 1 im = Ok out ->
  forward sigma bgc H W 1 (mirror W im) = Ok out' ->
  out' h (W - 1 - w)%nat c = out h w c.
Proof.
  intros L C Z E E'.
  destruct (forward_single _ _ _ _ _ _ h w E Z) as [A B].
  destruct (forward_single _ _ _ _ _ _ h (W - 1 - w)%nat E' (centred_mirror _ _ _ _ Z)) as [A' B'].
  assert (WW : weight sigma H W (mirror W im) h (W - 1 - w) = weight sigma H W im h w).
  { unfold weight. rewrite <- total_flip. apply total_ext. intros o I.
    rewrite front_mirror by exact L.
    replace (flip (flip o)) with o by (destruct o; unfold flip; cbn; f_equal; lia).
    destruct (front H W im h w o); cbn; [apply kernel_flip|reflexivity]. }
  assert (FF : forall q, filtered sigma H W (mirror W im) h (W - 1 - w) q = filtered sigma H W im h w q).
  { intros q. unfold filtered. rewrite <- total_flip. apply total_ext. intros o I.
    rewrite front_mirror by exact L.
    replace (flip (flip o)) with o by (destruct o; unfold flip; cbn; f_equal; lia).
    destruct (front H W im h w o); cbn; [rewrite kernel_flip; reflexivity|reflexivity]. }
  destruct (Nat.eq_dec c 3) as [->|D]; [rewrite A, A', WW; reflexivity|].
  rewrite B, B', WW, FF by lia. reflexivity.
Qed.
