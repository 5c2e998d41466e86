(* A scene whose mirror image is not blended to the mirror image of its picture. *)
From Coq Require Import Reals ZArith Arith Lra Lia Bool List.
From Verif Require Import Base RBase Geom Splatter SplatterSpec SplatterProofs SplatterProofs2.
Import ListNotations.
Local Open Scope R_scope.

Definition none : frag := Frag true (fun _ => 0) (V3 0 0 0).
Definition some (red x y z : R) : frag := Frag false (fun c => if Nat.eqb c 0 then red else 0) (V3 x y z).
(* A black surface through the middle, a red one to its right, and below it two surfaces. *)
Definition scene : image := fun h w k =>
  match h, w, k with
  | 1, 1, 0 => some 0 (3 / 2) (3 / 2) (1 / 2)
  | 1, 2, 0 => some 1 (5 / 2) (3 / 2) (1 / 2)
  | 2, 1, 0 => some 0 (3 / 2) (5 / 2) (1 / 5)
  | 2, 1, 1 => some 0 (3 / 2) (5 / 2) (1 / 2)
  | _, _, _ => none
  end%nat.

Lemma scene_centred : centred 3 3 2 scene.
Proof.
  intros a b k A B K G.
  destruct a as [|[|[|a]]]; [discriminate G| | |lia];
  destruct b as [|[|[|b]]]; try discriminate G; try lia;
  destruct k as [|[|k]]; try discriminate G; try lia; cbn; split;
    first [exists 1%Z; lra | exists 2%Z; lra].
Qed.

Definition occ2 (p0 p1 q0 q1 : R) : Z :=
  let (vq, iq) := first_min (fun k => Rabs ((if Nat.eqb k 0 then p0 else p1) - q0)) 1 in
  let (vp, ip) := first_min (fun k => Rabs (p0 - (if Nat.eqb k 0 then q0 else q1))) 1 in
  if Rltb vp vq then (- Z.of_nat ip)%Z else Z.of_nat iq.

Ltac occ := cbv [occ2 first_min]; cbn [Nat.eqb];
  repeat match goal with
  | |- context [Rabs ?x] => unfold Rabs at 1; destruct (Rcase_abs x)
  end; try lra;
  repeat match goal with
  | |- context [Rltb ?x ?y] => destruct (Rltb_spec x y)
  end; try lra; reflexivity.

Lemma occ_same : occ2 (1 / 2) 1 (1 / 2) 1 = 0%Z. Proof. occ. Qed.
Lemma occ_below : occ2 (1 / 5) (1 / 2) (1 / 2) 1 = 1%Z. Proof. occ. Qed.
Lemma occ_none : occ2 1 1 (1 / 2) 1 = (-1)%Z. Proof. occ. Qed.

Section Witness.
Variable norm : R.
Hypothesis Hnorm : 0 < norm.

(* What the direction d contributes. *)
Definition part (im : image) (l c k d a b : nat) : R :=
  if mask l (occlusion 3 3 1 im 1 1 d) k then splat 1 norm (im a b k) d c else 0.
Lemma part_bg im l c k d a b : bg (im a b k) = true -> part im l c k d a b = 0.
Proof. intros B. unfold part. rewrite (splat_bg _ _ _ _ _ B). destruct (mask _ _ _); reflexivity. Qed.

Lemma splatted_parts im l c : splatted 1 norm 3 3 1 im 1 1 l c =
  sumf 9 (fun d => part im l c 0 d (d mod 3) (d / 3)) + sumf 9 (fun d => part im l c 1 d (d mod 3) (d / 3)).
Proof.
  unfold splatted. rewrite (sumf_S 1), (sumf_S 0), sumf_0, Rplus_0_l. rewrite !nine. reflexivity.
Qed.

Lemma occ_scene d p0 p1 : unfolded 3 3 scene d 0 1 1 = p0 -> unfolded 3 3 scene d 1 1 1 = p1 ->
  occlusion 3 3 1 scene 1 1 d = occ2 p0 p1 (1 / 2) 1.
Proof. intros <- <-. reflexivity. Qed.
Lemma occ_mirror d p0 p1 : unfolded 3 3 (mirror 3 scene) d 0 1 1 = p0 ->
  unfolded 3 3 (mirror 3 scene) d 1 1 1 = p1 ->
  occlusion 3 3 1 (mirror 3 scene) 1 1 d = occ2 p0 p1 (1 / 2) 1.
Proof. intros <- <-. reflexivity. Qed.

Ltac nobg := repeat match goal with
  | |- context [part ?im ?l ?c ?k ?d ?a ?b] =>
    rewrite (part_bg im l c k d a b) by reflexivity
  end.

Lemma scene_parts l c : splatted 1 norm 3 3 1 scene 1 1 l c =
  part scene l c 0 4 1 1 + part scene l c 0 5 2 1 + part scene l c 0 7 1 2 + part scene l c 1 5 2 1.
Proof.
  rewrite splatted_parts, !nine. cbn [Nat.div Nat.modulo Nat.divmod fst snd Nat.sub].
  rewrite !(part_bg scene l c _ _ 0) by reflexivity.
  rewrite !(part_bg scene l c _ _ _ 0) by reflexivity.
  rewrite !(part_bg scene l c _ _ 2 2) by reflexivity.
  rewrite !(part_bg scene l c 1 _ 1 1) by reflexivity.
  rewrite !(part_bg scene l c 1 _ 1 2) by reflexivity.
  ring.
Qed.

Lemma mirror_parts l c : splatted 1 norm 3 3 1 (mirror 3 scene) 1 1 l c =
  part (mirror 3 scene) l c 0 4 1 1 + part (mirror 3 scene) l c 0 5 2 1 +
  part (mirror 3 scene) l c 0 1 1 0 + part (mirror 3 scene) l c 1 5 2 1.
Proof.
  rewrite splatted_parts, !nine. cbn [Nat.div Nat.modulo Nat.divmod fst snd Nat.sub].
  rewrite !(part_bg (mirror 3 scene) l c _ _ 0) by reflexivity.
  rewrite !(part_bg (mirror 3 scene) l c _ _ _ 2) by reflexivity.
  rewrite !(part_bg (mirror 3 scene) l c _ _ 2 0) by reflexivity.
  rewrite !(part_bg (mirror 3 scene) l c 1 _ 1 1) by reflexivity.
  rewrite !(part_bg (mirror 3 scene) l c 1 _ 1 0) by reflexivity.
  ring.
Qed.

Lemma part_black im l k d a b : colour (im a b k) 0%nat = 0 -> part im l 0 k d a b = 0.
Proof.
  intros C. unfold part, splat, rgba. cbn [Nat.eqb]. rewrite C.
  destruct (mask _ _ _); [|reflexivity]. destruct (bg _); ring.
Qed.

Definition w1 := splat_weight 1 norm (some 1 (5 / 2) (3 / 2) (1 / 2)) 7.
Definition w1' := splat_weight 1 norm (mirrored 3 (some 1 (5 / 2) (3 / 2) (1 / 2))) 1.
Lemma w1_same : w1' = w1.
Proof.
  unfold w1, w1', splat_weight. rewrite !rgba3. cbn [bg some mirrored screen pos x3 y3].
  assert (T : forall n x, x = IZR n + 1 / 2 -> to_center x = 0).
  { intros n x X. apply to_center_half. exists n. exact X. }
  rewrite (T 1%Z (3 / 2)) by lra. rewrite (T 2%Z (5 / 2)) by lra.
  rewrite (T 0%Z (INR 3 - 5 / 2)) by (cbn; lra).
  unfold offset_x, offset_y. cbn. f_equal. f_equal. field.
Qed.
Lemma w1_pos : 0 < w1.
Proof. apply splat_weight_pos; [exact Hnorm|reflexivity]. Qed.

Lemma scene_red : splatted 1 norm 3 3 1 scene 1 1 0 0 = w1 /\ splatted 1 norm 3 3 1 scene 1 1 0 4 = w1 /\
  splatted 1 norm 3 3 1 scene 1 1 1 0 = 0 /\ splatted 1 norm 3 3 1 scene 1 1 2 0 = 0.
Proof.
  rewrite !scene_parts. rewrite !(part_black scene _ _ _ 1 1), !(part_black scene _ _ _ 2 1) by reflexivity.
  assert (O7 : occlusion 3 3 1 scene 1 1 7 = 1%Z).
  { rewrite (occ_scene 7 (1 / 5) (1 / 2)); [apply occ_below|reflexivity|reflexivity]. }
  assert (O5 : occlusion 3 3 1 scene 1 1 5 = 0%Z).
  { rewrite (occ_scene 5 (1 / 2) 1); [apply occ_same|reflexivity|reflexivity]. }
  assert (O4 : occlusion 3 3 1 scene 1 1 4 = 0%Z).
  { rewrite (occ_scene 4 (1 / 2) 1); [apply occ_same|reflexivity|reflexivity]. }
  unfold part. rewrite O7, O5, O4. cbn [mask Z.of_nat Z.ltb Z.eqb Z.compare Pos.of_succ_nat Pos.compare Pos.compare_cont].
  assert (C0 : splat 1 norm (scene 1%nat 2%nat 0%nat) 7 0 = w1).
  { unfold splat, rgba. cbn [Nat.eqb scene some bg colour]. fold w1. ring. }
  rewrite C0. rewrite splat4. repeat split; try ring.
  change (splat_weight 1 norm (scene 1%nat 2%nat 0%nat) 7) with w1. ring.
Qed.

Lemma mirror_red : splatted 1 norm 3 3 1 (mirror 3 scene) 1 1 2 0 = w1 /\
  w1 <= splatted 1 norm 3 3 1 (mirror 3 scene) 1 1 2 4 /\
  splatted 1 norm 3 3 1 (mirror 3 scene) 1 1 1 0 = 0 /\ splatted 1 norm 3 3 1 (mirror 3 scene) 1 1 0 0 = 0 /\
  0 < splatted 1 norm 3 3 1 (mirror 3 scene) 1 1 1 4.
Proof.
  rewrite !mirror_parts.
  rewrite !(part_black (mirror 3 scene) _ _ _ 1 1), !(part_black (mirror 3 scene) _ _ _ 2 1) by reflexivity.
  assert (O1 : occlusion 3 3 1 (mirror 3 scene) 1 1 1 = (-1)%Z).
  { rewrite (occ_mirror 1 1 1); [apply occ_none|reflexivity|reflexivity]. }
  assert (O5 : occlusion 3 3 1 (mirror 3 scene) 1 1 5 = (-1)%Z).
  { rewrite (occ_mirror 5 1 1); [apply occ_none|reflexivity|reflexivity]. }
  assert (O4 : occlusion 3 3 1 (mirror 3 scene) 1 1 4 = 0%Z).
  { rewrite (occ_mirror 4 (1 / 2) 1); [apply occ_same|reflexivity|reflexivity]. }
  unfold part. rewrite O1, O5, O4. cbn [mask Z.of_nat Z.ltb Z.eqb Z.compare Pos.of_succ_nat Pos.compare Pos.compare_cont].
  assert (C0 : splat 1 norm (mirror 3 scene 1%nat 0%nat 0%nat) 1 0 = w1).
  { rewrite <- w1_same. unfold splat, rgba. cbn [Nat.eqb mirror mirrored scene some bg colour Nat.sub].
    fold w1'. change (w1' * 1 = w1'). ring. }
  assert (C4 : splat 1 norm (mirror 3 scene 1%nat 0%nat 0%nat) 1 4 = w1).
  { rewrite splat4, <- w1_same. reflexivity. }
  rewrite C0, C4, !splat4.
  pose proof (splat_weight_nonneg 1 norm (mirror 3 scene 2%nat 1%nat 0%nat) 5 Hnorm).
  pose proof (splat_weight_nonneg 1 norm (mirror 3 scene 2%nat 1%nat 1%nat) 5 Hnorm).
  pose proof (splat_weight_pos 1 norm (mirror 3 scene 1%nat 1%nat 0%nat) 4 Hnorm eq_refl).
  repeat split; lra.
Qed.

Lemma scene_mirror_differs bgc : bgc 0%nat = 0 ->
  compose bgc (splatted 1 norm 3 3 1 (mirror 3 scene) 1 1) 0 <
  compose bgc (splatted 1 norm 3 3 1 scene 1 1) 0.
Proof.
  intros B.
  destruct scene_red as (S0 & S4 & S1 & S2).
  destruct mirror_red as (M2 & M24 & M1 & M0 & M14).
  pose proof (alpha_layer _ (fun l => splatted_34 1 norm 3 3 1 (mirror 3 scene) 1 1 l)
    (fun l => splatted_nonneg 1 norm 3 3 1 (mirror 3 scene) 1 1 l Hnorm) 0) as A0.
  pose proof (alpha_layer _ (fun l => splatted_34 1 norm 3 3 1 (mirror 3 scene) 1 1 l)
    (fun l => splatted_nonneg 1 norm 3 3 1 (mirror 3 scene) 1 1 l Hnorm) 1) as A1.
  pose proof (alpha_pos _ (fun l => splatted_34 1 norm 3 3 1 (mirror 3 scene) 1 1 l) 1 M14) as P1.
  unfold compose, over. cbn [Nat.eqb]. rewrite B.
  set (x := normalized (splatted 1 norm 3 3 1 (mirror 3 scene) 1 1) 0 3) in *.
  set (y := normalized (splatted 1 norm 3 3 1 (mirror 3 scene) 1 1) 1 3) in *.
  replace (normalized (splatted 1 norm 3 3 1 (mirror 3 scene) 1 1) 0 0) with 0
    by (unfold normalized; rewrite M0; ring).
  replace (normalized (splatted 1 norm 3 3 1 (mirror 3 scene) 1 1) 1 0) with 0
    by (unfold normalized; rewrite M1; ring).
  replace (normalized (splatted 1 norm 3 3 1 scene 1 1) 1 0) with 0
    by (unfold normalized; rewrite S1; ring).
  replace (normalized (splatted 1 norm 3 3 1 scene 1 1) 2 0) with 0
    by (unfold normalized; rewrite S2; ring).
  assert (U : normalized (splatted 1 norm 3 3 1 (mirror 3 scene) 1 1) 2 0 <=
              normalized (splatted 1 norm 3 3 1 scene 1 1) 0 0).
  { unfold normalized. rewrite M2, S0, S4. pose proof w1_pos.
    apply Rmult_le_compat_l; [lra|]. unfold Rdiv. rewrite !Rmult_1_l. apply Rinv_le_contravar.
    - pose proof (Rmax_r w1 1). lra.
    - apply Rle_max_compat_r, M24. }
  assert (V : 0 < normalized (splatted 1 norm 3 3 1 scene 1 1) 0 0).
  { unfold normalized. rewrite S0, S4. pose proof w1_pos. pose proof (Rmax_r w1 1).
    apply Rmult_lt_0_compat; [lra|]. apply Rdiv_lt_0_compat; lra. }
  set (u := normalized (splatted 1 norm 3 3 1 (mirror 3 scene) 1 1) 2 0) in *.
  set (v := normalized (splatted 1 norm 3 3 1 scene 1 1) 0 0) in *.
  set (z := normalized (splatted 1 norm 3 3 1 (mirror 3 scene) 1 1) 2 3).
  replace (v + (1 - normalized (splatted 1 norm 3 3 1 scene 1 1) 0 3) *
    (0 + (1 - normalized (splatted 1 norm 3 3 1 scene 1 1) 1 3) *
    (0 + (1 - normalized (splatted 1 norm 3 3 1 scene 1 1) 2 3) * 0))) with v by ring.
  replace (0 + (1 - x) * (0 + (1 - y) * (u + (1 - z) * 0))) with (((1 - x) * (1 - y)) * u) by ring.
  assert (F : 0 <= (1 - x) * (1 - y) < 1).
  { split; [apply Rmult_le_pos; lra|].
    assert ((1 - x) * (1 - y) <= 1 * (1 - y)) by (apply Rmult_le_compat_r; lra). lra. }
  assert (((1 - x) * (1 - y)) * u <= ((1 - x) * (1 - y)) * v) by (apply Rmult_le_compat_l; lra).
  assert (((1 - x) * (1 - y)) * v < 1 * v) by (apply Rmult_lt_compat_r; lra). lra.
Qed.
End Witness.

Lemma mirror_fails : ~ (forall sigma bgc H W K im out out' h w c, centred H W K im ->
  forward sigma bgc H W K im = Ok out -> forward sigma bgc H W K (mirror W im) = Ok out' ->
  (h < H)%nat -> (w < W)%nat -> (c < 4)%nat -> out' h (W - 1 - w)%nat c = out h w c).
Proof.
  intros A. destruct (normalization_ok 1 ltac:(lra)) as (norm & E & P).
  specialize (A 1 (fun _ => 0) 3%nat 3%nat 2%nat scene
    (fun h w => compose (fun _ => 0) (splatted 1 norm 3 3 1 scene h w))
    (fun h w => compose (fun _ => 0) (splatted 1 norm 3 3 1 (mirror 3 scene) h w)) 1%nat 1%nat 0%nat).
  pose proof (scene_mirror_differs norm P (fun _ => 0) eq_refl) as D.
  assert (X : compose (fun _ => 0) (splatted 1 norm 3 3 1 (mirror 3 scene) 1 1) 0 =
              compose (fun _ => 0) (splatted 1 norm 3 3 1 scene 1 1) 0).
  { apply A; [apply scene_centred | | | lia | lia | lia]; unfold forward; rewrite E; reflexivity. }
  rewrite X in D. exact (Rlt_irrefl _ D).
Qed.
