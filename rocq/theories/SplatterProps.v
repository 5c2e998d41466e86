(* C81: the splatting blender mixes what it sees around a pixel and nothing else. *)
From Coq Require Import Reals ZArith Arith Lra Lia Bool List.
From Verif Require Import Base RBase Geom Splatter SplatterSpec SplatterProofs SplatterProofs2 SplatterProofs3.
Import ListNotations.
Local Open Scope R_scope.

(* A two-layer scene with surfaces (see SplatterProofs3.scene) is blended. *)
Example scene_blended : exists out, forward 1 (fun _ => 0) 3 3 2 scene = Ok out.
Proof.
  destruct (normalization_ok 1 ltac:(lra)) as (norm & E & _). unfold forward. rewrite E.
  eexists. reflexivity.
Qed.
Example scene_covered : covered scene 2 2 1 /\ near 3 3 1 1 2 1 /\ ~ covered scene 2 0 0.
Proof.
  split; [exists 1%nat; split; [lia|reflexivity]|]. split; [unfold near; lia|].
  intros (k & K & B). destruct k as [|[|k]]; [discriminate B | discriminate B | lia].
Qed.

(* The blender fails exactly for a standard deviation that is not positive, and for no layers. *)
Theorem splatter_defined sigma bgc H W K im :
  (exists out, forward sigma bgc H W K im = Ok out) <-> 0 < sigma /\ (1 <= K)%nat.
Proof.
  split.
  - intros [out E]. apply forward_ok in E. destruct E as (n & norm & -> & _ & S & _). split; [exact S|lia].
  - intros [S L]. destruct K as [|n]; [lia|]. destruct (normalization_ok sigma S) as (norm & E & _).
    unfold forward. rewrite E. eexists. reflexivity.
Qed.
Print Assumptions splatter_defined.

Theorem splatter_value_error sigma bgc H W K im : sigma <= 0 -> (1 <= K)%nat ->
  forward sigma bgc H W K im = Fail EValue.
Proof.
  intros S L. destruct K as [|n]; [lia|]. unfold forward, normalization.
  destruct (Rleb_spec sigma 0); [reflexivity|lra].
Qed.
Print Assumptions splatter_value_error.

(* The opacity lies between 0 and 1, and is 0 exactly when nothing covers the pixel or its
   neighbours. *)
Theorem splatter_opacity sigma bgc H W K im out h w :
  forward sigma bgc H W K im = Ok out ->
  0 <= out h w 3%nat <= 1 /\
  (out h w 3%nat = 0 <-> (forall a b, near H W h w a b -> ~ covered im K a b)).
Proof. intros E. destruct (forward_mixture _ _ _ _ _ _ _ h w E) as (A & B & _). split; assumption. Qed.
Print Assumptions splatter_opacity.

(* Each colour is a mixture, in proportion to the opacity, of the colours visible in the
   nine pixels and of the background colour. *)
Theorem splatter_mixture sigma bgc H W K im out h w c lo hi :
  forward sigma bgc H W K im = Ok out -> (c < 3)%nat ->
  (forall a b k, near H W h w a b -> (k < K)%nat -> bg (im a b k) = false ->
     lo <= colour (im a b k) c <= hi) ->
  out h w 3%nat * lo + (1 - out h w 3%nat) * bgc c <= out h w c <=
  out h w 3%nat * hi + (1 - out h w 3%nat) * bgc c.
Proof. intros E. apply (forward_mixture _ _ _ _ _ _ _ h w E). Qed.
Print Assumptions splatter_mixture.

(* So colours never leave the range of the colours and the background, *)
Theorem splatter_range sigma bgc H W K im out h w c lo hi :
  forward sigma bgc H W K im = Ok out -> (c < 3)%nat -> lo <= bgc c <= hi ->
  (forall a b k, near H W h w a b -> (k < K)%nat -> bg (im a b k) = false ->
     lo <= colour (im a b k) c <= hi) ->
  lo <= out h w c <= hi.
Proof.
  intros E C B F. destruct (splatter_mixture _ _ _ _ _ _ _ h w c lo hi E C F) as [L U].
  destruct (splatter_opacity _ _ _ _ _ _ _ h w E) as [A _].
  assert ((1 - out h w 3%nat) * lo <= (1 - out h w 3%nat) * bgc c) by (apply Rmult_le_compat_l; lra).
  assert ((1 - out h w 3%nat) * bgc c <= (1 - out h w 3%nat) * hi) by (apply Rmult_le_compat_l; lra).
  lra.
Qed.
Print Assumptions splatter_range.

(* and far from every surface the background colour is exact. *)
Theorem splatter_background sigma bgc H W K im out h w c :
  forward sigma bgc H W K im = Ok out -> (c < 3)%nat ->
  (forall a b, near H W h w a b -> ~ covered im K a b) ->
  out h w 3%nat = 0 /\ out h w c = bgc c.
Proof.
  intros E C N. destruct (splatter_opacity _ _ _ _ _ _ _ h w E) as [_ [_ Z]]. specialize (Z N).
  split; [exact Z|].
  destruct (splatter_mixture _ _ _ _ _ _ _ h w c 0 0 E C) as [L U]; [|rewrite Z in *; lra].
  intros a b k Q K' B. exfalso. apply (N a b Q). exists k. split; assumption.
Qed.
Print Assumptions splatter_background.

(* Only the pixel and its eight neighbours matter. *)
Theorem splatter_local sigma bgc H W K im im' out out' h w : (h < H)%nat -> (w < W)%nat ->
  forward sigma bgc H W K im = Ok out -> forward sigma bgc H W K im' = Ok out' ->
  (forall a b k, near H W h w a b -> (k < K)%nat -> im a b k = im' a b k) ->
  forall c, out h w c = out' h w c.
Proof. exact (forward_local sigma bgc H W K im im' out out' h w). Qed.
Print Assumptions splatter_local.

(* With one layer the blender is a Gaussian filter over the covered pixels, normalised only
   where it would exceed full opacity, over the background. *)
Theorem splatter_single_layer sigma bgc H W im out h w :
  forward sigma bgc H W 1 im = Ok out -> centred H W 1 im ->
  let m := Rmax (weight sigma H W im h w) 1 in
  out h w 3%nat = weight sigma H W im h w / m /\
  forall c, (c < 3)%nat -> out h w c =
    filtered sigma H W im h w c / m + (1 - weight sigma H W im h w / m) * bgc c.
Proof. exact (forward_single sigma bgc H W im out h w). Qed.
Print Assumptions splatter_single_layer.

(* Inside a surface of constant depth the result is opaque, and its colour is the Gaussian
   average of the nine colours, whatever the number of layers. *)
Theorem splatter_flat sigma bgc H W K im out h w z :
  forward sigma bgc H W K im = Ok out -> centred H W K im ->
  (1 <= h)%nat -> (h + 1 < H)%nat -> (1 <= w)%nat -> (w + 1 < W)%nat ->
  (forall a b, near H W h w a b -> bg (im a b 0%nat) = false /\ z3 (pos (im a b 0%nat)) = z) ->
  (forall a b k, near H W h w a b -> (1 <= k < K)%nat -> bg (im a b k) = true) ->
  out h w 3%nat = 1 /\
  forall c, (c < 3)%nat -> out h w c =
    total (fun o => gauss sigma o *
      colour (im (Z.to_nat (Z.of_nat h + fst o)) (Z.to_nat (Z.of_nat w + snd o)) 0%nat) c)
    / total (gauss sigma).
Proof. exact (forward_flat sigma bgc H W K im out h w z). Qed.
Print Assumptions splatter_flat.

(* A wall at depth 1/2 in front of nothing, seen in three layers. *)
Definition wall : image := fun h w k =>
  if Nat.eqb k 0 then some (INR w) (INR w + 1 / 2) (INR h + 1 / 2) (1 / 2) else none.
Example wall_flat : centred 5 6 3 wall /\
  (forall a b, near 5 6 2 3 a b -> bg (wall a b 0%nat) = false /\ z3 (pos (wall a b 0%nat)) = 1 / 2) /\
  (forall a b k, near 5 6 2 3 a b -> (1 <= k < 3)%nat -> bg (wall a b k) = true) /\
  exists out, forward 1 (fun _ => 0) 5 6 3 wall = Ok out.
Proof.
  repeat split.
  - destruct k as [|k]; [|discriminate]. cbn. exists (Z.of_nat b). rewrite <- INR_IZR_INZ. reflexivity.
  - destruct k as [|k]; [|discriminate]. cbn. exists (Z.of_nat a). rewrite <- INR_IZR_INZ. reflexivity.
  - intros a b k _ K. destruct k as [|k]; [lia|reflexivity].
  - apply splatter_defined. split; [lra|lia].
Qed.

(* With one layer, the mirror image of a scene gives the mirror image of its picture. *)
Theorem splatter_mirror_single sigma bgc H W im out out' h w c : (w < W)%nat -> (c < 4)%nat ->
  centred H W 1 im -> forward sigma bgc H W 1 im = Ok out ->
  forward sigma bgc H W 1 (mirror W im) = Ok out' ->
  out' h (W - 1 - w)%nat c = out h w c.
Proof. exact (forward_mirror_single sigma bgc H W im out out' h w c). Qed.
Print Assumptions splatter_mirror_single.

(* With two or more layers it does not: the layer a neighbour splats into is decided by the
   depths of the pixel at the transposed position. *)
Theorem splatter_mirror_refuted :
  ~ (forall sigma bgc H W K im out out' h w c, centred H W K im ->
  forward sigma bgc H W K im = Ok out -> forward sigma bgc H W K (mirror W im) = Ok out' ->
  (h < H)%nat -> (w < W)%nat -> (c < 4)%nat -> out' h (W - 1 - w)%nat c = out h w c).
Proof. exact mirror_fails. Qed.
Print Assumptions splatter_mirror_refuted.
