(* What a user expects of the splatting blender, in terms of the nine pixels around a pixel. *)
From Coq Require Import Reals ZArith Arith Lra Lia Bool List.
From Verif Require Import Base RBase Geom Splatter.
Import ListNotations.
Local Open Scope R_scope.

(* The nine steps to a pixel and its eight neighbours, as (rows, columns). *)
Definition around : list (Z * Z) :=
  [(-1, -1); (-1, 0); (-1, 1); (0, -1); (0, 0); (0, 1); (1, -1); (1, 0); (1, 1)]%Z.

(* Pixel (a, b) lies in the H x W image and is (h, w) or one of its eight neighbours. *)
Definition near (H W h w a b : nat) : Prop :=
  (a < H /\ b < W /\ a <= h + 1 /\ h <= a + 1 /\ b <= w + 1 /\ w <= b + 1)%nat.

(* Some mesh covers pixel (a, b) in one of its K layers. *)
Definition covered (im : image) (K a b : nat) : Prop := exists k, (k < K)%nat /\ bg (im a b k) = false.

(* The intersections are projected to the centres of pixels, as the forward pass of a
   rasterizer does. *)
Definition half (x : R) : Prop := exists n : Z, x = IZR n + 1 / 2.
Definition centred (H W K : nat) (im : image) : Prop :=
  forall a b k, (a < H)%nat -> (b < W)%nat -> (k < K)%nat -> bg (im a b k) = false ->
    half (x3 (pos (im a b k))) /\ half (y3 (pos (im a b k))).

(* The 3x3 Gaussian kernel, scaled to a total of 1.05. *)
Definition total (f : Z * Z -> R) : R := rsum (map f around).
Definition gauss (sigma : R) (o : Z * Z) : R :=
  exp (- (IZR (fst o) ^ 2 + IZR (snd o) ^ 2) / (2 * sigma ^ 2)).
Definition kernel (sigma : R) (o : Z * Z) : R := 105 / 100 * gauss sigma o / total (gauss sigma).

(* The front intersection of the pixel at step o from (h, w), if that pixel exists and
   something covers it there. *)
Definition front (H W : nat) (im : image) (h w : nat) (o : Z * Z) : option frag :=
  let a := (Z.of_nat h + fst o)%Z in
  let b := (Z.of_nat w + snd o)%Z in
  if ((0 <=? a) && (a <? Z.of_nat H) && (0 <=? b) && (b <? Z.of_nat W))%Z then
    let f := im (Z.to_nat a) (Z.to_nat b) O in if bg f then None else Some f
  else None.
Definition weight (sigma : R) (H W : nat) (im : image) (h w : nat) : R :=
  total (fun o => match front H W im h w o with Some _ => kernel sigma o | None => 0 end).
Definition filtered (sigma : R) (H W : nat) (im : image) (h w c : nat) : R :=
  total (fun o => match front H W im h w o with Some f => kernel sigma o * colour f c | None => 0 end).

(* The scene seen in a mirror: columns and x coordinates run backwards. *)
Definition mirrored (W : nat) (f : frag) : frag :=
  Frag (bg f) (colour f) (V3 (INR W - x3 (pos f)) (y3 (pos f)) (z3 (pos f))).
Definition mirror (W : nat) (im : image) : image := fun h w k => mirrored W (im h (W - 1 - w)%nat k).
