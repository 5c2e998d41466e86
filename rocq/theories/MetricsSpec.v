(* What the metrics are expected to measure. *)
From Coq Require Import Reals Arith Lra Lia Bool List.
From Verif Require Import Base RBase Metrics.
Import ListNotations.
Local Open Scope R_scope.

(* A pixel counts if its true depth is positive and the mask, if any, selects it. *)
Definition valid (gt : nat * nat -> R) (mask : option (nat * nat -> R)) (thr : R) (p : nat * nat) : Prop :=
  0 < gt p /\ match mask with Some m => thr < m p | None => True end.

(* A pixel at least crop pixels away from the border of the H x W image. *)
Definition inner (crop H W : nat) (p : nat * nat) : Prop :=
  (crop <= fst p /\ fst p + crop < H /\ crop <= snd p /\ snd p + crop < W)%nat.

(* The mean square of the predicted depths over the counted pixels, relative to all pixels
   of the window: the divisor of the scale estimate before it is clamped. *)
Definition energy (pred gt : nat * nat -> R) (mask : option (nat * nat -> R)) (thr : R) (crop H W : nat) : R :=
  mean (window crop H W) (fun p =>
    if Rltb 0 (gt p) && match mask with Some m => Rltb thr (m p) | None => true end
    then (pred p) ^ 2 else 0).

(* Mean over the entries of all pixels and channels. *)
Definition mean_abs {I} (ix : list I) (C : nat) (x y : I -> nat -> R) : R :=
  lsum ix (fun p => sumf C (fun c => Rabs (x p c - y p c))) / INR (length ix * C).

Definition binary {I} (ix : list I) (f : I -> R) : Prop := forall p, In p ix -> f p = 0 \/ f p = 1.
Definition unit {I} (ix : list I) (f : I -> R) : Prop := forall p, In p ix -> 0 <= f p <= 1.

(* The number of positions with a property. *)
Definition count {I} (ix : list I) (P : I -> bool) : nat := length (filter P ix).
