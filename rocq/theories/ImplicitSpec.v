(* Specification vocabulary for volumetric rendering helpers. *)
From Verif Require Import Base RBase Implicit.
Local Open Scope R_scope.
Definition nonneg (l : list R) : Prop := forall x, In x l -> 0 <= x.
Definition nondecreasing (l : list R) : Prop := forall i j, (i <= j)%nat -> (j < length l)%nat -> nth i l 0 <= nth j l 0.
Definition all_in (a b : R) (l : list R) : Prop := forall x, In x l -> a <= x <= b.
(* product of g over the first k entries *)
Definition prod_first (k : nat) (g : R -> R) (l : list R) : R := rprod (map g (firstn k l)).
(* (v, q) is a point of the graph of the piecewise-linear cumulative weight function *)
Definition on_cdf (bins weights : list R) (v q : R) : Prop := exists i t, (i < length weights)%nat /\ 0 <= t <= 1 /\
  v = nth i bins 0 + t * (nth (i + 1) bins 0 - nth i bins 0) /\ q = rsum (firstn i weights) + t * nth i weights 0.
(* the weight of sample k: its density times the transmission of the samples at least s before it *)
Definition ea_weight (s : nat) (eps : R) (dens : list R) (k : nat) : R :=
  nth k dens 0 * prod_first (k + 1 - s) (fun d => 1 + eps - d) dens.
(* the two raymarchers defined by the code: emission-absorption and cumulative sum *)
Definition pairing (c : cap_fn) (w : weight_fn) : Prop := (c = CapExp /\ w = WProduct) \/ (c = CapOne /\ w = WMinimum).
(* stratum of sample i: from the midpoint with the previous sample to the midpoint with the next *)
Definition stratum_lo (c : list R) (i : nat) : R := if (i =? 0)%nat then nth 0 c 0 else (nth (i - 1) c 0 + nth i c 0) / 2.
Definition stratum_hi (c : list R) (i : nat) : R := if (S i =? length c)%nat then nth i c 0 else (nth i c 0 + nth (S i) c 0) / 2.
(* damping of the integrated embedding *)
Definition decay (f : R) (cov : option (list R)) (i : nat) : R :=
  match cov with None => 1 | Some c => exp (- / 2 * (nth i c 0 * (f * f))) end.
