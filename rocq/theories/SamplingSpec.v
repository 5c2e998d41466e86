(* What ball queries and farthest point samples are, independently of the loops that find them. *)
From Verif Require Import Base RBase KnnSpec Sampling.
Local Open Scope R_scope.

(* the indices below n at squared distance < r2 *)
Definition ball_hits (dist : nat -> R) (r2 : R) (n : nat) : list nat := filter (fun j => Rltb (dist j) r2) (seq 0 n).
(* the list sel, as long as the smaller of len and K, starts at start, stays below len, and each later entry
   q is at least as far from the earlier entries as any other point p is: some earlier entry is at least as
   close to p as every earlier entry is to q *)
Record is_fps (dist : nat -> nat -> R) (len K start : nat) (sel : list nat) : Prop := {
  fps_len : length sel = Nat.min len K;
  fps_start : nth 0 sel 0%nat = start;
  fps_range : forall q, In q sel -> (q < len)%nat;
  fps_far : forall k p, (0 < k < length sel)%nat -> (p < len)%nat ->
      exists s, In s (firstn k sel) /\ forall s', In s' (firstn k sel) -> dist s p <= dist s' (nth k sel 0%nat) }.
(* of several farthest points the one with the smallest index is taken *)
Definition fps_first (dist : nat -> nat -> R) (sel : list nat) : Prop :=
  forall k p, (0 < k < length sel)%nat -> (p < nth k sel 0)%nat ->
      exists s, In s (firstn k sel) /\ forall s', In s' (firstn k sel) -> dist s p < dist s' (nth k sel 0%nat).
(* indices as returned: padded with -1 *)
Definition padded_row (max_K : nat) (sel : list nat) : list Z := map Z.of_nat sel ++ repeat (-1)%Z (max_K - length sel).
Definition pt (pts : list (list R)) (i : nat) : list R := nth i pts [].
(* inputs that sample_farthest_points accepts: a non-empty cloud, a start index in it and K >= 1 *)
Definition cloud_ok (P : nat) (c : fps_in) : Prop :=
  length (fi_pts c) = P /\ (fi_len c <= P)%nat /\ (fi_start c < fi_len c)%nat /\ (0 < fi_K c)%nat.
Definition cdist (c : fps_in) (i j : nat) : R := dist_L2sq (pt (fi_pts c) i) (pt (fi_pts c) j).
(* argmax returns the index of some maximal entry *)
Definition argmax_ok (argmax : list (option R) -> nat) : Prop := forall l, l <> [] -> (argmax l < length l)%nat /\
    forall i, (i < length l)%nat -> dlt (nth (argmax l) l None) (nth i l None) = false.
