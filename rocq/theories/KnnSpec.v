(* What "the K nearest neighbours" means, independently of how they are found. *)
From Verif Require Import Base RBase.
Local Open Scope R_scope.

(* distance between two points given as coordinate lists *)
Fixpoint dist_L1 (p q : list R) : R :=
  match p, q with x :: p', y :: q' => Rabs (x - y) + dist_L1 p' q' | _, _ => 0 end.
Fixpoint dist_L2sq (p q : list R) : R :=
  match p, q with x :: p', y :: q' => (x - y) ^ 2 + dist_L2sq p' q' | _, _ => 0 end.

(* ds/js : the reported distances and indices for one query point, where [dist j] is the
   distance from the query to the j-th of n valid points. *)
Record is_knn (dist : nat -> R) (n K : nat) (ds : list R) (js : list nat) : Prop := {
  knn_len_d : length ds = K;
  knn_len_i : length js = K;
  (* the first min(K,n) entries are distinct valid points with their true distances *)
  knn_distinct : NoDup (firstn (Nat.min K n) js);
  knn_valid : forall k, (k < Nat.min K n)%nat ->
      (nth k js 0 < n)%nat /\ nth k ds 0 = dist (nth k js 0%nat);
  (* in ascending order of distance *)
  knn_ascending : forall i j, (i < j)%nat -> (j < Nat.min K n)%nat -> nth i ds 0 <= nth j ds 0;
  (* no valid point left out is nearer than a reported one *)
  knn_nearest : forall j, (j < n)%nat -> ~ In j (firstn (Nat.min K n) js) ->
      forall k, (k < Nat.min K n)%nat -> nth k ds 0 <= dist j;
  (* the rest is padded with zeros *)
  knn_padding : forall k, (Nat.min K n <= k < K)%nat -> nth k ds 0 = 0 /\ nth k js 0%nat = 0%nat }.

(* loss whose gradient the backward pass computes: sum of g * distance over the reported
   neighbours; D coordinates *)
Definition coord_dist (norm : nat) (x y : R) : R := if (norm =? 1)%nat then Rabs (x - y) else (x - y) ^ 2.
Definition knn_loss (norm D K length1 length2 : nat) (idx : nat -> nat -> Z)
    (g p1 p2 : nat -> nat -> R) : R :=
  sumf length1 (fun i => sumf (Nat.min K length2) (fun k =>
    if (idx i k =? -1)%Z then 0
    else g i k * sumf D (fun d => coord_dist norm (p1 i d) (p2 (Z.to_nat (idx i k)) d)))).
(* p with entry (i,d) replaced by t *)
Definition with_entry (p : nat -> nat -> R) (i d : nat) (t : R) : nat -> nat -> R :=
  fun i' d' => if ((i' =? i) && (d' =? d))%nat%bool then t else p i' d'.
