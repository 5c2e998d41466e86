(* Specification vocabulary for gather_scatter and interpolate_face_attributes. *)
From Verif Require Import Base RBase.
Local Open Scope R_scope.
Definition edges_in_range (V : nat) (edges : list (nat * nat)) : Prop :=
  forall a b, In (a, b) edges -> (a < V)%nat /\ (b < V)%nat.
Definition inner (V D : nat) (a b : nat -> nat -> R) : R := sumf V (fun v => sumf D (fun d => a v d * b v d)).
(* sum of the features of the heads of the edges that leave v, resp. of the tails of those that enter v *)
Definition out_sum (edges : list (nat * nat)) (x : nat -> nat -> R) (v d : nat) : R :=
  rsum (map (fun e => if (fst e =? v)%nat then x (snd e) d else 0) edges).
Definition in_sum (edges : list (nat * nat)) (x : nat -> nat -> R) (v d : nat) : R :=
  rsum (map (fun e => if (snd e =? v)%nat then x (fst e) d else 0) edges).
Definition set3 (g : nat -> nat -> nat -> R) (i j k : nat) (v : R) : nat -> nat -> nat -> R :=
  fun a b c => if ((a =? i) && (b =? j) && (c =? k))%nat then v else g a b c.
