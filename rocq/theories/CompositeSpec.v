(* Specification of compositing: what a pixel shows, and the scalar loss whose gradients the backward
   passes must return. *)
From Verif Require Import Base RBase Composite.
Local Open Scope R_scope.

(* the (alpha, feature) pairs of the slots that hold a point, nearest first *)
Definition layers (f : nat -> R) (row : list slot) : list (R * R) :=
  flat_map (fun x => if (fst x <? 0)%Z then [] else [(snd x, f (Z.to_nat (fst x)))]) row.
Definition alpha_at (L : list (R * R)) (k : nat) : R := fst (nth k L (0, 0)).
Definition feat_at (L : list (R * R)) (k : nat) : R := snd (nth k L (0, 0)).
(* weight of layer k: its alpha times what the nearer layers let through *)
Definition over_weight (L : list (R * R)) (k : nat) : R :=
  alpha_at L k * rprod (map (fun j => 1 - alpha_at L j) (seq 0 k)).
Definition alpha_sum (L : list (R * R)) : R := rsum (map fst L).
(* what is seen behind slot k *)
Definition behind (f : nat -> R) (row : list slot) (k : nat) : list (R * R) := layers f (skipn (S k) row).

(* sum over pixels and channels of upstream gradient times output *)
Definition loss (P C : nat) (go : nat -> nat -> R) (out : nat -> nat -> R) : R :=
  sumf P (fun p => sumf C (fun c => go p c * out p c)).
Definition set2 (g : nat -> nat -> R) (i j : nat) (v : R) : nat -> nat -> R :=
  fun a b => if ((a =? i) && (b =? j))%nat then v else g a b.
(* the partial derivative of F in entry (i, j) of g *)
Definition is_partial (F : (nat -> nat -> R) -> R) (g : nat -> nat -> R) (i j : nat) (d : R) : Prop :=
  derivable_pt_lim (fun t => F (set2 g i j t)) (g i j) d.
