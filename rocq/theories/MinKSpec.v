(* What a "K smallest" selection is. *)
From Verif Require Import Base RBase.
Local Open Scope R_scope.

(* [kept] is a choice of the K smallest-key entries of [ins] *)
Definition selects_smallest {A} (K : nat) (ins kept : list (R * A)) : Prop :=
  length kept = Nat.min K (length ins) /\
  exists rest, Permutation ins (kept ++ rest) /\
    forall a b, In a kept -> In b rest -> fst a <= fst b.

Definition ascending {A} (l : list (R * A)) : Prop :=
  forall i j a b, (i < j)%nat -> nth_error l i = Some a -> nth_error l j = Some b -> fst a <= fst b.
