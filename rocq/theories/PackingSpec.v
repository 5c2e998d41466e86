(* Specification vocabulary of C01, C02, C03. *)
From Coq Require Import Reals.
From Verif Require Import Base Packing.
Local Open Scope nat_scope.

(* a batch of n-dimensional tensors; torch's legacy empty tensor of shape (0,) is allowed anywhere *)
Definition batch_of {A} (n : nat) (xs : list (tensor A)) : Prop :=
  n > 0 /\ Forall wf xs /\ Forall (fun y => ndim y = n \/ shape y = [0]) xs /\
  (exists y, In y xs /\ len0 y > 0).

(* dims.(k) is the largest k-th dimension among the elements that have at least one row *)
Definition largest_dims {A} (xs : list (tensor A)) (dims : list nat) : Prop :=
  forall k d, nth_error dims k = Some d ->
    (forall y, In y xs -> len0 y > 0 -> nth k (shape y) 0 <= d) /\
    (exists y, In y xs /\ len0 y > 0 /\ nth k (shape y) 0 = d).

(* position of the first row of element j in the packed tensor *)
Definition starts {A} (xs : list (list A)) : list nat :=
  map (fun j => sum_nat (firstn j (map (@length A) xs))) (seq 0 (length xs)).

(* inner products of vectors, packed tensors and padded tensors *)
Definition rsum (l : list R) : R := fold_right Rplus 0%R l.
Definition inner (l m : list R) : R := rsum (map (fun p => (fst p * snd p)%R) (combine l m)).
Definition inner2 (l m : list (list R)) : R := rsum (map (fun p => inner (fst p) (snd p)) (combine l m)).
Definition inner3 (l m : list (list (list R))) : R := rsum (map (fun p => inner2 (fst p) (snd p)) (combine l m)).

