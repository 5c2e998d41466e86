(* What is known about random numbers, and words about batches. *)
From Coq Require Import Arith List Permutation.
From Verif Require Import Base Loaders.
Import ListNotations.

Definition fair (ch : chance) : Prop :=
  (forall k n, Permutation (randperm ch k n) (seq 0 n)) /\
  (forall k n i, 0 < n -> randint ch k n i < n).
(* l is made of entries of pool at different positions *)
Definition drawn (pool l : list nat) : Prop :=
  exists ps, NoDup ps /\ (forall p, In p ps -> p < length pool) /\ l = map (fun p => nth p pool 0) ps.
Definition is_own (x : item) : Prop := match x with Own _ => True | FromTrain _ => False end.
