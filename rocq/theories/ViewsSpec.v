(* Vocabulary of property C93. *)
From Coq Require Import Reals List Bool Arith.
From Verif Require Import Base RBase Views.
Import ListNotations.
Local Open Scope R_scope.

(* the views that count: valid, and not the target view if that is excluded *)
Definition visible (exclude : bool) (b : nat) (masks : nat -> bool) (v : nat) : bool := masks v && negb (exclude && (v =? b)%nat).
Definition visible_views (n : nat) (exclude : bool) (b : nat) (masks : nat -> bool) : list nat := filter (visible exclude b masks) (seq 0 n).
(* statistics of a list of numbers *)
Definition mean (l : list R) : R := rsum l / INR (length l).
Definition deviation (l : list R) : R := sqrt (Rmax (mean (map (fun x => (x - mean l) ^ 2) l)) (1 / 10000)).
Definition greatest (m : R) (l : list R) : Prop := In m l /\ forall x, In x l -> x <= m.
(* y is what the functions make of the values ls of the channels *)
Definition pooled (fns : list fn) (ls : list (list R)) (y : list R) : Prop :=
  exists maxima, y = (if has AVG fns then map mean ls else []) ++ (if has STD fns then map deviation ls else []) ++
    (if has STD_AVG fns then [mean (map deviation ls)] else []) ++ maxima /\
    (if has MAX fns then Forall2 greatest maxima ls else maxima = []).
(* the feature of a view; that of the target view is 0 if it is masked *)
Definition shown (mask_features : bool) (b : nat) (c : channel) (v : nat) : R := if mask_features && (v =? b)%nat then 0 else c v.
(* the number of outputs of a feature of k channels *)
Definition width (fns : list fn) (k : nat) : nat :=
  ((if has AVG fns then k else 0) + (if has STD fns then k else 0) + (if has STD_AVG fns then 1 else 0) + (if has MAX fns then k else 0))%nat.
