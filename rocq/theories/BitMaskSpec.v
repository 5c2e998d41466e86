(* A bit array as a plain history of sets and unsets. *)
From Verif Require Import Base BitMask.

(* value of bit (y,x,d), initially off, after a history of operations *)
Definition touches (y x d y' x' d' : nat) : bool := (y =? y') && (x =? x') && (d =? d').
Definition bit_after (ops : list bop) (y x d : nat) : bool :=
  fold_left (fun b o => match o with
    | BSet y' x' d' => if touches y x d y' x' d' then true else b
    | BUnset y' x' d' => if touches y x d y' x' d' then false else b
    end) ops false.
Definition in_mask (H W N : nat) (o : bop) : Prop :=
  match o with BSet y x d | BUnset y x d => y < H /\ x < W /\ d < N end.
