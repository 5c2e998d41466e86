From Coq Require Import Ascii ZArith Reals.
From Verif Require Import Base Text.
Local Open Scope R_scope.
(* the number a decimal stands for *)
Definition value (x : dec) : R := IZR (man x) * powerRZ 10 (- exp x).
(* x printed with d decimals is off by at most half a unit in the last place *)
Definition rounds_to (d : nat) (x : R) (y : dec) : Prop := Rabs (value y - x) <= / 2 * / 10 ^ d /\ (forall k : Z, x = IZR k * / 10 ^ d -> value y = x).
