(* What a layout of rectangles is. *)
From Verif Require Import Base Rectangles.
Local Open Scope Z_scope.

(* the area taken by a rectangle of size s at place p: [x, x + w) x [y, y + h) *)
Definition extent (s : Z * Z) (p : place) : Z * Z := if flipped p then (snd s, fst s) else s.
Definition contains (s : Z * Z) (p : place) (x y : Z) : Prop :=
  px p <= x < px p + fst (extent s p) /\ py p <= y < py p + snd (extent s p).
(* every cell of the rectangle is a cell of the sheet *)
Definition within (sheet : Z * Z) (s : Z * Z) (p : place) : Prop :=
  0 <= px p /\ 0 <= py p /\ px p + fst (extent s p) <= fst sheet /\ py p + snd (extent s p) <= snd sheet.
Definition positive (s : Z * Z) : Prop := 0 < fst s /\ 0 < snd s.
(* i is the first position of its identifier *)
Definition first_of (l : list rect) (i : nat) : Prop :=
  forall j r r', (j < i)%nat -> nth_error l i = Some r -> nth_error l j = Some r' -> snd r' <> snd r.
(* rectangles with one identifier have one size *)
Definition same_sizes (l : list rect) : Prop := forall r r', In r l -> In r' l -> snd r = snd r' -> fst r = fst r'.
