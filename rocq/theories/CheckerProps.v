(* C92: checkerboards. *)
From Coq Require Import List Arith ZArith Bool Lia.
From Verif Require Import Base Checker CheckerSpec CheckerProofs.
Import ListNotations.

(* A radius below one is refused; every other gives a board. *)
Theorem checker_defined {C} radius (c1 c2 : C) : (radius < 1)%Z <-> checkerboard radius c1 c2 = Fail EValue.
Proof.
  split.
  - intros L. unfold checkerboard. destruct (Z.ltb_spec radius 1); [reflexivity|lia].
  - intros E. destruct (Z.lt_ge_cases radius 1) as [L|L]; [exact L|]. destruct (board_ok (Z.to_nat radius) c1 c2 ltac:(lia)) as (b & F & _).
    rewrite Z2Nat.id in F by lia. congruence.
Qed.
(* It has the unit squares from -radius to radius, each as two anticlockwise halves of one colour, by the parity of its place,
   row by row, and no other face or vertex. *)
Theorem checker_squares {C} r (c1 c2 : C) b : 1 <= r -> checkerboard (Z.of_nat r) c1 c2 = Ok b ->
  length (verts b) = (2 * r + 1) * (2 * r + 1) /\ length (faces b) = 2 * (2 * r * (2 * r)) /\ length (colours b) = length (faces b) /\
  forall y x, y < 2 * r -> x < 2 * r -> let i := (Z.of_nat x - Z.of_nat r)%Z in let j := (Z.of_nat y - Z.of_nat r)%Z in
    square_at b (2 * (y * (2 * r) + x)) i j (if Z.even (i + j) then c1 else c2).
Proof. intros R E. destruct (board_ok r c1 c2 R) as (b' & E' & A & B & D & F). rewrite E in E'. injection E' as <-. rewrite B, D. auto. Qed.
(* Each square is drawn once. *)
Theorem checker_once {C} r (c1 c2 : C) b k k' i j c c' : 1 <= r -> checkerboard (Z.of_nat r) c1 c2 = Ok b ->
  square_at b k i j c -> square_at b k' i j c' -> k = k' /\ c = c' /\ (- Z.of_nat r <= i < Z.of_nat r)%Z /\ (- Z.of_nat r <= j < Z.of_nat r)%Z.
Proof.
  intros R E A B. destruct (board_only r c1 c2 b k i j c R E A) as (I & J & -> & ->). destruct (board_only r c1 c2 b k' i j c' R E B) as (_ & _ & -> & ->). auto.
Qed.
(* Adjacent squares have opposite colours, squares that share a corner only the same. *)
Theorem checker_adjacent {C} r (c1 c2 : C) b k k' i j i' j' c c' : 1 <= r -> checkerboard (Z.of_nat r) c1 c2 = Ok b ->
  square_at b k i j c -> square_at b k' i' j' c' ->
  ((Z.abs (i - i') + Z.abs (j - j') = 1)%Z -> (c = c1 /\ c' = c2) \/ (c = c2 /\ c' = c1)) /\
  (Z.abs (i - i') = 1%Z -> Z.abs (j - j') = 1%Z -> c = c').
Proof.
  intros R E A B. destruct (board_only r c1 c2 b k i j c R E A) as (_ & _ & _ & ->). destruct (board_only r c1 c2 b k' i' j' c' R E B) as (_ & _ & _ & ->).
  split.
  - intros D. assert (Q : Z.even (i' + j') = negb (Z.even (i + j))).
    { assert (H : (i' + j' = Z.succ (i + j) \/ i + j = Z.succ (i' + j'))%Z) by lia. destruct H as [->| ->].
      - rewrite Z.even_succ, <- Z.negb_even. reflexivity.
      - rewrite Z.even_succ, <- Z.negb_even, negb_involutive. reflexivity. }
    rewrite Q. destruct (Z.even (i + j)); auto.
  - intros D1 D2. assert (H : exists t, (i' + j' = i + j + 2 * t)%Z) by (assert (H : (i' + j' = i + j + 2 * 1 \/ i' + j' = i + j + 2 * 0 \/ i' + j' = i + j + 2 * -1)%Z) by lia; destruct H as [H|[H|H]]; eexists; exact H).
    destruct H as (t & ->). rewrite Z.even_add_mul_2. reflexivity.
Qed.

(* the smallest board *)
Example checker_case : exists b, checkerboard 1 0 1 = Ok b /\ colours b = [0; 0; 1; 1; 1; 1; 0; 0] /\
  faces b = [(0, 1, 4); (0, 4, 3); (1, 2, 5); (1, 5, 4); (3, 4, 7); (3, 7, 6); (4, 5, 8); (4, 8, 7)] /\ square_at b 2 0 (-1) 1.
Proof. eexists. split; [reflexivity|]. repeat split; reflexivity. Qed.

Print Assumptions checker_defined.
Print Assumptions checker_squares.
Print Assumptions checker_once.
Print Assumptions checker_adjacent.
