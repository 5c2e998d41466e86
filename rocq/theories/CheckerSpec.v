(* Vocabulary of property C92: triangles of a board, and its squares. *)
From Coq Require Import List Arith ZArith.
From Verif Require Import Base Checker.
Import ListNotations.
Local Open Scope Z_scope.

(* the corners of face k *)
Definition triangle {C} (b : board C) (k : nat) : option (point * point * point) :=
  match nth_error (faces b) k with
  | Some (x, y, z) =>
      match nth_error (verts b) x, nth_error (verts b) y, nth_error (verts b) z with Some p, Some q, Some s => Some (p, q, s) | _, _, _ => None end
  | None => None
  end.
(* faces k and k + 1 are the two halves, both anticlockwise, of the unit square from (i, j), of colour c *)
Definition square_at {C} (b : board C) (k : nat) (i j : Z) (c : C) : Prop :=
  triangle b k = Some ((i, j, 0), (i + 1, j, 0), (i + 1, j + 1, 0)) /\
  triangle b (k + 1) = Some ((i, j, 0), (i + 1, j + 1, 0), (i, j + 1, 0)) /\
  nth_error (colours b) k = Some c /\ nth_error (colours b) (k + 1) = Some c.
