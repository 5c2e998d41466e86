(* Model of /repo/pytorch3d/utils/checkerboard.py.  Vertex coordinates are integers (whole floats in the code); colours
   are of any type; the atlas of one cell per face is a list of colours. *)
From Coq Require Import List Arith ZArith Bool.
From Verif Require Import Base.
Import ListNotations.

Definition point := (Z * Z * Z)%type.
Record board (C : Type) := Board { verts : list point; faces : list (nat * nat * nat); colours : list C }.
Arguments Board {C}. Arguments verts {C}. Arguments faces {C}. Arguments colours {C}.

(* 43-48: x = arange(-radius, radius + 1); the grid row by row *)
Definition axis (r : nat) : list Z := map (fun i => (Z.of_nat i - Z.of_nat r)%Z) (seq 0 (2 * r + 1)).
Definition grid (r : nat) : list point := flat_map (fun y => map (fun x => (x, y, 0%Z)) (axis r)) (axis r).
(* 50-58, n is num_verts_per_row *)
Definition top (n : nat) : list (nat * nat * nat) := map (fun i => (i, i + 1, i + n + 1)) (seq 0 (n * (n - 1))).
(* 60-62 *)
Definition bottom (n : nat) : list (nat * nat * nat) := map (fun t => let '(a, b, c) := t in (a, c, b + (n - 1))) (top n).
(* 64-70: faces[0, ::2] and faces[0, 1::2] *)
Definition interleaved (n : nat) : list (nat * nat * nat) := flat_map (fun p => [fst p; snd p]) (combine (top n) (bottom n)).
(* 73-79: the entries (y, x, k) of the view (n, n, 2) of a range, without the last y and x *)
Definition indexing_range (n : nat) : list nat :=
  flat_map (fun y => flat_map (fun x => map (fun k => (y * n + x) * 2 + k) (seq 0 2)) (seq 0 (n - 1))) (seq 0 (n - 1)).
(* 84-86: colors[2::4] and colors[3::4] *)
Definition all_colours {C : Type} (c1 c2 : C) (n : nat) : list C :=
  map (fun i => if (i mod 4 =? 2) || (i mod 4 =? 3) then c2 else c1) (seq 0 (2 * n * n)).
(* checkerboard, 18-91; the two colours must have the same number of channels *)
Definition checkerboard {C : Type} (radius : Z) (c1 c2 : C) : result (board C) :=
  if (radius <? 1)%Z then Fail EValue else
  let r := Z.to_nat radius in
  let n := 2 * r + 1 in
  fs <- rmap (rget (interleaved n)) (indexing_range n) ;;
  cs <- rmap (rget (all_colours c1 c2 n)) (indexing_range n) ;;
  Ok (Board (grid r) fs cs).
