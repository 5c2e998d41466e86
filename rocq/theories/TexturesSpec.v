(* What a batch of textures is, and where in a map a uv coordinate points. *)
From Verif Require Import Base RBase Rectangles Textures.
Local Open Scope R_scope.

(* one map, one list of faces and one list of vertices per mesh; no map is empty *)
Record proper (memory : Z -> tmap) (t : uvtex) : Prop := {
  p_two : (2 <= length (maps t))%nat;
  p_faces : length (faces_uvs t) = length (maps t);
  p_verts : length (verts_uvs t) = length (maps t);
  p_sizes : forall id, In id (maps t) -> (0 < mh (memory id) /\ 0 < mw (memory id))%Z }.
(* column and row of a uv coordinate, in cells: u goes to the right and v goes up *)
Definition column_of (align : bool) (m : tmap) (uv : R * R) : R := if align then fst uv * (IZR (mw m) - 1) else fst uv * IZR (mw m) - 1 / 2.
Definition row_of (align : bool) (m : tmap) (uv : R * R) : R := if align then (1 - snd uv) * (IZR (mh m) - 1) else (1 - snd uv) * IZR (mh m) - 1 / 2.
Definition halfway (x : R) : Prop := exists k : Z, x = IZR k + 1 / 2.
Definition in_unit (uv : R * R) : Prop := 0 <= fst uv <= 1 /\ 0 <= snd uv <= 1.
Definition total_weight (w : R * R * R) : R := fst (fst w) + snd (fst w) + snd w.
