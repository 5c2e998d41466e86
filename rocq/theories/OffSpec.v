From Coq Require Import Ascii String ZArith NArith Reals Bool List Permutation.
From Verif Require Import Base RBase Text TextSpec Off.
Import ListNotations.
Local Open Scope Z_scope.
(* a mesh an OFF file can hold: at least one vertex, triangles of valid indices below 2^24, colours with three or four channels *)
Definition same_width (w : nat) (rows : list (list R)) : Prop := List.Forall (fun r => length r = w) rows.
Definition writable (verts : list (list R)) (faces : list (list Z)) (tex : option (texture (list (list R)))) : Prop :=
  verts <> [] /\ same_width 3 verts /\ List.Forall (fun f => length f = 3%nat /\ List.Forall (fun i => 0 <= i < 2 ^ 24) f) faces /\
  match tex with
  | Some (VertexColours c) => length c = length verts /\ (same_width 3 c \/ same_width 4 c)
  | Some (FaceColours c) => length c = length faces /\ (same_width 3 c \/ same_width 4 c)
  | Some OtherTexture | None => True
  end.
Definition places (decimal_places : option nat) : nat := match decimal_places with Some d => d | None => 6%nat end.
(* a table of numbers, each rounded to d decimals *)
Definition rounded_rows (d : nat) : list (list R) -> list (list dec) -> Prop := Forall2 (Forall2 (rounds_to d)).
Definition same_texture (d : nat) (faces : list (list Z)) (tex : option (texture (list (list R)))) (tex' : option (texture colours)) : Prop :=
  match tex with
  | Some (VertexColours c) => exists c', tex' = Some (VertexColours {| by_255 := false; rows_of := c' |}) /\ rounded_rows d c c'
  | Some (FaceColours c) => match faces with [] => tex' = None | _ => exists c', tex' = Some (FaceColours {| by_255 := false; rows_of := c' |}) /\ rounded_rows 6 c c' end
  | Some OtherTexture | None => tex' = None
  end.
(* a file of polygons: counts, vertices, and one line for every polygon *)
Definition polygon_file (verts : list (list R)) (polys : list (list Z)) : text :=
  str "OFF" ++ [nl] ++ line_of [print_int (Z.of_nat (length verts)); print_int (Z.of_nat (length polys)); print_int 0] ++
  concat (map (fun r => line_of (map (print_real 6) r)) verts) ++ concat (map (fun f => line_of (print_int (Z.of_nat (length f)) :: map print_int f)) polys).
(* the triangles (v0, v1, v2), (v0, v2, v3), ... *)
Definition fan (f : list Z) : list (list Z) := map (fun i => [nth 0 f 0; nth (i + 1) f 0; nth (i + 2) f 0]) (seq 0 (length f - 2)).
(* the file has a line with the counts *)
Definition meaningful (l : text) : Prop := line_empty l = false.
Definition has_counts_line (file : text) : Prop :=
  exists before l after, lines file = before ++ l :: after /\ List.Forall (fun l => ~ meaningful l) before /\ meaningful l /\ (meaningful (drop_off l) \/ Exists meaningful after).
(* the shapes of loaded data *)
Definition colour_shape (n : nat) (c : option colours) : Prop :=
  match c with None => True | Some c => length (rows_of c) = n /\ (List.Forall (fun r => length r = 3%nat) (rows_of c) \/ List.Forall (fun r => length r = 4%nat) (rows_of c)) end.
Definition data_shape (d : off_data) : Prop :=
  o_verts d <> [] /\ List.Forall (fun r => length r = 3%nat) (o_verts d) /\ colour_shape (length (o_verts d)) (o_vcol d) /\
  match o_faces d with Some f => f <> [] /\ List.Forall (fun r => length r = 3%nat) f /\ colour_shape (length f) (o_fcol d) | None => o_fcol d = None end.
