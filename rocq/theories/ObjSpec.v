(* What an .obj file says, line by line. *)
From Coq Require Import Ascii String ZArith Reals Bool List.
From Verif Require Import Base RBase Text TextSpec Ply Obj.
Import ListNotations.
Local Open Scope list_scope.
Local Open Scope Z_scope.

(* one vertex of a face: v, v/t, v//n or v/t/n *)
Record corner := C { c_vert : Z; c_tex : option Z; c_norm : option Z }.
Definition show_corner (c : corner) : text :=
  print_int (c_vert c) ++
  match c_tex c, c_norm c with
  | None, None => []
  | Some t, None => slash :: print_int t
  | Some t, Some n => slash :: print_int t ++ slash :: print_int n
  | None, Some n => slash :: slash :: print_int n
  end.
Definition show_dec (x : dec) : text := print_fixed (Z.to_nat (exp x)) (man x).
Inductive item := Vertex (xyz : list dec) | TexCoord (uv : list dec) | Normal (xyz : list dec) | Face (cs : list corner) | Use (name : text) | Lib (name : text) | Other.

(* blanks, a keyword, a space, words, and blanks *)
Definition word (w : text) : Prop := w <> [] /\ Forall (fun c => str_space c = false) w.
Inductive spaced : list text -> text -> Prop :=
| spaced_end : forall b, Forall (fun c => str_space c = true) b -> spaced [] b
| spaced_word : forall b w ws l, Forall (fun c => str_space c = true) b -> word w -> match l with [] => True | c :: _ => str_space c = true end -> spaced ws l -> spaced (w :: ws) (b ++ w ++ l).
Definition keyword_line (k : string) (ws : list text) (l : text) : Prop :=
  exists b r, l = b ++ str k ++ sp :: r /\ Forall (fun c => str_space c = true) b /\ spaced ws r.
Definition readable (x : dec) : Prop := 0 <= exp x.
(* words after the numbers are not looked at *)
Definition says (l : text) (i : item) : Prop :=
  match i with
  | Vertex xyz => length xyz = 3%nat /\ Forall readable xyz /\ exists more, keyword_line "v" (map show_dec xyz ++ more) l
  | TexCoord uv => length uv = 2%nat /\ Forall readable uv /\ exists more, keyword_line "vt" (map show_dec uv ++ more) l
  | Normal xyz => length xyz = 3%nat /\ Forall readable xyz /\ exists more, keyword_line "vn" (map show_dec xyz ++ more) l
  | Face cs => cs <> [] /\ keyword_line "f" (map show_corner cs) l
  | Use name => exists more, keyword_line "usemtl" (name :: more) l
  | Lib name => word name /\ keyword_line "mtllib" [name] l
  | Other => exists ws, spaced ws l /\ match ws with [] => True | w :: _ => ~ In w [str "v"; str "vt"; str "vn"; str "f"; str "usemtl"] /\ firstn 6 w <> str "mtllib" end
  end.
(* the file: its lines, with or without a newline at the end *)
Definition file_of (ls : list text) : text := join nl ls.
Definition one_line (l : text) : Prop := Forall (fun c => Ascii.eqb c nl = false) l.

(* ---- what the file contains ---- *)
Definition verts_of (is : list item) : list (list dec) := flat_map (fun i => match i with Vertex v => [v] | _ => [] end) is.
Definition uvs_of (is : list item) : list (list dec) := flat_map (fun i => match i with TexCoord v => [v] | _ => [] end) is.
Definition normals_of (is : list item) : list (list dec) := flat_map (fun i => match i with Normal v => [v] | _ => [] end) is.
Definition faces_of (is : list item) : list (list corner) := flat_map (fun i => match i with Face cs => [cs] | _ => [] end) is.
Definition uses (is : list item) : list text := flat_map (fun i => match i with Use n => [n] | _ => [] end) is.
Definition libs (is : list item) : list text := flat_map (fun i => match i with Lib n => [n] | _ => [] end) is.
(* the last material file named *)
Definition last_lib (is : list item) : option text := match rev (libs is) with [] => None | n :: _ => Some n end.
(* None when there are none *)
Definition given (l : list (list dec)) : option (list (list dec)) := match l with [] => None | _ => Some l end.
(* the triangles of a polygon *)
Definition fan {A} (f : list A) : list (list A) := match f with a :: rest => map (fun bc => [a; fst bc; snd bc]) (combine rest (tl rest)) | [] => [] end.
(* index i of n things: from one upwards, or from minus one downwards *)
Definition position (n : nat) (i : Z) : Z := if i <? 0 then Z.of_nat n + i else i - 1.
(* every corner has a texture index, or none has; the same for normals *)
Definition uniform {A} (p : corner -> option A) (cs : list corner) : Prop := (forall c, In c cs -> p c <> None) \/ (forall c, In c cs -> p c = None).
Definition positions (n : nat) (p : corner -> option Z) (tri : list corner) : list Z := map (fun c => match p c with Some i => position n i | None => -1 end) tri.
(* indices are not zero; no triangle has the texture (normal) indices -1, -1, -1, which stand for a missing one *)
Definition good_face (cs : list corner) : Prop :=
  uniform c_tex cs /\ uniform c_norm cs /\ (forall c, In c cs -> c_vert c <> 0 /\ c_tex c <> Some 0 /\ c_norm c <> Some 0) /\
  (forall tri, In tri (fan cs) -> (exists c, In c tri /\ c_tex c <> Some (-1)) /\ (exists c, In c tri /\ c_norm c <> Some (-1))).
(* the material each triangle is drawn with: the last one named before it *)
Fixpoint materials_from (cur : option text) (is : list item) : list (option text) :=
  match is with
  | [] => []
  | Use n :: is => materials_from (Some n) is
  | Face cs :: is => map (fun _ => cur) (fan cs) ++ materials_from cur is
  | _ :: is => materials_from cur is
  end.
Definition material_is (names : list text) (o : option text) (i : Z) : Prop :=
  match o with Some n => 0 <= i /\ nth_error names (Z.to_nat i) = Some n | None => i = -1 end.
Definition in_range (n : nat) (row : list Z) : Prop := Forall (fun i => 0 <= i < Z.of_nat n) row.

(* ---- writing ---- *)
Definition rows_of {A} (o : option (list A)) : list A := match o with Some l => l | None => [] end.
(* a table with rows of the stated width, one for each of n faces *)
Definition is_table {A} (w : nat) (t : table A) : Prop := width t = w /\ Forall (fun r => length r = w) (rows t).
Definition index_table (n : nat) (t : table Z) : Prop := is_table 3 t /\ length (rows t) = n /\ Forall (Forall (fun i => 0 <= i)) (rows t).
Definition each {A} (P : A -> Prop) (o : option A) : Prop := match o with Some a => P a | None => True end.
