(* What a PLY file says, independently of the reader: the header, the records of the elements and the values of
   the named properties. *)
From Coq Require Import Ascii String ZArith NArith Reals Bool List Permutation.
From Verif Require Import Base RBase Text TextSpec Ply.
Import ListNotations.
Local Open Scope Z_scope.

(* the sixteen types *)
Definition standard_types : list ptype :=
  [PT (str "char") 1 Signed; PT (str "uchar") 1 Unsigned; PT (str "short") 2 Signed; PT (str "ushort") 2 Unsigned;
   PT (str "int") 4 Signed; PT (str "uint") 4 Unsigned; PT (str "float") 4 Floating; PT (str "double") 8 Floating;
   PT (str "int8") 1 Signed; PT (str "uint8") 1 Unsigned; PT (str "int16") 2 Signed; PT (str "uint16") 2 Unsigned;
   PT (str "int32") 4 Signed; PT (str "uint32") 4 Unsigned; PT (str "float32") 4 Floating; PT (str "float64") 8 Floating].
Definition word_ok (w : text) : Prop := w <> [] /\ Forall (fun c => str_space c = false /\ (nat_of_ascii c < 128)%nat) w.

(* ---- header ---- *)
Definition format_line (f : fmt) : text :=
  str (match f with FAscii => "format ascii 1.0" | FBinary false => "format binary_little_endian 1.0" | FBinary true => "format binary_big_endian 1.0" end).
Definition property_line (p : prop) : text :=
  str "property " ++ match p_list p with Some s => str "list " ++ t_name s ++ [sp] | None => [] end ++ t_name (p_type p) ++ [sp] ++ p_name p.
Definition element_lines (e : element) : list text :=
  (str "element " ++ e_name e ++ [sp] ++ print_int (e_count e)) :: map property_line (e_props e).
Definition the_header (f : fmt) (es : list element) : list text :=
  str "ply" :: format_line f :: concat (map element_lines es) ++ [str "end_header"].
Definition unlines (ls : list text) : text := concat (map (fun l => l ++ [nl]) ls).

(* ---- binary records ---- *)
Definition little_endian (size : nat) (z : Z) : text := map (fun k => ascii_of_N (Z.to_N (z / 256 ^ Z.of_nat k mod 256))) (seq 0 size).
Definition stored (big : bool) (t : ptype) (v : num) : text :=
  let bs := little_endian (t_size t) (match v with Whole z => z | Single b | Double b => Z.of_N b | Decimal _ => 0 end) in if big then rev bs else bs.
Definition fits (t : ptype) (v : num) : Prop :=
  match t_kind t, v with
  | Unsigned, Whole z => 0 <= z < 256 ^ Z.of_nat (t_size t)
  | Signed, Whole z => - (256 ^ Z.of_nat (t_size t) / 2) <= z < 256 ^ Z.of_nat (t_size t) / 2
  | Floating, Single b => t_size t = 4%nat /\ (b < 2 ^ 32)%N
  | Floating, Double b => t_size t = 8%nat /\ (b < 2 ^ 64)%N
  | _, _ => False
  end.
Definition datum_fits (p : prop) (d : datum) : Prop :=
  match p_list p, d with
  | None, One v => fits (p_type p) v
  | Some s, Many vs => fits s (Whole (Z.of_nat (length vs))) /\ Forall (fits (p_type p)) vs
  | _, _ => False
  end.
Definition stored_datum (big : bool) (p : prop) (d : datum) : text :=
  match d, p_list p with
  | One v, _ => stored big (p_type p) v
  | Many vs, Some s => stored big s (Whole (Z.of_nat (length vs))) ++ concat (map (stored big (p_type p)) vs)
  | Many _, None => []
  end.
Definition stored_row (big : bool) (ps : list prop) (row : list datum) : text := concat (map (fun pd => stored_datum big (fst pd) (snd pd)) (combine ps row)).

(* ---- text records: integers, and decimal numbers with a given number of places ---- *)
Definition fits_text (t : ptype) (v : num) : Prop :=
  match t_kind t, v with
  | Unsigned, Whole z => 0 <= z < 256 ^ Z.of_nat (t_size t)
  | Signed, Whole z => - (256 ^ Z.of_nat (t_size t) / 2) <= z < 256 ^ Z.of_nat (t_size t) / 2
  | Floating, Decimal x => 0 <= exp x
  | _, _ => False
  end.
(* in an element with lists only the numbers called float and double may have decimals *)
Definition datum_fits_text (p : prop) (d : datum) : Prop :=
  match p_list p, d with
  | None, One v => fits_text (p_type p) v
  | Some s, Many vs => fits_text s (Whole (Z.of_nat (length vs))) /\ Forall (fits_text (p_type p)) vs
  | _, _ => False
  end.
Definition shown (v : num) : text := match v with Whole z => print_int z | Decimal x => print_fixed (Z.to_nat (exp x)) (man x) | _ => [] end.
Definition shown_datum (d : datum) : list text := match d with One v => [shown v] | Many vs => print_int (Z.of_nat (length vs)) :: map shown vs end.
Definition shown_row (row : list datum) : text := join sp (concat (map shown_datum row)).
Definition decimals_readable (e : element) : Prop :=
  Forall (fun p => p_list p = None) (e_props e) \/
  Forall (fun p => p_list p = None -> t_kind (p_type p) = Floating -> t_name (p_type p) = str "float" \/ t_name (p_type p) = str "double") (e_props e).

(* ---- files ---- *)
Notation content := (list (element * list (list datum))).
Definition good_property (p : prop) : Prop := word_ok (p_name p) /\ In (p_type p) standard_types /\ match p_list p with Some s => In s standard_types | None => True end.
Definition good_element (fit : prop -> datum -> Prop) (er : element * list (list datum)) : Prop :=
  let e := fst er in
  word_ok (e_name e) /\ e_count e = Z.of_nat (length (snd er)) /\ e_props e <> [] /\ NoDup (map p_name (e_props e)) /\
  Forall good_property (e_props e) /\ Forall (fun row => Forall2 fit (e_props e) row) (snd er).
Definition good_content (fit : prop -> datum -> Prop) (es : content) : Prop :=
  es <> [] /\ NoDup (map (fun er => e_name (fst er)) es) /\ Forall (good_element fit) es.
Definition binary_data (big : bool) (es : content) : text := concat (map (fun er => concat (map (stored_row big (e_props (fst er))) (snd er))) es).
Definition binary_file (big : bool) (es : content) : text := unlines (the_header (FBinary big) (map fst es)) ++ binary_data big es.
Definition text_file (es : content) : text := unlines (the_header FAscii (map fst es)) ++ unlines (concat (map (fun er => map shown_row (snd er)) es)).

(* ---- what should be loaded ---- *)
Definition has_value (ps : list prop) (row : list datum) (name : string) (v : num) : Prop :=
  exists i p, nth_error ps i = Some p /\ p_name p = str name /\ nth_error row i = Some (One v).
Definition columns_are (ps : list prop) (rows : list (list datum)) (names : list string) (out : list (list num)) : Prop :=
  Forall2 (fun row vs => Forall2 (has_value ps row) names vs) rows out.
Definition has_names (ps : list prop) (names : list string) : Prop := forall n, In n names -> In (str n) (map p_name ps).
Definition maybe_columns (ps : list prop) (rows : list (list datum)) (names : list string) (o : option (list (list num))) : Prop :=
  match o with Some out => has_names ps names /\ columns_are ps rows names out | None => ~ has_names ps names end.
Definition rgb : list string := ["red"; "green"; "blue"]%string.
(* the colours are divided by 255 exactly when all three are bytes *)
Definition reads_vertices (ps : list prop) (rows : list (list datum)) (v : verts_data) : Prop :=
  columns_are ps rows ["x"; "y"; "z"]%string (v_verts v) /\
  maybe_columns ps rows rgb (option_map snd (v_colors v)) /\
  (forall scaled c, v_colors v = Some (scaled, c) ->
     (scaled = true <-> (forall p n, In p ps -> In n rgb -> p_name p = str n -> t_size (p_type p) = 1%nat))) /\
  (rows <> [] -> maybe_columns ps rows ["nx"; "ny"; "nz"]%string (v_normals v)) /\
  (rows <> [] -> maybe_columns ps rows ["texture_u"; "texture_v"]%string (v_uvs v)).
(* three columns of one type are taken as they come *)
Definition in_order_if_three (ps : list prop) : Prop :=
  length ps = 3%nat -> (forall p q, In p ps -> In q ps -> t_size (p_type p) = t_size (p_type q) /\ t_kind (p_type p) = t_kind (p_type q)) ->
  map p_name ps = map str ["x"; "y"; "z"]%string.
Definition good_vertices (es : content) (ps : list prop) (rows : list (list datum)) : Prop :=
  exists e, In (e, rows) es /\ e_name e = str "vertex" /\ e_props e = ps /\
    Forall (fun p => p_list p = None) ps /\ has_names ps ["x"; "y"; "z"]%string /\ in_order_if_three ps.
(* the polygons of the file: one list of integers per face *)
Definition polygons (es : content) (polys : option (list (list Z))) : Prop :=
  match polys with
  | None => ~ In (str "face") (map (fun er => e_name (fst er)) es)
  | Some fs => exists e p, In (e, map (fun f => [Many (map Whole f)]) fs) es /\ e_name e = str "face" /\ e_props e = [p] /\ p_list p <> None
  end.
Definition fan (f : list Z) : list (list Z) := map (fun i => [nth 0 f 0; nth (i + 1) f 0; nth (i + 2) f 0]) (seq 0 (length f - 2)).
Definition reads_faces (polys : option (list (list Z))) (fs : option (list (list Z))) : Prop :=
  match polys with
  | None | Some [] => fs = None
  | Some ps => exists out, fs = Some out /\ Permutation out (concat (map fan ps)) /\ (Forall (fun f => length f = 3%nat) ps -> out = ps)
  end.
Definition at_least_three (polys : option (list (list Z))) : Prop := match polys with Some ps => Forall (fun f => (3 <= length f)%nat) ps | None => True end.
(* the lines the reader has to see to finish the header *)
Definition header_length (es : content) : nat := sum_nat (map (fun er => S (length (e_props (fst er)))) es) + 2.

(* ---- a line that ends the header ---- *)
Definition ends_header (l : text) : Prop := strip str_space l = str "end_header".
Definition has_end (file : text) : Prop := exists l, In l (tl (lines file)) /\ ends_header l.
(* a number of a text is the number x rounded to d decimal places *)
Definition rounded (d : nat) (x : f32) (v : num) : Prop := exists y, v = Decimal y /\ rounds_to d (f32_value x) y.

(* ---- what can be written ---- *)
Definition good_rows (rows : list (list f32)) : Prop := Forall (fun r => length r = 3%nat /\ Forall (fun b => (b < 2 ^ 32)%N) r) rows.
Definition good_matrix (n : nat) (o : option matrix) : Prop := match o with Some m => m_width m = 3%nat /\ length (m_rows m) = n /\ good_rows (m_rows m) | None => True end.
Definition good_faces (o : option (list (list Z))) : Prop := match o with Some fs => Forall (fun f => length f = 3%nat /\ Forall (fun i => - 2 ^ 31 <= i < 2 ^ 31) f) fs | None => True end.
Definition writable (verts : list (list f32)) (faces : option (list (list Z))) (normals colors : option matrix) : Prop :=
  good_rows verts /\ good_faces faces /\ good_matrix (length verts) normals /\ good_matrix (length verts) colors.
(* neither infinite nor nan *)
Definition finite (b : f32) : Prop := (Z.of_N b / 2 ^ 23) mod 2 ^ 8 <> 255.
Definition finite_rows (o : option matrix) : Prop := match o with Some m => Forall (Forall finite) (m_rows m) | None => True end.
Definition kept_faces (verts : list (list f32)) (faces : option (list (list Z))) : option (list (list Z)) :=
  match verts, faces with _ :: _, Some (f :: fs) => Some (f :: fs) | _, _ => None end.
Definition bits_of (rows : list (list f32)) : list (list num) := map (map Single) rows.
Definition color_bytes (rows : list (list f32)) : list (list num) := map (map (fun c => Whole (Z.of_N (color_byte c)))) rows.
Definition places (decimal_places : option nat) : nat := match decimal_places with Some d => d | None => 6%nat end.
Definition rounded_rows (d : nat) (rows : list (list f32)) (out : list (list num)) : Prop := Forall2 (Forall2 (rounded d)) rows out.
