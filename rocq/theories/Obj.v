(* Model of pytorch3d/io/obj_io.py: reading and writing .obj files. Coordinates read are exact decimals (the code stores
   float32), coordinates written are real numbers. The contents of material files are a parameter. *)
From Coq Require Import Ascii String ZArith Reals Bool List.
From Verif Require Import Base RBase Text Ply.
Import ListNotations.
Local Open Scope list_scope.
Local Open Scope Z_scope.

(* ---- Python strings ---- *)
(* str.split() *)
Fixpoint toks_from (cur l : text) : list text :=
  match l with
  | [] => flush cur
  | c :: l' => if str_space c then flush cur ++ toks_from [] l' else toks_from (cur ++ [c]) l'
  end.
Definition toks (l : text) : list text := toks_from [] l.
(* str.split("/") *)
Definition slash : ascii := "/"%char.
Fixpoint slash_from (cur l : text) : list text :=
  match l with
  | [] => [cur]
  | c :: l' => if Ascii.eqb c slash then cur :: slash_from [] l' else slash_from (cur ++ [c]) l'
  end.
Definition slashes (l : text) : list text := slash_from [] l.
(* int(word), float(word): ValueError when it is no number *)
Definition int_of (w : text) : result Z := match parse_int w with Some z => Ok z | None => Fail EValue end.
Definition float_of (w : text) : result dec := match parse_float w with Some x => Ok x | None => Fail EValue end.

(* ---- 366-434 _parse_face ---- *)
(* 382-397: the parts of one vertex of a face *)
Definition corner_of (parts : list text) : result (Z * option Z * option Z) :=
  match parts with
  | [] => Fail EIndex
  | v :: rest =>
      v <- int_of v ;;
      match rest with
      | [] => Ok (v, None, None)
      | t :: rest =>
          t <- match t with [] => Ok None | _ => t <- int_of t ;; Ok (Some t) end ;;
          n <- match rest with [] => Ok None | n :: _ => n <- int_of n ;; Ok (Some n) end ;;
          match rest with _ :: _ :: _ => Fail EValue | _ => Ok (v, t, n) end
      end
  end.
Definition somes {A} (l : list (option A)) : list A := flat_map (fun o => match o with Some a => [a] | None => [] end) l.
(* 407-424: all vertices of the face have the property, or none; -1 stands for a missing one *)
Definition fill (n : nat) (l : list Z) : result (list Z) := match l with [] => Ok (repeat (-1) n) | _ => if (length l =? n)%nat then Ok l else Fail EValue end.
(* 428-434 *)
Definition split_face (l : list Z) : result (list (list Z)) :=
  rmap (fun i => a <- rget l 0 ;; b <- rget l (i + 1) ;; c <- rget l (i + 2) ;; Ok [a; b; c]) (seq 0 (length l - 2)).
Definition parse_face (words : list text) : result (list (list Z) * list (list Z) * list (list Z)) :=
  cs <- rmap (fun w => corner_of (slashes w)) words ;;
  let fv := map (fun c => fst (fst c)) cs in
  fn <- fill (length fv) (somes (map snd cs)) ;;
  ft <- fill (length fv) (somes (map (fun c => snd (fst c)) cs)) ;;
  tv <- split_face fv ;; tn <- split_face fn ;; tx <- split_face ft ;;
  Ok (tv, tn, tx).

(* ---- 437-517 _parse_obj ---- *)
Record pstate := PS { p_verts : list (list dec); p_normals : list (list dec); p_uvs : list (list dec);
  p_fv : list (list Z); p_fn : list (list Z); p_ft : list (list Z); p_fm : list Z;
  p_names : list text; p_mtl : option text; p_cur : Z }.
Fixpoint index_of (w : text) (l : list text) : option nat := match l with [] => None | x :: l => if text_eqb x w then Some O else option_map S (index_of w l) end.
(* 459-504, one stripped line; os.path.join with the directory (466) is left out *)
Definition obj_line (s : pstate) (line : text) : result pstate :=
  let ts := toks line in
  if starts "mtllib" line then
    match ts with
    | w :: _ :: _ => Ok (PS (p_verts s) (p_normals s) (p_uvs s) (p_fv s) (p_fn s) (p_ft s) (p_fm s) (p_names s) (Some (strip str_space (skipn (length w) line))) (p_cur s))
    | _ => Fail EValue
    end
  else if match ts with w :: _ => text_eqb w (str "usemtl") | [] => false end then
    match ts with
    | _ :: name :: _ =>
        match index_of name (p_names s) with
        | None => Ok (PS (p_verts s) (p_normals s) (p_uvs s) (p_fv s) (p_fn s) (p_ft s) (p_fm s) (p_names s ++ [name]) (p_mtl s) (Z.of_nat (length (p_names s))))
        | Some i => Ok (PS (p_verts s) (p_normals s) (p_uvs s) (p_fv s) (p_fn s) (p_ft s) (p_fm s) (p_names s) (p_mtl s) (Z.of_nat i))
        end
    | _ => Fail EIndex
    end
  else if starts "v " line then
    v <- rmap float_of (firstn 3 (tl ts)) ;;
    if negb (length v =? 3)%nat then Fail EValue else Ok (PS (p_verts s ++ [v]) (p_normals s) (p_uvs s) (p_fv s) (p_fn s) (p_ft s) (p_fm s) (p_names s) (p_mtl s) (p_cur s))
  else if starts "vt " line then
    v <- rmap float_of (firstn 2 (tl ts)) ;;
    if negb (length v =? 2)%nat then Fail EValue else Ok (PS (p_verts s) (p_normals s) (p_uvs s ++ [v]) (p_fv s) (p_fn s) (p_ft s) (p_fm s) (p_names s) (p_mtl s) (p_cur s))
  else if starts "vn " line then
    v <- rmap float_of (firstn 3 (tl ts)) ;;
    if negb (length v =? 3)%nat then Fail EValue else Ok (PS (p_verts s) (p_normals s ++ [v]) (p_uvs s) (p_fv s) (p_fn s) (p_ft s) (p_fm s) (p_names s) (p_mtl s) (p_cur s))
  else if starts "f " line then
    f <- parse_face (tl ts) ;;
    let '(tv, tn, tx) := f in
    Ok (PS (p_verts s) (p_normals s) (p_uvs s) (p_fv s ++ tv) (p_fn s ++ tn) (p_ft s ++ tx) (p_fm s ++ map (fun _ => p_cur s) tv) (p_names s) (p_mtl s) (p_cur s))
  else Ok s.
Definition start : pstate := PS [] [] [] [] [] [] [] [] None (-1).
(* 449: the lines of the file; only "\n" ends a line *)
Definition parse_obj (file : text) : result pstate := rfold (fun s l => obj_line s (strip str_space l)) (lines file) start.

(* ---- 37-80 _format_faces_indices and io/utils.py 50-61: the indices, and whether a warning is given ---- *)
Definition from_end (n i : Z) : Z := let i := if 0 <? i then i - 1 else i in if i <? 0 then i + n else i.
Definition all_pad (row : list Z) : bool := forallb (fun i => i =? -1) row.
Definition format_indices (rows : list (list Z)) (n : Z) (pad : bool) : list (list Z) * bool :=
  let out := map (fun row => if pad && all_pad row then row else map (from_end n) row) rows in
  (out, existsb (fun row => negb (pad && all_pad row) && existsb (fun i => (n <=? i) || (i <? 0)) row) out).

(* ---- 563-687 _load_obj, without the texture atlas; [materials]: the names of the materials in the file, when it is
        loaded (520-560) ---- *)
Record obj := O { o_verts : list (list dec); o_faces : list (list Z); o_normals_idx : list (list Z); o_textures_idx : list (list Z); o_materials_idx : list Z;
  o_normals : option (list (list dec)); o_uvs : option (list (list dec)); o_names : list text; o_mtl : option text; o_warned : bool }.
Definition load_obj (materials : text -> option (list text)) (file : text) : result obj :=
  s <- parse_obj file ;;
  let '(fv, w1) := format_indices (p_fv s) (Z.of_nat (length (p_verts s))) false in
  let '(fn, w2) := match p_fn s with [] => ([], false) | _ => format_indices (p_fn s) (Z.of_nat (length (p_normals s))) true end in
  let '(ft, w3) := match p_ft s with [] => ([], false) | _ => format_indices (p_ft s) (Z.of_nat (length (p_uvs s))) true end in
  let mats := match p_mtl s with Some f => materials f | None => None end in
  let '(names, fm) := match mats, p_names s with
                      | Some (m :: _), [] => ([m], map (Z.max 0) (p_fm s))
                      | _, names => (names, p_fm s)
                      end in
  Ok (O (p_verts s) fv fn ft fm (match p_normals s with [] => None | n => Some n end) (match p_uvs s with [] => None | u => Some u end) names (p_mtl s) (w1 || w2 || w3)).

(* ---- 688-792 save_obj, 795-870 _save, 873-898 _write_normals, 901-949 _write_faces; the image and the material file
        (778-792) are left out, as is the warning about indices ---- *)
Record table (A : Type) := T { width : nat; rows : list (list A) }.
Arguments T {A}. Arguments width {A}. Arguments rows {A}.
Definition numbers (d : nat) (row : list R) : text := join sp (map (print_real d) row).
(* 901-949: the words of face i *)
Definition face_words (f : list Z) (uv nm : option (list Z)) : result (list text) :=
  rmap (fun j =>
    a <- rget f j ;;
    match nm, uv with
    | Some n, Some u => b <- rget u j ;; c <- rget n j ;; Ok (print_int (a + 1) ++ slash :: print_int (b + 1) ++ slash :: print_int (c + 1))
    | Some n, None => c <- rget n j ;; Ok (print_int (a + 1) ++ slash :: slash :: print_int (c + 1))
    | None, Some u => b <- rget u j ;; Ok (print_int (a + 1) ++ slash :: print_int (b + 1))
    | None, None => Ok (print_int (a + 1))
    end) (seq 0 (length f)).
Definition row_at {A} (t : option (table A)) (i : nat) : result (option (list A)) := match t with None => Ok None | Some t => match nth_error (rows t) i with Some r => Ok (Some r) | None => Fail EIndex end end.
Definition write_faces (faces : list (list Z)) (uvs normals : option (table Z)) : result text :=
  ls <- rmap (fun i => f <- rget faces i ;; u <- row_at uvs i ;; n <- row_at normals i ;; ws <- face_words f u n ;;
                       Ok (str "f " ++ join sp ws ++ (if (i + 1 <? length faces)%nat then [nl] else []))) (seq 0 (length faces)) ;;
  Ok (concat ls).
Definition threes {A} (l : list (list A)) : bool := forallb (fun r => (length r =? 3)%nat) l.
Definition wide {A} (w : nat) (t : option (table A)) : bool := match t with Some t => (width t =? w)%nat | None => true end.
Definition has {A} (o : option A) : bool := match o with Some _ => true | None => false end.
Definition save_obj (stem : text) (verts : list (list R)) (faces : list (list Z)) (decimal_places : option nat) (normals : option (table R)) (faces_normals_idx : option (table Z))
    (verts_uvs : option (table R)) (faces_uvs : option (table Z)) (texture_map : bool) : result text :=
  if negb (threes verts) then Fail EValue
  else if negb (threes faces) then Fail EValue
  else if negb (Bool.eqb (has normals) (has faces_normals_idx)) then Fail EValue
  else if negb (wide 3 faces_normals_idx) then Fail EValue
  else if negb (wide 3 normals) then Fail EValue
  else if negb (wide 3 faces_uvs) then Fail EValue
  else if negb (wide 2 verts_uvs) then Fail EValue
  else
    let save_texture := has faces_uvs && has verts_uvs && texture_map in
    let header := if save_texture then [nl] ++ str "mtllib " ++ stem ++ str ".mtl" ++ [nl] ++ str "usemtl mesh" ++ [nl; nl] else [] in
    match verts, faces with
    | [], [] => Ok header
    | _, _ =>
        let d := match decimal_places with Some d => d | None => 6%nat end in
        let vl := concat (map (fun v => str "v " ++ numbers d v ++ [nl]) verts) in
        let nls := match normals with Some n => concat (map (fun v => str "vn " ++ numbers d v ++ [nl]) (rows n)) | None => [] end in
        let ul := if save_texture then match verts_uvs with Some u => concat (map (fun v => str "vt " ++ numbers d v ++ [nl]) (rows u)) | None => [] end else [] in
        fl <- write_faces faces (if save_texture then faces_uvs else None) faces_normals_idx ;;
        Ok (header ++ vl ++ nls ++ ul ++ fl)
    end.
