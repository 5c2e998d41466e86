(* Model of io/off_io.py. Vertices and colours are exact numbers (the rounding to float32 is modelled for the face
   indices only). Warnings, path handling and devices are not modelled. *)
From Coq Require Import Ascii String ZArith NArith Reals Bool List.
From Verif Require Import Base RBase Text.
Import ListNotations.
Local Open Scope Z_scope.

(* 31-36 *)
Definition line_empty (l : text) : bool := match lstrip l with [] => true | c :: _ => Ascii.eqb c "#"%char end.
(* 39-54: the points before any # on the next meaningful line; the end of the file raises *)
Fixpoint count_periods (ls : list text) : result nat :=
  match ls with
  | [] => Fail EValue
  | l :: ls => if line_empty l then count_periods ls else Ok (count_char "."%char (before_hash l))
  end.
(* np.loadtxt(file, ndmin=2, max_rows=n) on the remaining lines: # starts a comment, lines without words are
   skipped, all rows must have the same number of words. A row with another number of words and a word that is
   no number raise different messages of ValueError. *)
Inductive load_error := Columns | BadNumber.
Fixpoint all_numbers (ws : list text) : option (list dec) :=
  match ws with [] => Some [] | w :: ws => match parse_float w, all_numbers ws with Some x, Some xs => Some (x :: xs) | _, _ => None end end.
Fixpoint loadtxt (ls : list text) (n : nat) (cols : option nat) : (list (list dec) * list text) + load_error :=
  match n with
  | O => inl ([], ls)
  | S n' =>
      match ls with
      | [] => inl ([], [])
      | l :: ls' =>
          match words (before_hash l) with
          | [] => loadtxt ls' n cols
          | ws => if match cols with Some c => negb (length ws =? c)%nat | None => false end then inr Columns
                  else match all_numbers ws with
                       | None => inr BadNumber
                       | Some row => match loadtxt ls' n' (Some (length ws)) with
                                     | inl (rows, rest) => inl (row :: rows, rest)
                                     | inr e => inr e
                                     end
                       end
          end
      end
  end.
(* colours are divided by 255 when they are written as integers *)
Record colours := { by_255 : bool; rows_of : list (list dec) }.
Definition width (rows : list (list dec)) : nat := match rows with r :: _ => length r | [] => 1%nat end.    (* an empty array is (0, 1) *)
(* 174-203 *)
Definition read_verts (ls : list text) (n : nat) : result (list (list dec) * option colours * list text) :=
  periods <- count_periods ls ;;
  match loadtxt ls n None with
  | inr _ => Fail EValue
  | inl (rows, rest) =>
      if negb (length rows =? n)%nat then Fail EValue
      else let w := width rows in
           if (w =? 3)%nat then Ok (rows, None, rest)
           else if ((w =? 6) || (w =? 7))%nat then Ok (map (firstn 3) rows, Some {| by_255 := (periods =? 3)%nat; rows_of := map (skipn 3) rows |}, rest)
           else Fail EValue
  end.
(* a face index is read as a float32 and converted to int64; numbers with a fraction are only truncated *)
Definition to_index (x : dec) : Z := if exp x =? 0 then fround 24 (man x) else to_int x.
Definition is_integer (x : dec) (z : Z) : bool := if 0 <=? exp x then man x =? z * 10 ^ exp x else man x * 10 ^ (- exp x) =? z.
(* 57-126, for n_faces > 0; None: the rows have different numbers of words *)
Definition faces_lump (ls : list text) (n : nat) (n_colors : option Z) : result (option (list (list Z) * Z * option (list (list dec)) * list text)) :=
  match loadtxt ls n None with
  | inr e => match e with Columns => if (1 <? n)%nat then Ok None else Fail EValue | BadNumber => Fail EValue end
  | inl (data, rest) =>
      if negb (length data =? n)%nat then Fail EValue
      else match data with
           | (x :: _) :: _ =>
               let face_size := to_int x in
               if existsb (fun row => match row with x :: _ => negb (is_integer x face_size) | [] => true end) data then Fail EValue
               else if face_size <? 3 then Fail EValue
               else let found := Z.of_nat (width data) - 1 - face_size in
                    if match n_colors with Some c => negb (found =? c) | None => false end then Fail EValue
                    else if negb ((found =? 0) || (found =? 3) || (found =? 4)) then Fail EValue
                    else let fs := Z.to_nat face_size in
                         let raw := map (fun row => map to_index (firstn fs (skipn 1 row))) data in
                         let faces := if (fs =? 3)%nat then raw
                                      else concat (map (fun i => map (fun f => [nth 0 f 0; nth (i + 1) f 0; nth (i + 2) f 0]) raw) (seq 0 (fs - 2))) in
                         if found =? 0 then Ok (Some (faces, 0, None, rest))
                         else let colors := map (skipn (1 + fs)) data in
                              Ok (Some (faces, found, Some (if (fs =? 3)%nat then colors else concat (repeat colors (fs - 2))), rest))
           | _ => Fail EIndex
           end
  end.
(* 152-169: one face after the other *)
Fixpoint one_by_one (n : nat) (ls : list text) (n_colors : option Z) : result (list (list Z) * option Z * list (option (list (list dec))) * list text) :=
  match n with
  | O => Ok ([], n_colors, [], ls)
  | S n => r <- faces_lump ls 1 n_colors ;;
           match r with
           | None => Fail EType
           | Some (f, nc, c, rest) => r <- one_by_one n rest (Some nc) ;;
                                      let '(fs, nc', cs, rest') := r in Ok (f ++ fs, nc', c :: cs, rest')
           end
  end.
(* 129-171 *)
Definition read_faces (ls : list text) (n : nat) : result (option (list (list Z)) * option colours * list text) :=
  match n with
  | O => Ok (None, None, ls)
  | _ =>
      periods <- count_periods ls ;;
      let is_int := (periods =? 0)%nat in
      lump <- faces_lump ls n None ;;
      match lump with
      | Some (f, _, None, rest) => Ok (Some f, None, rest)
      | Some (f, _, Some c, rest) => Ok (Some f, Some {| by_255 := is_int; rows_of := c |}, rest)
      | None =>
          r <- one_by_one n ls None ;;
          let '(f, nc, cs, rest) := r in
          match nc with
          | Some 0 => Ok (Some f, None, rest)
          | _ => Ok (Some f, Some {| by_255 := is_int; rows_of := concat (map (fun c => match c with Some c => c | None => [] end) cs) |}, rest)
          end
      end
  end.
(* 234-244: the loops run until a meaningful line has been read. At the end of the file readline() returns b""
   for ever. None: not finished after so many steps. *)
Fixpoint skip_empty (fuel : nat) (header : text) (ls : list text) : option (text * list text) :=
  if line_empty header
  then match fuel with O => None | S fuel => match ls with [] => skip_empty fuel [] [] | l :: ls => skip_empty fuel l ls end end
  else Some (header, ls).
Definition lower (c : ascii) : ascii := let n := nat_of_ascii c in if ((65 <=? n) && (n <=? 90))%nat then chr (n + 32) else c.
Definition text_eqb (a b : text) : bool := if list_eq_dec ascii_dec a b then true else false.
Definition drop_off (h : text) : text := if text_eqb (map lower (firstn 3 h)) (str "off") then skipn 3 h else h.
Record off_data := { o_verts : list (list dec); o_vcol : option colours; o_faces : option (list (list Z)); o_fcol : option colours }.
(* 206-283 *)
Definition load_body (header : text) (ls : list text) : result off_data :=
  match words header with
  | a :: b :: c :: more =>
      match parse_int a, parse_int b with
      | Some nv, Some nf =>
          if (match more with w :: _ => match w with ch :: _ => negb (Ascii.eqb ch "#"%char) | [] => true end | [] => false end) || (nv <? 0) || (nf <? 0) then Fail EValue
          else r <- read_verts ls (Z.to_nat nv) ;;
               let '(verts, vcol, ls) := r in
               r <- read_faces ls (Z.to_nat nf) ;;
               let '(faces, fcol, ls) := r in
               match lstrip (concat ls) with
               | [] => Ok {| o_verts := verts; o_vcol := vcol; o_faces := faces; o_fcol := fcol |}
               | _ => Fail EValue
               end
      | _, _ => Fail EValue
      end
  | _ => Fail EValue
  end.
Definition load_off_stream (fuel : nat) (file : text) : option (result off_data) :=
  let ls := lines file in
  let '(header, ls) := match ls with [] => ([], []) | l :: ls => (l, ls) end in
  match skip_empty fuel header ls with
  | None => None
  | Some (header, ls) =>
      match skip_empty fuel (drop_off header) ls with
      | None => None
      | Some (header, ls) => Some (load_body header ls)
      end
  end.

(* ---- writing ---- *)
Definition line_of (ws : list text) : text := join sp ws ++ [nl].
(* 286-330. %d of an index in an array with colours prints a float64. *)
Definition write_off_data (verts : list (list R)) (vcol : option (list (list R))) (faces : option (list (list Z))) (fcol : option (list (list R))) (decimal_places : option nat) : text :=
  let nf := match faces with Some f => length f | None => 0%nat end in
  let d := match decimal_places with Some d => d | None => 6%nat end in
  let rows := match vcol with Some c => map (fun p => fst p ++ snd p) (combine verts c) | None => verts end in
  str "off" ++ [nl] ++ line_of [print_int (Z.of_nat (length verts)); print_int (Z.of_nat nf); print_int 0] ++
  concat (map (fun r => line_of (map (print_real d) r)) rows) ++
  match faces, fcol with
  | Some f, Some c => concat (map (fun p => line_of (str "3" :: map (fun i => print_int (fround 53 i)) (fst p) ++ map (print_real 6) (snd p))) (combine f c))
  | Some f, None => concat (map (fun f => line_of (str "3" :: map print_int f)) f)
  | None, _ => []
  end.
Definition nonempty {A} (o : option (list A)) : option (list A) := match o with Some (_ :: _) => o | _ => None end.
Definition width34 (rows : list (list R)) : bool := forallb (fun r => (length r =? 3)%nat) rows || forallb (fun r => (length r =? 4)%nat) rows.
(* 333-387 *)
Definition save_off (verts : list (list R)) (vcol : option (list (list R))) (faces : option (list (list Z))) (fcol : option (list (list R))) (decimal_places : option nat) : result text :=
  if negb (forallb (fun r => (length r =? 3)%nat) verts) then Fail EValue
  else let vcol := nonempty vcol in let fcol := nonempty fcol in let faces := nonempty faces in
       if match vcol with Some c => negb (width34 c) || negb (length c =? length verts)%nat | None => false end then Fail EValue
       else if match faces with Some f => negb (forallb (fun r => (length r =? 3)%nat) f) | None => false end then Fail EValue
       else if match fcol, faces with Some _, None => true | Some c, Some f => negb (width34 c) || negb (length c =? length f)%nat | None, _ => false end then Fail EValue
       else Ok (write_off_data verts vcol faces fcol decimal_places).
(* 390-500: the textures an OFF file can hold are one colour per vertex, or per face *)
Inductive texture C := VertexColours (c : C) | FaceColours (c : C) | OtherTexture.
Arguments VertexColours {C}. Arguments FaceColours {C}. Arguments OtherTexture {C}.
Definition format_save (verts : list (list R)) (faces : list (list Z)) (tex : option (texture (list (list R)))) (decimal_places : option nat) : result text :=
  save_off verts (match tex with Some (VertexColours c) => Some c | _ => None end) (Some faces) (match tex with Some (FaceColours c) => Some c | _ => None end) decimal_places.
Record off_mesh := { m_verts : list (list dec); m_faces : list (list Z); m_tex : option (texture colours) }.
Definition format_read (fuel : nat) (include_textures : bool) (file : text) : option (result off_mesh) :=
  match load_off_stream fuel file with
  | None => None
  | Some (Fail e) => Some (Fail e)
  | Some (Ok d) => Some (Ok {| m_verts := o_verts d; m_faces := match o_faces d with Some f => f | None => [] end;
                               m_tex := match o_vcol d, o_fcol d with Some c, _ => Some (VertexColours c) | None, Some c => Some (FaceColours c) | None, None => None end |})
  end.
