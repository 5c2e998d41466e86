(* Model of io/ply_io.py: the readers of text and binary files and the writer. A file is a list of bytes; `host` is
   sys.byteorder == "big". Integers are exact, binary floats are their bit patterns and decimal numbers are exact:
   the conversion of a number to float32 is not computed (a float32 is itself). Comments, texture images, path
   handling, warnings and devices are not modelled. *)
From Coq Require Import Ascii String ZArith NArith Reals Bool List.
From Verif Require Import Base RBase Text.
Import ListNotations.
Local Open Scope Z_scope.

Definition text_eqb (a b : text) : bool := if list_eq_dec ascii_dec a b then true else false.
(* str.strip() *)
Definition str_space (c : ascii) : bool := is_space c || let n := nat_of_ascii c in ((28 <=? n) && (n <=? 31))%nat.
Fixpoint drop_while (p : ascii -> bool) (l : text) : text := match l with [] => [] | c :: l' => if p c then drop_while p l' else l end.
Definition strip (p : ascii -> bool) (l : text) : text := rev (drop_while p (rev (drop_while p l))).
(* line.split(" ") *)
Fixpoint split_from (cur l : text) : list text :=
  match l with [] => [cur] | c :: l' => if Ascii.eqb c sp then cur :: split_from [] l' else split_from (cur ++ [c]) l' end.
Definition split_sp (l : text) : list text := split_from [] l.
Definition starts (p : string) (l : text) : bool := text_eqb (firstn (length (str p)) l) (str p).

(* ---- types: 46-64 ---- *)
Inductive kind := Signed | Unsigned | Floating.
Record ptype := PT { t_name : text; t_size : nat; t_kind : kind }.
Definition ply_types : list ptype :=
  [PT (str "char") 1 Signed; PT (str "uchar") 1 Unsigned; PT (str "short") 2 Signed; PT (str "ushort") 2 Unsigned;
   PT (str "int") 4 Signed; PT (str "uint") 4 Unsigned; PT (str "float") 4 Floating; PT (str "double") 8 Floating;
   PT (str "int8") 1 Signed; PT (str "uint8") 1 Unsigned; PT (str "int16") 2 Signed; PT (str "uint16") 2 Unsigned;
   PT (str "int32") 4 Signed; PT (str "uint32") 4 Unsigned; PT (str "float32") 4 Floating; PT (str "float64") 8 Floating].
Definition find_type (n : text) : option ptype := find (fun t => text_eqb (t_name t) n) ply_types.
Definition kind_eqb (a b : kind) : bool := match a, b with Signed, Signed | Unsigned, Unsigned | Floating, Floating => true | _, _ => false end.
Definition type_eqb (a b : ptype) : bool := (t_size a =? t_size b)%nat && kind_eqb (t_kind a) (t_kind b).

Record prop := Prop_ { p_name : text; p_type : ptype; p_list : option ptype }.
Record element := El { e_name : text; e_count : Z; e_props : list prop }.
(* 101-139: is_fixed_size, is_constant_type_fixed_size, try_constant_list *)
Definition is_fixed (e : element) : bool := forallb (fun p => match p_list p with None => true | Some _ => false end) (e_props e).
Definition is_constant_type (e : element) : bool :=
  is_fixed e && match e_props e with [] => false | p :: _ => forallb (fun q => type_eqb (p_type q) (p_type p)) (e_props e) end.
Definition single_list (e : element) : option (ptype * ptype) := match e_props e with [p] => match p_list p with Some s => Some (s, p_type p) | None => None end | _ => None end.

(* ---- header: 142-250 ---- *)
Inductive fmt := FAscii | FBinary (big : bool).
Record hstate := HS { seen : option fmt; els : list element }.          (* the last element first *)
Definition parse_property (st : hstate) (line : text) : result hstate :=
  match els st with
  | [] => Fail EValue
  | e :: es =>
      match split_sp line with
      | [_; ty; name] =>
          if text_eqb ty (str "list") then Fail EIndex                  (* items[3] *)
          else match find_type ty with
               | None => Fail EValue
               | Some t => if existsb (fun q => text_eqb (p_name q) name) (e_props e) then Fail EValue
                           else Ok (HS (seen st) (El (e_name e) (e_count e) (e_props e ++ [Prop_ name t None]) :: es))
               end
      | [_; ty; a; b; name] =>
          if text_eqb ty (str "list") then
            match find_type a, find_type b with
            | Some s, Some t => if existsb (fun q => text_eqb (p_name q) name) (e_props e) then Fail EValue
                                else Ok (HS (seen st) (El (e_name e) (e_count e) (e_props e ++ [Prop_ name t (Some s)]) :: es))
            | _, _ => Fail EValue
            end
          else match find_type ty with
               | None => Fail EValue
               | Some t => if existsb (fun q => text_eqb (p_name q) name) (e_props e) then Fail EValue
                           else Ok (HS (seen st) (El (e_name e) (e_count e) (e_props e ++ [Prop_ name t None]) :: es))
               end
      | _ => Fail EValue
      end
  end.
Definition no_props (st : hstate) : bool := match els st with e :: _ => match e_props e with [] => true | _ => false end | [] => false end.
Definition parse_element (st : hstate) (line : text) : result hstate :=
  if no_props st then Fail EValue
  else match split_sp line with
       | [_; name; n] => match parse_int n with Some c => Ok (HS (seen st) (El name c [] :: els st)) | None => Fail EValue end
       | _ => Fail EValue
       end.
Definition format_of (line : text) : option fmt :=
  if text_eqb line (str "format ascii 1.0") then Some FAscii
  else if text_eqb line (str "format binary_little_endian 1.0") then Some (FBinary false)
  else if text_eqb line (str "format binary_big_endian 1.0") then Some (FBinary true)
  else None.
Definition header_step (st : hstate) (line : text) : result (hstate + (fmt * list element)) :=
  if text_eqb line (str "end_header") then
    match els st, seen st with
    | [], _ => Fail EValue
    | _, f => if no_props st then Fail EValue else match f with None => Fail EValue | Some f => Ok (inr (f, rev (els st))) end
    end
  else match match seen st with None => format_of line | Some _ => None end with
       | Some f => Ok (inl (HS (Some f) (els st)))
       | None =>
           if starts "format" line then Fail EValue
           else if starts "comment" line || match line with [] => true | _ => false end then Ok (inl st)
           else if starts "element" line then st <- parse_element st line ;; Ok (inl st)
           else if starts "obj_info " line then Ok (inl st)
           else if starts "property" line then st <- parse_property st line ;; Ok (inl st)
           else Fail EValue
       end.
(* bytes.decode("ascii") *)
Definition is_ascii (l : text) : bool := forallb (fun c => (nat_of_ascii c <? 128)%nat) l.
(* `while True`; at the end of the file readline() returns b"" for ever. None: not finished after so many lines. *)
Fixpoint header_loop (fuel : nat) (st : hstate) (ls : list text) : option (result (fmt * list element * list text)) :=
  match fuel with
  | O => None
  | S fuel =>
      let '(line, ls) := match ls with [] => ([], []) | l :: ls => (l, ls) end in
      if negb (is_ascii line) then Some (Fail EValue)
      else match header_step st (strip str_space line) with
           | Fail e => Some (Fail e)
           | Ok (inr (f, es)) => Some (Ok (f, es, ls))
           | Ok (inl st) => header_loop fuel st ls
           end
  end.
Definition read_header (fuel : nat) (ls : list text) : option (result (fmt * list element * list text)) :=
  match ls with
  | l :: ls => if text_eqb l (str "ply" ++ [nl]) || text_eqb l (str "ply" ++ [chr 13; nl]) then header_loop fuel (HS None []) ls else Some (Fail EValue)
  | [] => Some (Fail EValue)
  end.

(* ---- numbers ---- *)
Inductive num := Whole (z : Z) | Single (bits : N) | Double (bits : N) | Decimal (d : dec).
(* the data of an element: [], a list of 2-dim arrays, a 2-dim array, or a list of lists of values *)
Inductive datum := One (x : num) | Many (l : list num).
Inductive edata := Nothing | Parts (ps : list (list (list num))) | Array (rows : list (list num)) | Rows (rows : list (list datum)).

(* ---- text: 253-478 ---- *)
(* np.loadtxt(f, comments=None, ndmin=2, max_rows=n): lines without words are skipped, all rows must have the same
   number of words, every word must be a number. Numbers out of the range of the type are not modelled. *)
Fixpoint all_decs (ws : list text) : option (list dec) :=
  match ws with [] => Some [] | w :: ws => match parse_float w, all_decs ws with Some x, Some xs => Some (x :: xs) | _, _ => None end end.
Fixpoint loadtxt (ls : list text) (n : nat) (cols : option nat) : option (list (list dec) * list text) :=
  match n with
  | O => Some ([], ls)
  | S n' =>
      match ls with
      | [] => Some ([], [])
      | l :: ls' =>
          match words l with
          | [] => loadtxt ls' n cols
          | ws => if match cols with Some c => negb (length ws =? c)%nat | None => false end then None
                  else match all_decs ws, loadtxt ls' n' (Some (length ws)) with
                       | Some row, Some (rows, rest) => Some (row :: rows, rest)
                       | _, _ => None
                       end
          end
      end
  end.
Definition width {A} (rows : list (list A)) : nat := match rows with r :: _ => length r | [] => 1%nat end.   (* an empty array is (0, 1) *)
Definition typed (t : ptype) (x : dec) : num := match t_kind t with Floating => Decimal x | _ => Whole (to_int x) end.
(* itertools.groupby over the names of the types *)
Fixpoint runs (l : list ptype) : list (ptype * nat) :=
  match l with
  | [] => []
  | t :: l => match runs l with
              | (u, n) :: r => if text_eqb (t_name t) (t_name u) then (t, S n) :: r else (t, 1%nat) :: (u, n) :: r
              | [] => [(t, 1%nat)]
              end
  end.
Fixpoint split_rows (rs : list (ptype * nat)) (rows : list (list dec)) : list (list (list num)) :=
  match rs with
  | [] => []
  | (t, n) :: rs => map (fun r => map (typed t) (firstn n r)) rows :: split_rows rs (map (skipn n) rows)
  end.
(* when nothing is read the file position is restored *)
Definition read_nolist_ascii (e : element) (n : nat) (ls : list text) : result (list (list dec) * list text) :=
  match loadtxt ls n None with
  | None => Fail EValue
  | Some (rows, rest) =>
      if negb (width rows =? length (e_props e))%nat then Fail EValue
      else if negb (length rows =? n)%nat then Fail EValue
      else Ok (rows, rest)
  end.
Definition is_int_at (x : dec) (z : Z) : bool := if 0 <=? exp x then man x =? z * 10 ^ exp x else man x * 10 ^ (- exp x) =? z.
(* the first column is read in the type of the items *)
Definition same_number (t : ptype) (x : dec) (z : Z) : bool := match t_kind t with Floating => is_int_at x z | _ => to_int x =? z end.
Definition try_constant_ascii (t : ptype) (n : nat) (ls : list text) : result (option (list (list num) * list text)) :=
  match loadtxt ls n None with
  | None => Ok None
  | Some (rows, rest) =>
      if existsb (fun r => match r with x :: _ => negb (same_number t x (Z.of_nat (width rows) - 1)) | [] => true end) rows then Fail EValue
      else if negb (length rows =? n)%nat then Fail EValue
      else Ok (Some (map (fun r => map (typed t) (skipn 1 r)) rows, rest))
  end.
(* 401-437: only the names double and float are read as floats *)
Fixpoint take_items (t : ptype) (n : nat) (ws : list text) : result (list num * list text) :=
  match n with
  | O => Ok ([], ws)
  | S n => match ws with
           | [] => Fail EValue
           | w :: ws => match parse_float w with
                        | None => Fail EValue
                        | Some x => r <- take_items t n ws ;; Ok (typed t x :: fst r, snd r)
                        end
           end
  end.
Definition parse_word (p : prop) (ws : list text) : result (datum * list text) :=
  match ws with
  | [] => Fail EValue
  | w :: ws =>
      match p_list p with
      | None => if text_eqb (t_name (p_type p)) (str "double") || text_eqb (t_name (p_type p)) (str "float")
                then match parse_float w with Some x => Ok (One (Decimal x), ws) | None => Fail EValue end
                else match parse_int w with Some z => Ok (One (Whole z), ws) | None => Fail EValue end
      | Some _ => match parse_int w with
                  | None => Fail EValue
                  | Some z => if z <? 0 then Fail EValue else r <- take_items (p_type p) (Z.to_nat z) ws ;; Ok (Many (fst r), snd r)
                  end
      end
  end.
Fixpoint parse_words (ps : list prop) (ws : list text) : result (list datum) :=
  match ps with
  | [] => match ws with [] => Ok [] | _ => Fail EValue end
  | p :: ps => r <- parse_word p ws ;; ds <- parse_words ps (snd r) ;; Ok (fst r :: ds)
  end.
Fixpoint read_lines (ps : list prop) (n : nat) (ls : list text) : result (list (list datum) * list text) :=
  match n with
  | O => Ok ([], ls)
  | S n => let '(l, ls) := match ls with [] => ([], []) | l :: ls => (l, ls) end in
           d <- parse_words ps (words l) ;; r <- read_lines ps n ls ;; Ok (d :: fst r, snd r)
  end.
(* 440-478; a negative count raises where a number of rows is checked *)
Definition read_ascii (e : element) (ls : list text) : result (edata * list text) :=
  let n := Z.to_nat (e_count e) in
  if e_count e =? 0 then Ok (Nothing, ls)
  else if is_constant_type e then
    if e_count e <? 0 then Fail EValue
    else r <- read_nolist_ascii e n ls ;;
         match e_props e with
         | p :: _ => Ok (Parts [map (map (typed (p_type p))) (fst r)], snd r)
         | [] => Fail EIndex
         end
  else if is_fixed e then
    if e_count e <? 0 then Fail EValue
    else r <- read_nolist_ascii e n ls ;; Ok (Parts (split_rows (runs (map p_type (e_props e))) (fst r)), snd r)
  else
    lump <- match single_list e with
            | Some (_, t) => if e_count e <? 0 then Fail EValue else try_constant_ascii t n ls
            | None => Ok None
            end ;;
    match lump with
    | Some (rows, rest) => Ok (Array rows, rest)
    | None => r <- read_lines (e_props e) n ls ;;
              Ok (match fst r with [] => Nothing | rows => Rows rows end, snd r)
    end.

(* ---- binary: 481-740 ---- *)
Fixpoint le (bs : text) : N := match bs with [] => 0%N | b :: bs => (N_of_ascii b + 256 * le bs)%N end.
(* the number that the bytes stand for, least significant byte first *)
Definition value (t : ptype) (bs : text) : num :=
  let n := le bs in
  match t_kind t with
  | Unsigned => Whole (Z.of_N n)
  | Signed => Whole (let z := Z.of_N n in let m := 2 ^ (8 * Z.of_nat (t_size t)) in if z <? m / 2 then z else z - m)
  | Floating => if (t_size t =? 4)%nat then Single n else Double n
  end.
(* struct.unpack with an explicit byte order *)
Definition unpack (big : bool) (t : ptype) (bs : text) : num := value t (if big then rev bs else bs).
(* np.frombuffer in the order of the host, then byteswap() where the orders differ *)
Definition native (host big : bool) (t : ptype) (bs : text) : num :=
  let bs := if negb (Bool.eqb host big) then rev bs else bs in value t (if host then rev bs else bs).
Definition take (n : nat) (bs : text) : result (text * text) := if (length bs <? n)%nat then Fail EValue else Ok (firstn n bs, skipn n bs).
Fixpoint chunks (size n : nat) (bs : text) : list text := match n with O => [] | S n => firstn size bs :: chunks size n (skipn size bs) end.
Definition read_fixed_binary (host big : bool) (t : ptype) (cols n : nat) (bs : text) : result (list (list num) * text) :=
  r <- take (n * cols * t_size t) bs ;;
  Ok (map (fun row => map (native host big t) (chunks (t_size t) cols row)) (chunks (cols * t_size t) n (fst r)), snd r).
Fixpoint cut_rows (host big : bool) (rs : list (ptype * nat)) (rows : list text) : list (list (list num)) :=
  match rs with
  | [] => []
  | (t, n) :: rs => map (fun r => map (native host big t) (chunks (t_size t) n (firstn (n * t_size t) r))) rows :: cut_rows host big rs (map (skipn (n * t_size t)) rows)
  end.
Definition read_nolists_binary (host big : bool) (ts : list ptype) (n : nat) (bs : text) : result (list (list (list num)) * text) :=
  let size := sum_nat (map t_size ts) in
  r <- take (size * n) bs ;; Ok (cut_rows host big (runs ts) (chunks size n (fst r)), snd r).
(* a length that is a float raises TypeError, a negative one ValueError *)
Definition get_length (big : bool) (s : ptype) (bs : text) : result (num * text) := r <- take (t_size s) bs ;; Ok (unpack big s (fst r), snd r).
Definition length_of (x : num) : result nat := match x with Whole z => if z <? 0 then Fail EValue else Ok (Z.to_nat z) | _ => Fail EType end.
Definition same_length (x y : num) : bool := match x, y with Whole a, Whole b => a =? b | _, _ => false end.
(* n + 1 rows, after the first length has been read *)
Fixpoint constant_rows (host big : bool) (s t : ptype) (x : num) (len n : nat) (bs : text) : result (option (list (list num) * text)) :=
  r <- take (t_size t * len) bs ;;
  let row := map (native host big t) (chunks (t_size t) len (fst r)) in
  match n with
  | O => Ok (Some ([row], snd r))
  | S n => g <- get_length big s (snd r) ;;
           if same_length x (fst g) then
             m <- constant_rows host big s t x len n (snd g) ;;
             Ok (match m with Some (rows, rest) => Some (row :: rows, rest) | None => None end)
           else Ok None
  end.
Definition try_constant_binary (host big : bool) (s t : ptype) (n : nat) (bs : text) : result (option (list (list num) * text)) :=
  g <- get_length big s bs ;; len <- length_of (fst g) ;;
  match n with O => Ok None | S n => constant_rows host big s t (fst g) len n (snd g) end.
Definition read_value (host big : bool) (p : prop) (bs : text) : result (datum * text) :=
  match p_list p with
  | None => r <- take (t_size (p_type p)) bs ;; Ok (One (unpack big (p_type p) (fst r)), snd r)
  | Some s => g <- get_length big s bs ;; len <- length_of (fst g) ;;
              r <- take (t_size (p_type p) * len) (snd g) ;;
              Ok (Many (map (native host big (p_type p)) (chunks (t_size (p_type p)) len (fst r))), snd r)
  end.
Fixpoint read_values (host big : bool) (ps : list prop) (bs : text) : result (list datum * text) :=
  match ps with
  | [] => Ok ([], bs)
  | p :: ps => r <- read_value host big p bs ;; m <- read_values host big ps (snd r) ;; Ok (fst r :: fst m, snd m)
  end.
Fixpoint read_records (host big : bool) (ps : list prop) (n : nat) (bs : text) : result (list (list datum) * text) :=
  match n with
  | O => Ok ([], bs)
  | S n => d <- read_values host big ps bs ;; r <- read_records host big ps n (snd d) ;; Ok (fst d :: fst r, snd r)
  end.
Definition read_binary (host big : bool) (e : element) (bs : text) : result (edata * text) :=
  let n := Z.to_nat (e_count e) in
  if e_count e =? 0 then Ok (Nothing, bs)
  else if is_constant_type e then
    if e_count e <? 0 then Fail EValue
    else match e_props e with
         | p :: ps => r <- read_fixed_binary host big (p_type p) (length (p :: ps)) n bs ;; Ok (Parts [fst r], snd r)
         | [] => Fail EIndex
         end
  else if is_fixed e then
    if e_count e <? 0 then Fail EValue
    else r <- read_nolists_binary host big (map p_type (e_props e)) n bs ;; Ok (Parts (fst r), snd r)
  else
    lump <- match single_list e with
            | Some (s, t) => if e_count e <? 0 then Fail EValue else try_constant_binary host big s t n bs
            | None => Ok None
            end ;;
    match lump with
    | Some (rows, rest) => Ok (Array rows, rest)
    | None => r <- read_records host big (e_props e) n bs ;;
              Ok (match fst r with [] => Nothing | rows => Rows rows end, snd r)
    end.
(* 743-775; the elements by name, the last one read first *)
Definition blank (bs : text) : bool := match lstrip bs with [] => true | _ => false end.
Fixpoint elements_ascii (es : list element) (ls : list text) (acc : list (text * edata)) : result (list (text * edata)) :=
  match es with
  | [] => if blank (concat ls) then Ok acc else Fail EValue
  | e :: es => r <- read_ascii e ls ;; elements_ascii es (snd r) ((e_name e, fst r) :: acc)
  end.
Fixpoint elements_binary (host big : bool) (es : list element) (bs : text) (acc : list (text * edata)) : result (list (text * edata)) :=
  match es with
  | [] => if blank bs then Ok acc else Fail EValue
  | e :: es => r <- read_binary host big e bs ;; elements_binary host big es (snd r) ((e_name e, fst r) :: acc)
  end.
Definition read_elements (host : bool) (f : fmt) (es : list element) (ls : list text) : result (list (text * edata)) :=
  match f with FAscii => elements_ascii es ls [] | FBinary big => elements_binary host big es (concat ls) [] end.

(* ---- the vertices: 821-1017 ---- *)
Fixpoint last_at (name : text) (i : nat) (ps : list prop) : option nat :=
  match ps with [] => None | p :: ps => match last_at name (S i) ps with Some j => Some j | None => if text_eqb (p_name p) name then Some i else None end end.
Fixpoint all_some (l : list (option nat)) : option (list nat) := match l with [] => Some [] | Some x :: l => option_map (cons x) (all_some l) | None :: _ => None end.
Definition idxs (ps : list prop) (names : list string) : option (list nat) := all_some (map (fun n => last_at (str n) 0 ps) names).
Record columns := Cols { c_point : list nat; c_color : option (list nat); c_bytes : bool; c_normal : option (list nat); c_uv : option (list nat) }.
Definition column_indices (ps : list prop) : result columns :=
  if existsb (fun p => match p_list p with Some _ => true | None => false end) ps then Fail EValue
  else match idxs ps ["x"; "y"; "z"]%string with
       | None => Fail EValue
       | Some pt =>
           let col := idxs ps ["red"; "green"; "blue"]%string in
           Ok (Cols pt col
                 (match col with Some l => forallb (fun i => match nth_error ps i with Some p => (t_size (p_type p) =? 1)%nat | None => false end) l | None => false end)
                 (idxs ps ["nx"; "ny"; "nz"]%string) (idxs ps ["texture_u"; "texture_v"]%string))
       end.
Record verts_data := VD { v_verts : list (list num); v_colors : option (bool * list (list num)); v_normals : option (list (list num)); v_uvs : option (list (list num)) }.
(* array[:, idxs] *)
Definition pick (rows : list (list num)) (is_ : list nat) : result (list (list num)) := rmap (fun r => rmap (rget r) is_) rows.
(* out[:, axis] = column: the lengths must agree, one value is repeated *)
Definition assign (count : nat) (col : list num) : result (list num) :=
  if (length col =? count)%nat then Ok col else match col with [x] => Ok (repeat x count) | _ => Fail EValue end.
Definition part_columns (parts : list (list (list num))) : list (nat * nat) :=
  concat (map (fun p => map (fun c => (fst p, c)) (seq 0 (width (snd p)))) (combine (seq 0 (length parts)) parts)).
Definition column_of (count : nat) (parts : list (list (list num))) (i : nat) : result (list num) :=
  pc <- rget (part_columns parts) i ;;
  part <- rget parts (fst pc) ;; col <- rmap (fun r => rget r (snd pc)) part ;; assign count col.
Fixpoint transpose (n : nat) (cols : list (list num)) : list (list num) :=
  match n with O => [] | S n => map (fun c => match c with x :: _ => x | [] => Whole 0 end) cols :: transpose n (map (fun c => match c with _ :: c => c | [] => [] end) cols) end.
Definition gather (count : nat) (parts : list (list (list num))) (is_ : list nat) : result (list (list num)) :=
  cs <- rmap (column_of count parts) is_ ;; Ok (transpose count cs).
Definition opt_r {A B} (f : A -> result B) (o : option A) : result (option B) := match o with None => Ok None | Some a => b <- f a ;; Ok (Some b) end.
Definition get_verts (es : list element) (data : list (text * edata)) : result verts_data :=
  match find (fun p => text_eqb (fst p) (str "vertex")) data, find (fun e => text_eqb (e_name e) (str "vertex")) es with
  | None, _ => Fail EValue
  | Some (_, Array _), _ => Fail EValue
  | Some _, None => Fail EType
  | Some (_, d), Some head =>
      c <- column_indices (e_props head) ;;
      if e_count head =? 0 then Ok (VD [] (match c_color c with Some _ => Some (c_bytes c, []) | None => None end) None None)
      else match d with
           | Rows [_] => Fail EType
           | Rows _ => Fail EAttr
           | Array _ => Fail EValue
           | Parts [a] =>
               if (width a =? 3)%nat then Ok (VD a None None None)
               else v <- pick a (c_point c) ;; k <- opt_r (pick a) (c_color c) ;; n <- opt_r (pick a) (c_normal c) ;; u <- opt_r (pick a) (c_uv c) ;;
                    Ok (VD v (option_map (fun x => (c_bytes c, x)) k) n u)
           | _ =>
               let parts := match d with Parts l => l | _ => [] end in let g := gather (Z.to_nat (e_count head)) parts in
               v <- g (c_point c) ;; k <- opt_r g (c_color c) ;; n <- opt_r g (c_normal c) ;; u <- opt_r g (c_uv c) ;;
               Ok (VD v (option_map (fun x => (c_bytes c, x)) k) n u)
           end
  end.

(* ---- the faces: 1041-1096 ---- *)
(* a float truncated to an integer; infinities and nan give the least one (x86) *)
Definition trunc_float (mbits ebits : Z) (n : N) : Z :=
  let b := Z.of_N n in
  let m := b mod 2 ^ mbits in let e := (b / 2 ^ mbits) mod 2 ^ ebits in let s := b / 2 ^ (mbits + ebits) in
  let bias := 2 ^ (ebits - 1) - 1 in
  if e =? 0 then 0 else if e =? 2 ^ ebits - 1 then - 2 ^ 63
  else let k := e - bias - mbits in
       let a := if 0 <=? k then (m + 2 ^ mbits) * 2 ^ k else (m + 2 ^ mbits) / 2 ^ (- k) in
       if s =? 0 then a else - a.
Definition to_long (x : num) : Z := match x with Whole z => z | Single b => trunc_float 23 8 b | Double b => trunc_float 52 11 b | Decimal d => to_int d end.
Definition triangle (f : list num) (i : nat) : list Z := [to_long (nth 0 f (Whole 0)); to_long (nth (i + 1) f (Whole 0)); to_long (nth (i + 2) f (Whole 0))].
Definition fan_of (f : list num) : result (list (list Z)) := if (length f <? 3)%nat then Fail EValue else Ok (map (triangle f) (seq 0 (length f - 2))).
Definition get_faces (es : list element) (data : list (text * edata)) : result (option (list (list Z))) :=
  match find (fun p => text_eqb (fst p) (str "face")) data, find (fun e => text_eqb (e_name e) (str "face")) es with
  | None, _ => Ok None
  | Some (_, d), Some head =>
      match single_list head with
      | None => Fail EValue
      | Some _ =>
          match d with
          | Nothing => Ok None
          | Array rows => if (width rows <? 3)%nat then Fail EValue
                          else Ok (Some (concat (map (fun i => map (fun f => triangle f i) rows) (seq 0 (width rows - 2)))))
          | Rows rows => l <- rmap (fun r => match r with [Many f] => fan_of f | [One _] => Fail EAttr | _ => Fail EValue end) rows ;; Ok (Some (concat l))
          | Parts ps => l <- rmap (fun p => match p with [f] => fan_of f | _ => Fail EValue end) ps ;; Ok (Some (concat l))
          end
      end
  | Some _, None => Fail EType
  end.
Record ply_data := PD { d_verts : verts_data; d_faces : option (list (list Z)) }.
Definition load_ply_data (host : bool) (fuel : nat) (file : text) : option (result ply_data) :=
  match read_header fuel (lines file) with
  | None => None
  | Some (Fail e) => Some (Fail e)
  | Some (Ok (f, es, ls)) => Some (data <- read_elements host f es ls ;; v <- get_verts es data ;; fs <- get_faces es data ;; Ok (PD v fs))
  end.
(* 1099-1156 load_ply *)
Definition load_ply (host : bool) (fuel : nat) (file : text) : option (result (list (list num) * list (list Z))) :=
  option_map (fun r => d <- r ;; Ok (v_verts (d_verts d), match d_faces d with Some f => f | None => [] end)) (load_ply_data host fuel file).

(* ---- writing: 1159-1314; assertion errors are ERuntime; infinities and nan are not modelled in text ---- *)
(* float32 numbers by their bits; colours as floats or as bytes *)
Notation f32 := N.
Definition f32_value (n : f32) : R :=
  let b := Z.of_N n in let m := b mod 2 ^ 23 in let e := (b / 2 ^ 23) mod 2 ^ 8 in let s := b / 2 ^ 31 in
  ((if s =? 0 then 1 else -1) * (if e =? 0 then IZR m / 2 ^ 149 else IZR (m + 2 ^ 23) * powerRZ 2 (e - 150)))%R.
Record matrix := M { m_width : nat; m_rows : list (list f32) }.
Definition line_of (ws : list text) : text := join sp ws ++ [nl].
Definition header_lines (host ascii_ as_bytes : bool) (nv : nat) (normals colors : bool) (nf : option nat) : list text :=
  [str "ply"; if ascii_ then str "format ascii 1.0" else if host then str "format binary_big_endian 1.0" else str "format binary_little_endian 1.0";
   str "element vertex " ++ print_int (Z.of_nat nv); str "property float x"; str "property float y"; str "property float z"] ++
  (if normals then [str "property float nx"; str "property float ny"; str "property float nz"] else []) ++
  (if colors then map (fun c => str "property " ++ (if as_bytes then str "uchar" else str "float") ++ [sp] ++ str c) ["red"; "green"; "blue"]%string else []) ++
  match nf with Some n => [str "element face " ++ print_int (Z.of_nat n); str "property list uchar int vertex_index"] | None => [] end ++
  [str "end_header"].
(* the bytes of an unsigned number, least significant first *)
Fixpoint le_bytes (size : nat) (n : N) : text := match size with O => [] | S size => ascii_of_N (n mod 256) :: le_bytes size (n / 256) end.
Definition host_bytes (host : bool) (size : nat) (n : N) : text := if host then rev (le_bytes size n) else le_bytes size n.
(* np.rint(color * 255) stored as a byte: exact product, ties to even *)
Definition color_byte (c : f32) : N := Z.to_N ((round_even (f32_value c * 255)%R) mod 256).
Definition zip_rows {A} (a b : list (list A)) : list (list A) := map (fun p => fst p ++ snd p) (combine a b).
(* an int64 stored as uint32 *)
Definition index_bits (z : Z) : N := Z.to_N (z mod 2 ^ 32).
Definition save_ply_data (host : bool) (verts : list (list f32)) (faces : option (list (list Z))) (normals colors : option matrix) (ascii_ : bool) (decimal_places : option nat) (as_bytes : bool) : result text :=
  if negb (forallb (fun r => (length r =? 3)%nat) verts) then Fail ERuntime
  else if match faces with Some f => negb (forallb (fun r => (length r =? 3)%nat) f) | None => false end then Fail ERuntime
  else if match normals with Some m => negb (m_width m =? 3)%nat | None => false end then Fail ERuntime
  else if match colors with Some m => negb (m_width m =? 3)%nat | None => false end then Fail ERuntime
  else
    let head := concat (map (fun l => l ++ [nl]) (header_lines host ascii_ as_bytes (length verts) (match normals with Some _ => true | None => false end) (match colors with Some _ => true | None => false end)
                                                               (match verts, faces with _ :: _, Some f => Some (length f) | _, _ => None end))) in
    match verts with
    | [] => Ok head
    | _ =>
        if match normals with Some m => negb (length (m_rows m) =? length verts)%nat | None => false end then Fail EValue
        else if match colors with Some m => negb (length (m_rows m) =? length verts)%nat | None => false end then Fail EValue
        else
          let d := match decimal_places with Some d => d | None => 6%nat end in
          let cell := if ascii_ then (fun x => print_real d (f32_value x)) else host_bytes host 4 in
          let ccell := if as_bytes then (if ascii_ then (fun x => print_int (Z.of_N (color_byte x))) else (fun x => host_bytes host 1 (color_byte x))) else cell in
          let rows := map (map cell) verts in
          let rows := match normals with Some m => zip_rows rows (map (map cell) (m_rows m)) | None => rows end in
          let rows := match colors with Some m => zip_rows rows (map (map ccell) (m_rows m)) | None => rows end in
          let face f := if ascii_ then line_of (str "3" :: map print_int f) else ascii_of_N 3 :: concat (map (fun i => host_bytes host 4 (index_bits i)) f) in
          Ok (head ++ concat (map (fun r => if ascii_ then line_of r else concat r) rows) ++ match faces with Some f => concat (map face f) | None => [] end)
    end.
(* 1317-1375 save_ply *)
Definition save_ply (host : bool) (verts : list (list f32)) (faces : option (list (list Z))) (normals : option matrix) (ascii_ : bool) (decimal_places : option nat) : result text :=
  if negb (forallb (fun r => (length r =? 3)%nat) verts) then Fail EValue
  else if match faces with Some f => negb (forallb (fun r => (length r =? 3)%nat) f) | None => false end then Fail EValue
  else if match normals with Some m => match m_rows m with [] => false | _ => negb ((m_width m =? 3)%nat && (length (m_rows m) =? length verts)%nat) end | None => false end then Fail EValue
  else save_ply_data host verts faces normals None ascii_ decimal_places false.
