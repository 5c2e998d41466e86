(* Model of the rectangle packing of pytorch3d/renderer/mesh/utils.py:70-320. Python ints are Z. *)
From Verif Require Import Base.
Local Open Scope Z_scope.

(* utils.py:79-83 PackedRectangle *)
Record place := Place { px : Z; py : Z; flipped : bool; is_first : bool }.
(* utils.py:91-96 _UnplacedRectangle *)
Record unplaced := Un { width : Z; height : Z; ind : nat; turned : bool }.

(* Python sequence indexing: negative indices count from the end *)
Definition py_get {A} (l : list A) (i : Z) : result A :=
  let j := if i <? 0 then i + Z.of_nat (length l) else i in
  if j <? 0 then Fail EIndex else match nth_error l (Z.to_nat j) with Some a => Ok a | None => Fail EIndex end.
(* l[i] = v; del l[a:b]; l.insert(i, v) for indices in range *)
Definition set_at {A} (l : list A) (i : nat) (v : A) : list A := firstn i l ++ v :: skipn (S i) l.
Definition del_range {A} (l : list A) (a b : nat) : list A := firstn a l ++ skipn b l.
Definition insert_at {A} (l : list A) (i : nat) (v : A) : list A := firstn i l ++ v :: skipn i l.

(* utils.py:169-183, 202-207 the search of the loop of _try_place_rectangle: the run of nodes found,
   as current_start_idx, idx, current_max_width, currently_packed (the part of the loop body that
   places the rectangle and returns is try_place below) *)
Fixpoint search (total w need : Z) (idx : nat) (start : option nat) (maxw prev packed : Z) (occ : list (Z * Z)) : option (nat * nat * Z * Z) :=
  match occ with
  | [] => None
  | (x, y) :: rest =>
    if x <=? total - w then
      let packed := packed + (y - prev) in
      let maxw := Z.max x maxw in
      let s := match start with None => idx | Some s => s end in
      if need <=? packed then Some (s, idx, maxw, packed)
      else search total w need (S idx) (Some s) maxw y packed rest
    else search total w need (S idx) None 0 y 0 rest
  end.

(* utils.py:99-207 _try_place_rectangle: None when it returns False, else the changed
   placed_so_far and occupied *)
Definition try_place (r : unplaced) (placed : list place) (occ : list (Z * Z)) : result (option (list place * list (Z * Z))) :=
  first <- py_get occ 0 ;;
  match search (fst first) (width r) (height r) 0 None 0 0 0 occ with
  | None => Ok None
  | Some (start, idx, maxw, packed) =>
    below <- py_get occ (Z.of_nat start - 1) ;;
    placed' <- upd placed (ind r) (Place maxw (snd below) (turned r) true) ;;
    let new := (maxw + width r, snd below + height r) in
    Ok (Some (placed',
      if packed =? height r then del_range (set_at occ idx new) start idx
      else if (start <? idx)%nat then del_range (set_at occ (idx - 1) new) start (idx - 1)
      else insert_at occ idx new))
  end.

(* the order of the tuples (size, ind, flipped); flipped is never compared because ind is unique *)
Definition before (a b : unplaced) : bool :=
  (width a <? width b) || ((width a =? width b) && ((height a <? height b) || ((height a =? height b) && (ind a <? ind b)%nat))).
(* queue.sort(): any sort gives the same list, the entries being pairwise different *)
Fixpoint insert (a : unplaced) (l : list unplaced) : list unplaced :=
  match l with [] => [a] | b :: l' => if before a b then a :: l else b :: insert a l' end.
Fixpoint sort (l : list unplaced) : list unplaced := match l with [] => [] | a :: l' => insert a (sort l') end.

(* utils.py:231-236 *)
Definition enqueue (i : nat) (s : Z * Z) : unplaced :=
  if fst s <? snd s then Un (snd s) (fst s) i true else Un (fst s) (snd s) i false.

(* utils.py:249-263 the loop over the rest of the queue *)
Fixpoint pack_rest (q : list unplaced) (placed : list place) (occ : list (Z * Z)) (h : Z) : result (list place * Z) :=
  match q with
  | [] => Ok (placed, h)
  | r :: q' =>
    t <- try_place r placed occ ;;
    match t with
    | Some (placed', occ') => pack_rest q' placed' occ' h
    | None =>
      t2 <- try_place (Un (height r) (width r) (ind r) (negb (turned r))) placed occ ;;
      match t2 with
      | Some (placed', occ') => pack_rest q' placed' occ' h
      | None =>
        placed' <- upd placed (ind r) (Place 0 h (turned r) true) ;;
        pack_rest q' placed' (occ ++ [(width r, h + height r)]) (h + height r)
      end
    end
  end.

(* utils.py:210-265 pack_rectangles: the total size and the place of every rectangle *)
Definition pack_rectangles (sizes : list (Z * Z)) : result (Z * Z * list place) :=
  if (length sizes <? 2)%nat then Fail EValue else
  match rev (sort (map (fun q => enqueue (fst q) (snd q)) (combine (seq 0 (length sizes)) sizes))) with
  | biggest :: second :: queue =>
    let placed := repeat (Place (-1) (-1) false false) (length sizes) in
    placed <- upd placed (ind biggest) (Place 0 0 (turned biggest) true) ;;
    placed <- upd placed (ind second) (Place 0 (height biggest) (turned second) true) ;;
    let h := height biggest + height second in
    r <- pack_rest queue placed [(width biggest, height biggest); (width second, h)] h ;;
    Ok ((width biggest, snd r), fst r)
  | _ => Fail EIndex
  end.

(* utils.py:73-76 Rectangle: (xsize, ysize), identifier *)
Definition rect : Type := Z * Z * Z.
(* utils.py:297-308 the loop: the dictionary input_map is an association list *)
Fixpoint dedup (l : list rect) (known : list (Z * nat)) (usizes : list (Z * Z)) : list (nat * bool) * list (Z * Z) :=
  match l with
  | [] => ([], usizes)
  | (s, id) :: l' =>
    match find (fun p => fst p =? id) known with
    | None => let r := dedup l' ((id, length usizes) :: known) (usizes ++ [s]) in ((length usizes, true) :: fst r, snd r)
    | Some p => let r := dedup l' known usizes in ((snd p, false) :: fst r, snd r)
    end
  end.
(* utils.py:268-320 pack_unique_rectangles *)
Definition pack_unique (l : list rect) : result (Z * Z * list place) :=
  if (length l <? 2)%nat then Fail EValue else
  let '(inputs, usizes) := dedup l [] [] in
  match usizes with
  | [s] => Ok (s, Place 0 0 false true :: repeat (Place 0 0 false false) (length l - 1))
  | _ =>
    r <- pack_rectangles usizes ;;
    locs <- rmap (fun p => loc <- rget (snd r) (fst p) ;; Ok (Place (px loc) (py loc) (flipped loc) (snd p))) inputs ;;
    Ok (fst r, locs)
  end.
