(* Model of TensorProperties and TensorAccessor, pytorch3d/renderer/utils.py:22-281: objects whose attributes
   are batched tensors, read and written element by element. Tensors are views of memory blocks, because
   expand shares memory and item assignment writes in place. Devices, dtypes, gradients and nn.Parameter are not
   modelled; attributes that are not tensors are only present or absent (strings, which Python could index, are
   left out). A value that is assigned is given by its entries (it is not a view of the target). *)
From Coq Require Import String.
From Verif Require Import Base RBase Tens.
Local Open Scope R_scope.

(* a view of block number block: all of it, or its only row repeated (stride 0, from expand) *)
Record view := View { block : nat; rows : nat; tail : list nat; repeated : bool }.
Inductive attr := Tensor (v : view) | Plain.
(* _N and __dict__ *)
Record object := Obj { count : nat; attrs : list (string * attr) }.
(* memory, the objects made so far, and the blocks of the tensors that the user holds *)
Record state := St { memory : list tensor; objects : list object; held : list nat }.

Definition lookup (o : object) (name : string) : option attr :=
  match find (fun p => String.eqb (fst p) name) (attrs o) with Some p => Some (snd p) | None => None end.
Fixpoint setattr (l : list (string * attr)) (name : string) (a : attr) : list (string * attr) :=
  match l with
  | [] => [(name, a)]
  | (m, b) :: l => if String.eqb m name then (m, a) :: l else (m, b) :: setattr l name a
  end.
Definition update {A : Type} (i : nat) (x : A) (l : list A) : list A := firstn i l ++ x :: skipn (S i) l.

(* ---- the constructor, 102-145, and convert_to_tensors_and_broadcast, 314-356 ---- *)
(* a keyword argument: a number or (nested) list by its entries, a tensor that the user holds, None, a string
   or a bool, or a value of another type, which is dropped with a warning *)
Inductive arg := Data (t : tensor) | Held (k : nat) | Flag | Odd.
Definition batched (s : list nat) : list nat := match s with [] => [1%nat] | _ => s end.
(* format_tensor, 284-311: new data get their own block, tensors are taken as they are; scalars get a dimension *)
Definition reshape0 (t : tensor) : tensor := match shp t with [] => T [1%nat] (fun _ => get t []) | _ => t end.
Definition format (st : state) (a : arg) : result (list tensor * option view) :=
  match a with
  | Data t =>
      match batched (shp t) with
      | d :: ds => Ok (memory st ++ [reshape0 t], Some (View (List.length (memory st)) d ds false))
      | [] => Fail EValue
      end
  | Held k =>
      match nth_error (held st) k with
      | Some b => match nth_error (memory st) b with
                  | Some t => match shp t with
                              | d :: ds => Ok (memory st, Some (View b d ds false))
                              | [] => Fail EValue
                              end
                  | None => Fail EIndex
                  end
      | None => Fail EIndex
      end
  | _ => Ok (memory st, None)
  end.
Fixpoint formats (st : state) (kw : list (string * arg)) : result (list tensor * list (string * view)) :=
  match kw with
  | [] => Ok (memory st, [])
  | (n, a) :: kw =>
      p <- format st a ;;
      q <- formats (St (fst p) (objects st) (held st)) kw ;;
      Ok (fst q, match snd p with Some v => (n, v) :: snd q | None => snd q end)
  end.
(* 344-354, c.expand(N, -1, ...) *)
Definition expand (n : nat) (v : view) : result view :=
  if (negb (rows v =? 1) && negb (rows v =? n))%nat then Fail EValue
  else Ok (if (rows v =? n)%nat then v else View (block v) n (tail v) true).
Definition flags (kw : list (string * arg)) : list (string * attr) :=
  flat_map (fun p => match snd p with Flag => [(fst p, Plain)] | _ => [] end) kw.
Definition construct (st : state) (kw : list (string * arg)) : result state :=
  p <- formats st kw ;;
  let n := max_nat (map (fun q => rows (snd q)) (snd p)) in
  vs <- rmap (fun q => v <- expand n (snd q) ;; Ok (fst q, Tensor v)) (snd p) ;;
  Ok (St (fst p) (objects st ++ [Obj n (flags kw ++ vs)]) (held st)).

(* ---- indices ---- *)
Inductive index := At (z : Z) | Slice (a b : option Z).
Definition bound (n : nat) (default : Z) (x : option Z) : nat :=
  let z := match x with None => default | Some z => if (z <? 0)%Z then (z + Z.of_nat n)%Z else z end in
  Z.to_nat (Z.min (Z.max z 0) (Z.of_nat n)).
(* the rows that an index selects, first and number, and whether it drops the dimension *)
Definition span (n : nat) (ix : index) : result (nat * nat) :=
  match ix with
  | At z =>
      if ((- Z.of_nat n <=? z) && (z <? Z.of_nat n))%Z then Ok (Z.to_nat (z mod Z.of_nat n), 1%nat) else Fail EIndex
  | Slice a b =>
      let s := bound n 0 a in
      let e := bound n (Z.of_nat n) b in
      Ok (s, e - s)%nat
  end.
Definition dims (ix : index) (m : nat) (ds : list nat) : list nat := match ix with At _ => ds | Slice _ _ => m :: ds end.
Definition row_of (ix : index) (idx : list nat) : nat := match ix with At _ => 0%nat | Slice _ _ => hd 0%nat idx end.
Definition rest_of (ix : index) (idx : list nat) : list nat := match ix with At _ => idx | Slice _ _ => tl idx end.

(* ---- TensorAccessor.__getattr__, 78-91: obj[ix].name ---- *)
Definition getitem (st : state) (o : nat) (ix : index) (name : string) : result tensor :=
  match nth_error (objects st) o with
  | None => Fail EIndex
  | Some ob =>
      match lookup ob name with
      | None => Fail EAttr
      | Some Plain => Fail EType
      | Some (Tensor v) =>
          p <- span (rows v) ix ;;
          match nth_error (memory st) (block v) with
          | None => Fail EIndex
          | Some t =>
              Ok (T (dims ix (snd p) (tail v))
                    (fun idx => get t ((if repeated v then 0 else fst p + row_of ix idx)%nat :: rest_of ix idx)))
          end
      end
  end.

(* ---- TensorAccessor.__setattr__, 43-75: obj[ix].name = value ---- *)
(* item assignment drops leading dimensions of size 1 of the value and expands it to the target *)
Fixpoint strip (s : list nat) : list nat :=
  match s with d :: r => if (d =? 1)%nat then strip r else s | [] => [] end.
Definition stripped (t : tensor) : tensor :=
  T (strip (shp t)) (fun idx => get t (repeat 0%nat (List.length (shp t) - List.length (strip (shp t))) ++ idx)).
Definition fits (s dst : list nat) : bool :=
  (List.length s <=? List.length dst)%nat &&
  forallb (fun p => (fst p =? 1) || (fst p =? snd p))%nat (combine s (skipn (List.length dst - List.length s) dst)).
Definition setitem (st : state) (o : nat) (ix : index) (name : string) (value : tensor) : result state :=
  match nth_error (objects st) o with
  | None => Fail EIndex
  | Some ob =>
      match lookup ob name with
      | None => Fail EAttr
      | Some Plain => Fail EAttr
      | Some (Tensor v) =>
          (* 64-66 *)
          if ((0 <? List.length (tail v)) && (1 <? List.length (shp value)))%nat && negb (shape_eqb (tl (shp value)) (tail v))
          then Fail EValue
          else
          p <- span (rows v) ix ;;
          let '(s, m) := p in
          let dst := dims ix m (tail v) in
          let w := stripped value in
          if negb (fits (shp w) dst) then Fail ERuntime
          else if repeated v && (1 <? m)%nat then Fail ERuntime
          else
          match nth_error (memory st) (block v) with
          | None => Fail EIndex
          | Some t =>
              let first := if repeated v then 0%nat else s in
              let t' := T (shp t) (fun idx =>
                match idx with
                | r :: js =>
                    if ((first <=? r) && (r <? first + m))%nat
                    then get w (pick (shp w) (match ix with At _ => js | Slice _ _ => (r - first)%nat :: js end))
                    else get t idx
                | [] => get t idx
                end) in
              Ok (St (update (block v) t' (memory st)) (objects st) (held st))
          end
      end
  end.

(* ---- clone, 192-205, into a new object (the other of the subclasses' clone methods, whose default
   attributes are all overwritten); clone gives every tensor a block of its own ---- *)
Definition solid (t : tensor) (v : view) : tensor :=
  T (rows v :: tail v) (fun idx => match idx with i :: js => get t ((if repeated v then 0%nat else i) :: js) | [] => get t [] end).
Fixpoint clones (mem : list tensor) (l : list (string * attr)) : result (list tensor * list (string * attr)) :=
  match l with
  | [] => Ok (mem, [])
  | (n, Plain) :: l => p <- clones mem l ;; Ok (fst p, (n, Plain) :: snd p)
  | (n, Tensor v) :: l =>
      match nth_error mem (block v) with
      | None => Fail EIndex
      | Some t =>
          p <- clones (mem ++ [solid t v]) l ;;
          Ok (fst p, (n, Tensor (View (List.length mem) (rows v) (tail v) false)) :: snd p)
      end
  end.
Definition clone (st : state) (o : nat) : result state :=
  match nth_error (objects st) o with
  | None => Fail EIndex
  | Some ob =>
      p <- clones (memory st) (attrs ob) ;;
      Ok (St (fst p) (objects st ++ [Obj (count ob) (snd p)]) (held st))
  end.

(* ---- gather_props, 207-281, for a one-dimensional batch_idx. An index out of range fails at the first
   tensor (all have the same number of rows), before anything is changed. _N is not updated. ---- *)
Definition gathered (t : tensor) (v : view) (idx : list nat) : tensor :=
  T (List.length idx :: tail v)
    (fun ix => match ix with b :: js => get t ((if repeated v then 0 else nth b idx 0)%nat :: js) | [] => get t [] end).
Fixpoint gathers (mem : list tensor) (idx : list nat) (l : list (string * attr)) : result (list tensor * list (string * attr)) :=
  match l with
  | [] => Ok (mem, [])
  | (n, Plain) :: l => p <- gathers mem idx l ;; Ok (fst p, (n, Plain) :: snd p)
  | (n, Tensor v) :: l =>
      if (1 <? rows v)%nat then
        if negb (forallb (fun i => i <? rows v)%nat idx) then Fail ERuntime else
        match nth_error mem (block v) with
        | None => Fail EIndex
        | Some t =>
            p <- gathers (mem ++ [gathered t v idx]) idx l ;;
            Ok (fst p, (n, Tensor (View (List.length mem) (List.length idx) (tail v) false)) :: snd p)
        end
      else p <- gathers mem idx l ;; Ok (fst p, (n, Tensor v) :: snd p)
  end.
Definition gather_props (st : state) (o : nat) (idx : list nat) : result state :=
  match nth_error (objects st) o with
  | None => Fail EIndex
  | Some ob =>
      p <- gathers (memory st) idx (attrs ob) ;;
      Ok (St (fst p) (update o (Obj (count ob) (snd p)) (objects st)) (held st))
  end.

(* ---- what a program can do ---- *)
(* torch.tensor(...) kept by the user; an in-place change of one of the user's tensors *)
Definition allocate (st : state) (t : tensor) : state :=
  St (memory st ++ [reshape0 t]) (objects st) (held st ++ [List.length (memory st)]).
Definition overwrite (st : state) (k : nat) (f : list nat -> R) : result state :=
  match nth_error (held st) k with
  | None => Fail EIndex
  | Some b => match nth_error (memory st) b with
              | None => Fail EIndex
              | Some t => Ok (St (update b (T (shp t) f) (memory st)) (objects st) (held st))
              end
  end.
Inductive op :=
  | New (kw : list (string * arg))
  | Set_ (o : nat) (ix : index) (name : string) (value : tensor)
  | Clone (o : nat)
  | Gather (o : nat) (idx : list nat)
  | Allocate (t : tensor)
  | Overwrite (k : nat) (f : list nat -> R).
Definition step (st : state) (x : op) : result state :=
  match x with
  | New kw => construct st kw
  | Set_ o ix name value => setitem st o ix name value
  | Clone o => clone st o
  | Gather o idx => gather_props st o idx
  | Allocate t => Ok (allocate st t)
  | Overwrite k f => overwrite st k f
  end.
(* an operation that raises leaves everything as it was *)
Definition next (st : state) (x : op) : state := match step st x with Ok s => s | Fail _ => st end.
Definition run (st : state) (xs : list op) : state := fold_left next xs st.
Definition empty : state := St [] [] [].
