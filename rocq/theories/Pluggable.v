(* Model of io/pluggable.py and of the suffix test of io/pluggable_formats.py.
   Meshes and point clouds are handled by the same code, so both registries share one model:
   D is the type of the data (Meshes or Pointclouds), S the state of the file system, O the options
   that a call passes on to the interpreters (device, binary, keyword arguments). *)
From Coq Require Import Ascii String.
From Verif Require Import Base.
Local Open Scope list_scope.

(* a str, a pathlib.Path (given by its last component), or an open stream *)
Inductive path := PStr (s : string) | PPath (name : string) | PStream.

(* str.lower() on ASCII text *)
Definition lower_char (c : ascii) : ascii :=
  let n := nat_of_ascii c in if ((65 <=? n) && (n <=? 90))%nat then ascii_of_nat (n + 32) else c.
Fixpoint lower (s : string) : string := match s with EmptyString => EmptyString | String c s => String (lower_char c) (lower s) end.
(* s.endswith(suffix) *)
Fixpoint ends_with (suffix s : string) : bool :=
  if String.eqb suffix s then true else match s with EmptyString => false | String _ s' => ends_with suffix s' end.
(* PurePath.suffix: from the last dot of the name, unless that is its first or last character *)
Fixpoint last_dot (s : string) : option string :=
  match s with
  | EmptyString => None
  | String c s' => match last_dot s' with Some r => Some r | None => if Ascii.eqb c "."%char then Some s else None end
  end.
Definition path_suffix (name : string) : string :=
  match name with
  | EmptyString => EmptyString
  | String _ rest => match last_dot rest with
                     | Some (String _ (String _ _) as r) => r
                     | _ => EmptyString
                     end
  end.
(* pluggable_formats.py:27-38 *)
Definition endswith (p : path) (suffixes : list string) : bool :=
  match p with
  | PPath name => existsb (String.eqb (lower (path_suffix name))) suffixes
  | PStr s => existsb (fun x => ends_with x (lower s)) suffixes
  | PStream => true
  end.

Section IO.
Variables (S D O : Type).
(* pluggable_formats.py:41-93 and 96-142: the result of read may be None, that of save False; both may raise.
   Simplification: reading does not change the file system. *)
Record interpreter := { read : S -> path -> O -> result (option D); save : S -> D -> path -> O -> S * result bool }.

(* pluggable.py:82-93 and 95-108: an object of another class is rejected *)
Definition register (reg : list interpreter) (i : option interpreter) : result (list interpreter) :=
  match i with None => Fail EValue | Some i => Ok (i :: reg) end.     (* appendleft *)
(* 110-140 and 173-192 *)
Fixpoint load (reg : list interpreter) (s : S) (p : path) (o : O) : result D :=
  match reg with
  | [] => Fail EValue
  | i :: rest => r <- read i s p o ;; match r with Some d => Ok d | None => load rest s p o end
  end.
(* 161-171 and 215-225 *)
Fixpoint save_loop (reg : list interpreter) (s : S) (d : D) (p : path) (o : O) : S * result unit :=
  match reg with
  | [] => (s, Fail EValue)
  | i :: rest =>
      match save i s d p o with
      | (s', Ok true) => (s', Ok tt)
      | (s', Ok false) => save_loop rest s' d p o
      | (s', Fail e) => (s', Fail e)
      end
  end.
(* 142-171, 194-225. data is None if it is not an object of the right class; size is len(data).
   include_textures is accepted by save_mesh but not passed on. *)
Definition save_data (size : D -> nat) (reg : list interpreter) (s : S) (data : option D) (p : path) (include_textures : bool) (o : O) : S * result unit :=
  match data with
  | None => (s, Fail EValue)
  | Some d => if Nat.eqb (size d) 1 then save_loop reg s d p o else (s, Fail EValue)
  end.

(* a built-in format: obj_io.py:301-363, off_io.py:421-497, ply_io.py:1378-1482, 1485-1549 *)
Definition by_suffix (suffix : string) (parse : S -> path -> O -> result D) (write : S -> D -> path -> O -> S * result unit) : interpreter :=
  {| read := fun s p o => if endswith p [suffix] then d <- parse s p o ;; Ok (Some d) else Ok None;
     save := fun s d p o => if endswith p [suffix] then let '(s', r) := write s d p o in (s', _ <- r ;; Ok true) else (s, Ok false) |}.

(* The calls a user makes on an IO object, and what they do to the registry and the file system.
   A call that raises leaves the registry unchanged. *)
Inductive call := Register (i : option interpreter) | Load (p : path) (o : O) | Save (data : option D) (p : path) (include_textures : bool) (o : O).
Definition step (size : D -> nat) (st : list interpreter * S) (c : call) : list interpreter * S :=
  let '(reg, s) := st in
  match c with
  | Register i => match register reg i with Ok reg' => (reg', s) | Fail _ => (reg, s) end
  | Load _ _ => (reg, s)
  | Save d p t o => (reg, fst (save_data size reg s d p t o))
  end.
(* 59-80: the constructor registers the built-in formats, in this order *)
Definition new (defaults : list interpreter) (include_default_formats : bool) : list interpreter :=
  if include_default_formats then fold_left (fun reg i => i :: reg) defaults [] else [].
Definition run (size : D -> nat) (st : list interpreter * S) (cs : list call) : list interpreter * S := fold_left (step size) cs st.
End IO.
Arguments read {S D O}. Arguments save {S D O}. Arguments load {S D O}. Arguments save_loop {S D O}. Arguments save_data {S D O}.
Arguments register {S D O}. Arguments by_suffix {S D O}. Arguments new {S D O}. Arguments run {S D O}. Arguments step {S D O}.
Arguments Register {S D O}. Arguments Load {S D O}. Arguments Save {S D O}.
