(* Vocabulary of property C79: what reading obj[i].name shows. *)
From Coq Require Import String.
From Verif Require Import Base RBase Tens Accessor.
Local Open Scope R_scope.

(* states that programs reach *)
Definition reachable (st : state) : Prop := exists xs, st = run empty xs.
(* two reads show the same: equal tensors, or the same exception *)
Definition agree (a b : result tensor) : Prop :=
  match a, b with
  | Ok x, Ok y => shp x = shp y /\ forall idx, Forall2 lt idx (shp x) -> get x idx = get y idx
  | Fail e, Fail f => e = f
  | _, _ => False
  end.
(* the entry jdx of a value of shape s goes to the entry idx of the target: dimensions are matched from the
   last one on, and those of size 1 are repeated *)
Definition goes_to (s jdx idx : list nat) : Prop :=
  forall k d j i, nth_error s k = Some d -> nth_error jdx k = Some j ->
    (List.length s <= k + List.length idx)%nat -> nth_error idx (k + List.length idx - List.length s) = Some i ->
    d = 1%nat \/ j = i.
(* x shows the assigned value *)
Definition shows (x : result tensor) (value : tensor) : Prop :=
  exists t, x = Ok t /\ forall idx jdx, Forall2 lt idx (shp t) -> Forall2 lt jdx (shp value) -> goes_to (shp value) jdx idx ->
    get t idx = get value jdx.
Definition elem (i : nat) : index := At (Z.of_nat i).
(* what a keyword argument contains: tensors of at least one dimension *)
Definition content (st : state) (a : arg) : option tensor :=
  match a with
  | Data t => Some (match shp t with [] => T [1%nat] (fun _ => get t []) | _ => t end)
  | Held k => match nth_error (held st) k with Some b => nth_error (memory st) b | None => None end
  | _ => None
  end.
Definition size_of (t : tensor) : nat := hd 0%nat (shp t).
(* the user's k-th tensor *)
Definition tensor_of (st : state) (k : nat) : option tensor := content st (Held k).
(* operations that are meant to change object c *)
Definition changes (c : nat) (x : op) : bool :=
  match x with Set_ o _ _ _ => (o =? c)%nat | Gather o _ => (o =? c)%nat | _ => false end.
