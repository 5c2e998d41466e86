(* Model of structures/volumes.py: Volumes and VolumeLocator, on top of the model of Transform3d.
   A tensor is its shape and a function of the indices that is only read inside the shape. Floats are exact reals,
   nan and inf are None; devices, dtypes and autograd are not modelled. *)
From Verif Require Import Base RBase Geom LinAlg Transform.
Local Open Scope R_scope.

Notation shape3 := (nat * nat * nat)%type.                                     (* depth, height, width *)
Notation cells4 := (nat -> nat -> nat -> nat -> R).                            (* channel, depth, height, width *)
Record tensor4 := T4 { chan : nat; dims : shape3; value : cells4 }.
Record tensor5 := T5 { chans : nat; res : shape3; items : list cells4 }.
(* a list of 4-dim tensors or a 5-dim tensor; other ranks raise ValueError and are not represented *)
Inductive tensor_batch := AList (l : list tensor4) | ATensor (t : tensor5).

Definition max3 (a b : shape3) : shape3 :=
  let '(a1, a2, a3) := a in let '(b1, b2, b3) := b in (Nat.max a1 b1, Nat.max a2 b2, Nat.max a3 b3).
Definition below (c k j i : nat) (n : nat) (s : shape3) : bool :=
  let '(d, h, w) := s in ((c <? n) && (k <? d) && (j <? h) && (i <? w))%nat.
(* structures/utils.py:20-80 list_to_padded for 4-dim tensors; max() of nothing raises ValueError *)
Definition pad_item (y : tensor4) : cells4 := fun c k j i => if below c k j i (chan y) (dims y) then value y c k j i else 0.
Definition list_to_padded4 (l : list tensor4) : result tensor5 :=
  match filter (fun y => (0 <? chan y)%nat) l with
  | [] => Fail EValue
  | ys => Ok {| chans := max_nat (map chan ys); res := fold_right max3 (0, 0, 0)%nat (map dims ys); items := map pad_item l |}
  end.
(* volumes.py:228-273 _convert_densities_features_to_tensor *)
Definition convert (x : tensor_batch) : result (tensor5 * list shape3) :=
  match x with
  | AList l => t <- list_to_padded4 l ;;
               match l with
               | y :: _ => if forallb (fun z => (chan z =? chan y)%nat) l then Ok (t, map dims l) else Fail EValue
               | [] => Fail EValue
               end
  | ATensor t => Ok (t, repeat (res t) (length (items t)))
  end.

(* ---- VolumeLocator ---- *)
(* a number, a list or tuple, a tensor with no, one or two dimensions (rows of w numbers) *)
Inductive size_arg := SNum (r : R) | SSeq (l : list R) | STen0 (r : R) | STen1 (l : list R) | STen2 (w : nat) (rows : list (list R)).
Definition row3 (l : list R) : result vec3 := match l with [a; b; c] => Ok (V3 a b c) | _ => Fail EValue end.
(* 1066-1098 _convert_volume_property_to_tensor. x.shape[1] of a 1-dim tensor raises IndexError. *)
Definition convert_property (x : size_arg) (N : nat) : result (list vec3) :=
  match x with
  | SNum _ => Fail EValue
  | SSeq l => v <- row3 l ;; Ok (repeat v N)
  | STen0 _ => Fail EIndex
  | STen1 l => if (length l =? 1)%nat then Fail EIndex
               else if (length l =? 3)%nat then v <- row3 l ;; Ok (repeat v N)
               else if (length l =? N)%nat then Fail EIndex else Fail EValue
  | STen2 w rows =>
      if ((length rows =? 1) && (w =? 3))%nat || ((length rows =? N) && (w =? 3))%nat then
        match rows with
        | [r] => v <- row3 r ;; Ok (repeat v N)
        | _ => rmap row3 rows
        end
      else Fail EValue
  end.
(* 1022-1048 _handle_voxel_size *)
Definition handle_voxel_size (x : size_arg) (N : nat) : result (list vec3) :=
  convert_property match x with
                   | SNum r => STen2 3 [[r; r; r]]
                   | STen0 r | STen1 [r] | STen2 _ [[r]] => STen1 [r; r; r]
                   | STen2 w rows => if ((length rows =? N) && (w =? 1))%nat then STen2 3 (map (fun r => r ++ r ++ r) rows) else x
                   | _ => x
                   end N.
Record locator := Loc { l_batch : nat; l_sizes : list shape3; l_res : shape3; l_align : bool; l_tf : transform }.
(* 747-774 _voxel_size_translation_to_transform *)
Definition scale_row (p : shape3 * vec3) : vec3 :=
  let '((d, h, w), v) := p in V3 ((INR w - 1) * x3 v * / 2) ((INR h - 1) * y3 v * / 2) ((INR d - 1) * z3 v * / 2).
Definition local_to_world (sizes : list shape3) (voxel trans : list vec3) : result transform :=
  s <- mk_scale (CMat (map scale_row (combine sizes voxel))) CNone CNone ;;
  t <- mk_translate (CMat (map (fun v => V3 (- x3 v) (- y3 v) (- z3 v)) trans)) CNone CNone ;;
  Ok (compose s [t]).
(* 656-699, 953-986; the maximum over no grids raises *)
Definition new_locator (N : nat) (sizes : list shape3) (voxel trans : size_arg) (align : bool) : result locator :=
  match sizes with
  | [] => Fail EIndex
  | _ => vs <- handle_voxel_size voxel N ;; ts <- convert_property trans N ;;
         tf <- local_to_world sizes vs ts ;;
         Ok (Loc N sizes (fold_right max3 (0, 0, 0)%nat sizes) align tf)
  end.

(* ---- Volumes ---- *)
Record volumes := Vol { densities : tensor5; features : option tensor5; loc : locator }.
Definition get_grid_sizes (v : volumes) : list shape3 := l_sizes (loc v).
Definition get_align_corners (v : volumes) : bool := l_align (loc v).
(* 276-277 *)
Definition len (v : volumes) : nat := length (items (densities v)).
Definition shape_eqb (a b : shape3) : bool := let '(a1, a2, a3) := a in let '(b1, b2, b3) := b in ((a1 =? b1) && (a2 =? b2) && (a3 =? b3))%nat.
Fixpoint sizes_eqb (a b : list shape3) : bool :=
  match a, b with [], [] => true | x :: a, y :: b => shape_eqb x y && sizes_eqb a b | _, _ => false end.
(* 403-424 _set_densities_features. allclose on sizes below 10^5 is equality. *)
Definition checked (sizes : list shape3) (x : tensor_batch) : result tensor5 :=
  p <- convert x ;; if sizes_eqb sizes (snd p) then Ok (fst p) else Fail EValue.
(* 190-226 *)
Definition new_volumes (dens : tensor_batch) (feats : option tensor_batch) (voxel trans : size_arg) (align : bool) : result volumes :=
  p <- convert dens ;; let '(t, sizes) := p in
  l <- new_locator (length (items t)) sizes voxel trans align ;;
  f <- match feats with None => Ok None | Some x => y <- checked sizes x ;; Ok (Some y) end ;;
  Ok (Vol t f l).

(* structures/utils.py:83-116 padded_to_list and volumes.py:323-369 *)
Definition to_list (t : tensor5) (sizes : list shape3) : result (list tensor4) :=
  if negb (length (items t) =? length sizes)%nat then Fail EValue
  else Ok (map (fun p => {| chan := chans t; dims := let '(d, h, w) := fst p in let '(D, H, W) := res t in (Nat.min d D, Nat.min h H, Nat.min w W); value := snd p |})
               (combine sizes (items t))).
Definition densities_list (v : volumes) : result (list tensor4) := to_list (densities v) (get_grid_sizes v).
Definition features_list (v : volumes) : result (option (list tensor4)) :=
  match features v with None => Ok None | Some f => l <- to_list f (get_grid_sizes v) ;; Ok (Some l) end.

(* 279-311 __getitem__ and 988-1020. An int becomes a tensor with one number; a slice is given by its positions.
   A tuple indexes several dimensions of the tensors at once: (i,) leaves a 4-dim tensor. *)
Inductive vindex := VIndex (ix : index) | VTuple1 (i : Z).
Definition take5 (t : tensor5) (ix : index) : result tensor5 := l <- take_index (items t) ix ;; Ok {| chans := chans t; res := res t; items := l |}.
Definition vgetitem (v : volumes) (ix : vindex) : result volumes :=
  match ix with
  | VTuple1 i => _ <- index1 (len v) i ;; Fail EValue
  | VIndex ix =>
      let ix := match ix with IxInt i => IxList [i] | _ => ix end in
      f <- match features v with None => Ok None | Some f => y <- take5 f ix ;; Ok (Some (ATensor y)) end ;;
      d <- take5 (densities v) ix ;;
      new <- new_volumes (ATensor d) f (SNum 1) (SSeq [0; 0; 0]) true ;;
      sizes <- take_index (get_grid_sizes v) ix ;;
      tf <- getitem (l_tf (loc v)) ix ;;
      Ok (Vol (densities new) (features new) (Loc (l_batch (loc new)) sizes (l_res (loc new)) (l_align (loc new)) tf))
  end.
(* 371-397 update_padded *)
Definition update_padded (v : volumes) (dens : tensor_batch) (feats : option tensor_batch) : result volumes :=
  d <- checked (get_grid_sizes v) dens ;;
  f <- match feats with None => Ok None | Some x => y <- checked (get_grid_sizes v) x ;; Ok (Some y) end ;;
  Ok (Vol d f (loc v)).

(* 881-946: (N, P, 3) points; the view of a tensor without elements is ambiguous *)
Definition apply_transform (t : transform) (pts : list (list vec3)) : result (list (list (option vec3))) :=
  match concat pts with
  | [] => Fail ERuntime
  | _ => o <- transform_points None t (P3 pts) ;;
         if (length (as_batch o) =? length pts)%nat then Ok (as_batch o) else Fail ERuntime
  end.
Definition local_to_world_coords (v : volumes) (pts : list (list vec3)) := apply_transform (l_tf (loc v)) pts.
Definition world_to_local_coords (v : volumes) (pts : list (list vec3)) := t <- inverse false (l_tf (loc v)) ;; apply_transform t pts.

(* 776-879 get_coord_grid *)
Definition linspace (a b : R) (r i : nat) : R := if (r =? 1)%nat then a else a + INR i * ((b - a) / (INR r - 1)).
Definition axis_coord (align : bool) (r i : nat) : R := let adj := if align then 0 else 1 / INR r in linspace (-1 + adj) (1 - adj) r i.
(* a quotient of the sizes; a division by zero gives nan or inf *)
Definition relative (r s : nat) : option R := if (s =? 1)%nat then None else Some ((INR r - 1) / (INR s - 1)).
Definition is_one (o : option R) : bool := match o with Some r => Reqb r 1 | None => false end.
Definition same_sizes (r s : shape3) : bool :=
  let '(D, H, W) := r in let '(d, h, w) := s in is_one (relative D d) && is_one (relative H h) && is_one (relative W w).
Definition rescaled (adjust : bool) (rel : option R) (x : R) : option R :=
  if adjust then match rel with Some q => Some (x * q + (q - 1)) | None => None end else Some x.
Definition cells3 (s : shape3) : list shape3 :=
  let '(d, h, w) := s in flat_map (fun k => flat_map (fun j => map (fun i => (k, j, i)) (seq 0 w)) (seq 0 h)) (seq 0 d).
Notation coord3 := (option R * option R * option R)%type.
Definition local_coord (align adjust : bool) (r s : shape3) (c : shape3) : coord3 :=
  let '(D, H, W) := r in let '(d, h, w) := s in let '(k, j, i) := c in
  (rescaled adjust (relative W w) (axis_coord align W i), rescaled adjust (relative H h) (axis_coord align H j), rescaled adjust (relative D d) (axis_coord align D k)).
Definition local_coord_grid (v : volumes) : list (list coord3) :=
  let l := loc v in
  let adjust := existsb (fun s => negb (same_sizes (l_res l) s)) (l_sizes l) in
  map (fun s => map (local_coord (l_align l) adjust (l_res l) s) (cells3 (l_res l))) (l_sizes l).
(* a nan makes all three world coordinates nan *)
Definition finite (c : coord3) : option vec3 := match c with (Some x, Some y, Some z) => Some (V3 x y z) | _ => None end.
Definition or_zero (o : option vec3) : vec3 := match o with Some v => v | None => V3 0 0 0 end.
Definition world_coord_grid (v : volumes) : result (list (list (option vec3))) :=
  let g := map (map finite) (local_coord_grid v) in
  o <- local_to_world_coords v (map (map or_zero) g) ;;
  Ok (map (fun p => map (fun q => match fst q with Some _ => snd q | None => None end) (combine (fst p) (snd p))) (combine g o)).
