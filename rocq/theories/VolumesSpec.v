(* What a Volumes object is meant to hold: one grid of densities, maybe one of features, a voxel size and a
   translation per volume. *)
From Verif Require Import Base RBase Geom LinAlg Transform Volumes.
Local Open Scope R_scope.

Record batch := Batch { a_dens : list tensor4; a_feats : option (list tensor4); a_voxel : list vec3; a_trans : list vec3; a_align : bool }.

(* the same shape and the same numbers inside it *)
Definition same4 (a b : tensor4) : Prop :=
  chan a = chan b /\ dims a = dims b /\ forall c k j i, below c k j i (chan a) (dims a) = true -> value a c k j i = value b c k j i.
Definition same_lists (a b : list tensor4) : Prop := Forall2 same4 a b.
Definition elements (x : tensor_batch) : list tensor4 :=
  match x with AList l => l | ATensor t => map (fun f => {| chan := chans t; dims := res t; value := f |}) (items t) end.
(* what may be given: at least one grid, all with the same number of channels (at least one in a list) *)
Definition good_arg (x : tensor_batch) : Prop :=
  elements x <> [] /\ exists n, Forall (fun y => chan y = n) (elements x) /\ (match x with AList _ => (0 < n)%nat | ATensor _ => True end).
Definition fits (x : tensor_batch) (sizes : list shape3) : Prop := good_arg x /\ map dims (elements x) = sizes.

(* what voxel_size and volume_translation mean for N volumes *)
Inductive vectors (N : nat) : size_arg -> list vec3 -> Prop :=
| three_numbers a b c : vectors N (SSeq [a; b; c]) (repeat (V3 a b c) N)
| three_tensor a b c : vectors N (STen1 [a; b; c]) (repeat (V3 a b c) N)
| one_row a b c : vectors N (STen2 3 [[a; b; c]]) (repeat (V3 a b c) N)
| row_each rows vs : length rows = N -> Forall2 (fun r v => r = [x3 v; y3 v; z3 v]) rows vs -> vectors N (STen2 3 rows) vs.
Inductive voxel_sizes (N : nat) : size_arg -> list vec3 -> Prop :=
| by_vectors x vs : vectors N x vs -> voxel_sizes N x vs
| number r : voxel_sizes N (SNum r) (repeat (V3 r r r) N)
| scalar_tensor r : voxel_sizes N (STen0 r) (repeat (V3 r r r) N)
| tensor_of_one r : voxel_sizes N (STen1 [r]) (repeat (V3 r r r) N)
| number_each rs : length rs = N -> voxel_sizes N (STen2 1 (map (fun r => [r]) rs)) (map (fun r => V3 r r r) rs).

(* which volumes an index selects, in order *)
Definition in_bounds (n : nat) (i : Z) (p : nat) : Prop :=
  (- Z.of_nat n <= i < Z.of_nat n)%Z /\ Z.of_nat p = (if (i <? 0)%Z then i + Z.of_nat n else i)%Z.
Definition chosen (n : nat) (ix : index) (ps : list nat) : Prop :=
  match ix with
  | IxInt i => exists p, ps = [p] /\ in_bounds n i p
  | IxList l => Forall2 (in_bounds n) l ps
  | IxMask b => length b = n /\ ps = filter (fun p => nth p b false) (seq 0 n)
  end.
Definition gets {A} (ps : list nat) (l l' : list A) : Prop := Forall2 (fun p x => nth_error l p = Some x) ps l'.
Definition selects (ix : index) (a a' : batch) : Prop :=
  exists ps, chosen (length (a_dens a)) ix ps /\ gets ps (a_dens a) (a_dens a') /\ gets ps (a_voxel a) (a_voxel a') /\ gets ps (a_trans a) (a_trans a') /\
    match a_feats a, a_feats a' with Some f, Some f' => gets ps f f' | None, None => True | _, _ => False end.

(* everything the constructor, indexing and update_padded can give *)
Inductive reachable : volumes -> batch -> Prop :=
| constructed dens feats voxel trans align v vs ts :
    new_volumes dens feats voxel trans align = Ok v ->
    voxel_sizes (length (elements dens)) voxel vs -> vectors (length (elements dens)) trans ts ->
    reachable v (Batch (elements dens) (option_map elements feats) vs ts align)
| indexed v a ix v' a' : reachable v a -> vgetitem v (VIndex ix) = Ok v' -> selects ix a a' -> a_align a' = true -> reachable v' a'
| updated v a dens feats v' : reachable v a -> update_padded v dens feats = Ok v' ->
    reachable v' (Batch (elements dens) (option_map elements feats) (a_voxel a) (a_trans a) (a_align a)).

(* volume n: size, voxel size, translation *)
Definition frames (a : batch) : list (shape3 * vec3 * vec3) := combine (combine (map dims (a_dens a)) (a_voxel a)) (a_trans a).
(* x_world = x_local * (volume_size - 1) * 0.5 * voxel_size - volume_translation *)
Definition world_of (f : shape3 * vec3 * vec3) (p : vec3) : vec3 :=
  let '((d, h, w), v, t) := f in
  V3 (x3 p * (INR w - 1) * / 2 * x3 v - x3 t) (y3 p * (INR h - 1) * / 2 * y3 v - y3 t) (z3 p * (INR d - 1) * / 2 * z3 v - z3 t).
(* no side of length one, no voxel of size zero *)
Definition invertible (f : shape3 * vec3 * vec3) : Prop :=
  let '((d, h, w), v, t) := f in (d <> 1 /\ h <> 1 /\ w <> 1)%nat /\ x3 v <> 0 /\ y3 v <> 0 /\ z3 v <> 0.

(* the local coordinate of voxel i out of s: -1 and 1 are the centres of the outer voxels, or their outer sides *)
Definition centre (align : bool) (s i : nat) : R := if align then -1 + 2 * INR i / (INR s - 1) else -1 + (2 * INR i + 1) / INR s.
Definition inside (s c : shape3) : Prop := let '(d, h, w) := s in let '(k, j, i) := c in (k < d /\ j < h /\ i < w)%nat.
Definition big (s : shape3) : Prop := let '(d, h, w) := s in (2 <= d /\ 2 <= h /\ 2 <= w)%nat.
Definition voxel_centre (align : bool) (s c : shape3) : vec3 :=
  let '(d, h, w) := s in let '(k, j, i) := c in V3 (centre align w i) (centre align h j) (centre align d k).
(* the entry for voxel c = (k, j, i) in the n-th grid of a tensor of resolution r, in row-major order *)
Definition offset (r c : shape3) : nat := let '(D, H, W) := r in let '(k, j, i) := c in ((k * H + j) * W + i)%nat.
Definition grid_at {A} (r : shape3) (g : list (list A)) (n : nat) (c : shape3) : option A :=
  match nth_error g n with Some l => nth_error l (offset r c) | None => None end.
(* x_local, solved from x_world *)
Definition local_of (f : shape3 * vec3 * vec3) (p : vec3) : vec3 :=
  let '((d, h, w), v, t) := f in
  V3 ((x3 p + x3 t) / ((INR w - 1) * / 2 * x3 v)) ((y3 p + y3 t) / ((INR h - 1) * / 2 * y3 v)) ((z3 p + z3 t) / ((INR d - 1) * / 2 * z3 v)).
Definition each (g : shape3 * vec3 * vec3 -> vec3 -> vec3) (a : batch) (pts : list (list vec3)) : list (list (option vec3)) :=
  map (fun q => map (fun p => Some (g (fst q) p)) (snd q)) (combine (frames a) pts).
(* the points as they are *)
Definition plain (o : list (list (option vec3))) (pts : list (list vec3)) : Prop := o = map (map Some) pts.
(* the place of voxel c in the world: voxels of the given size around -translation *)
Definition voxel_world (f : shape3 * vec3 * vec3) (c : shape3) : vec3 :=
  let '((d, h, w), v, t) := f in let '(k, j, i) := c in
  V3 ((INR i - (INR w - 1) / 2) * x3 v - x3 t) ((INR j - (INR h - 1) / 2) * y3 v - y3 t) ((INR k - (INR d - 1) / 2) * z3 v - z3 t).
Definition get_resolution (v : volumes) : shape3 := l_res (loc v).
Definition all_equal (l : list shape3) : Prop := forall a b, In a l -> In b l -> a = b.
