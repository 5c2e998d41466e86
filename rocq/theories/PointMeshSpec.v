(* Specification vocabulary for the point-to-mesh distances. *)
From Verif Require Import PackingSpec PointcloudsSpec.
From Verif Require Import Base RBase Geom GeomSpec FaceAreas FaceAreasSpec MeshesSpec LaplaceSpec PointMesh.
Local Open Scope R_scope.

(* where group g starts in the concatenation of the groups *)
Definition begins {T} (ls : list (list T)) (g : nat) : nat := sum_nat (firstn g (map (@length T) ls)).
Definition firsts {T} (ls : list (list T)) : list nat := map (begins ls) (seq 0 (length ls)).

Section Nearest.
Context {A B : Type} (d : A -> B -> R).
(* r: the distance from a to the nearest of bs and the position of one that is as near, counted from s;
   without any b the largest float and 0 *)
Definition nearest_of (a : A) (bs : list B) (s : nat) (r : R * Z) : Prop :=
  match bs with
  | [] => r = (flt_max, 0%Z)
  | _ => exists j b, nth_error bs j = Some b /\ r = (d a b, Z.of_nat (s + j)) /\ forall b', In b' bs -> d a b <= d a b'
  end.
(* out: the answer for every object, compared with the targets of its own batch element *)
Definition nearest_all (As : list (list A)) (Bs : list (list B)) (out : list (R * Z)) : Prop :=
  length out = length (concat As) /\
  forall g xs ys i a, nth_error As g = Some xs -> nth_error Bs g = Some ys -> nth_error xs i = Some a ->
    exists r, nth_error out (begins As g + i) = Some r /\ nearest_of a ys (begins Bs g) r.
Definition below_max (As : list (list A)) (Bs : list (list B)) : Prop :=
  forall g xs ys a b, nth_error As g = Some xs -> nth_error Bs g = Some ys -> In a xs -> In b ys -> d a b < flt_max.
End Nearest.

(* the smallest of some numbers, none of which is above the largest float *)
Definition smallest (l : list R) : R := fold_right Rmin flt_max l.

(* ---- the loss ---- *)
Section Loss.
Context {T : Type} (d : vec3 -> T -> R).
Definition to_nearest (ps : list vec3) (xs : list T) : R :=
  mean (map (fun p => smallest (map (d p) xs)) ps) + mean (map (fun x => smallest (map (fun p => d p x) ps)) xs).
Definition mean_to_nearest (clouds : list (list vec3)) (prims : list (list T)) : R := mean (map (fun q => to_nearest (fst q) (snd q)) (combine clouds prims)).
End Loss.
Definition edges_of (p : mesh) : list seg := map (fun e => (vertex p (fst e), vertex p (snd e))) (mesh_edges p).
Definition faces_of (p : mesh) : list tri := map (fun f : face => let '(i, j, k) := f in (at_ (fst p) i, at_ (fst p) j, at_ (fst p) k)) (snd p).
Definition close_enough {T} (d : vec3 -> T -> R) (clouds : list (list vec3)) (prims : list (list T)) : Prop := below_max d clouds prims.
(* a segment the code does not mistake for a point *)
Definition sound_seg (s : seg) : Prop := / 100000000 < sqd3 (snd s) (fst s) \/ fst s = snd s.
Definition on_segs (segs : list seg) (q : vec3) : Prop := exists s, In s segs /\ on_seg3 q (fst s) (snd s).

(* ---- gradients ---- *)
Section Gradient.
Context {A B : Type} (As : list A) (Bs : list B) (idx : list Z) (g : list R).
(* every object names a target, and has a weight *)
Definition picks : Prop := length idx = length As /\ length g = length As /\ Forall (fun i => (0 <= i < Z.of_nat (length Bs))%Z) idx.
(* k of object o, the position of its target, the target and the object's weight *)
Definition at_object {T} (o : nat) (k : A -> nat -> B -> R -> T) (z : T) : T :=
  match nth_error As o, nth_error idx o, nth_error g o with
  | Some a, Some i, Some x => match nth_error Bs (Z.to_nat i) with Some b => k a (Z.to_nat i) b x | None => z end
  | _, _, _ => z
  end.
(* the weighted sum of the distances from the objects to the targets they name *)
Definition weighted_total (d : A -> B -> R) : R := rsum (map (fun o => at_object o (fun a _ b x => x * d a b) 0) (seq 0 (length As))).
(* the two gradient tensors when bw a b x gives the components of the gradients of x * distance with respect to a and b: an
   object's row is its own gradient, a target's row the sum over the objects that name it *)
Definition gradient_rows (bw : A -> B -> R -> list R * list R) (out : cell -> R) : Prop :=
  (forall o a i b x k, nth_error As o = Some a -> nth_error idx o = Some i -> nth_error g o = Some x -> nth_error Bs (Z.to_nat i) = Some b -> out (false, o, k) = nth k (fst (bw a b x)) 0) /\
  (forall j k, out (true, j, k) = rsum (map (fun o => at_object o (fun a i b x => if (j =? i)%nat then nth k (snd (bw a b x)) 0 else 0) 0) (seq 0 (length As)))).
End Gradient.
(* l with v at position j *)
Definition set_nth {T} (l : list T) (j : nat) (v : T) : list T := firstn j l ++ v :: skipn (S j) l.
(* three consecutive components of a row of a gradient *)
Definition long_seg (s : seg) : Prop := / 100000000 < sqd3 (snd s) (fst s).
Definition triple (out : cell -> R) (side : bool) (row first : nat) : vec3 := V3 (out (side, row, first)) (out (side, row, first + 1)%nat) (out (side, row, first + 2)%nat).
(* the gradient of the weighted sum of the distances with respect to every point and every end of a segment *)
Definition points_to_segs_gradient (ps : list vec3) (segs : list seg) (idx : list Z) (g : list R) (out : cell -> R) : Prop :=
  (forall o p, nth_error ps o = Some p -> is_grad3 (fun q => weighted_total (set_nth ps o q) segs idx g point_edge) p (triple out false o 0)) /\
  (forall j s, nth_error segs j = Some s ->
     is_grad3 (fun q => weighted_total ps (set_nth segs j (q, snd s)) idx g point_edge) (fst s) (triple out true j 0) /\
     is_grad3 (fun q => weighted_total ps (set_nth segs j (fst s, q)) idx g point_edge) (snd s) (triple out true j 3)).
Definition segs_to_points_gradient (segs : list seg) (ps : list vec3) (idx : list Z) (g : list R) (out : cell -> R) : Prop :=
  (forall o s, nth_error segs o = Some s ->
     is_grad3 (fun q => weighted_total (set_nth segs o (q, snd s)) ps idx g (fun s p => point_edge p s)) (fst s) (triple out false o 0) /\
     is_grad3 (fun q => weighted_total (set_nth segs o (fst s, q)) ps idx g (fun s p => point_edge p s)) (snd s) (triple out false o 3)) /\
  (forall j p, nth_error ps j = Some p -> is_grad3 (fun q => weighted_total segs (set_nth ps j q) idx g (fun s p => point_edge p s)) p (triple out true j 0)).
