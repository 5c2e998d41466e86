(* Vocabulary for the statements about clipping. *)
From Verif Require Import Base RBase Geom LinAlg Symeig Clip.
Local Open Scope R_scope.

(* the position in the world of a vertex whose x and y may be projected *)
Definition world (perspective : bool) (v : vec3) : vec3 :=
  if perspective then V3 (x3 v * z3 v) (y3 v * z3 v) (z3 v) else v.
(* the point with barycentric coordinates w in the triangle f *)
Definition weighted (perspective : bool) (f : face) (w : vec3) : vec3 :=
  let '(a, b, c) := f in
  add3 (add3 (scal3 (x3 w) (world perspective a)) (scal3 (y3 w) (world perspective b))) (scal3 (z3 w) (world perspective c)).
Definition nonneg3 (w : vec3) : Prop := 0 <= x3 w /\ 0 <= y3 w /\ 0 <= z3 w.
Definition total (w : vec3) : R := x3 w + y3 w + z3 w.
Definition in_triangle (perspective : bool) (f : face) (q : vec3) : Prop :=
  exists w, nonneg3 w /\ total w = 1 /\ q = weighted perspective f w.
(* normal vector, twice as long as the area is large *)
Definition normal_of (perspective : bool) (f : face) : vec3 :=
  let '(a, b, c) := f in
  cross3 (sub3 (world perspective b) (world perspective a)) (sub3 (world perspective c) (world perspective a)).

(* the original face a clipped face belongs to *)
Definition source (cf : clipped) (k : nat) : option nat :=
  match c_source cf with
  | None => if (k <? length (c_verts cf))%nat then Some k else None
  | Some l => nth_error l k
  end.
(* the points covered by the clipped faces that belong to face i *)
Definition covered (perspective : bool) (cf : clipped) (i : nat) (q : vec3) : Prop :=
  exists k f, nth_error (c_verts cf) k = Some f /\ source cf k = Some i /\ in_triangle perspective f q.
Definition in_front_of (zclip : option R) (q : vec3) : Prop :=
  match zclip with None => True | Some c => c <= z3 q end.
(* perspective division by the clipping depth is possible *)
Definition depth_ok (fr : frustum) : Prop :=
  f_perspective fr = true -> f_zclip fr <> Some 0.

(* the faces of consecutive meshes: first face and number of faces of each *)
Definition batch_of (F : nat) (first num : list nat) : Prop :=
  length first = length num /\ sum_nat num = F /\
  forall m, (m < length num)%nat -> nth m first 0%nat = sum_nat (firstn m num).

(* what the code tests instead of "all vertices are beyond a plane of the frustum": all coordinates of
   the first vertex are beyond left or right, of the second beyond top or bottom, of the third beyond znear or zfar *)
Definition all_less (v : vec3) (o : option R) : Prop :=
  exists t, o = Some t /\ x3 v < t /\ y3 v < t /\ z3 v < t.
Definition all_more (v : vec3) (o : option R) : Prop :=
  exists t, o = Some t /\ t < x3 v /\ t < y3 v /\ t < z3 v.
Definition dropped (fr : frustum) (f : face) : Prop :=
  let '(a, b, c) := f in
  f_cull fr = true /\
  (all_less a (f_left fr) \/ all_more a (f_right fr) \/ all_less b (f_top fr) \/ all_more b (f_bottom fr) \/
   all_less c (f_znear fr) \/ all_more c (f_zfar fr)).
(* what the documentation says: all three vertices are beyond the same plane *)
Definition outside (fr : frustum) (f : face) : Prop :=
  let '(a, b, c) := f in
  let less (g : vec3 -> R) o := exists t, o = Some t /\ g a < t /\ g b < t /\ g c < t in
  let more (g : vec3 -> R) o := exists t, o = Some t /\ t < g a /\ t < g b /\ t < g c in
  less x3 (f_left fr) \/ more x3 (f_right fr) \/ less y3 (f_top fr) \/ more y3 (f_bottom fr) \/
  less z3 (f_znear fr) \/ more z3 (f_zfar fr).
(* face k lies in mesh m *)
Definition in_mesh (first num : list nat) (m k : nat) : Prop :=
  (nth m first 0 <= k < nth m first 0 + nth m num 0)%nat.
(* a face that the clipping changes *)
Definition touched (fr : frustum) (f : face) : Prop :=
  dropped fr f \/ exists c k, f_zclip fr = Some c /\ z3 (vert f k) < c.
(* the entry of the table of neighbours; without a table there are no neighbours *)
Definition neighbour (cf : clipped) (k : nat) : option Z :=
  match c_neighbor cf with
  | None => if (k <? length (c_verts cf))%nat then Some (-1)%Z else None
  | Some l => nth_error l k
  end.
