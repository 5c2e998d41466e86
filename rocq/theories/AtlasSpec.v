(* Points of a triangle in barycentric coordinates, and their small triangles. *)
From Coq Require Import Reals List Arith ZArith.
From Verif Require Import Base RBase Textures Atlas.
Import ListNotations.
Local Open Scope R_scope.

Definition inside (w : R * R * R) : Prop := let '(w0, w1, w2) := w in 0 <= w0 /\ 0 <= w1 /\ 0 <= w2 /\ w0 + w1 + w2 = 1.
(* the triangle of w0, w1 cut into n * n equal ones: those of corner (i, j)/n pointing up, and down *)
Inductive small := Up (i j : nat) | Down (i j : nat).
Definition of_size (n : nat) (t : small) : Prop :=
  match t with Up i j => (i + j < n)%nat | Down i j => (i + j + 1 < n)%nat end.
Definition within (n : nat) (t : small) (w0 w1 : R) : Prop :=
  match t with
  | Up i j => INR i <= w0 * INR n /\ INR j <= w1 * INR n /\ w0 * INR n - INR i + (w1 * INR n - INR j) <= 1
  | Down i j => w0 * INR n < INR i + 1 /\ w1 * INR n < INR j + 1 /\ 1 < w0 * INR n - INR i + (w1 * INR n - INR j)
  end.
Definition corners (n : nat) (t : small) : list (R * R) :=
  match t with
  | Up i j => [(INR i / INR n, INR j / INR n); (INR (S i) / INR n, INR j / INR n); (INR i / INR n, INR (S j) / INR n)]
  | Down i j => [(INR (S i) / INR n, INR (S j) / INR n); (INR (S i) / INR n, INR j / INR n); (INR i / INR n, INR (S j) / INR n)]
  end.
Definition centroid (n : nat) (t : small) : R * R :=
  let c := corners n t in (rsum (map fst c) / 3, rsum (map snd c) / 3).
(* the cell of a small triangle: below the diagonal its own place, above it the place turned around *)
Definition cell_of (n : nat) (t : small) : nat * nat :=
  match t with Up i j => (i, j) | Down i j => (n - 1 - i, n - 1 - j)%nat end.

(* the point of texture space of barycentric coordinates w in the triangle of corners a, b, c *)
Definition uv_at (f : triple uv) (w : R * R * R) : uv :=
  match f, w with (((ax, ay), (bx, by_)), (cx, cy)), (w0, w1, w2) => (w0 * ax + w1 * bx + w2 * cx, w0 * ay + w1 * by_ + w2 * cy) end.
(* what a face of material name shows: its image, else its diffuse colour, else white *)
Inductive shows (props : list (nat * option colour)) (images : list (nat * list tmap)) (n : nat) (name : nat) (f : triple uv) : square -> Prop :=
  | shows_image : forall image, In (name, image) images -> shows props images n name f (face_square (map flip (rgb image)) n f)
  | shows_diffuse : forall c, ~ In name (map fst images) -> In (name, Some c) props -> shows props images n name f (filled n c)
  | shows_white : ~ In name (map fst images) -> (forall c, ~ In (name, Some c) props) -> shows props images n name f (filled n white).
Definition unit_range (f : triple uv) : Prop := forall u, In u (coordinates f) -> 0 <= u <= 1.
(* every pixel of the image is between lo and hi *)
Definition pixels_between (lo hi : R) (m : tmap) : Prop :=
  (0 < mh m)%Z /\ (0 < mw m)%Z /\ forall r c, (0 <= r < mh m)%Z -> (0 <= c < mw m)%Z -> lo <= tex m r c <= hi.
