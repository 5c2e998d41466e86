(* Vocabulary for the statements about Transform3d. *)
From Verif Require Import Base RBase Geom LinAlg Transform.
Local Open Scope R_scope.

Definition orthogonal (r : mat3) : Prop := mul3 r (tr3 r) = id3.

(* everything the public API can produce, when Rotate is given orthogonal matrices *)
Inductive built : transform -> Prop :=
| b_generic m : built (mk_transform m)
| b_identity : built mk_identity
| b_translate x y z t : mk_translate x y z = Ok t -> built t
| b_scale x y z t : mk_scale x y z = Ok t -> built t
| b_rotate rs : (forall r, In r rs -> orthogonal r) -> built (mk_rotate rs)
| b_axis c a d t : mk_axis_angle c a d = Ok t -> built t
| b_compose t os : built t -> (forall o, In o os -> built o) -> built (compose t os)
| b_inverse c t u : built t -> inverse c t = Ok u -> built u
| b_stack t os u : built t -> (forall o, In o os -> built o) -> stack t os = Ok u -> built u
| b_clone t : built t -> built (clone t)
| b_getitem t ix u : built t -> getitem t ix = Ok u -> built u.

(* matrices that undo each other *)
Definition mutual_inverse (a b : mat4) : Prop := mul4 a b = id4 /\ mul4 b a = id4.

(* the i-th element of a batch of length 1 (shared by everyone) or more *)
Definition batch_nth {A} (l : list A) (i : nat) : option A :=
  if (length l =? 1)%nat then nth_error l 0 else nth_error l i.

(* no coordinate of the result is inf/nan, and q holds the values *)
Definition all_finite (p : points (option vec3)) (q : points vec3) : Prop :=
  match p, q with
  | P2 l, P2 l' => l = map Some l'
  | P3 l, P3 l' => l = map (map Some) l'
  | _, _ => False
  end.

(* an affine matrix in the row convention: last column (0,0,0,1) *)
Definition affine (a : mat4) : Prop := n03 a = 0 /\ n13 a = 0 /\ n23 a = 0 /\ n33 a = 1.

(* a batch of one, repeated n times *)
Definition expand_batch {A} (n : nat) (l : list A) : list A :=
  match l with [x] => repeat x n | _ => l end.

(* applying a sequence of transforms one after the other *)
Inductive chain : list transform -> points vec3 -> points vec3 -> Prop :=
| chain_nil p : chain [] p p
| chain_cons t ts p oq q r :
    transform_points None t p = Ok oq -> all_finite oq q -> chain ts q r -> chain (t :: ts) p r.

(* what a constructor argument means for batch element i *)
Definition scalar_at (c : coord) (i : nat) : option R :=
  match c with
  | CScalar x => Some x
  | CVec v => batch_nth v i
  | _ => None
  end.
Definition vector_at (x y z : coord) (i : nat) : option vec3 :=
  match x, scalar_at x i, scalar_at y i, scalar_at z i with
  | CMat v, _, _, _ => batch_nth v i
  | _, Some a, Some b, Some c => Some (V3 a b c)
  | _, _, _, _ => None
  end.
Definition scale_at (x y z : coord) (i : nat) : option vec3 :=
  match y, z with
  | CNone, CNone => match x with CMat v => batch_nth v i | _ => vector_at x x x i end
  | _, _ => vector_at x y z i
  end.

(* entry j of batch element i *)
Definition entry {A} (p : points A) (i j : nat) : option A :=
  match batch_nth (as_batch p) i with Some l => nth_error l j | None => None end.

Definition dist2 (p q : vec3) : R := dot3 (sub3 p q) (sub3 p q).
