(* Specification vocabulary for face areas and normals. *)
From Verif Require Import Base RBase Geom.
Local Open Scope R_scope.

(* twice the oriented area vector of a triangle *)
Definition tri_cross (v0 v1 v2 : vec3) : vec3 := cross3 (sub3 v1 v0) (sub3 v2 v0).
Inductive axis := AX | AY | AZ.
Definition coord (a : axis) (v : vec3) : R := match a with AX => x3 v | AY => y3 v | AZ => z3 v end.
Definition set_coord (a : axis) (v : vec3) (t : R) : vec3 :=
  match a with AX => V3 t (y3 v) (z3 v) | AY => V3 (x3 v) t (z3 v) | AZ => V3 (x3 v) (y3 v) t end.
(* the value whose gradient is wanted: ga * area + gn . normal *)
Definition tri_loss (ga : R) (gn : vec3) (v0 v1 v2 : vec3) : R :=
  let c := tri_cross v0 v1 v2 in ga * (norm3 c / 2) + dot3 gn c / norm3 c.
(* move one coordinate of vertex w *)
Definition move (vs : list vec3) (w : nat) (a : axis) (t : R) : list vec3 :=
  match nth_error vs w with
  | Some v => firstn w vs ++ set_coord a v t :: skipn (S w) vs
  | None => vs
  end.
Definition at_ (vs : list vec3) (i : Z) : vec3 := nth (Z.to_nat i) vs (V3 0 0 0).
Definition faces_loss (fs : list (Z * Z * Z)) (g : list (R * vec3)) (vs : list vec3) : R :=
  rsum (map (fun fg => let '(i0, i1, i2) := fst fg in
    tri_loss (fst (snd fg)) (snd (snd fg)) (at_ vs i0) (at_ vs i1) (at_ vs i2)) (combine fs g)).
Definition in_range (n : nat) (f : Z * Z * Z) : Prop :=
  let '(i0, i1, i2) := f in (0 <= i0 < Z.of_nat n)%Z /\ (0 <= i1 < Z.of_nat n)%Z /\ (0 <= i2 < Z.of_nat n)%Z.
Definition distinct (f : Z * Z * Z) : Prop := let '(i0, i1, i2) := f in i0 <> i1 /\ i1 <> i2 /\ i0 <> i2.

(* the one partial derivative that the code gets wrong (d normal_y / d v1_z) plays no role *)
Definition harmless (v0 v1 v2 gn : vec3) : Prop :=
  let c := tri_cross v0 v1 v2 in let b := sub3 v2 v0 in
  y3 gn = 0 \/ x3 c = y3 c \/ x3 b * y3 c - y3 b * x3 c = 0.
(* for the faces at vertex w: not degenerate, and the wrong term plays no role *)
Definition corner_ok (vs : list vec3) (w : nat) (a : axis) (fg : (Z * Z * Z) * (R * vec3)) : Prop :=
  let '(i0, i1, i2) := fst fg in
  Z.to_nat i0 = w \/ Z.to_nat i1 = w \/ Z.to_nat i2 = w ->
  / 1000000 <= norm3 (tri_cross (at_ vs i0) (at_ vs i1) (at_ vs i2)) /\
  (Z.to_nat i1 = w -> a = AZ -> harmless (at_ vs i0) (at_ vs i1) (at_ vs i2) (snd (snd fg))).

