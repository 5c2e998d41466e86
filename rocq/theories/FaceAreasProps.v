(* C59: face areas, face normals and their gradient. *)
From Verif Require Import Base RBase Geom FaceAreas FaceAreasSpec.
From Verif Require FaceAreasProofs.
Local Open Scope R_scope.

Theorem face_areas_normals_formula : forall vs fs, Forall (in_range (length vs)) fs ->
  face_areas_normals vs fs = Ok (map (fun f => let '(i0, i1, i2) := f in
    let c := tri_cross (at_ vs i0) (at_ vs i1) (at_ vs i2) in
    (norm3 c / 2, div3 c (Rmax (norm3 c) (/ 1000000)))) fs).
Proof. exact FaceAreasProofs.forward_spec. Qed.
Print Assumptions face_areas_normals_formula.

(* whatever the order of the additions, the result is the gradient of
   sum_f ga_f area_f + gn_f . normal_f, except for the wrong term *)
Theorem face_areas_normals_gradient_partial : forall vs fs g w a adds l,
  (w < length vs)%nat -> Forall (in_range (length vs)) fs -> Forall distinct fs ->
  Forall (corner_ok vs w a) (combine fs g) ->
  all_adds vs fs g = Ok adds -> Permutation l adds ->
  exists out, fold_left apply_add l (Ok (repeat (V3 0 0 0) (length vs))) = Ok out /\ length out = length vs /\
    derivable_pt_lim (fun t => faces_loss fs g (move vs w a t)) (coord a (nth w vs (V3 0 0 0)))
      (coord a (nth w out (V3 0 0 0))).
Proof.
  intros vs fs g w a adds l Hw HR HD HC Ha HP. rewrite FaceAreasProofs.all_adds_ok in Ha by exact HR.
  injection Ha as <-. exact (FaceAreasProofs.bwd_gradient vs fs g w a l Hw HR HD HC HP).
Qed.
Print Assumptions face_areas_normals_gradient_partial.

Theorem face_areas_normals_cpu_gradient_partial : forall vs fs g w a,
  (w < length vs)%nat -> Forall (in_range (length vs)) fs -> Forall distinct fs ->
  Forall (corner_ok vs w a) (combine fs g) ->
  exists out, face_areas_normals_bwd vs fs g = Ok out /\ length out = length vs /\
    derivable_pt_lim (fun t => faces_loss fs g (move vs w a t)) (coord a (nth w vs (V3 0 0 0)))
      (coord a (nth w out (V3 0 0 0))).
Proof.
  intros vs fs g w a Hw HR HD HC. unfold face_areas_normals_bwd. rewrite FaceAreasProofs.all_adds_ok by exact HR.
  exact (FaceAreasProofs.bwd_gradient vs fs g w a _ Hw HR HD HC (Permutation_refl _)).
Qed.
Print Assumptions face_areas_normals_cpu_gradient_partial.

(* the y and x gradients need no guard but non-degeneracy *)
Theorem face_areas_normals_gradient_xy : forall vs fs g w a, a <> AZ ->
  (w < length vs)%nat -> Forall (in_range (length vs)) fs -> Forall distinct fs ->
  (forall i0 i1 i2, In (i0, i1, i2) fs -> / 1000000 <= norm3 (tri_cross (at_ vs i0) (at_ vs i1) (at_ vs i2))) ->
  exists out, face_areas_normals_bwd vs fs g = Ok out /\ length out = length vs /\
    derivable_pt_lim (fun t => faces_loss fs g (move vs w a t)) (coord a (nth w vs (V3 0 0 0)))
      (coord a (nth w out (V3 0 0 0))).
Proof.
  intros vs fs g w a Ha Hw HR HD HN. apply face_areas_normals_cpu_gradient_partial; auto.
  rewrite Forall_forall. intros [[[i0 i1] i2] q] I. unfold corner_ok. cbn [fst snd]. intros _.
  split; [apply HN; apply (in_combine_l _ _ _ _ I)|]. intros _ E. contradiction.
Qed.
Print Assumptions face_areas_normals_gradient_xy.

(* without the guard: the gradient with respect to v1.z is wrong already for one well-shaped
   triangle (face_areas_normals_cpu.cpp line 181 and face_areas_normals.cu line 183 use cx for cy) *)
Theorem face_areas_normals_gradient_refuted :
  ~ (forall v0 v1 v2 ga gn, / 1000000 < norm3 (tri_cross v0 v1 v2) ->
       derivable_pt_lim (fun t => tri_loss ga gn v0 (set_coord AZ v1 t) v2) (z3 v1)
         (z3 (snd (fst (area_normal_bwd v0 v1 v2 ga gn))))).
Proof.
  intros H. destruct FaceAreasProofs.v1z_wrong as (A & B). apply B. apply H. exact A.
Qed.
Print Assumptions face_areas_normals_gradient_refuted.

Example gradient_ex :
  let vs := [V3 0 0 0; V3 1 0 0; V3 0 1 0; V3 0 0 1] in
  let fs := [(0, 1, 2); (0, 2, 3)]%Z in
  Forall (in_range (length vs)) fs /\ Forall distinct fs /\
  (forall i0 i1 i2, In (i0, i1, i2) fs -> / 1000000 <= norm3 (tri_cross (at_ vs i0) (at_ vs i1) (at_ vs i2))).
Proof.
  cbv zeta. split; [|split]; try (repeat (apply Forall_cons; [unfold in_range, distinct; cbn [length]; lia|]); apply Forall_nil).
  intros i0 i1 i2 [E|[E|[]]]; injection E as <- <- <-.
  - change (/ 1000000 <= norm3 (tri_cross (V3 0 0 0) (V3 1 0 0) (V3 0 1 0))).
    unfold norm3, tri_cross, dot3, cross3, sub3. cbn [x3 y3 z3]. replace (_ + _) with 1 by ring. rewrite sqrt_1; lra.
  - change (/ 1000000 <= norm3 (tri_cross (V3 0 0 0) (V3 0 1 0) (V3 0 0 1))).
    unfold norm3, tri_cross, dot3, cross3, sub3. cbn [x3 y3 z3]. replace (_ + _) with 1 by ring. rewrite sqrt_1; lra.
Qed.
