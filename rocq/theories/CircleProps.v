(* C91: circles fitted to points. *)
From Coq Require Import Reals List Bool Arith Lra Lia Permutation.
From Verif Require Import Base RBase Geom Rotation Circle CircleSpec CircleProofs CircleProofs2 CircleProofs3 CircleProofs4.
Import ListNotations.
Local Open Scope R_scope.

(* The area that decides the direction is that of the closed polygon, by the shoelace formula; starting elsewhere on the
   polygon does not change it, going backwards turns its sign. *)
Theorem circle_area l : signed_area l = shoelace l /\ signed_area (rev l) = - signed_area l.
Proof. split; [apply area_shoelace|apply area_rev]. Qed.
Theorem circle_area_rotate a l : signed_area (l ++ [a]) = signed_area (a :: l).
Proof. exact (area_rotate a l). Qed.
(* Fewer than three points are refused; otherwise there is always a circle. *)
Theorem circle_defined lstsq l n angles : lstsq_good lstsq l ->
  ((exists f, fit2 lstsq l n angles = Ok f) <-> (3 <= length l)%nat) /\ ((length l < 3)%nat -> fit2 lstsq l n angles = Fail EValue).
Proof.
  intros G. split; [|apply fit2_few]. split.
  - intros (f & E). destruct (le_lt_dec 3 (length l)) as [L|L]; [exact L|]. rewrite fit2_few in E by exact L. discriminate.
  - intros L. destruct (fit2_ok lstsq l n angles L G) as (c & r & _ & _ & p0 & l' & _ & F). eexists. exact F.
Qed.
(* No circle fits better, and the squared radius is the mean of the squared distances to the centre. *)
Theorem circle_best lstsq l n angles f : lstsq_good lstsq l -> fit2 lstsq l n angles = Ok f ->
  0 <= radius f /\ (forall c r2, misfit l (center f) (radius f ^ 2) <= misfit l c r2) /\
  radius f ^ 2 = rsum (map (fun p => dist2sq p (center f)) l) / INR (length l).
Proof. exact (fit2_best lstsq l n angles f). Qed.
(* The circle through points of a circle is that circle. *)
Theorem circle_exact lstsq l n angles f c r : lstsq_good lstsq l -> fit2 lstsq l n angles = Ok f -> not_on_a_line l -> 0 <= r ->
  (forall p, In p l -> dist2sq p c = r ^ 2) -> center f = c /\ radius f = r.
Proof. exact (fit2_exact lstsq l n angles f c r). Qed.
(* The order of the points, and what is to be generated, do not change the circle. *)
Theorem circle_order lstsq l k n angles n' angles' f g : Permutation l k -> not_on_a_line l -> lstsq_good lstsq l -> lstsq_good lstsq k ->
  fit2 lstsq l n angles = Ok f -> fit2 lstsq k n' angles' = Ok g -> center f = center g /\ radius f = radius g.
Proof. exact (fit2_order lstsq l k n angles n' angles' f g). Qed.
(* The generated points: one per angle, on the circle; that of angle 0 is nearest to the first point; the others turn from
   there by their angles, anticlockwise if the area is positive, else clockwise. *)
Theorem circle_generated lstsq l n angles f : lstsq_good lstsq l -> fit2 lstsq l n angles = Ok f ->
  length (generated f) = match angles with Some a => length a | None => n end /\ (forall g, In g (generated f) -> dist2sq g (center f) = radius f ^ 2).
Proof.
  intros G E. destruct (fit2_generated lstsq l n angles f G E) as [A B]. split; [|exact B]. rewrite A. unfold angles_used. destruct angles; [reflexivity|].
  destruct n; [reflexivity|]. apply full_turn_length.
Qed.
Theorem circle_first lstsq l n angles f p0 l' a : lstsq_good lstsq l -> fit2 lstsq l n angles = Ok f -> l = p0 :: l' -> angles_used n angles = 0 :: a ->
  exists g gs, generated f = g :: gs /\ dist2sq g (center f) = radius f ^ 2 /\ forall z, dist2sq z (center f) = radius f ^ 2 -> dist2sq p0 g <= dist2sq p0 z.
Proof. exact (fit2_first lstsq l n angles f p0 l' a). Qed.
Theorem circle_direction lstsq l n angles f a : lstsq_good lstsq l -> fit2 lstsq l n angles = Ok f -> angles_used n angles = 0 :: a ->
  exists g gs, generated f = g :: gs /\ length gs = length a /\ forall i t h, nth_error a i = Some t -> nth_error gs i = Some h ->
    cross2 (psub g (center f)) (psub h (center f)) = (if Rltb 0 (shoelace l) then 1 else -1) * radius f ^ 2 * sin t.
Proof. exact (fit2_direction lstsq l n angles f a). Qed.
Theorem circle_angles n : length (full_turn n) = n /\ (full_turn 1 = [0]) /\
  ((2 <= n)%nat -> forall i, (i < n)%nat -> nth_error (full_turn n) i = Some (2 * PI * (INR i / INR (n - 1)))).
Proof. split; [apply full_turn_length|]. split; [reflexivity|]. intros N i. exact (full_turn_nth n i N). Qed.
(* Finding: of n points asked for, the last is the first again. *)
Theorem circle_spacing_refuted lstsq l n f : lstsq_good lstsq l -> fit2 lstsq l n None = Ok f -> (2 <= n)%nat ->
  nth_error (generated f) (n - 1) = nth_error (generated f) 0.
Proof.
  intros G E N. destruct (le_lt_dec 3 (length l)) as [L|L]; [|rewrite fit2_few in E by exact L; discriminate].
  destruct (fit2_ok lstsq l n None L G) as (c & r & _ & _ & p0 & l' & _ & F). rewrite F in E. injection E as <-. cbn [generated].
  assert (A : angles_used n None = full_turn n) by (unfold angles_used; destruct n; [lia|reflexivity]). unfold angles_used in A; rewrite A, !nth_error_map, !full_turn_nth by lia.
  assert (P : 0 < INR (n - 1)) by (apply lt_0_INR; lia). replace (2 * PI * (INR (n - 1) / INR (n - 1))) with (2 * PI) by (field; lra).
  replace (2 * PI * (INR 0 / INR (n - 1))) with 0 by (cbn [INR]; field; lra). cbn [option_map]. cbv zeta. f_equal.
  destruct (Rltb 0 (signed_area l)).
  - rewrite Rplus_0_r, cos_plus, sin_plus, cos_2PI, sin_2PI. f_equal; ring.
  - rewrite Rminus_0_r, cos_minus, sin_minus, cos_2PI, sin_2PI. f_equal; ring.
Qed.
(* In space: the plane through the mean of the points is the one nearest to them. *)
Theorem circle3_plane lstsq eigh l n angles offset up f v : eigenvectors eigh (scatter (map (fun p => sub3 p (mean3 l)) l)) -> fit3 lstsq eigh l n angles offset up = Ok f ->
  dot3 v v = 1 -> off_plane l (mean3 l) (normal3 f) <= off_plane l (mean3 l) v.
Proof. exact (fit3_plane lstsq eigh l n angles offset up f v). Qed.
(* The generated points lie in that plane on the circle; an offset lifts them by its last coordinate on the side of up. *)
Theorem circle3_generated lstsq eigh l n angles offset up f : eigenvectors eigh (scatter (map (fun p => sub3 p (mean3 l)) l)) ->
  (forall e1 e2, best_fit_rotation eigh l (mean3 l) = (e1, e2, cross3 e1 e2) -> lstsq_good lstsq (map (fun p => (dot3 (sub3 p (mean3 l)) e1, dot3 (sub3 p (mean3 l)) e2)) l)) ->
  fit3 lstsq eigh l n angles offset up = Ok f ->
  dot3 (normal3 f) (normal3 f) = 1 /\ dot3 (sub3 (center3 f) (mean3 l)) (normal3 f) = 0 /\ length (generated3 f) = length (angles_used n angles) /\
  (offset = None -> forall g, In g (generated3 f) -> dot3 (sub3 g (center3 f)) (normal3 f) = 0 /\ dot3 (sub3 g (center3 f)) (sub3 g (center3 f)) = radius3 f ^ 2) /\
  (forall d u, offset = Some d -> up = Some u -> forall g, In g (generated3 f) ->
    dot3 (sub3 g (center3 f)) (normal3 f) = if Rltb (dot3 u (normal3 f)) 0 then - z3 d else z3 d).
Proof. exact (fit3_generated lstsq eigh l n angles offset up f). Qed.
(* An offset moves all the generated points alike, and nothing else: in a frame of the plane and the normal, turned by
   half a turn about its first axis if up is on the other side.  With points to move it needs up. *)
Theorem circle3_offset lstsq eigh l n angles f : eigenvectors eigh (scatter (map (fun p => sub3 p (mean3 l)) l)) ->
  fit3 lstsq eigh l n angles None None = Ok f ->
  (exists a b, dot3 a a = 1 /\ dot3 b b = 1 /\ dot3 a b = 0 /\ normal3 f = cross3 a b /\ forall d u, exists g,
     fit3 lstsq eigh l n angles (Some d) (Some u) = Ok g /\ center3 g = center3 f /\ radius3 g = radius3 f /\ normal3 g = normal3 f /\
     let s := if Rltb (dot3 u (normal3 f)) 0 then -1 else 1 in
     generated3 g = map (fun p => add3 p (add3 (scal3 (x3 d) a) (add3 (scal3 (s * y3 d) b) (scal3 (s * z3 d) (normal3 f))))) (generated3 f)) /\
  (generated3 f <> [] -> forall d, fit3 lstsq eigh l n angles (Some d) None = Fail EValue).
Proof.
  intros [O _]. unfold fit3, best_fit_rotation. destruct (eigh (scatter (map (fun p => sub3 p (mean3 l)) l))) as [[e0 e1] e2].
  destruct O as (_ & O1 & O2 & _ & _ & O12).
  destruct (fit2 lstsq (map (fun p => (dot3 (sub3 p (mean3 l)) e1, dot3 (sub3 p (mean3 l)) e2)) l) n angles) as [h|]; [|discriminate]. cbn [rbind].
  intros E. split.
  - exists e1, e2. split; [exact O1|]. split; [exact O2|]. split; [exact O12|]. destruct (generated h) as [|q qs].
    + injection E as <-. split; [reflexivity|]. intros d u. eexists. split; [reflexivity|]. repeat split; reflexivity.
    + cbn [rbind] in E. injection E as <-. split; [reflexivity|]. intros d u. eexists. split; [reflexivity|]. split; [reflexivity|]. split; [reflexivity|].
      split; [reflexivity|]. cbv zeta. cbn [generated3 normal3]. 
      assert (W : forall g : pt, add3 (in_basis (e1, e2, cross3 e1 e2) (add3 (V3 (fst g) (snd g) 0) (if Rltb (dot3 u (cross3 e1 e2)) 0 then V3 (x3 d) (- y3 d) (- z3 d) else d))) (mean3 l) =
        add3 (add3 (in_basis (e1, e2, cross3 e1 e2) (V3 (fst g) (snd g) 0)) (mean3 l)) (add3 (scal3 (x3 d) e1) (add3 (scal3 ((if Rltb (dot3 u (cross3 e1 e2)) 0 then -1 else 1) * y3 d) e2) (scal3 ((if Rltb (dot3 u (cross3 e1 e2)) 0 then -1 else 1) * z3 d) (cross3 e1 e2))))).
      { intros g. destruct (Rltb (dot3 u (cross3 e1 e2)) 0); apply vec_eq; unfold in_basis; cbn [x3 y3 z3 add3 scal3]; ring. }
      cbn [map]. rewrite !map_map. f_equal; [apply W|]. apply map_ext. intros g. apply W.
  - intros N d. destruct (generated h) as [|q qs]; [injection E as <-; cbn in N; contradiction|]. reflexivity.
Qed.
(* Points of a circle in space give back its centre, its radius and its plane. *)
Theorem circle3_exact lstsq eigh l n angles offset up f c r v : eigenvectors eigh (scatter (map (fun p => sub3 p (mean3 l)) l)) ->
  (forall e1 e2, best_fit_rotation eigh l (mean3 l) = (e1, e2, cross3 e1 e2) -> lstsq_good lstsq (map (fun p => (dot3 (sub3 p (mean3 l)) e1, dot3 (sub3 p (mean3 l)) e2)) l)) ->
  fit3 lstsq eigh l n angles offset up = Ok f -> not_on_a_line3 l -> 0 <= r -> dot3 v v = 1 ->
  (forall p, In p l -> dot3 (sub3 p c) (sub3 p c) = r ^ 2 /\ dot3 (sub3 p c) v = 0) ->
  center3 f = c /\ radius3 f = r /\ (normal3 f = v \/ normal3 f = scal3 (-1) v).
Proof. exact (fit3_circle lstsq eigh l n angles offset up f c r v). Qed.

(* the hypotheses are met by four points of the unit circle *)
Definition square4 : list vec3 := [V3 1 0 0; V3 0 1 0; V3 (-1) 0 0; V3 0 (-1) 0].
Definition solve_unit (rows : list (R * R * R)) (rhs : list R) : R * R * R := (0, 0, 1).
Definition axes (m : vec3 * vec3 * vec3) : vec3 * vec3 * vec3 := (V3 0 0 1, V3 1 0 0, V3 0 1 0).
Lemma mean_square : mean3 square4 = V3 0 0 0.
Proof. unfold mean3, square4. cbn. apply vec_eq; cbn; field. Qed.
Example ex_eigen : eigenvectors axes (scatter (map (fun p => sub3 p (mean3 square4)) square4)).
Proof.
  rewrite mean_square. split; [cbn; unfold dot3; cbn; repeat split; ring|]. cbn [axes]. exists 0, 2, 2. split; [lra|].
  unfold scatter, apply3, square4, sub3, scal3, dot3. cbn. repeat split; apply vec_eq; cbn; ring.
Qed.
Example ex_lstsq : forall e1 e2, best_fit_rotation axes square4 (mean3 square4) = (e1, e2, cross3 e1 e2) ->
  lstsq_good solve_unit (map (fun p => (dot3 (sub3 p (mean3 square4)) e1, dot3 (sub3 p (mean3 square4)) e2)) square4).
Proof.
  intros e1 e2 E. unfold best_fit_rotation, axes in E. injection E as <- <-. rewrite mean_square. intros s. rewrite !error_obj.
  assert (Z : obj (map (fun p => (dot3 (sub3 p (V3 0 0 0)) (V3 1 0 0), dot3 (sub3 p (V3 0 0 0)) (V3 0 1 0))) square4) (solve_unit (map (fun p => (fst p, snd p, 1)) (map (fun p => (dot3 (sub3 p (V3 0 0 0)) (V3 1 0 0), dot3 (sub3 p (V3 0 0 0)) (V3 0 1 0))) square4)) (map (fun p => fst p ^ 2 + snd p ^ 2) (map (fun p => (dot3 (sub3 p (V3 0 0 0)) (V3 1 0 0), dot3 (sub3 p (V3 0 0 0)) (V3 0 1 0))) square4))) = 0).
  { unfold obj, err, solve_unit, square4, dot3, sub3. cbn. ring. }
  rewrite Z. unfold obj. generalize (map (fun p => (dot3 (sub3 p (V3 0 0 0)) (V3 1 0 0), dot3 (sub3 p (V3 0 0 0)) (V3 0 1 0))) square4).
  intros l. induction l as [|x l IH]; [cbn; lra|]. cbn [map]. rewrite rsum_cons. pose proof (pow2_ge_0 (err s x)). lra.
Qed.
Example ex_not_line : not_on_a_line3 square4 /\ not_on_a_line [(1, 0); (0, 1); (-1, 0)] /\
  forall p, In p square4 -> dot3 (sub3 p (V3 0 0 0)) (sub3 p (V3 0 0 0)) = 1 ^ 2 /\ dot3 (sub3 p (V3 0 0 0)) (V3 0 0 1) = 0.
Proof.
  split; [|split].
  - exists (V3 1 0 0), (V3 0 1 0), (V3 (-1) 0 0). repeat split; try (cbn; tauto). unfold cross3, sub3. cbn. intros H. injection H. lra.
  - exists (1, 0), (0, 1), (-1, 0). repeat split; try (cbn; tauto). unfold cross2, psub. cbn. lra.
  - intros p [<-|[<-|[<-|[<-|[]]]]]; unfold dot3, sub3; cbn; split; ring.
Qed.

Print Assumptions circle_area.
Print Assumptions circle_area_rotate.
Print Assumptions circle_defined.
Print Assumptions circle_best.
Print Assumptions circle_exact.
Print Assumptions circle_order.
Print Assumptions circle_generated.
Print Assumptions circle_first.
Print Assumptions circle_direction.
Print Assumptions circle_angles.
Print Assumptions circle_spacing_refuted.
Print Assumptions circle3_plane.
Print Assumptions circle3_generated.
Print Assumptions circle3_offset.
Print Assumptions circle3_exact.
