From Coq Require Import Reals List Bool Arith Lra Lia Psatz.
From Verif Require Import Base RBase Geom Rotation RotationProofs Circle CircleSpec CircleProofs CircleProofs2.
Import ListNotations.
Local Open Scope R_scope.

Lemma vec_eq a b : x3 a = x3 b -> y3 a = y3 b -> z3 a = z3 b -> a = b.
Proof. destruct a, b; cbn; intros; congruence. Qed.
(* orthonormal rows: the columns are orthonormal too *)
Lemma cross_frame a b : dot3 a a = 1 -> dot3 b b = 1 -> dot3 a b = 0 -> let c := cross3 a b in
  dot3 c c = 1 /\ dot3 a c = 0 /\ dot3 b c = 0.
Proof.
  intros A B C c. assert (L : dot3 c c = dot3 a a * dot3 b b - dot3 a b * dot3 a b) by (unfold c, dot3, cross3; cbn; ring).
  split; [rewrite L, A, B, C; ring|]. split; unfold c, dot3, cross3; cbn; ring.
Qed.
Lemma frame_dot a b p q : dot3 a a = 1 -> dot3 b b = 1 -> dot3 a b = 0 -> let c := cross3 a b in
  dot3 p q = dot3 p a * dot3 q a + dot3 p b * dot3 q b + dot3 p c * dot3 q c.
Proof.
  intros A B C c.
  (* Lagrange: c x (a x b) expansions as polynomial identity *)
  assert (I : dot3 p c * dot3 q c = dot3 p q * (dot3 a a * dot3 b b - dot3 a b * dot3 a b) - dot3 p a * (dot3 a q * dot3 b b - dot3 b q * dot3 a b) - dot3 p b * (dot3 a a * dot3 b q - dot3 a b * dot3 a q)).
  { unfold c, dot3, cross3. cbn. ring. }
  rewrite I, A, B, C. replace (dot3 a q) with (dot3 q a) by (unfold dot3; ring). replace (dot3 b q) with (dot3 q b) by (unfold dot3; ring). ring.
Qed.
Section Plane.
Variables (l : list vec3) (m : vec3).
Let qs := map (fun p => sub3 p m) l.
Lemma scatter_form v : dot3 v (apply3 (scatter qs) v) = off_plane l m v.
Proof.
  unfold off_plane, qs. clear qs. induction l as [|p k IH]; [unfold scatter, apply3, dot3; cbn; ring|].
  cbn [map]. rewrite rsum_cons, <- IH. unfold scatter, apply3. cbn [map]. rewrite !rsum_cons. unfold dot3. cbn [x3 y3 z3]. ring.
Qed.
Lemma scatter_bilinear u v : dot3 u (apply3 (scatter qs) v) = dot3 v (apply3 (scatter qs) u).
Proof.
  unfold qs. clear qs. induction l as [|p k IH]; [unfold scatter, apply3, dot3; cbn; ring|].
  revert IH. unfold scatter, apply3. cbn [map]. rewrite !rsum_cons. unfold dot3. cbn [x3 y3 z3]. intros IH. lra.
Qed.
Lemma best_plane eigh n : eigenvectors eigh (scatter qs) -> dot3 n n = 1 ->
  let '(_, e1, e2) := eigh (scatter qs) in off_plane l m (cross3 e1 e2) <= off_plane l m n.
Proof.
  intros [O E] N. destruct (eigh (scatter qs)) as [[e0 e1] e2]. destruct O as (O0 & O1 & O2 & O01 & O02 & O12). destruct E as (l0 & l1 & l2 & Or & E0 & E1 & E2).
  destruct (cross_frame e1 e2 O1 O2 O12) as (C1 & C2 & C3). set (c := cross3 e1 e2) in *.
  (* c is e0 or its opposite *)
  assert (F : forall p q, dot3 p q = dot3 p e1 * dot3 q e1 + dot3 p e2 * dot3 q e2 + dot3 p c * dot3 q c) by (intros p q; apply (frame_dot e1 e2 p q O1 O2 O12)).
  assert (K : dot3 e0 c * dot3 e0 c = 1) by (pose proof (F e0 e0) as H; rewrite O0, O01, O02 in H; lra).
  assert (V : forall p, dot3 p c = dot3 e0 c * dot3 p e0).
  { intros p. pose proof (F p e0) as H. rewrite O01, O02 in H. assert (dot3 p e0 = dot3 p c * dot3 e0 c) by lra. rewrite H0. transitivity (dot3 p c * (dot3 e0 c * dot3 e0 c)); [rewrite K|]; ring. }
  assert (Q : forall p, dot3 p c ^ 2 = dot3 p e0 ^ 2).
  { intros p. rewrite (V p). transitivity (dot3 e0 c * dot3 e0 c * dot3 p e0 ^ 2); [ring|]. rewrite K. ring. }
  assert (OC : off_plane l m c = l0).
  { transitivity (off_plane l m e0); [unfold off_plane; apply rsum_map_ext; intros p _; apply Q|].
    rewrite <- scatter_form, E0. transitivity (l0 * dot3 e0 e0); [unfold dot3, scal3; cbn [x3 y3 z3]; ring|rewrite O0; ring]. }
  rewrite OC, <- scatter_form. set (S := apply3 (scatter qs)) in *.
  assert (D : forall e k, S e = scal3 k e -> dot3 (S n) e = k * dot3 n e).
  { intros e k H. transitivity (dot3 e (S n)); [unfold dot3; ring|]. unfold S. rewrite scatter_bilinear. fold S. rewrite H. unfold dot3, scal3. cbn. ring. }
  rewrite (F n (S n)), (D e1 l1 E1), (D e2 l2 E2).
  assert (DC : dot3 (S n) c = l0 * dot3 n c) by (rewrite (V (S n)), (V n), (D e0 l0 E0); ring). rewrite DC.
  pose proof (F n n) as NN. rewrite N in NN. set (a := dot3 n e1) in *. set (b := dot3 n e2) in *. set (d := dot3 n c) in *.
  assert (0 <= (l1 - l0) * (a * a)) by (apply Rmult_le_pos; [lra|nra]). assert (0 <= (l2 - l0) * (b * b)) by (apply Rmult_le_pos; [lra|nra]).
  replace l0 with (l0 * (a * a + b * b + d * d)) at 1 by (rewrite <- NN; ring). lra.
Qed.
End Plane.

Lemma in_basis_dist e1 e2 g c : dot3 e1 e1 = 1 -> dot3 e2 e2 = 1 -> dot3 e1 e2 = 0 -> forall m,
  let b := (e1, e2, cross3 e1 e2) in
  dot3 (sub3 (add3 (in_basis b g) m) (add3 (in_basis b c) m)) (sub3 (add3 (in_basis b g) m) (add3 (in_basis b c) m)) = dot3 (sub3 g c) (sub3 g c) /\
  dot3 (sub3 (add3 (in_basis b g) m) (add3 (in_basis b c) m)) (cross3 e1 e2) = z3 g - z3 c.
Proof.
  intros A B C m b. destruct (cross_frame e1 e2 A B C) as (C1 & C2 & C3). set (e3 := cross3 e1 e2) in *.
  assert (S0 : sub3 (add3 (in_basis b g) m) (add3 (in_basis b c) m) = add3 (add3 (scal3 (x3 g - x3 c) e1) (scal3 (y3 g - y3 c) e2)) (scal3 (z3 g - z3 c) e3)).
  { apply vec_eq; unfold b, in_basis, sub3, add3, scal3; cbn; ring. }
  rewrite S0. set (x := x3 g - x3 c). set (y := y3 g - y3 c). set (z := z3 g - z3 c).
  assert (G : dot3 (sub3 g c) (sub3 g c) = x * x + y * y + z * z) by (unfold dot3, sub3, x, y, z; cbn; ring). rewrite G.
  split.
  - transitivity (x * x * dot3 e1 e1 + y * y * dot3 e2 e2 + z * z * dot3 e3 e3 + 2 * x * y * dot3 e1 e2 + 2 * x * z * dot3 e1 e3 + 2 * y * z * dot3 e2 e3).
    + unfold dot3, add3, scal3. cbn. ring.
    + rewrite A, B, C, C1, C2, C3. ring.
  - transitivity (x * dot3 e1 e3 + y * dot3 e2 e3 + z * dot3 e3 e3); [unfold dot3, add3, scal3; cbn; ring|]. rewrite C1, C2, C3. ring.
Qed.
Lemma basis_back e1 e2 q : dot3 e1 e1 = 1 -> dot3 e2 e2 = 1 -> dot3 e1 e2 = 0 ->
  in_basis (e1, e2, cross3 e1 e2) (V3 (dot3 q e1) (dot3 q e2) (dot3 q (cross3 e1 e2))) = q.
Proof.
  intros A B C. set (w := in_basis _ _).
  assert (H : forall p, dot3 p w = dot3 p q).
  { intros p. rewrite (frame_dot e1 e2 p q A B C). unfold w, in_basis, dot3, add3, scal3. cbn [x3 y3 z3]. ring. }
  apply vec_eq; [pose proof (H (V3 1 0 0)) as K|pose proof (H (V3 0 1 0)) as K|pose proof (H (V3 0 0 1)) as K]; unfold dot3 in K; cbn [x3 y3 z3] in K; lra.
Qed.
Lemma flat_center e1 e2 c m : add3 (add3 (scal3 (fst c) e1) (scal3 (snd c) e2)) m = add3 (in_basis (e1, e2, cross3 e1 e2) (V3 (fst c) (snd c) 0)) m.
Proof. apply vec_eq; unfold in_basis, add3, scal3; cbn; ring. Qed.

Section Fit3.
Variables (lstsq : list (R * R * R) -> list R -> R * R * R) (eigh : vec3 * vec3 * vec3 -> vec3 * vec3 * vec3).
Lemma fit3_parts l n angles offset up f : eigenvectors eigh (scatter (map (fun p => sub3 p (mean3 l)) l)) -> fit3 lstsq eigh l n angles offset up = Ok f ->
  exists e1 e2 g, dot3 e1 e1 = 1 /\ dot3 e2 e2 = 1 /\ dot3 e1 e2 = 0 /\ best_fit_rotation eigh l (mean3 l) = (e1, e2, cross3 e1 e2) /\
    fit2 lstsq (map (fun p => (dot3 (sub3 p (mean3 l)) e1, dot3 (sub3 p (mean3 l)) e2)) l) n angles = Ok g /\
    normal3 f = cross3 e1 e2 /\ radius3 f = radius g /\
    center3 f = add3 (in_basis (e1, e2, cross3 e1 e2) (V3 (fst (center g)) (snd (center g)) 0)) (mean3 l) /\
    exists o, generated3 f = map (fun q => add3 (in_basis (e1, e2, cross3 e1 e2) (add3 (V3 (fst q) (snd q) 0) o)) (mean3 l)) (generated g) /\
      (offset = None -> o = V3 0 0 0) /\
      (forall d, offset = Some d -> generated g <> [] -> exists u, up = Some u /\
        o = if Rltb (dot3 u (cross3 e1 e2)) 0 then V3 (x3 d) (- y3 d) (- z3 d) else d).
Proof.
  intros [O _] E. unfold fit3 in E. unfold best_fit_rotation in *. destruct (eigh _) as [[e0 e1] e2]. destruct O as (_ & O1 & O2 & _ & _ & O12).
  destruct (fit2 _ _ _ _) as [g|] eqn:F; cbn [rbind] in E; [|discriminate]. exists e1, e2, g. do 3 (split; [assumption|]). split; [reflexivity|]. split; [exact F|].
  destruct (generated g) as [|q qs] eqn:Gq.
  - injection E as <-. cbn [normal3 radius3 center3 generated3]. rewrite flat_center. repeat split. exists (V3 0 0 0). cbn. repeat split. intros d _ H. congruence.
  - set (L := q :: qs) in *. destruct offset as [d|].
    + destruct up as [u|]; cbn [rbind] in E; [|discriminate]. injection E as <-. cbn [normal3 radius3 center3 generated3]. rewrite flat_center. repeat split.
      exists (if Rltb (dot3 u (cross3 e1 e2)) 0 then V3 (x3 d) (- y3 d) (- z3 d) else d). split; [rewrite !map_map; reflexivity|]. split; [discriminate|].
      intros d' [= <-] _. exists u. auto.
    + cbn [rbind] in E. injection E as <-. cbn [normal3 radius3 center3 generated3]. rewrite flat_center. repeat split. exists (V3 0 0 0). split; [|split; [reflexivity|discriminate]].
      rewrite map_map. unfold L. cbn [map]. f_equal; [|apply map_ext; intros a]; f_equal; apply vec_eq; unfold in_basis, add3, scal3; cbn [x3 y3 z3 fst snd]; ring.
Qed.
Lemma fit3_generated l n angles offset up f : eigenvectors eigh (scatter (map (fun p => sub3 p (mean3 l)) l)) ->
  (forall e1 e2, best_fit_rotation eigh l (mean3 l) = (e1, e2, cross3 e1 e2) -> lstsq_good lstsq (map (fun p => (dot3 (sub3 p (mean3 l)) e1, dot3 (sub3 p (mean3 l)) e2)) l)) ->
  fit3 lstsq eigh l n angles offset up = Ok f ->
  dot3 (normal3 f) (normal3 f) = 1 /\ dot3 (sub3 (center3 f) (mean3 l)) (normal3 f) = 0 /\ length (generated3 f) = length (angles_used n angles) /\
  (offset = None -> forall g, In g (generated3 f) -> dot3 (sub3 g (center3 f)) (normal3 f) = 0 /\ dot3 (sub3 g (center3 f)) (sub3 g (center3 f)) = radius3 f ^ 2) /\
  (forall d u, offset = Some d -> up = Some u -> forall g, In g (generated3 f) ->
    dot3 (sub3 g (center3 f)) (normal3 f) = if Rltb (dot3 u (normal3 f)) 0 then - z3 d else z3 d).
Proof.
  intros Eg Lg E. destruct (fit3_parts l n angles offset up f Eg E) as (e1 & e2 & g & A & B & C & Bf & F & N & Ra & Ce & o & Ge & O1 & O2).
  specialize (Lg e1 e2 Bf). destruct (fit2_generated _ _ _ _ _ Lg F) as [G1 G2]. destruct (cross_frame e1 e2 A B C) as (C1 & C2 & C3).
  rewrite N, Ce, Ra, Ge. split; [exact C1|]. split.
  { set (c := V3 _ _ 0). transitivity (z3 c); [|reflexivity].
    transitivity (x3 c * dot3 e1 (cross3 e1 e2) + y3 c * dot3 e2 (cross3 e1 e2) + z3 c * dot3 (cross3 e1 e2) (cross3 e1 e2)); [|rewrite C1, C2, C3; ring].
    unfold in_basis, dot3, sub3, add3, scal3. cbn [x3 y3 z3]. ring. }
  split; [rewrite map_length; exact G1|]. split.
  - intros Of q I. apply in_map_iff in I as (q0 & <- & I0). rewrite (O1 Of).
    destruct (in_basis_dist e1 e2 (add3 (V3 (fst q0) (snd q0) 0) (V3 0 0 0)) (V3 (fst (center g)) (snd (center g)) 0) A B C (mean3 l)) as [D1 D2].
    split; [rewrite D2; cbn; ring|]. rewrite D1, <- (G2 q0 I0). unfold dot3, sub3, add3, dist2sq. cbn. ring.
  - intros d u Of Up q I. apply in_map_iff in I as (q0 & <- & I0). destruct (O2 d Of) as (u' & U1 & U2); [intros Z; rewrite Z in I0; destruct I0|].
    assert (u' = u) by congruence. subst u'.
    destruct (in_basis_dist e1 e2 (add3 (V3 (fst q0) (snd q0) 0) o) (V3 (fst (center g)) (snd (center g)) 0) A B C (mean3 l)) as [D1 D2].
    rewrite D2, U2. cbn. destruct (Rltb _ _); cbn; ring.
Qed.
Lemma fit3_plane l n angles offset up f v : eigenvectors eigh (scatter (map (fun p => sub3 p (mean3 l)) l)) -> fit3 lstsq eigh l n angles offset up = Ok f ->
  dot3 v v = 1 -> off_plane l (mean3 l) (normal3 f) <= off_plane l (mean3 l) v.
Proof.
  intros Eg E V. destruct (fit3_parts l n angles offset up f Eg E) as (e1 & e2 & g & A & B & C & Bf & F & N & _). rewrite N.
  pose proof (best_plane l (mean3 l) eigh v Eg V) as P. unfold best_fit_rotation in Bf. destruct (eigh _) as [[e0 e1'] e2']. injection Bf as -> ->. exact P.
Qed.
(* points on a circle are recovered, if the plane is right *)
Lemma fit3_exact l n angles offset up f c r : eigenvectors eigh (scatter (map (fun p => sub3 p (mean3 l)) l)) ->
  (forall e1 e2, best_fit_rotation eigh l (mean3 l) = (e1, e2, cross3 e1 e2) -> lstsq_good lstsq (map (fun p => (dot3 (sub3 p (mean3 l)) e1, dot3 (sub3 p (mean3 l)) e2)) l)) ->
  (forall e1 e2, best_fit_rotation eigh l (mean3 l) = (e1, e2, cross3 e1 e2) -> not_on_a_line (map (fun p => (dot3 (sub3 p (mean3 l)) e1, dot3 (sub3 p (mean3 l)) e2)) l)) ->
  fit3 lstsq eigh l n angles offset up = Ok f -> 0 <= r ->
  (forall p, In p l -> dot3 (sub3 p c) (sub3 p c) = r ^ 2) -> (forall p, In p l -> dot3 (sub3 p (mean3 l)) (normal3 f) = 0) ->
  dot3 (sub3 c (mean3 l)) (normal3 f) = 0 ->
  center3 f = c /\ radius3 f = r.
Proof.
  intros Eg Lg Nl E R0 On Pl Cw. destruct (fit3_parts l n angles offset up f Eg E) as (e1 & e2 & g & A & B & C & Bf & F & N & Ra & Ce & _).
  specialize (Lg e1 e2 Bf). specialize (Nl e1 e2 Bf). rewrite N in *.
  set (m := mean3 l) in *. set (k := (dot3 (sub3 c m) e1, dot3 (sub3 c m) e2)).
  assert (H : forall p, In p (map (fun p => (dot3 (sub3 p m) e1, dot3 (sub3 p m) e2)) l) -> dist2sq p k = r ^ 2).
  { intros p I. apply in_map_iff in I as (q & <- & I). rewrite <- (On q I). rewrite (frame_dot e1 e2 (sub3 q c) (sub3 q c) A B C).
    assert (Z : dot3 (sub3 q c) (cross3 e1 e2) = 0).
    { replace (dot3 (sub3 q c) (cross3 e1 e2)) with (dot3 (sub3 q m) (cross3 e1 e2) - dot3 (sub3 c m) (cross3 e1 e2)) by (unfold dot3, sub3; cbn; ring). rewrite (Pl q I), Cw. ring. }
    rewrite Z. unfold dist2sq, k, dot3, sub3. cbn. ring. }
  destruct (fit2_exact lstsq _ n angles g k r Lg F Nl R0 H) as [K1 K2]. split; [|rewrite Ra; exact K2].
  rewrite Ce, K1. unfold k. cbn [fst snd].
  pose proof (basis_back e1 e2 (sub3 c m) A B C) as Bb. rewrite Cw in Bb. rewrite Bb. apply vec_eq; unfold add3, sub3; cbn; ring.
Qed.
End Fit3.
